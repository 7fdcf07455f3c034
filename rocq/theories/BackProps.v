(* C87: backlinks of forwarded configurations. *)
From Verif Require Import Base ImpModel BackModel BackSpec BackProofs BackProofs2.

Section Links.
Context (sym_ok : bool).
Notation update := (update sym_ok).

(* After an update that has succeeded all the links are current. *)
Theorem C87_current ok f xs f' : sane xs -> regular f xs -> update false ok f xs = (true, f') -> ok = true /\ forall x, In x xs -> current sym_ok f' x.
Proof.
  intros S R U. unfold BackModel.update in U. destruct ok; [|discriminate]. destruct (update_post sym_ok false f xs) as [k f1] eqn:P. cbn [fst snd] in U.
  destruct k; [|discriminate]. injection U as ->. split; [reflexivity|]. destruct xs as [|x xs]; [intros x []|]. unfold update_post in P.
  destruct (mkdir_p _ f _) as [k f1] eqn:M. destruct k; [|discriminate]. cbn [andthen] in P.
  pose proof (mkdir_regular f x (x :: xs) true f1 S R (or_introl eq_refl) M) as R1.
  destruct (update_all_ok sym_ok (x :: xs) (x :: xs) f1 f' S R1 (fun y Y => Y) (proj1 S) P) as (R2 & C & _).
  intros y Y. apply cur_current; [now apply R2 | now apply C].
Qed.
(* After one that has failed, in the recipe or with the links, there are no links: nothing to be used instead of what has not been updated. *)
Theorem C87_failed ok f xs f' : update false ok f xs = (false, f') -> forall x, In x xs -> b_mode x <> Overwrite -> gone f' x.
Proof.
  intros U x I N. unfold BackModel.update in U. destruct (if ok then update_post sym_ok false f xs else (false, f)) as [k g]. cbn [fst snd] in U.
  destruct k; [discriminate|]. injection U as <-. now apply drop_gone.
Qed.
(* Nothing else is changed, whether it succeeds or not, other than that directories may be created, on the way to the first link. *)
Theorem C87_others ok f xs k f' : sane xs -> regular f xs -> update false ok f xs = (k, f') -> forall q, ~ In q (map b_link xs) ->
  (ent f' q = ent f q \/ ent f q = None /\ ent f' q = Some Dir /\ exists x r, xs = x :: r /\ below (removelast (b_link x)) q) /\
  forall i, ent f q = Some (File i) -> ent f' q = Some (File i) /\ cont f' i = cont f i.
Proof.
  intros S R U q N. unfold BackModel.update in U.
  assert (A : forall k g, (if ok then update_post sym_ok false f xs else (false, f)) = (k, g) ->
    (ent g q = ent f q \/ ent f q = None /\ ent g q = Some Dir /\ exists x r, xs = x :: r /\ below (removelast (b_link x)) q) /\
    forall i, ent f q = Some (File i) -> ent g q = Some (File i) /\ cont g i = cont f i).
  { clear U. intros k0 g P. destruct ok; [|injection P as <- <-; auto]. destruct xs as [|x xs]; [injection P as <- <-; auto|]. unfold update_post in P.
    destruct (mkdir_p _ f _) as [k1 f1] eqn:M. destruct (mkdir_p_inv _ _ _ _ _ (le_n _) M) as (C & _ & E & _).
    assert (B : (ent f1 q = ent f q \/ ent f q = None /\ ent f1 q = Some Dir /\ exists y r, x :: xs = y :: r /\ below (removelast (b_link y)) q)).
    { destruct (E q) as [Q|(Q & Q' & _ & Q'')]; [now left | right; eauto 10]. }
    destruct k1; cbn [andthen] in P; [|injection P as <- <-; split; [exact B|]; intros i F; rewrite C; split; [|reflexivity]; destruct (E q) as [Q|(Q & _)]; congruence].
    pose proof (mkdir_regular f x (x :: xs) true f1 S R (or_introl eq_refl) M) as R1.
    destruct (update_all_change sym_ok (x :: xs) (x :: xs) f1 k0 g S R1 (fun y Y => Y) P) as (_ & _ & EE & CC). rewrite EE by exact N. split; [exact B|].
    intros i F. assert (F1 : ent f1 q = Some (File i)) by (destruct (E q) as [Q|(Q & _)]; congruence). split; [exact F1|]. rewrite (CC q i N F1). now rewrite C. }
  destruct (if ok then update_post sym_ok false f xs else (false, f)) as [k0 g] eqn:P. specialize (A k0 g eq_refl). cbn [fst snd] in U. destruct k0.
  - injection U as <- <-. exact A.
  - injection U as <- <-. destruct (drop_gone xs g) as (_ & C & E & _). rewrite E, C by exact N. exact A.
Qed.
(* An update succeeds if the recipe does, the directory of the first link is there or can be created, those of others are there, and nothing is in the way. *)
Theorem C87_succeeds f xs : sane xs -> regular f xs ->
  (forall x, In x xs -> ent f (b_link x) <> Some Dir) -> (forall x, In x xs -> b_mode x = Symbolic -> sym_ok = true) ->
  (forall x r q, xs = x :: r -> q <> [] -> below (removelast (b_link x)) q -> ent f q = None \/ ent f q = Some Dir) ->
  (forall x y r, xs = x :: r -> In y r -> removelast (b_link y) = removelast (b_link x) \/ removelast (b_link y) = [] \/ ent f (removelast (b_link y)) = Some Dir) ->
  exists f', update false true f xs = (true, f').
Proof.
  intros S R ND SY FD OD. unfold BackModel.update. enough (exists f', update_post sym_ok false f xs = (true, f')) as (f' & ->) by (now exists f').
  destruct xs as [|x xs]; [now exists f|]. unfold update_post.
  destruct (mkdir_ok (length (removelast (b_link x))) f (removelast (b_link x)) (le_n _)) as (f1 & M).
  { intros q N B. destruct (FD x xs q eq_refl N B) as [-> | ->]; exact Logic.I. }
  rewrite M. cbn [andthen]. pose proof (mkdir_regular f x (x :: xs) true f1 S R (or_introl eq_refl) M) as R1.
  destruct (mkdir_p_inv _ _ _ _ _ (le_n _) M) as (_ & _ & E & ISD). specialize (ISD eq_refl). rewrite firstn_all in ISD.
  apply (update_all_succeeds sym_ok (x :: xs)); auto; [apply S|]. intros y Y. split; [|split; [|now apply SY]].
  - destruct Y as [<-|Y]; [exact ISD|]. destruct (OD x y xs eq_refl Y) as [-> |[-> |K]]; [exact ISD | reflexivity|].
    unfold is_dir. destruct (removelast (b_link y)) as [|n r] eqn:RL; [reflexivity|]. destruct (E (n :: r)) as [-> |(Q & _)]; [now rewrite K | congruence].
  - destruct (E (b_link y)) as [-> |(_ & _ & _ & Q)]; [now apply ND|]. exfalso. exact (proj1 (proj2 (proj2 (proj2 S))) y x Y (or_introl eq_refl) Q).
Qed.
(* In the dry run only directories are created. *)
Theorem C87_dry ok f xs k f' : update true ok f xs = (k, f') -> cont f' = cont f /\ forall q, ent f' q = ent f q \/ ent f q = None /\ ent f' q = Some Dir.
Proof.
  unfold BackModel.update. intros U. assert (A : forall k g, (if ok then update_post sym_ok true f xs else (false, f)) = (k, g) -> cont g = cont f /\ forall q, ent g q = ent f q \/ ent f q = None /\ ent g q = Some Dir).
  { clear U. intros k0 g P. destruct ok; [|injection P as <- <-; auto]. destruct xs as [|x xs]; [injection P as <- <-; auto|]. unfold update_post in P.
    destruct (mkdir_p _ f _) as [k1 f1] eqn:M. destruct (mkdir_p_inv _ _ _ _ _ (le_n _) M) as (C & _ & E & _).
    assert (g = f1) as -> by (destruct k1; cbn [andthen] in P; congruence). split; [exact C|]. intros q. destruct (E q) as [Q|(Q & Q' & _)]; auto. }
  destruct (if ok then update_post sym_ok true f xs else (false, f)) as [k0 g]. specialize (A k0 g eq_refl). cbn [fst snd] in U. destruct k0; injection U as <- <-; exact A.
Qed.
End Links.
Print Assumptions C87_current.
Print Assumptions C87_failed.
Print Assumptions C87_others.
Print Assumptions C87_succeeds.
Print Assumptions C87_dry.

(* Cleaning: links are removed, those to be overwritten are not, nothing else is changed; it fails only if there is a directory. *)
Theorem C87_clean f xs k f' : clean false f xs = (k, f') -> cont f' = cont f /\
  (forall q, (forall x, In x xs -> b_mode x <> Overwrite -> q <> b_link x) -> ent f' q = ent f q) /\
  (k = true -> forall x, In x xs -> b_mode x <> Overwrite -> ent f' (b_link x) = None) /\
  (k = false -> exists x, In x xs /\ b_mode x <> Overwrite /\ ent f (b_link x) = Some Dir).
Proof.
  revert f. induction xs as [|x xs IH]; intros f C; cbn [clean] in C.
  - injection C as <- <-. repeat split; auto; [intros _ x [] | discriminate].
  - assert (NO : forall m, is_over m = false <-> m <> Overwrite) by (intros []; cbn; split; congruence).
    destruct (rmbacklink f x) as [ok f1] eqn:M. unfold rmbacklink in M. destruct (is_over (b_mode x)) eqn:O.
    + injection M as <- <-. cbn [andthen] in C. destruct (IH f C) as (A & B & D & E). assert (X : b_mode x = Overwrite) by (now destruct (b_mode x)).
      split; [exact A|]. split; [intros q Q; apply B; intros y Y; apply Q; now right|]. split.
      * intros K y [<-|Y] N; [contradiction | now apply D].
      * intros K. destruct (E K) as (y & Y & Z). exists y. split; [now right | exact Z].
    + apply NO in O. destruct (rm_change f (b_link x) ok f1 false M) as ((W & _) & H & CC & _). destruct H as [[H ->]|(-> & -> & H)]; cbn [andthen] in C.
      * destruct (IH f1 C) as (A & B & D & E). split; [congruence|].
        assert (Q : forall q, ent f1 q = None -> ent f' q = None).
        { clear - C. revert f1 C. induction xs as [|y xs IH]; intros f1 C q Q; cbn [clean] in C; [injection C as _ <-; exact Q|].
          unfold rmbacklink, rm in C. destruct (is_over (b_mode y)); [cbn [andthen] in C; eapply IH; eauto|].
          destruct (ent f1 (b_link y)) as [[|i|t]|] eqn:E; cbn [andthen] in C; [injection C as _ <-; exact Q| | |eapply IH; eauto].
          all: eapply IH; [exact C|]; destruct (dir_eqb q (b_link y)) eqn:X; [apply dir_eqb_iff in X; subst q; apply put_same | rewrite put_other; [exact Q | intros ->; rewrite dir_eqb_refl in X; discriminate]]. }
        split; [|split].
        -- intros q N. rewrite B by (intros y Y; apply N; now right). apply W. apply N; [now left | exact O].
        -- intros K y [<-|Y] N; [now apply Q | now apply D].
        -- intros K. destruct (E K) as (y & Y & N & Z). exists y. split; [now right|]. split; [exact N|].
           destruct (dir_eqb (b_link y) (b_link x)) eqn:X; [apply dir_eqb_iff in X; congruence|]. rewrite <- W; [exact Z|]. intros X'. rewrite X', dir_eqb_refl in X. discriminate.
      * injection C as <- <-. repeat split; auto; [discriminate|]. intros _. exists x. split; [now left | auto].
Qed.
Theorem C87_clean_dry f xs : clean true f xs = (true, f).
Proof. now destruct xs. Qed.
Print Assumptions C87_clean.
Print Assumptions C87_clean_dry.

(* What the values mean: anything else is an error, and so is false for printing of the target itself. *)
Theorem C87_value ns gm r : test_value ns gm = Some r <-> value ns gm r.
Proof. apply test_value_iff. Qed.
Theorem C87_which plain in_out eligible in_project out_eq_src forwarded v m :
  (test_target plain in_out eligible in_project out_eq_src forwarded v = Some (Some m) <->
   plain = true /\ in_out = true /\ eligible = true /\ in_project = true /\ out_eq_src = false /\ forwarded = true /\ exists ns, v = Some ns /\ value ns None (Some (m, true))) /\
  (test_target plain in_out eligible in_project out_eq_src forwarded v = None <->
   plain = true /\ in_out = true /\ eligible = true /\ in_project = true /\ out_eq_src = false /\ forwarded = true /\ exists ns, v = Some ns /\ ~ value ns None None /\ forall m, ~ value ns None (Some (m, true))).
Proof.
  unfold test_target. destruct plain, in_out, eligible, in_project, out_eq_src, forwarded; cbn [negb orb]; try (split; split; [discriminate | intros H; decompose [and] H; discriminate | discriminate | intros H; decompose [and] H; discriminate]).
  destruct v as [ns|]; [|split; split; [discriminate | intros (_ & _ & _ & _ & _ & _ & ns & E & _); discriminate | discriminate | intros (_ & _ & _ & _ & _ & _ & ns & E & _); discriminate]].
  assert (V := fun r => test_value_iff ns None r). destruct (test_value ns None) as [[[m' p]|]|] eqn:T.
  - assert (VV : value ns None (Some (m', p))) by (now apply V). destruct p; split; split.
    + intros E. injection E as <-. repeat split; auto. exists ns. auto.
    + intros (_ & _ & _ & _ & _ & _ & ns' & E & H). injection E as <-. apply V in H. congruence.
    + discriminate.
    + intros (_ & _ & _ & _ & _ & _ & ns' & E & _ & H). injection E as <-. destruct (H _ VV).
    + discriminate.
    + intros (_ & _ & _ & _ & _ & _ & ns' & E & H). injection E as <-. apply V in H. congruence.
    + intros _. repeat split; auto. exists ns. split; [reflexivity|]. split; [intros H; apply V in H; congruence | intros m0 H; apply V in H; congruence].
    + reflexivity.
  - assert (VV : value ns None None) by (now apply V). split; split; try discriminate.
    + intros (_ & _ & _ & _ & _ & _ & ns' & E & H). injection E as <-. apply V in H. congruence.
    + intros (_ & _ & _ & _ & _ & _ & ns' & E & H & _). injection E as <-. contradiction.
  - split; split; try discriminate; auto.
    + intros (_ & _ & _ & _ & _ & _ & ns' & E & H). injection E as <-. apply V in H. congruence.
    + intros _. repeat split; auto. exists ns. split; [reflexivity|]. split; [intros H; apply V in H; congruence | intros m0 H; apply V in H; congruence].
Qed.
(* The links: that of the target itself, and of members with paths unless their values say not, as they or the group say. At the same place in src. *)
Theorem C87_collect src out m self ms l :
  (forall p, self = Some p -> below p out) -> (forall p v, In (Some p, v) ms -> below p out) -> collect src out m self ms = Some l ->
  forall x, In x l <-> exists r, b_target x = out ++ r /\ b_link x = src ++ r /\
    (self = Some (out ++ r) /\ b_mode x = m \/
     exists v, In (Some (out ++ r), v) ms /\ (v = None /\ b_mode x = m \/ exists ns p, v = Some ns /\ value ns (Some m) (Some (b_mode x, p)))).
Proof.
  intros BS BM C x. unfold collect in C. destruct (collect_members src out m ms) as [l'|] eqn:CM; [|discriminate]. injection C as <-.
  assert (LK : forall r m, link_of src out (out ++ r) m = mkbl (out ++ r) (src ++ r) m).
  { intros r m0. unfold link_of. f_equal. f_equal. rewrite skipn_app, skipn_all, Nat.sub_diag. reflexivity. }
  rewrite in_app_iff. assert (MM : In x l' <-> exists r v, b_target x = out ++ r /\ b_link x = src ++ r /\ In (Some (out ++ r), v) ms /\ (v = None /\ b_mode x = m \/ exists ns p, v = Some ns /\ value ns (Some m) (Some (b_mode x, p)))).
  { clear BS. revert l' CM. induction ms as [|[[p|] v] ms IH]; intros l' CM; cbn [collect_members] in CM.
    - injection CM as <-. split; [intros [] | intros (r & v & _ & _ & [] & _)].
    - specialize (IH (fun p v I => BM p v (or_intror I))). destruct (BM p v (or_introl eq_refl)) as (r0 & ->).
      destruct (collect_members src out m ms) as [l0|]; [|destruct (match v with None => _ | _ => _ end) as [[[? ?]|]|]; discriminate]. specialize (IH l0 eq_refl).
      assert (V : forall o, match v with None => Some (Some (m, true)) | Some ns => test_value ns (Some m) end = Some o ->
        forall m', (v = None /\ m' = m \/ exists ns p, v = Some ns /\ value ns (Some m) (Some (m', p))) <-> exists p, o = Some (m', p)).
      { intros o Z m'. destruct v as [ns|].
        - split; [intros [[? _]|(ns' & p & E & H)]; [discriminate|]; injection E as <-; apply test_value_iff in H; exists p; congruence | intros (p & ->); right; exists ns, p; split; [reflexivity | now apply test_value_iff]].
        - injection Z as <-. split; [intros [[_ ->]|(ns' & p & E & _)]; [eauto | discriminate] | intros (p & E); injection E as -> _; auto]. }
      destruct (match v with None => _ | _ => _ end) as [[[m' pr]|]|] eqn:Z; [| |discriminate]; injection CM as <-; specialize (V _ eq_refl); rewrite ?LK.
      + cbn [In]. rewrite IH. split.
        * intros [<-|(r & v' & H1 & H2 & H3 & H4)]; [|exists r, v'; auto]. exists r0, v. repeat split; auto. apply V. cbn. eauto.
        * intros (r & v' & H1 & H2 & [H3|H3] & H4); [|right; exists r, v'; auto]. injection H3 as HR HV. apply app_inv_head in HR. subst r v'. left. apply V in H4 as (p & E). injection E as E _.
          destruct x as [xt xl xm]. cbn in *. congruence.
      + rewrite IH. split.
        * intros (r & v' & H1 & H2 & H3 & H4). exists r, v'. repeat split; auto. now right.
        * intros (r & v' & H1 & H2 & [H3|H3] & H4); [|exists r, v'; auto]. injection H3 as HR HV. subst v'. apply V in H4 as (p & E). discriminate.
    - rewrite (IH (fun p v I => BM p v (or_intror I)) l' CM). split; intros (r & v' & H1 & H2 & H3 & H4); exists r, v'; repeat split; auto; [now right | destruct H3 as [H3|H3]; [discriminate | exact H3]]. }
  rewrite MM. split.
  - intros [H|(r & v & H1 & H2 & H3 & H4)]; [|exists r; eauto 10]. destruct self as [p|]; [|destruct H]. destruct H as [<-|[]]. destruct (BS p eq_refl) as (r & ->). rewrite LK. exists r. auto.
  - intros (r & H1 & H2 & [[-> H3]|(v & H3 & H4)]); [left; left; rewrite LK; destruct x as [xt xl xm]; cbn in *; congruence | right; exists r, v; auto].
Qed.
(* It fails only if the value of a member is invalid. *)
Theorem C87_collect_fails src out m self ms : collect src out m self ms = None <-> exists p ns, In (Some p, Some ns) ms /\ forall r, ~ value ns (Some m) r.
Proof.
  unfold collect. assert (H : collect_members src out m ms = None <-> exists p ns, In (Some p, Some ns) ms /\ forall r, ~ value ns (Some m) r).
  { induction ms as [|[[p|] v] ms IH]; cbn [collect_members].
    - split; [discriminate | intros (p & ns & [] & _)].
    - destruct v as [ns|].
      + destruct (test_value ns (Some m)) as [r|] eqn:T.
        * assert (V : value ns (Some m) r) by (now apply test_value_iff). transitivity (collect_members src out m ms = None); [destruct r as [[? ?]|], (collect_members src out m ms); split; congruence|].
          rewrite IH. split; intros (q & ns' & I & N); exists q, ns'; (split; [|exact N]); [now right|]. destruct I as [E|I]; [|exact I]. injection E as <- <-. destruct (N r V).
        * split; [intros _|reflexivity]. exists p, ns. split; [now left|]. intros r V. apply test_value_iff in V. congruence.
      + transitivity (collect_members src out m ms = None); [destruct (collect_members src out m ms); split; congruence|].
        rewrite IH. split; intros (q & ns' & I & N); exists q, ns'; (split; [|exact N]); [now right|]. destruct I as [E|I]; [discriminate | exact I].
    - rewrite IH. split; intros (q & ns' & I & N); exists q, ns'; (split; [|exact N]); [now right|]. destruct I as [E|I]; [discriminate | exact I]. }
  rewrite <- H. destruct (collect_members src out m ms); split; congruence.
Qed.
Print Assumptions C87_value.
Print Assumptions C87_which.
Print Assumptions C87_collect.
Print Assumptions C87_collect_fails.

(* Links of different files, none of which is a directory of another, with src and out not in one another, are as the above requires. *)
Theorem C87_sane src out xs : ~ below src out -> ~ below out src -> NoDup (map b_target xs) ->
  (forall x, In x xs -> exists r, r <> [] /\ b_target x = out ++ r /\ b_link x = src ++ r) ->
  (forall x y, In x xs -> In y xs -> below (b_target y) (b_target x) -> b_target y = b_target x) -> sane xs.
Proof.
  intros N1 N2 ND P A. assert (AP : forall (a c p q : list bytes), a ++ p = c ++ q -> below a c \/ below c a).
  { clear. induction a as [|x a IH]; intros [|y c] p q E; try (right; now eexists); [left; now exists (x :: a)|].
    cbn in E. injection E as <- E. destruct (IH c p q E) as [(s & ->)|(s & ->)]; [left; now exists s | right; now exists s]. }
  assert (DIS : forall p q, src ++ p <> out ++ q) by (intros p q E; destruct (AP _ _ _ _ E); contradiction).
  split; [|split; [|split; [|split]]].
  - clear A. induction xs as [|x xs IH]; [constructor|]. cbn in *. inversion ND as [|? ? NI ND']; subst. constructor; [|apply IH; auto].
    intros I. apply in_map_iff in I as (y & E & Y). apply NI. destruct (P x (or_introl eq_refl)) as (r & _ & T & L), (P y (or_intror Y)) as (r' & _ & T' & L').
    rewrite L, L' in E. apply app_inv_head in E. subst r'. rewrite T, <- T'. now apply in_map.
  - intros x I. destruct (P x I) as (r & N & _ & ->). intros E. apply app_eq_nil in E. tauto.
  - intros x y X Y. destruct (P x X) as (r & _ & _ & ->), (P y Y) as (r' & _ & -> & _). apply DIS.
  - intros x y X Y (s & E). destruct (P x X) as (r & _ & T & L), (P y Y) as (r' & N & T' & L'). rewrite L, L', removelast_app, <- app_assoc in E by exact N. apply app_inv_head in E.
    assert (E' : r' = r ++ s ++ [last r' []]) by (rewrite app_assoc, <- E; now apply app_removelast_last).
    assert (B : b_target y = b_target x) by (apply A; auto; exists (s ++ [last r' []]); rewrite T, T', <- app_assoc; congruence).
    rewrite T, T' in B. apply app_inv_head in B. apply (f_equal (@length _)) in E'. rewrite B, !app_length in E'. cbn in E'. lia.
  - intros x y X Y (s & E). destruct (P x X) as (r & N & _ & L), (P y Y) as (r' & _ & T' & _). rewrite L, T', removelast_app, <- app_assoc in E by exact N. exact (DIS _ _ E).
Qed.
Print Assumptions C87_sane.

(* A group with a header (as a symbolic link), a source (copied over one that is there) and a library that is stale there; it has been updated. *)
Definition ex_out : list bytes := [b "out"].
Definition ex_src : list bytes := [b "src"].
Definition ex_ms : list (option (list bytes) * option (list (option bytes))) :=
  [(Some (ex_out ++ [b "p.hxx"]), None); (Some (ex_out ++ [b "p.cxx"]), Some [Some (b "overwrite"); Some (b "false")]); (None, None);
   (Some (ex_out ++ [b "p.a"]), Some [Some (b "hard")]); (Some (ex_out ++ [b "p.o"]), Some [Some (b "false")])].
Definition ex_xs : list backlink :=
  [mkbl (ex_out ++ [b "p.hxx"]) (ex_src ++ [b "p.hxx"]) Symbolic; mkbl (ex_out ++ [b "p.cxx"]) (ex_src ++ [b "p.cxx"]) Overwrite; mkbl (ex_out ++ [b "p.a"]) (ex_src ++ [b "p.a"]) Hard].
Definition ex_fs : fs := mkfs (fun q =>
  if dir_eqb q ex_out then Some Dir else if dir_eqb q ex_src then Some Dir
  else if dir_eqb q (ex_out ++ [b "p.hxx"]) then Some (File 0) else if dir_eqb q (ex_out ++ [b "p.cxx"]) then Some (File 1) else if dir_eqb q (ex_out ++ [b "p.a"]) then Some (File 2)
  else if dir_eqb q (ex_src ++ [b "p.cxx"]) then Some (File 3) else if dir_eqb q (ex_src ++ [b "p.a"]) then Some (File 4) else None)
  (fun i => 10 + i) 5.
Example C87_collect_ex : collect ex_src ex_out Symbolic None ex_ms = Some ex_xs.
Proof. reflexivity. Qed.
Example C87_update_ex : let '(k, f) := update true false true ex_fs ex_xs in
  k = true /\ map (read f) [ex_src ++ [b "p.hxx"]; ex_src ++ [b "p.cxx"]; ex_src ++ [b "p.a"]] = [Some 10; Some 11; Some 12] /\
  ent f (ex_src ++ [b "p.cxx"]) = Some (File 3) /\ ent f (ex_src ++ [b "p.a"]) = Some (File 2) /\ ent f (ex_src ++ [b "p.hxx"]) = Some (Sym (ex_out ++ [b "p.hxx"])).
Proof. repeat split. Qed.
Example C87_failed_ex : let '(k, f) := update true false false ex_fs ex_xs in k = false /\ map (read f) (map b_link ex_xs) = [None; Some 13; None].
Proof. repeat split. Qed.
Example C87_conditions_ex : sane ex_xs /\ regular ex_fs ex_xs.
Proof.
  split.
  - apply (C87_sane ex_src ex_out).
    + intros (s & E). discriminate.
    + intros (s & E). discriminate.
    + repeat constructor; cbn; intros H; repeat (destruct H as [H|H]; [discriminate|]); exact H.
    + intros x [<-|[<-|[<-|[]]]]; (eexists; split; [|split; reflexivity]); discriminate.
    + intros x y [<-|[<-|[<-|[]]]] [<-|[<-|[<-|[]]]] (s & E); cbn in *; try reflexivity; discriminate.
  - split; [|split].
    + intros x [<-|[<-|[<-|[]]]]; exact Logic.I.
    + intros p i. cbn [ent ex_fs fresh]. repeat (destruct (dir_eqb p _); [try discriminate; intros E; injection E as <-; lia|]). discriminate.
    + intros x [<-|[<-|[<-|[]]]] M; try discriminate. cbn. intros q N. repeat match goal with |- context [dir_eqb q ?z] => destruct (dir_eqb q z) eqn:?; [try discriminate|] end; try discriminate.
      apply dir_eqb_iff in Heqb4. contradiction.
Qed.

(* Only the directory of the first link is created: a group with members in subdirectories, of which one is not in src, cannot be updated. *)
Theorem C87_directories_refuted : exists f xs, sane xs /\ regular f xs /\ (forall x, In x xs -> ent f (b_link x) = None /\ exists c, read f (b_target x) = Some c) /\
  ent f ex_src = Some Dir /\ fst (update true false true f xs) = false /\ forall x, In x xs -> fst (update true false true f [x]) = true.
Proof.
  exists (mkfs (fun q => if dir_eqb q ex_out then Some Dir else if dir_eqb q ex_src then Some Dir else if dir_eqb q (ex_out ++ [b "a"]) then Some (File 0)
               else if dir_eqb q (ex_out ++ [b "d"; b "c"]) then Some (File 1) else None) (fun i => i) 2).
  exists [mkbl (ex_out ++ [b "a"]) (ex_src ++ [b "a"]) Link; mkbl (ex_out ++ [b "d"; b "c"]) (ex_src ++ [b "d"; b "c"]) Link].
  split; [|split; [|split; [|split; [|split]]]].
  - apply (C87_sane ex_src ex_out).
    + intros (s & E). discriminate.
    + intros (s & E). discriminate.
    + repeat constructor; cbn; intros H; repeat (destruct H as [H|H]; [discriminate|]); exact H.
    + intros x [<-|[<-|[]]]; (eexists; split; [|split; reflexivity]); discriminate.
    + intros x y [<-|[<-|[]]] [<-|[<-|[]]] (s & E); cbn in *; try reflexivity; discriminate.
  - split; [|split].
    + intros x [<-|[<-|[]]]; exact Logic.I.
    + intros p i. cbn [ent fresh]. repeat (destruct (dir_eqb p _); [try discriminate; intros E; injection E as <-; lia|]). discriminate.
    + intros x [<-|[<-|[]]] M; discriminate.
  - intros x [<-|[<-|[]]]; (split; [reflexivity | eexists; reflexivity]).
  - reflexivity.
  - reflexivity.
  - intros x [<-|[<-|[]]]; reflexivity.
Qed.
Print Assumptions C87_directories_refuted.
