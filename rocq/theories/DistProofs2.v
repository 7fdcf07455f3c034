From Verif Require Import Base ImpModel DistModel DistSpec DistProofs.
From Coq Require Import Lia Wf_nat Permutation.

Section Ends.
Context (out_root : list bytes) (tdir : nat -> list bytes) (prereqs : nat -> list prereq) (enters : nat -> list nat) (ks : list nat) (root : nat).
Context (U : list nat) (UN : forall x, reached out_root tdir prereqs enters ks root x -> In x U).
Definition left_ (s : mstate) : nat := length (filter (fun x => negb (mem x (matched s))) U).
Lemma left_less s s' x : In x U -> ~ In x (matched s) -> matched s' = x :: matched s -> left_ s' < left_ s.
Proof.
  unfold left_. intros I N ->. clear UN. induction U as [|y V IH]; [contradiction|]. cbn [filter].
  assert (LE : length (filter (fun z => negb (mem z (x :: matched s))) V) <= length (filter (fun z => negb (mem z (matched s))) V)).
  { clear. induction V as [|z V IH]; [auto|]. cbn [filter]. change (mem z (x :: matched s)) with (Nat.eqb z x || mem z (matched s)).
    destruct (Nat.eqb z x), (mem z (matched s)); cbn [orb negb length]; lia. }
  change (mem y (x :: matched s)) with (Nat.eqb y x || mem y (matched s)). destruct (Nat.eqb y x) eqn:Q; cbn [orb negb].
  - apply Nat.eqb_eq in Q. subst y. apply mem_not in N. rewrite N. cbn [negb length]. lia.
  - destruct I as [->|I]; [rewrite Nat.eqb_refl in Q; discriminate|]. specialize (IH I). destruct (mem y (matched s)); cbn [negb length]; lia.
Qed.
Definition size (s : mstate) : nat := 2 * length (pend s) + length (post s).
Definition smaller (s' s : mstate) : Prop := left_ s' < left_ s \/ left_ s' = left_ s /\ size s' < size s.
Lemma smaller_acc s : Acc smaller s.
Proof.
  remember (left_ s) as n eqn:N. revert s N. induction n as [n IH] using (well_founded_induction lt_wf). intros s N.
  remember (size s) as m eqn:M. revert s N M. induction m as [m IH2] using (well_founded_induction lt_wf). intros s N M.
  constructor. intros s' [L|[E L]]; [eapply IH; [|reflexivity]; lia | eapply IH2; [|congruence|reflexivity]; lia].
Qed.
Lemma matching_smaller s s0 x : Inv out_root tdir prereqs enters ks root (matching out_root tdir prereqs enters (enter s x) x) ->
  matched s = matched s0 -> size s < size s0 -> smaller (matching out_root tdir prereqs enters (enter s x) x) s0.
Proof.
  intros H M S. unfold matching in *. cbn [enter matched pend post known] in *. destruct (sub (tdir x) out_root && negb (mem x (matched s))) eqn:Q.
  - left. apply (left_less s0 _ x); [|apply andb_true_iff in Q as [_ Q]; apply negb_true_iff, mem_not in Q; congruence | cbn; congruence].
    apply UN. destruct H as (A & _). apply A. now left.
  - right. split; [unfold left_; cbn; now rewrite M | exact S].
Qed.
Lemma step_smaller s s' : Inv out_root tdir prereqs enters ks root s -> mstep out_root tdir prereqs enters s (Some s') -> smaller s' s.
Proof.
  intros H M. assert (H' := inv_step _ _ _ _ _ _ _ _ H M). inversion M as [l1 p l2 P Q | p ps P Q G]; subst.
  - assert (SZ : size s = 2 + size (mkm (known s) (matched s) (l1 ++ l2) (post s))) by (unfold size; cbn; rewrite P, !app_length; cbn; lia).
    assert (DR : smaller (mkm (known s) (matched s) (l1 ++ l2) (post s)) s) by (right; split; [reflexivity | lia]).
    unfold apply1 in *. destruct (p_posthoc p); [exact DR|]. destruct (p_proj p); [exact DR|]. destruct (p_file p).
    + cbn [known] in *. destruct (search (known s) p) as [x|].
      * apply (matching_smaller _ s x H'); [reflexivity | lia].
      * destruct (p_outside p); [exact DR|]. right. split; [reflexivity|]. unfold size in *. cbn [pend post] in *. rewrite (app_length (post s)). cbn [length]. lia.
    + apply (matching_smaller _ s (p_out p) H'); [reflexivity | lia].
  - unfold again in G. cbn [known] in G. destruct (search (known s) p) as [x|]; [|discriminate]. injection G as <-.
    apply (matching_smaller _ s x H'); [reflexivity|]. unfold size. cbn. rewrite P, Q. cbn. lia.
Qed.
Lemma ends s : Inv out_root tdir prereqs enters ks root s -> Acc (fun s' s => mstep out_root tdir prereqs enters s (Some s')) s.
Proof.
  intros H. pose proof (smaller_acc s) as A. induction A as [s _ IH]. constructor. intros s' M. apply IH; [now apply step_smaller | eapply inv_step; eauto].
Qed.
Lemma progress s : finished s \/ exists r, mstep out_root tdir prereqs enters s r.
Proof.
  destruct (pend s) as [|p l] eqn:P; [|right; eexists; now apply (ms_pend _ _ _ _ s [] p l)].
  destruct (post s) as [|p l] eqn:Q; [left; now split | right; eexists; now apply (ms_post _ _ _ _ s p l)].
Qed.
End Ends.

Section Copy.
Context (src_root out_root : list bytes) (tdir : nat -> list bytes) (tname : nat -> bytes).
Context (is_file see_through : nat -> bool) (group : nat -> option nat) (dist : nat -> dval) (members : nat -> option (list nat)).
Lemma sub_false p d : sub p d = false <-> ~ under p d.
Proof. rewrite <- sub_under. destruct (sub p d); split; congruence. Qed.
Lemma collect_iff t : collect src_root out_root tdir dist t = true <-> included src_root out_root tdir dist t.
Proof.
  unfold collect, included. destruct (sub (tdir t) src_root) eqn:S.
  - apply sub_under in S. destruct (dist t) eqn:D; split; try congruence; intros; try (left; split; [exact S | congruence]);
    destruct H as [[_ H]|(_ & H & _)]; contradiction.
  - apply sub_false in S. destruct (sub (tdir t) out_root) eqn:O.
    + apply sub_under in O. destruct (dist t) eqn:D; split; try congruence; intros H;
      try (right; repeat split; [exact O | exact S | congruence | congruence]); destruct H as [[H _]|(_ & _ & H & H')]; congruence.
    + apply sub_false in O. split; [discriminate|]. intros [[H _]|(H & _)]; contradiction.
Qed.
Lemma dset d : (match d with DNull | DFalse => false | _ => true end = true) <-> (d <> DFalse /\ d <> DNull).
Proof. destruct d; split; try congruence; try (intros [H H']; congruence); intros _; split; congruence. Qed.
Lemma in_gather ks t : In t (gather src_root out_root tdir is_file see_through group dist ks) <->
  In t ks /\ (see_through t = true /\ dist t <> DFalse /\ dist t <> DNull \/
    see_through t = false /\ is_file t = true /\ (forall g, group t = Some g -> see_through g = false) /\ included src_root out_root tdir dist t).
Proof.
  unfold gather. rewrite filter_In. apply and_iff_compat_l. destruct (see_through t).
  - rewrite dset. split; [auto | intros [[_ H]|[H _]]; [exact H | discriminate]].
  - rewrite !andb_true_iff, collect_iff. split.
    + intros [[F G] C]. right. split; [reflexivity|]. split; [exact F|]. split; [|exact C]. intros g E. rewrite E in G. now apply negb_true_iff.
    + intros [[H _]|(_ & F & G & C)]; [discriminate|]. split; [|exact C]. split; [exact F|]. destruct (group t) as [g|]; [|reflexivity]. now rewrite (G g eq_refl).
Qed.
Lemma in_resolve ts : forall r, resolve src_root out_root tdir is_file see_through dist members ts = Some r ->
  forall t, In t r <-> (In t ts /\ see_through t = false \/ exists g ms, In g ts /\ see_through g = true /\ members g = Some ms /\ In t ms /\ is_file t = true /\ included src_root out_root tdir dist t).
Proof.
  induction ts as [|u ts IH]; intros r; cbn [resolve].
  - intros E t. injection E as <-. split; [contradiction | intros [[[] _]|(g & ms & [] & _)]].
  - destruct (see_through u) eqn:S.
    + destruct (members u) as [ms|] eqn:M; [|discriminate]. destruct (resolve _ _ _ _ _ _ _ ts) as [r'|]; [|discriminate]. intros E t. injection E as <-.
      rewrite in_app_iff, (IH r' eq_refl), filter_In, andb_true_iff, collect_iff. split.
      * intros [(I & F & C)|[[I Q]|(g & m & I & H)]]; [right; exists u, ms; repeat split; auto; now left | left; split; [now right | exact Q] | right; exists g, m; split; [now right | exact H]].
      * intros [[[->|I] Q]|(g & m & [<-|I] & Q & MM & H)]; [congruence | right; left; auto | left; rewrite M in MM; injection MM as <-; tauto | right; right; exists g, m; auto].
    + destruct (resolve _ _ _ _ _ _ _ ts) as [r'|]; [|discriminate]. intros E t. injection E as <-. cbn [app In].
      rewrite (IH r' eq_refl). split.
      * intros [->|[[I Q]|(g & m & I & H)]]; [left; split; [now left | exact S] | left; split; [now right | exact Q] | right; exists g, m; split; [now right | exact H]].
      * intros [[[->|I] Q]|(g & m & [<-|I] & Q & H)]; [now left | right; left; auto | congruence | right; right; exists g, m; auto].
Qed.
Lemma in_collected ks ts : resolve src_root out_root tdir is_file see_through dist members (gather src_root out_root tdir is_file see_through group dist ks) = Some ts ->
  forall t, In t ts <-> distributed src_root out_root tdir dist is_file see_through group members ks t.
Proof.
  intros R t. rewrite (in_resolve _ _ R). unfold distributed. split.
  - intros [[I S]|(g & ms & I & S & M & J & F & C)]; apply in_gather in I as [I [(S' & D & D')|(S' & F' & G & C')]]; try congruence.
    + split; [exact F'|]. split; [exact C'|]. left. auto.
    + split; [exact F|]. split; [exact C|]. right. exists g, ms. auto 10.
  - intros (F & C & [(I & S & G)|(g & ms & I & S & D & D' & M & J)]).
    + left. split; [|exact S]. apply in_gather. split; [exact I|]. right. auto.
    + right. exists g, ms. split; [apply in_gather; split; [exact I | left; auto] | auto 10].
Qed.

Notation place := (place src_root out_root tdir tname dist).
Notation copy := (copy src_root out_root tdir tname dist).
Definition at_ (e : (list bytes * bytes) * nat) : list bytes := full (fst e).
Lemma full_inj p q : full p = full q -> p = q.
Proof. destruct p, q. unfold full. cbn. intros E. apply app_inj_tail in E as [-> ->]. reflexivity. Qed.
Lemma put_new d p t : (forall e, In e d -> at_ e <> full p) -> put d p t = d ++ [(p, t)].
Proof.
  induction d as [|[q u] d IH]; intros N; cbn [put app]; [reflexivity|]. destruct (dir_eqb (full q) (full p)) eqn:Q.
  - apply dir_eqb_iff in Q. destruct (N (q, u)); [now left | exact Q].
  - rewrite IH; [reflexivity|]. intros e I. apply N. now right.
Qed.
Lemma install_some d p t d' : install false d p t = Some d' -> d' = d ++ [(p, t)] /\ forall e, In e d -> at_ e <> full p.
Proof.
  unfold install. destruct (existsb _ d); [discriminate|]. destruct (existsb (fun e => dir_eqb (full (fst e)) (full p)) d) eqn:X; cbn [andb negb]; [discriminate|].
  intros E. injection E as <-. assert (N : forall e, In e d -> at_ e <> full p).
  { intros e I Q. assert (Y : existsb (fun e => dir_eqb (full (fst e)) (full p)) d = true); [|congruence]. apply existsb_exists. exists e. split; [exact I | now apply dir_eqb_iff]. }
  split; [now apply put_new | exact N].
Qed.
Lemma copy_some ts : forall d d', copy false ts d = Some d' -> NoDup (map at_ d) ->
  NoDup (map at_ d') /\ (forall t, In t ts -> exists p, place t = Some p) /\ forall p t, In (p, t) d' <-> In (p, t) d \/ In t ts /\ place t = Some p.
Proof.
  induction ts as [|t ts IH]; intros d d'; cbn [DistModel.copy].
  - intros E ND. injection E as <-. split; [exact ND|]. split; [contradiction|]. intros p t. split; [now left | intros [I|[[] _]]; exact I].
  - destruct (place t) as [p|] eqn:P; [|discriminate]. destruct (install false d p t) as [d1|] eqn:I; [|discriminate]. intros E ND.
    apply install_some in I as [-> N]. destruct (IH _ _ E) as (A & B & C).
    { rewrite map_app. cbn. apply (Permutation_NoDup (Permutation_cons_append _ _)). constructor; [|exact ND].
      intros J. apply in_map_iff in J as (e & Q & J). exact (N e J Q). }
    split; [exact A|]. split.
    + intros u [<-|J]; [now exists p | auto].
    + intros q u. rewrite C, in_app_iff. cbn. split.
      * intros [[H|[H|[]]]|[H H']]; [now left | injection H as <- <-; right; auto | right; auto].
      * intros [H|[[<-|H] H']]; [left; now left | left; right; left; congruence | right; auto].
Qed.
(* None is in another. *)
Definition apart (d : dfs) : Prop := forall e e', In e d -> In e' d -> under (at_ e') (at_ e) -> at_ e' = at_ e.
Lemma install_apart d p t d' : install false d p t = Some d' -> apart d -> apart d'.
Proof.
  intros I A. pose proof (install_some _ _ _ _ I) as [-> _]. unfold install in I. destruct (existsb _ d) eqn:X in I; [discriminate|].
  assert (H : forall e, In e d -> (under (full p) (at_ e) -> full p = at_ e) /\ (under (at_ e) (full p) -> full p = at_ e)).
  { intros e E. unfold at_. destruct (dir_eqb (full p) (full (fst e))) eqn:Q; [apply dir_eqb_iff in Q; auto|].
    assert (Y : sub (full p) (full (fst e)) = false /\ sub (full (fst e)) (full p) = false).
    { rewrite <- not_true_iff_false in X. destruct (sub (full p) (full (fst e))) eqn:U; [exfalso; apply X; apply existsb_exists; exists e; rewrite U, Q; auto|].
      destruct (sub (full (fst e)) (full p)) eqn:V; [exfalso; apply X; apply existsb_exists; exists e; rewrite U, V, Q; auto | auto]. }
    destruct Y as [Y Z]. apply sub_false in Y, Z. tauto. }
  intros e e' E E' U. apply in_app_iff in E, E'. destruct E as [E|[<-|[]]], E' as [E'|[<-|[]]]; auto.
  - exact (proj1 (H e E) U).
  - symmetry. exact (proj2 (H e' E') U).
Qed.
Lemma copy_apart ts : forall d d', copy false ts d = Some d' -> apart d -> apart d'.
Proof.
  induction ts as [|t ts IH]; intros d d'; cbn [DistModel.copy]; [intros E; injection E as <-; auto|].
  destruct (place t) as [p|]; [|discriminate]. destruct (install false d p t) as [d1|] eqn:I; [|discriminate]. intros E A. eapply IH; [exact E|]. eapply install_apart; eauto.
Qed.
Lemma norm_plain p : forall acc, (forall n, In n p -> n <> b "." /\ n <> b "..") -> norm acc p = Some (rev acc ++ p).
Proof.
  induction p as [|n p IH]; intros acc H; cbn [norm]; [now rewrite app_nil_r|]. destruct (H n (or_introl eq_refl)) as [A B].
  destruct (beqb n (b ".")) eqn:Q; [apply beqb_eq in Q; contradiction|]. destruct (beqb n (b "..")) eqn:Q'; [apply beqb_eq in Q'; contradiction|].
  rewrite IH; [cbn; now rewrite <- app_assoc | intros m I; apply H; now right].
Qed.
Lemma norm_app p q : forall acc, (forall n, In n p -> n <> b "." /\ n <> b "..") -> norm acc (p ++ q) = norm (rev p ++ acc) q.
Proof.
  induction p as [|n p IH]; intros acc H; cbn [norm app]; [reflexivity|]. destruct (H n (or_introl eq_refl)) as [A B].
  destruct (beqb n (b ".")) eqn:Q; [apply beqb_eq in Q; contradiction|]. destruct (beqb n (b "..")) eqn:Q'; [apply beqb_eq in Q'; contradiction|].
  rewrite IH; [cbn; now rewrite <- app_assoc | intros m I; apply H; now right].
Qed.
Lemma leaf_app d s : leaf (d ++ s) d = s.
Proof. unfold leaf. induction d; auto. Qed.
Lemma locate_iff d n p : locate src_root out_root d n = Some p <->
  snd p = n /\ (d = src_root ++ fst p \/ ~ under d src_root /\ d = out_root ++ fst p).
Proof.
  unfold locate. destruct (sub d src_root) eqn:S.
  - apply sub_under in S as (s & ->). rewrite leaf_app. split.
    + intros E. injection E as <-. auto.
    + intros [<- [E|[N _]]]; [|exfalso; apply N; now exists s]. apply app_inv_head in E. subst. now destruct p.
  - apply sub_false in S. destruct (sub d out_root) eqn:O.
    + apply sub_under in O as (s & ->). rewrite leaf_app. split.
      * intros E. injection E as <-. auto.
      * intros [<- [E|[N E]]]; [exfalso; apply S; rewrite E; now exists (fst p)|]. apply app_inv_head in E. subst. now destruct p.
    + apply sub_false in O. split; [discriminate|]. intros [_ [E|[_ E]]]; exfalso; [apply S | apply O]; rewrite E; now exists (fst p).
Qed.
End Copy.

Section Boot.
Context (ls : list bytes -> list (bytes * ent)).
Definition prefixes (chain : list (list bytes)) (d : list bytes) : Prop := forall x, In x chain -> under d x.
Lemma walk_sound into d chain es : forall r, walk into d chain es = Some r -> incl es (ls d) ->
  (forall n l f, into (d ++ [n]) = Some l -> In f l -> there ls (d ++ [n]) f) -> forall f, In f r -> there ls d f.
Proof.
  induction es as [|[n e] es IH]; intros r; cbn [walk]; [intros E; injection E as <-; contradiction|]. intros E I H f.
  assert (I' : incl es (ls d)) by (intros x X; apply I; now right). assert (IN : In (n, e) (ls d)) by (apply I; now left).
  destruct (ignored n) eqn:G; [exact (IH r E I' H f)|]. destruct e as [| |t].
  - destruct (walk into d chain es) as [r'|] eqn:W; [|discriminate]. injection E as <-. intros [<-|J]; [now apply t_here | eapply IH; eauto].
  - destruct (into (d ++ [n])) as [l|] eqn:X; [|discriminate]. destruct (walk into d chain es) as [r'|] eqn:W; [|discriminate]. injection E as <-.
    intros J. apply in_app_or in J as [J|J]; [eapply t_in; [exact IN | discriminate | exact G | eapply H; eauto] | eapply IH; eauto].
  - destruct (existsb (dir_eqb t) chain); [injection E as <-; contradiction|].
    destruct (into (d ++ [n])) as [l|] eqn:X; [|discriminate]. destruct (walk into d chain es) as [r'|] eqn:W; [|discriminate]. injection E as <-.
    intros J. apply in_app_or in J as [J|J]; [eapply t_in; [exact IN | discriminate | exact G | eapply H; eauto] | eapply IH; eauto].
Qed.
Lemma subdir_sound fuel : forall d prev r, subdir ls fuel d prev = Some r -> forall f, In f r -> there ls d f.
Proof.
  induction fuel as [|fuel IH]; intros d prev r; [discriminate|]. cbn [subdir]. intros E. eapply walk_sound; [exact E | apply incl_refl|].
  intros n l f X J. exact (IH _ _ _ X f J).
Qed.
Lemma walk_complete into d chain es : forall r, walk into d chain es = Some r ->
  (forall n t, In (n, ELink t) es -> ignored n = false -> ~ In t chain) ->
  forall n e, In (n, e) es -> ignored n = false -> match e with EFile => In (d ++ [n]) r | _ => exists l, into (d ++ [n]) = Some l /\ incl l r end.
Proof.
  induction es as [|[m x] es IH]; intros r; cbn [walk]; [contradiction|]. intros E L n e I G.
  assert (L' : forall n t, In (n, ELink t) es -> ignored n = false -> ~ In t chain) by (intros k t J; apply (L k t); now right).
  destruct (ignored m) eqn:GM.
  - destruct I as [I|I]; [injection I as -> ->; congruence | exact (IH r E L' n e I G)].
  - destruct x as [| |t].
    + destruct (walk into d chain es) as [r'|] eqn:W; [|discriminate]. injection E as <-. destruct I as [I|I]; [injection I as -> <-; now left|].
      specialize (IH r' eq_refl L' n e I G). destruct e; [now right | |]; (destruct IH as (l & Q & J); exists l; split; [exact Q | intros z Z; right; auto]).
    + destruct (into (d ++ [m])) as [l|] eqn:X; [|discriminate]. destruct (walk into d chain es) as [r'|] eqn:W; [|discriminate]. injection E as <-.
      destruct I as [I|I]; [injection I as -> <-; exists l; split; [exact X | apply incl_appl, incl_refl]|].
      specialize (IH r' eq_refl L' n e I G). destruct e; [apply in_or_app; now right | |]; (destruct IH as (l' & Q & J); exists l'; split; [exact Q | apply incl_appr, J]).
    + destruct (existsb (dir_eqb t) chain) eqn:Q.
      { exfalso. apply existsb_exists in Q as (y & Y & Q). apply dir_eqb_iff in Q. subst y. apply (L m t); [now left | exact GM | exact Y]. }
      destruct (into (d ++ [m])) as [l|] eqn:X; [|discriminate]. destruct (walk into d chain es) as [r'|] eqn:W; [|discriminate]. injection E as <-.
      destruct I as [I|I]; [injection I as -> <-; exists l; split; [exact X | apply incl_appl, incl_refl]|].
      specialize (IH r' eq_refl L' n e I G). destruct e; [apply in_or_app; now right | |]; (destruct IH as (l' & Q' & J); exists l'; split; [exact Q' | apply incl_appr, J]).
Qed.
Hypothesis NC : forall d n t, In (n, ELink t) (ls d) -> ignored n = false -> ~ under d t.
Lemma subdir_complete fuel : forall d prev r, subdir ls fuel d prev = Some r -> prefixes prev d -> forall f, there ls d f -> In f r.
Proof.
  induction fuel as [|fuel IH]; intros d prev r; [discriminate|]. cbn [subdir]. intros E P f T.
  assert (P' : forall x, In x (d :: prev) -> under d x) by (intros x [<-|I]; [exists []; now rewrite app_nil_r | auto]).
  assert (L : forall n t, In (n, ELink t) (ls d) -> ignored n = false -> ~ In t (d :: prev)) by (intros n t I G J; apply (NC d n t I G), P', J).
  inversion T as [d' n I G EQ | d' n e f' I N G T' EQ]; subst.
  - exact (walk_complete _ _ _ _ _ E L n EFile I G).
  - assert (H := walk_complete _ _ _ _ _ E L n e I G). assert (H' : exists l, subdir ls fuel (d ++ [n]) (d :: prev) = Some l /\ incl l r) by (destruct e; [contradiction | exact H | exact H]).
    destruct H' as (l & S & J). apply J. eapply IH; [exact S | | exact T']. intros x X. apply P' in X as (s & X). exists (s ++ [n]). now rewrite X, <- app_assoc.
Qed.
End Boot.
Lemma walk_ends into d chain es : (forall n e, In (n, e) es -> e <> EFile -> exists l, into (d ++ [n]) = Some l) -> exists r : list (list bytes), walk into d chain es = Some r.
Proof.
  induction es as [|[n e] es IH]; intros H; cbn [walk]; [now exists []|].
  destruct IH as (r & W); [intros m x I; apply (H m x); now right|]. rewrite W. destruct (ignored n); [now exists r|]. destruct e as [| |t]; [eauto | |].
  - destruct (H n EDir) as (l & ->); [now left | discriminate | eauto].
  - destruct (existsb (dir_eqb t) chain); [eauto|]. destruct (H n (ELink t)) as (l & ->); [now left | discriminate | eauto].
Qed.
Lemma subdir_ends ls N : (forall d n e, In (n, e) (ls d) -> e <> EFile -> length d < N) -> forall fuel d prev, 0 < fuel -> N < length d + fuel -> exists r, subdir ls fuel d prev = Some r.
Proof.
  intros H. induction fuel as [|fuel IH]; intros d prev F L; [lia|]. cbn [subdir]. apply walk_ends. intros n e I E. apply IH.
  - specialize (H d n e I E). lia.
  - specialize (H d n e I E). rewrite app_length. cbn. lia.
Qed.
