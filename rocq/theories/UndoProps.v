(* C84: cleanups of scripts. *)
From Verif Require Import Base ImpModel ImpProofs UndoModel UndoSpec UndoProofs UndoProofs2.

Section Any.
Context (pm : list bytes -> list bytes -> bool) (cwd wdir : list bytes) (sandbox : option (list bytes)).
Notation exec := (exec wdir sandbox true).
Notation exec_all := (exec_all wdir sandbox true).
Notation clean := (clean pm cwd wdir).

(* A script that only creates and moves, whatever it is, leaves nothing behind: the cleanups registered succeed and what was before is as
   it was. *)
Lemma benign_steps f0 ss : forall e, (forall ss1 s ss2 e1, ss = ss1 ++ s :: ss2 -> exec_all e ss1 = Some e1 -> benign sandbox f0 (e_fs e1) s) ->
  benign_all wdir sandbox f0 e ss.
Proof.
  induction ss as [|s ss IH]; intros e H; cbn; [exact Logic.I|]. split; [apply (H [] s ss e); reflexivity|]. intros e' E. apply IH.
  intros ss1 s' ss2 e1 Q X. apply (H (s :: ss1) s' ss2 e1); [now rewrite Q|]. cbn. now rewrite E.
Qed.
Theorem C84_restored f0 ss e : tree f0 -> cwd = [] \/ look f0 cwd <> None ->
  (forall ss1 s ss2 e1, ss = ss1 ++ s :: ss2 -> exec_all (mkenv f0 []) ss1 = Some e1 -> benign sandbox f0 (e_fs e1) s) ->
  exec_all (mkenv f0 []) ss = Some e ->
  exists g, clean (e_fs e) [] (e_cs e) = Some g /\ same g f0.
Proof.
  intros T CW B E. apply benign_steps in B. assert (I0 : Inv f0 (mkenv f0 [])).
  { split; cbn [e_fs e_cs]; [exact T | auto | | contradiction | constructor]. intros p k. split; [intros (c & [] & _) | intros [A C]; congruence]. }
  pose proof (inv_all pm cwd wdir sandbox f0 T ss _ _ I0 B E) as I. destruct e as [f cs]. cbn [e_fs e_cs].
  destruct (clean_inv pm cwd wdir f0 T CW cs f I) as (g & G & S). exists g. split; [|exact S]. exact G.
Qed.

(* And so a test succeeds in removing its working directory. *)
Theorem C84_scope f ss e : tree f -> cwd = [] \/ look f cwd <> None -> look f wdir = None ->
  (forall ss1 s ss2 e1, ss = ss1 ++ s :: ss2 -> exec_all (mkenv ((wdir, true) :: f) []) ss1 = Some e1 -> benign sandbox ((wdir, true) :: f) (e_fs e1) s) ->
  (exists d n, wdir = d ++ [n] /\ (d = [] \/ look f d = Some true)) ->
  exec_all (mkenv ((wdir, true) :: f) []) ss = Some e ->
  exists g, scope pm cwd wdir sandbox true f ss = Some g /\ same g f.
Proof.
  intros T CW L B (d & n & W & D) E.
  assert (WN : wdir <> []) by (rewrite W; now destruct d).
  assert (DN : isdir f (removelast wdir) = true).
  { rewrite W, removelast_last. destruct D as [-> | D]; [reflexivity|]. destruct d; [reflexivity|]. cbn [isdir]. now rewrite D. }
  set (f1 := (wdir, true) :: f). assert (T1 : tree f1).
  { split; cbn [look f1].
    - destruct (dir_eqb wdir []) eqn:Q; [apply dir_eqb_eq in Q; congruence | apply T].
    - intros p m k H. destruct (dir_eqb wdir (p ++ [m])) eqn:Q.
      + apply dir_eqb_eq in Q. rewrite W in Q. apply app_inj_tail in Q as [-> ->]. destruct D as [D|D]; [now left|]. right.
        destruct (dir_eqb wdir p); [reflexivity | exact D].
      + destruct (proj2 T _ _ _ H) as [->|H']; [now left|]. right. destruct (dir_eqb wdir p); [reflexivity | exact H']. }
  assert (CW1 : cwd = [] \/ look f1 cwd <> None).
  { destruct CW as [CW|CW]; [now left|]. right. cbn [look f1]. destruct (dir_eqb wdir cwd); [discriminate | exact CW]. }
  destruct (C84_restored f1 ss e T1 CW1 B E) as (g & G & S).
  unfold scope. rewrite L. destruct wdir as [|x w] eqn:WE; [congruence|]. rewrite <- WE in *. rewrite DN. cbn [negb]. rewrite E, G.
  assert (F1 : f1 = (wdir, true) :: f) by (unfold f1; now rewrite WE). clearbody f1.
  assert (LG : look g wdir = Some true) by (rewrite S, F1; cbn [look]; now rewrite dir_eqb_refl).
  assert (NW : sub cwd wdir = false).
  { apply sub_not. intros (s & Q). destruct CW as [CW|CW]; [rewrite CW, WE in Q; discriminate|]. apply CW. rewrite Q. apply tree_none; auto. }
  assert (NE : has_entries g wdir = false).
  { destruct (has_entries g wdir) eqn:H; [|reflexivity]. apply has_entries_iff in H as (s & SN & H). exfalso. apply H. rewrite S, F1. cbn [look].
    destruct (dir_eqb wdir (wdir ++ s)) eqn:Q.
    - apply dir_eqb_eq in Q. exfalso. apply SN. apply (app_inv_head wdir). now rewrite app_nil_r.
    - apply tree_none; auto. }
  unfold rmdir. rewrite NW, LG, NE. eexists. split; [reflexivity|]. intros p. rewrite look_rm, S, F1. cbn [look].
  destruct (dir_eqb p wdir) eqn:Q.
  - apply dir_eqb_eq in Q. subst p. now rewrite L.
  - assert (Q' : dir_eqb wdir p = false) by (apply dir_eqb_neq; apply dir_eqb_neq in Q; congruence). now rewrite Q'.
Qed.

(* Whatever is registered: only what a cleanup (other than never) or a special file is for is removed, and nothing is changed. *)
Theorem C84_only f special cs g q : clean f special cs = Some g -> look g q <> look f q ->
  look g q = None /\ (In q special \/ exists c, In c cs /\ covers pm c q).
Proof. intros E N. destruct (clean_removes pm cwd wdir f special cs g E q) as [Q|Q]; [congruence | exact Q]. Qed.

(* If the cleanups succeed, then what they are for is no more. *)
Lemma clean_all_split f cs c g : In c cs -> clean_all pm cwd wdir f cs = Some g ->
  exists h h', removes (fun _ => True) f h /\ clean1 pm cwd wdir h c = Some h' /\ removes (fun _ => True) h' g.
Proof.
  revert f. induction cs as [|x cs IH]; intros f; [contradiction|]. cbn [UndoModel.clean_all]. intros [->|I].
  - destruct (clean1 pm cwd wdir f c) as [h|] eqn:E; [|discriminate]. intros G. exists f, h. split; [apply removes_refl|]. split; [exact E|].
    eapply removes_weaken; [|exact (clean_all_removes pm cwd wdir _ _ _ G)]; auto.
  - destruct (clean1 pm cwd wdir f x) as [h|] eqn:E; [|discriminate]. intros G. destruct (IH h I G) as (h1 & h2 & A & B & C). exists h1, h2.
    split; [eapply removes_trans; [|exact A]; eapply removes_weaken; [|exact (clean1_removes pm cwd wdir _ _ _ E)]; auto|]. split; [exact B | exact C].
Qed.
Theorem C84_gone f special cs g c : clean f special cs = Some g -> In c cs -> c_type c <> Never -> is_pattern (c_path c) = false -> look g (c_path c) = None.
Proof.
  unfold UndoModel.clean. destruct (clean_special f special) as [h|] eqn:E; [|discriminate]. intros G I N P.
  apply in_rev in I. destruct (clean_all_split h (rev cs) c g I G) as (h1 & h2 & _ & B & C).
  eapply gone_stays; [exact C|]. eapply clean1_gone; eauto.
Qed.

(* An always cleanup was of what there was, of the kind it says. *)
Theorem C84_always f special cs g c : clean f special cs = Some g -> In c cs -> c_type c = Always -> is_pattern (c_path c) = false ->
  look f (c_path c) = Some (c_dir c).
Proof.
  unfold UndoModel.clean. destruct (clean_special f special) as [h|] eqn:E; [|discriminate]. intros G I N P.
  apply in_rev in I. destruct (clean_all_split h (rev cs) c g I G) as (h1 & h2 & A & B & _).
  apply clean1_gone in B as [_ B]; [|exact P|congruence]. destruct B as [B|[_ B]]; [|congruence].
  destruct (A (c_path c)) as [Q|[Q _]]; [|congruence]. rewrite Q in B. destruct (proj1 (clean_special_removes _ _ _ E) (c_path c)) as [Q'|[Q' _]]; congruence.
Qed.

(* There is no unexpected output in a directory that is cleaned up. *)
Theorem C84_unexpected f special cs g c s : clean f special cs = Some g -> In c cs -> c_type c <> Never -> is_pattern (c_path c) = false -> c_dir c = true ->
  tree f -> c_path c <> [] -> s <> [] -> look f (c_path c ++ s) <> None ->
  In (c_path c ++ s) special \/ exists x, In x cs /\ covers pm x (c_path c ++ s).
Proof.
  intros G I N P D T PN S L. apply (C84_only f special cs g); [exact G|].
  rewrite (tree_none g (c_path c) s); [congruence | eapply tree_clean; eauto | exact PN | eapply C84_gone; eauto].
Qed.

(* With a sandbox, nothing outside of it is ever removed by cleanups, registered by any script. *)
Lemma registered_in s cs c i : sandbox = Some s -> (forall x, In x cs -> within (c_path x) s) -> forall x, In x (register sandbox cs c i) -> within (c_path x) s.
Proof.
  intros SB H x. unfold register, in_sandbox. rewrite SB. destruct (sub (c_path c) s) eqn:W; cbn [negb]; [|auto]. apply sub_within in W.
  destruct (existsb _ cs); [destruct i; [auto|]|].
  - revert H. induction cs as [|y cs IH]; intros H; cbn [set_type]; [auto|]. destruct (dir_eqb (c_path y) (c_path c)).
    + intros [<-|I]; [exact (H y (or_introl eq_refl)) | apply H; now right].
    + intros [<-|I]; [apply H; now left | apply IH; [intros z Z; apply H; now right | exact I]].
  - intros I. apply in_app_or in I as [I|[<-|[]]]; auto.
Qed.
Lemma exec_in s e st e' : sandbox = Some s -> (forall x, In x (e_cs e) -> within (c_path x) s) -> exec e st = Some e' -> forall x, In x (e_cs e') -> within (c_path x) s.
Proof.
  intros SB H. destruct st as [p dir nc|p app|from to nc force|p force|t p dir]; cbn [UndoModel.exec].
  - destruct (look (e_fs e) p) as [k|]; [destruct (dir || k); [discriminate|]; intros E; injection E as <-; exact H|].
    destruct p as [|y p]; [discriminate|]. destruct (negb _); [discriminate|]. intros E. injection E as <-. cbn [e_cs].
    destruct nc; cbn [andb negb]; [exact H|]. now apply registered_in.
  - set (cs := if app || negb true then _ else _). assert (HC : forall x, In x cs -> within (c_path x) s).
    { unfold cs. destruct (app || negb true); [exact H | now apply registered_in]. } clearbody cs.
    destruct (look (e_fs e) p) as [[|]|]; [discriminate | intros E; injection E as <-; exact HC|].
    destruct p as [|y p]; [discriminate|]. destruct (negb _); [discriminate|]. intros E. injection E as <-. exact HC.
  - destruct (negb (in_sandbox sandbox from) && negb force || sub wdir from || sub wdir to); [discriminate|].
    destruct (rename (e_fs e) from to) as [f|]; [|discriminate]. destruct nc; cbn [andb negb]; [intros E; injection E as <-; exact H|].
    intros E. injection E as <-. cbn [e_cs]. intros x X. apply in_app_or in X as [X|X]; [apply filter_In in X as [X _]; auto|].
    destruct (look (e_fs e) to); [contradiction|]. unfold in_sandbox in X. rewrite SB in X. destruct (sub to s) eqn:W; [|contradiction]. apply sub_within in W.
    apply in_map_iff in X as (c & <- & C). apply filter_In in C as [C V]. apply sub_within in V as (t & V). cbn. rewrite V, moved_in.
    destruct W as (u & ->). exists (u ++ t). now rewrite app_assoc.
  - destruct (negb (in_sandbox sandbox p) && negb force || sub wdir p); [discriminate|]. destruct (look (e_fs e) p); [|discriminate].
    intros E. injection E as <-. exact H.
  - destruct (in_sandbox sandbox _); [|discriminate]. intros E. injection E as <-. now apply registered_in.
Qed.
Theorem C84_sandbox s f ss e g q : sandbox = Some s -> is_pattern s = false ->
  (forall pat x, pm pat x = true -> within pat s -> within x s) ->
  exec_all (mkenv f []) ss = Some e -> clean (e_fs e) [] (e_cs e) = Some g -> ~ within q s -> look g q = look (e_fs e) q.
Proof.
  intros SB PS PM E G N. assert (IN : forall x, In x (e_cs e) -> within (c_path x) s).
  { assert (H : forall ss e0, (forall x, In x (e_cs e0) -> within (c_path x) s) -> exec_all e0 ss = Some e -> forall x, In x (e_cs e) -> within (c_path x) s).
    { clear E. intros ss'. induction ss' as [|st ss' IH]; intros e0 H; cbn [UndoModel.exec_all]; [intros Q; injection Q as <-; exact H|].
      destruct (exec e0 st) as [e1|] eqn:X; [|discriminate]. apply IH. eapply exec_in; eauto. }
    apply (H ss (mkenv f [])); [contradiction | exact E]. }
  destruct (clean_removes pm cwd wdir _ _ _ _ G q) as [Q|[_ [[]|(c & C & _ & V)]]]; [exact Q|]. exfalso. apply N. apply IN in C.
  destruct V as [[_ ->]|[[_ V]|(d & D & _ & V)]]; [exact C | eapply PM; eauto|].
  assert (DS : within d s).
  { destruct C as (t & C). rewrite D in C. destruct t as [|y t _] using rev_ind.
    - rewrite app_nil_r in C. subst s. rewrite pattern_app in PS. apply orb_false_iff in PS as [_ PS]. discriminate.
    - rewrite app_assoc in C. apply app_inj_tail in C as [-> _]. now exists t. }
  destruct V as [[_ V]|[_ (x & X & V)]]; [eapply within_trans; eauto|]. eapply within_trans; [exact V|]. eapply PM; eauto.
Qed.

(* A cleanup outside of the sandbox is an error, and so is the removal or, unless forced, moving of what is outside. *)
Theorem C84_outside s e : sandbox = Some s ->
  (forall t p dir, is_pattern p = false -> ~ within p s -> exec e (Cleanup t p dir) = None) /\
  (forall p, ~ within p s -> exec e (Remove p false) = None) /\
  (forall from to nc, ~ within from s -> exec e (Move from to nc false) = None) /\
  (forall p force, within wdir p -> exec e (Remove p force) = None) /\
  (forall from to nc force, within wdir from \/ within wdir to -> exec e (Move from to nc force) = None).
Proof.
  intros SB. assert (O : forall p, ~ within p s -> in_sandbox sandbox p = false) by (intros p N; unfold in_sandbox; rewrite SB; now apply sub_not).
  split; [|split; [|split; [|split]]].
  - intros t p dir P N. cbn [UndoModel.exec]. assert (W : beqb (last p []) (b "*") || beqb (last p []) (b "**") || beqb (last p []) (b "***") = false).
    { destruct (beqb (last p []) (b "*") || beqb (last p []) (b "**") || beqb (last p []) (b "***")) eqn:Q; [|reflexivity]. exfalso.
      apply orb_true_iff in Q as [Q|Q]; [apply orb_true_iff in Q as [Q|Q]|]; apply beqb_eq in Q; (apply last_split in Q; [|discriminate]);
      rewrite Q, pattern_app in P; apply orb_false_iff in P as [_ P]; discriminate. }
    cbn zeta. rewrite W. now rewrite (O p N).
  - intros p N. cbn [UndoModel.exec]. now rewrite (O p N).
  - intros from to nc N. cbn [UndoModel.exec]. now rewrite (O from N).
  - intros p force W. cbn [UndoModel.exec]. apply sub_within in W. now rewrite W, orb_true_r.
  - intros from to nc force [W|W]; apply sub_within in W; cbn [UndoModel.exec]; rewrite W; [now rewrite orb_true_r | now rewrite orb_true_r].
Qed.

(* An explicit cleanup decides, whatever has been registered for the path; the rest is as it was. *)
Theorem C84_explicit t p dir e e' : exec e (Cleanup t p dir) = Some e' -> in_sandbox sandbox p = true -> NoDup (map c_path (e_cs e)) ->
  NoDup (map c_path (e_cs e')) /\ (exists c, In c (e_cs e') /\ c_path c = p /\ c_type c = t) /\
  (forall c, c_path c <> p -> In c (e_cs e') <-> In c (e_cs e)) /\ e_fs e' = e_fs e.
Proof.
  intros E SB ND. cbn [UndoModel.exec] in E. cbn zeta in E. match type of E with (if ?c then _ else _) = _ => destruct c; [|discriminate] end. injection E as <-. cbn [e_cs e_fs].
  assert (K : NoDup (map c_path (register sandbox (e_cs e) (mkcleanup t p dir) false)) /\ (exists c, In c (register sandbox (e_cs e) (mkcleanup t p dir) false) /\ c_path c = p /\ c_type c = t) /\
    (forall c, c_path c <> p -> In c (register sandbox (e_cs e) (mkcleanup t p dir) false) <-> In c (e_cs e))); [|tauto].
  unfold register. cbn [c_path c_type]. rewrite SB. cbn [negb]. destruct (existsb (fun x => dir_eqb (c_path x) p) (e_cs e)) eqn:X.
  - assert (M : map c_path (set_type (e_cs e) t p) = map c_path (e_cs e)).
    { clear. induction (e_cs e) as [|c cs IH]; cbn [set_type map]; [reflexivity|]. destruct (dir_eqb (c_path c) p); cbn; [reflexivity | now rewrite IH]. }
    rewrite M. split; [exact ND|]. clear M ND. revert X. induction (e_cs e) as [|c cs IH]; cbn [existsb set_type]; [discriminate|].
    destruct (dir_eqb (c_path c) p) eqn:Q; cbn [orb].
    + apply dir_eqb_eq in Q. intros _. split; [exists (mkcleanup t (c_path c) (c_dir c)); split; [now left | auto]|].
      intros x N. split; (intros [<-|I]; [cbn in N; congruence | now right]).
    + intros X. destruct (IH X) as [(y & Y & H) H2]. split; [exists y; split; [now right | exact H]|].
      intros x N. split; (intros [<-|I]; [now left | right; now apply H2]).
  - assert (NI : ~ In p (map c_path (e_cs e))).
    { intros I. apply in_map_iff in I as (c & Q & I). assert (Y : existsb (fun x => dir_eqb (c_path x) p) (e_cs e) = true); [|congruence].
      apply existsb_exists. exists c. split; [exact I | now apply dir_eqb_eq]. }
    split; [|split].
    + rewrite map_app. cbn. apply (Permutation.Permutation_NoDup (Permutation.Permutation_cons_append _ _)). now constructor.
    + exists (mkcleanup t p dir). split; [apply in_or_app; right; now left | auto].
    + intros c N. split; [intros I; apply in_app_or in I as [I|[<-|[]]]; [exact I | now destruct N] | intros I; apply in_or_app; now left].
Qed.
End Any.
Print Assumptions C84_restored.
Print Assumptions C84_scope.
Print Assumptions C84_only.
Print Assumptions C84_gone.
Print Assumptions C84_always.
Print Assumptions C84_unexpected.
Print Assumptions C84_sandbox.
Print Assumptions C84_outside.
Print Assumptions C84_explicit.

(* A test with nested directories, redirects and moves. *)
Definition ex_pm (p q : list bytes) : bool := match p, q with [_; _], [d; _ :: _] => beqb d (b "w") | _, _ => false end.
Definition ex_w : list bytes := [b "w"].
Definition ex_p (s : list bytes) : list bytes := b "w" :: s.
Definition ex_ss : list step :=
  [Create (ex_p [b "a"]) true false; Create (ex_p [b "a"; b "f"]) false false; Redirect (ex_p [b "o"]) false; Redirect (ex_p [b "o"]) true;
   Create (ex_p [b "b"]) true false; Move (ex_p [b "a"]) (ex_p [b "b"; b "c"]) false false; Move (ex_p [b "o"]) (ex_p [b "b"; b "c"; b "f"]) false false].
Example C84_restored_ex : exec_all ex_w (Some ex_w) true (mkenv [(ex_w, true)] []) ex_ss =
    Some (mkenv [(ex_p [b "b"], true); (ex_p [b "b"; b "c"; b "f"], false); (ex_p [b "b"; b "c"], true); (ex_w, true)]
           [mkcleanup Always (ex_p [b "b"]) true; mkcleanup Always (ex_p [b "b"; b "c"]) true; mkcleanup Always (ex_p [b "b"; b "c"; b "f"]) false]) /\
  scope ex_pm [] ex_w (Some ex_w) true [(b "x" :: nil, false)] ex_ss = Some [(b "x" :: nil, false)].
Proof. split; reflexivity. Qed.
(* With wildcards and an entry that is to stay. *)
Example C84_only_ex : clean ex_pm [] ex_w [(ex_p [b "f"], false); (ex_p [b "d"; b "g"], false); (ex_p [b "d"], true); (ex_w, true)] []
    [mkcleanup Maybe (ex_p [b "n"]) false; mkcleanup Always (ex_p [b "*"]) false; mkcleanup Always (ex_p [b "d"; b "***"]) false; mkcleanup Never (ex_w) true] =
  Some [(ex_w, true)].
Proof. reflexivity. Qed.
Example C84_unexpected_ex : clean ex_pm [] ex_w [(ex_p [b "d"; b "g"], false); (ex_p [b "d"], true); (ex_w, true)] [] [mkcleanup Always (ex_p [b "d"]) true] = None /\
  clean ex_pm [] ex_w [(ex_w, true)] [] [mkcleanup Always (ex_p [b "d"]) true] = None.
Proof. split; reflexivity. Qed.

(* A pattern is a path with * or ? or [ in a component. *)
Theorem C84_patterns : forall p, is_pattern p = true <-> exists n, In n p /\ (In "*"%char n \/ In "?"%char n \/ In "["%char n).
Proof.
  intros p. unfold is_pattern. rewrite existsb_exists. split.
  - intros (n & I & W). exists n. split; [exact I|]. unfold wild in W. apply existsb_exists in W as (c & J & W).
    apply orb_true_iff in W as [W|W]; [apply orb_true_iff in W as [W|W]|]; apply ceqb_eq in W; subst c; auto.
  - intros (n & I & W). exists n. split; [exact I|]. unfold wild. apply existsb_exists.
    destruct W as [W|[W|W]]; eexists; (split; [exact W | reflexivity]).
Qed.
Print Assumptions C84_patterns.
Example C84_ex_patterns : is_pattern [b "d"; b "a[bc]"] = true /\ is_pattern [b "d"; b "a.c"] = false.
Proof. split; reflexivity. Qed.

(* A directory moved over another (empty) one: what is in it is no longer registered and the cleanups fail. *)
Theorem C84_moved_over_refuted : exists ss e, exec_all ex_w (Some ex_w) true (mkenv [(ex_w, true)] []) ss = Some e /\
  (forall s, In s ss -> exists p d, s = Create p d false \/ exists q, s = Move p q false false) /\ clean ex_pm [] ex_w (e_fs e) [] (e_cs e) = None.
Proof.
  exists [Create (ex_p [b "a"]) true false; Create (ex_p [b "a"; b "f"]) false false; Create (ex_p [b "b"]) true false; Move (ex_p [b "a"]) (ex_p [b "b"]) false false].
  eexists. split; [reflexivity|]. split; [|reflexivity].
  intros s [<-|[<-|[<-|[<-|[]]]]]; [exists (ex_p [b "a"]), true | exists (ex_p [b "a"; b "f"]), false | exists (ex_p [b "b"]), true | exists (ex_p [b "a"]), true]; eauto.
Qed.
Print Assumptions C84_moved_over_refuted.

(* A file moved to where another registered for cleanup was: it is registered twice and the cleanups fail, though it would not if it was
   created there. *)
Theorem C84_moved_refuted : exists ss e s e' s' e'', exec_all ex_w (Some ex_w) true (mkenv [(ex_w, true)] []) ss = Some e /\
  exec_all ex_w (Some ex_w) true e s = Some e' /\ clean ex_pm [] ex_w (e_fs e') [] (e_cs e') = None /\
  exec_all ex_w (Some ex_w) true e s' = Some e'' /\ same (e_fs e') (e_fs e'') /\ clean ex_pm [] ex_w (e_fs e'') [] (e_cs e'') = Some [(ex_w, true)].
Proof.
  exists [Create (ex_p [b "a"]) false false; Remove (ex_p [b "a"]) false]. eexists.
  exists [Create (ex_p [b "b"]) false false; Move (ex_p [b "b"]) (ex_p [b "a"]) false false]. eexists. exists [Create (ex_p [b "a"]) false false]. eexists.
  split; [reflexivity|]. split; [reflexivity|]. split; [reflexivity|]. split; [reflexivity|]. split; [intros p; reflexivity | reflexivity].
Qed.
Print Assumptions C84_moved_refuted.

(* A file created by an append redirect is not registered; one that was before an overwrite redirect is. *)
Theorem C84_redirect_refuted :
  scope ex_pm [] ex_w (Some ex_w) true [] [Redirect (ex_p [b "f"]) false] = Some [] /\ scope ex_pm [] ex_w (Some ex_w) true [] [Redirect (ex_p [b "f"]) true] = None /\
  exists f0 e g, exec_all ex_w (Some ex_w) true (mkenv f0 []) [Redirect (ex_p [b "f"]) false] = Some e /\ clean ex_pm [] ex_w (e_fs e) [] (e_cs e) = Some g /\ ~ same g f0.
Proof.
  split; [reflexivity|]. split; [reflexivity|]. exists [(ex_p [b "f"], false); (ex_w, true)]. eexists. eexists. split; [reflexivity|]. split; [reflexivity|].
  intros S. specialize (S (ex_p [b "f"])). discriminate.
Qed.
Print Assumptions C84_redirect_refuted.

(* A file created with a name that has a wildcard character: other files are removed with it. *)
Theorem C84_wildcard_refuted : exists e g, exec_all ex_w (Some ex_w) true (mkenv [(ex_p [b "ab"], false); (ex_w, true)] []) [Create (ex_p [b "a*"]) false false] = Some e /\
  clean ex_pm [] ex_w (e_fs e) [] (e_cs e) = Some g /\ look g (ex_p [b "ab"]) = None.
Proof. eexists. eexists. split; [reflexivity|]. split; reflexivity. Qed.
Print Assumptions C84_wildcard_refuted.
(* The path with the wildcard meets the conditions of C84_sandbox; never overrides the registration by the redirect. *)
Example C84_sandbox_ex : (forall pat x, ex_pm pat x = true -> within pat ex_w -> within x ex_w) /\ is_pattern ex_w = false /\
  exists e, exec_all ex_w (Some ex_w) true (mkenv [(ex_p [b "k"], false); (ex_w, true)] []) [Redirect (ex_p [b "f"]) false; Cleanup Never (ex_p [b "f"]) false; Cleanup Maybe (ex_p [b "?"; b "***"]) false] = Some e /\
    clean ex_pm [] ex_w (e_fs e) [] (e_cs e) = Some [(ex_p [b "f"], false); (ex_p [b "k"], false); (ex_w, true)] /\
    exec ex_w (Some ex_w) true e (Cleanup Always [b "f"] false) = None /\ exec ex_w (Some ex_w) true e (Remove [b "f"] false) = None.
Proof.
  split; [|split; [reflexivity|]].
  - intros pat x H _. unfold ex_pm in H. destruct pat as [|a [|c [|]]]; try discriminate. destruct x as [|d [|[|y z] [|]]]; try discriminate.
    apply beqb_eq in H. subst d. now exists [y :: z].
  - eexists. repeat split; reflexivity.
Qed.
