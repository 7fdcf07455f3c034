(* C90: build system modules are initialized once in a scope and in order. *)
From Verif Require Import Base ModModel ModSpec ModProofs ModProofs2 ModProofs3 ModProofs4 ModProofs5.
From Coq Require Import Lia.

Section Props.
  Context (imp : nat -> bytes -> bool -> bool -> bool -> imp_result) (funs : bytes -> bytes -> list func) (bundled : bytes -> bool).
  Context (WF : proper funs).
  Notation exec := (exec imp funs bundled).

  Lemma exec_log n cs : log_ok imp bundled (log (fst (exec n cs))).
  Proof.
    pose proof (exec_spec imp funs bundled WF n cs) as E. destruct (exec n cs) as [s [[]| | |]]; cbn [fst]; try exact E. apply (inv_ok _ _ _ _ (proj1 E)).
  Qed.

  (* C90, at any point of any build, failed or not: a module isn't initialized in a scope again once it was. *)
  Theorem C90_again n cs l2 l1 p sc m f o : log (fst (exec n cs)) = l2 ++ Enter p sc m f o :: l1 -> ~ left_in p sc m l1.
  Proof. intros E. exact (proj1 (exec_log n cs _ _ _ E)). Qed.
  (* C90, where no module asks for itself: init() is called in a scope at most once. *)
  Theorem C90_once n cs p sc m : acyclic funs -> calls p sc m (log (fst (exec n cs))) <= 1.
  Proof.
    intros (rank & Rk). pose proof (exec_act imp funs bundled WF rank Rk n cs start (hinv_start imp funs bundled)) as A.
    assert (A0 : act [] start) by (split; [intros p' sc' m'; cbn; lia|intros p' sc' m' H; now destruct H]). specialize (A A0).
    unfold ModModel.exec. destruct (each (exec1 imp funs bundled n) cs start) as [s [[]| | |]]; cbn [fst actr] in *; apply A.
  Qed.
  (* C90: it is told to be first the first time for the project, in whatever scope, and not later. *)
  Theorem C90_first n cs l2 l1 p sc m f o : log (fst (exec n cs)) = l2 ++ Enter p sc m f o :: l1 -> (f = true <-> ~ entered p m l1).
  Proof. intros E. exact (proj1 (proj2 (exec_log n cs _ _ _ E))). Qed.
  (* C90: projects search for a library once, and use the same one unless bundled. *)
  Theorem C90_search n cs l2 l1 p mm b o d : log (fst (exec n cs)) = l2 ++ Import p mm b o d :: l1 -> ~ imports p mm l1.
  Proof. intros E. exact (exec_log n cs _ _ _ E). Qed.
  Theorem C90_same n cs l2 l1 p sc m f o : log (fst (exec n cs)) = l2 ++ Enter p sc m f o :: l1 -> bundled (main m) = false ->
    exists d, from imp p (main m) d l1 /\ forall q m', main m' = main m -> entered q m' l1 -> from imp q (main m) d l1.
  Proof. intros E. exact (proj2 (proj2 (exec_log n cs _ _ _ E))). Qed.

  (* C90: once a project is loaded its booted modules are initialized, those that aren't for after it before root.build. *)
  Theorem C90_booted n cs s p build s' : exec n cs = (s, Done tt) -> exec1 imp funs bundled n (Root p build) s = (s', Done tt) ->
    (forall e, In e (loaded s p) -> entered p (ms_name e) (log s')) /\
    exists l2 l1, log s' = l2 ++ Sourced p :: l1 /\ forall e, In e (loaded s p) -> ms_boot e <> Some After -> entered p (ms_name e) l1.
  Proof.
    intros E E'. pose proof (exec_spec imp funs bundled WF n cs) as H. rewrite E in H. cbn [exec1] in E'. pose proof (load_root_spec imp funs bundled WF n p build s H) as L. rewrite E' in L.
    destruct L as (_ & (l2 & l1 & El & L1) & L2).
    assert (En : forall e, In e (loaded s p) -> entry (loaded s p) (ms_name e) = Some e).
    { pose proof (c_nd _ _ _ _ (proj1 (proj1 (proj1 H))) p) as Nd. clear -Nd. induction (loaded s p) as [|x l IH]; cbn in *; [easy|]. inversion Nd; subst. intros e [->|He]; [now rewrite beqb_refl|].
      destruct (beqb (ms_name x) (ms_name e)) eqn:B; [|now apply IH]. apply beqb_eq in B. exfalso. apply H1. rewrite B. now apply in_map. }
    split; [intros e He; apply L2; rewrite (En e He); discriminate|]. exists l2, l1. split; [assumption|]. intros e He. exact (L1 _ e (En e He)).
  Qed.
  (* C90: in the order of modes, and of booting for the same mode, unless asked for by others; at any point. *)
  Theorem C90_order n cs s p build m1 m2 e1 e2 v1 v2 l2 l1 sc f o : exec n cs = (s, Done tt) -> stage s p = 1 -> ~ used funs m2 -> ~ uses build m2 -> m1 <> m2 ->
    In e1 (loaded s p) -> ms_name e1 = m1 -> ms_boot e1 = Some v1 -> In e2 (loaded s p) -> ms_name e2 = m2 -> ms_boot e2 = Some v2 ->
    mrank v1 < mrank v2 \/ (v1 = v2 /\ exists a c, loaded s p = a ++ e1 :: c /\ In e2 c) ->
    log (fst (exec1 imp funs bundled n (Root p build) s)) = l2 ++ Enter p sc m2 f o :: l1 -> entered p m1 l1.
  Proof.
    intros E St Nu Nb N12 I1 N1 B1 I2 N2 B2 Or El. pose proof (exec_spec imp funs bundled WF n cs) as H. rewrite E in H.
    pose proof (c_nd _ _ _ _ (proj1 (proj1 (proj1 H))) p) as Nd.
    assert (En : forall e, In e (loaded s p) -> entry (loaded s p) (ms_name e) = Some e).
    { clear -Nd. induction (loaded s p) as [|x l IH]; cbn in *; [easy|]. inversion Nd; subst. intros e [->|He]; [now rewrite beqb_refl|].
      destruct (beqb (ms_name x) (ms_name e)) eqn:B; [|now apply IH]. apply beqb_eq in B. exfalso. apply H1. rewrite B. now apply in_map. }
    eapply (order_spec imp funs bundled WF n p build m1 m2 v1 v2 e1 e2 s H Nu Nb N12 St); eauto; [rewrite <- N1; auto|rewrite <- N2; auto|].
    destruct Or as [Or|(Ev & a & c & Ea & Ic)]; [now left|]. right. split; [assumption|]. exists (map ms_name a), (map ms_name c). split; [rewrite Ea, map_app; cbn; now rewrite N1|].
    intros Ia. rewrite Ea, map_app in Nd. cbn in Nd. apply NoDup_remove_1 in Nd. clear -Nd Ia Ic N2 Ea.
    assert (X : forall (x y : list bytes) z, NoDup (x ++ y) -> In z x -> In z y -> False).
    { induction x as [|w x IH]; cbn; intros y z D Hx Hy; [easy|]. inversion D; subst. destruct Hx as [->|Hx]; [apply H1; apply in_app_iff; now right|eauto]. }
    assert (Hc : In m2 (map ms_name c)) by (rewrite <- N2; now apply in_map).
    exact (X _ _ m2 Nd Ia Hc).
  Qed.
  (* C90: what is answered is what the variables say, loaded and configured, in the scope; load_module without the optional argument doesn't look at the second. *)
  Theorem C90_answer n cs s p k sc m r s' : exec n cs = (s, Done tt) -> stage s p <> 0 -> ask (init_module imp funs bundled n p) p k sc m s = (s', Done r) ->
    exists l c, visible (vars s') p sc m = Some (l, c) /\ (r = l && c \/ k = Load /\ r = true /\ l = true).
  Proof.
    intros E St A. pose proof (exec_spec imp funs bundled WF n cs) as H. rewrite E in H.
    pose proof (ask_spec imp funs bundled p _ (init_spec imp funs bundled WF n p) k sc m s (proj1 H) ltac:(lia)) as G. rewrite A in G. apply G.
  Qed.
  (* C90, if modules that aren't optional configure or fail: using without optional means that it is loaded and configured, and there are no null pointers nor failed assertions. *)
  Theorem C90_required n cs s p sc m r s' : strict funs -> exec n cs = (s, Done tt) -> stage s p <> 0 -> init_module imp funs bundled n p sc m false s = (s', Done r) ->
    r = true /\ getv (vars s') (p, sc, m) = Some (Some (true, true)).
  Proof.
    intros Str E St A. pose proof (exec_spec imp funs bundled WF n cs) as H. rewrite E in H.
    pose proof (init_spec imp funs bundled WF n p sc m false s (proj1 H) ltac:(lia)) as G. rewrite A in G. destruct G as (_ & _ & ((l & c & G & Er) & Rt)).
    specialize (Rt Str eq_refl). split; [assumption|]. rewrite Rt in Er. symmetry in Er. apply andb_true_iff in Er. destruct Er as [-> ->]. exact G.
  Qed.
  Theorem C90_sound n cs s c s' : strict funs -> exec n cs = (s, Done tt) -> (forall p ms, c <> Bootstrap p ms) -> exec1 imp funs bundled n c s <> (s', Crashed).
  Proof.
    intros Str E Nb A. pose proof (exec_spec imp funs bundled WF n cs) as H. rewrite E in H. pose proof (exec1_spec imp funs bundled WF n c s H) as X. rewrite A in X.
    destruct X as (_ & X). destruct (X Str) as (p & ms & ->). now apply (Nb p ms).
  Qed.
End Props.
Print Assumptions C90_again. Print Assumptions C90_once. Print Assumptions C90_first. Print Assumptions C90_search. Print Assumptions C90_same.
Print Assumptions C90_booted. Print Assumptions C90_order. Print Assumptions C90_answer. Print Assumptions C90_required. Print Assumptions C90_sound.

(* Modules: config and version are booted, the second asks for in.base; dist is booted for after; tool is one that doesn't configure if optional and fails if not. *)
Definition ex_simple (m : bytes) : func := mkfunc m None (fun _ _ _ => Ret true).
Definition ex_funs (mm d : bytes) : list func :=
  if beqb mm (b "config") then [mkfunc mm (Some ([], None, First)) (fun _ _ _ => Ret true)]
  else if beqb mm (b "version") then [mkfunc mm (Some ([b "config"], None, Before)) (fun _ _ _ => Do Load [] (b "in.base") (fun _ => Ret true))]
  else if beqb mm (b "dist") then [mkfunc mm (Some ([], Some (fun _ => After), Before)) (fun _ _ _ => Ret true)]
  else if beqb mm (b "in") then [ex_simple (b "in.base"); mkfunc mm None (fun sc _ _ => Do (Init false) sc (b "in.base") (fun _ => Ret true))]
  else if beqb mm (b "tool") then [mkfunc mm None (fun _ _ o => if o then Ret false else Err)]
  else [ex_simple mm].
Definition ex_imp (p : nat) (mm : bytes) (boot opt dry : bool) : imp_result := if beqb mm (b "none") then (if opt then NotFound else ImpFail) else Found [].
Definition ex_bundled (mm : bytes) : bool := beqb mm (b "config").
Definition ex_build : prog := Do (Init false) [] (b "in") (fun _ => Do (Init true) [] (b "none") (fun _ => Do (Init true) [] (b "tool") (fun _ => Ret true))).
Definition ex_cs : list command := [Bootstrap 0 [b "version"; b "dist"]; Root 0 ex_build; Buildfile 0 (Do (Init false) [b "sub"] (b "in") (fun _ => Ret true))].
Lemma ex_proper : proper ex_funs.
Proof.
  intros mm d Mm. unfold ex_funs. repeat match goal with |- context [beqb mm ?x] => destruct (beqb mm x) eqn:?; [match goal with H : beqb mm _ = true |- _ => apply beqb_eq in H; subst mm end|] end.
  all: split; [eexists; split; [cbn; now auto|reflexivity]|cbn; intros f Hf; repeat match goal with H : _ \/ _ |- _ => destruct H end; subst; try contradiction; try reflexivity; exact Mm].
Qed.
Lemma ex_strict : strict ex_funs.
Proof.
  intros mm d f sc first If. unfold ex_funs in If.
  repeat match goal with H : context [beqb mm ?x] |- _ => destruct (beqb mm x) end; cbn in If; repeat match goal with H : _ \/ _ |- _ => destruct H end; subst; try contradiction; cbn;
    intros M; repeat match goal with H : may_return _ _ |- _ => inversion H; clear H; subst end.
Qed.
Lemma ex_acyclic : acyclic ex_funs.
Proof.
  exists (fun m => if beqb m (b "in.base") then 0 else if beqb m (b "in") then 1 else if beqb m (b "version") then 1 else 0).
  intros mm d f sc first opt m If. unfold ex_funs in If.
  destruct (beqb mm (b "config")) eqn:?; [|destruct (beqb mm (b "version")) eqn:?; [|destruct (beqb mm (b "dist")) eqn:?; [|destruct (beqb mm (b "in")) eqn:?; [|destruct (beqb mm (b "tool")) eqn:?]]]];
    repeat match goal with H : beqb mm _ = true |- _ => apply beqb_eq in H; subst mm end; cbn in If; repeat match goal with H : _ \/ _ |- _ => destruct H end; subst; try contradiction; cbn; intros U;
    try (destruct opt); repeat match goal with H : uses _ _ |- _ => inversion H; clear H; subst end; cbn; auto.
Qed.
(* The build, in the order of time: config before version, which gets in.base; then root.build; then dist. *)
Example ex_exec : exists s, exec ex_imp ex_funs ex_bundled 5 ex_cs = (s, Done tt) /\
  rev (log s) = [Import 0 (b "version") true false false; Import 0 (b "config") true false false; Import 0 (b "dist") true false false;
    Enter 0 [] (b "config") true false; Leave 0 [] (b "config") true;
    Enter 0 [] (b "version") true false; Import 0 (b "in") false false false; Enter 0 [] (b "in.base") true false; Leave 0 [] (b "in.base") true; Leave 0 [] (b "version") true;
    Sourced 0; Enter 0 [] (b "in") true false; Leave 0 [] (b "in") true; Import 0 (b "none") false true false; Import 0 (b "tool") false true false;
    Enter 0 [] (b "tool") true true; Leave 0 [] (b "tool") false;
    Enter 0 [] (b "dist") true false; Leave 0 [] (b "dist") true;
    Enter 0 [b "sub"] (b "in") false false; Enter 0 [b "sub"] (b "in.base") false false; Leave 0 [b "sub"] (b "in.base") true; Leave 0 [b "sub"] (b "in") true].
Proof. vm_compute. eexists. split; reflexivity. Qed.
Example ex_booted : exists s, exec ex_imp ex_funs ex_bundled 5 [Bootstrap 0 [b "version"; b "dist"]] = (s, Done tt) /\ stage s 0 = 1 /\
  map (fun e => (ms_name e, ms_boot e)) (loaded s 0) = [(b "version", Some Before); (b "config", Some First); (b "dist", Some After)].
Proof. eexists. vm_compute. split; [reflexivity|now split]. Qed.
Example ex_unused : ~ used ex_funs (b "dist") /\ ~ uses ex_build (b "dist").
Proof.
  split.
  - intros (mm & d & f & sc & first & opt & If & U). unfold ex_funs in If.
    repeat match goal with H : context [beqb mm ?x] |- _ => destruct (beqb mm x) end; cbn in If; repeat match goal with H : _ \/ _ |- _ => destruct H end; subst; try contradiction; cbn in U; try (destruct opt);
      repeat match goal with H : uses _ _ |- _ => inversion H; clear H; subst end.
  - intros U. unfold ex_build in U. repeat match goal with H : uses _ _ |- _ => inversion H; clear H; subst end.
Qed.

(* Another project finds a module elsewhere: an error. *)
Definition ex_imp2 (p : nat) (mm : bytes) (boot opt dry : bool) : imp_result := Found (if Nat.eqb p 0 then [] else b "/proj/").
Example ex_inconsistent : snd (exec ex_imp2 ex_funs ex_bundled 5 [Bootstrap 0 []; Root 0 ex_build; Bootstrap 1 []; Root 1 ex_build]) = Failed.
Proof. reflexivity. Qed.

(* Not so: without the optional argument, load_module may return a module that isn't configured (there is a TODO on it in the code). Its modules are strict. *)
Theorem C90_load_refuted : exists imp funs bundled n cs s p sc m s',
  proper funs /\ strict funs /\ exec imp funs bundled n cs = (s, Done tt) /\ stage s p = 2 /\ ask (init_module imp funs bundled n p) p Load sc m s = (s', Done true) /\
  visible (vars s') p sc m = Some (true, false).
Proof.
  exists ex_imp, ex_funs, ex_bundled, 5, ex_cs. eexists. exists 0, [], (b "tool"). eexists. split; [exact ex_proper|]. split; [exact ex_strict|]. split; [vm_compute; reflexivity|].
  split; [reflexivity|]. split; vm_compute; reflexivity.
Qed.
Print Assumptions C90_load_refuted.

(* Not so: a module that is asked for in the course of its init() is initialized again, since it is said to be loaded only after. *)
Definition ex_loop (mm d : bytes) : list func := [mkfunc mm None (fun sc first _ => if first then Do (Init false) sc mm (fun _ => Ret true) else Ret true)].
Theorem C90_within_refuted : exists imp funs bundled n cs s p sc m,
  proper funs /\ strict funs /\ exec imp funs bundled n cs = (s, Done tt) /\ calls p sc m (log s) = 2.
Proof.
  exists ex_imp, ex_loop, ex_bundled, 5, [Bootstrap 0 []; Root 0 (Do (Init false) [] (b "a") (fun _ => Ret true))]. eexists. exists 0, [], (b "a").
  split; [intros mm d Mm; split; [eexists; split; [now left|reflexivity]|intros f [<-|[]]; exact Mm]|].
  split; [intros mm d f sc first [<-|[]]; cbn; destruct first; intros M; repeat match goal with H : may_return _ _ |- _ => inversion H; clear H; subst end|].
  split; vm_compute; reflexivity.
Qed.
Print Assumptions C90_within_refuted.

(* Not so: the second using of a module that says that it isn't configured, although it is not optional, fails where the first doesn't. *)
Definition ex_lax (mm d : bytes) : list func := [mkfunc mm None (fun _ _ _ => Ret false)].
Theorem C90_repeat_refuted : exists imp funs bundled n s p sc m s1 s2,
  proper funs /\ exec imp funs bundled n [Bootstrap p []; Root p (Ret true)] = (s, Done tt) /\
  init_module imp funs bundled n p sc m false s = (s1, Done false) /\ init_module imp funs bundled n p sc m false s1 = (s2, Failed).
Proof.
  exists ex_imp, ex_lax, ex_bundled, 5. eexists. exists 0, [], (b "a"). eexists. eexists.
  split; [intros mm d Mm; split; [eexists; split; [now left|reflexivity]|intros f [<-|[]]; exact Mm]|]. split; [vm_compute; reflexivity|]. split; vm_compute; reflexivity.
Qed.
Print Assumptions C90_repeat_refuted.
