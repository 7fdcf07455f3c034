(* C70. Executing a buildspec. *)
From Verif Require Import Base RunModel RunSpec RunProofs RunProofs2 RunProofs3.
From Coq Require Import Lia.

Section Props.
Context (builtin : bytes -> bool) (defines_meta defines_op : nat -> bytes -> bool) (builtin_op : bytes -> bool)
        (meta_of : nat -> bytes -> option metainfo) (op_of : nat -> bytes -> option opinfo) (here : nat).
Notation Plan := (Plan builtin defines_meta here).
Notation Runs := (Runs builtin defines_meta meta_of op_of here).
Notation Stopped := (Stopped builtin defines_meta meta_of op_of here).
Notation Coherent := (Coherent builtin defines_meta here).
Notation run_buildspec := (run_buildspec builtin defines_meta defines_op builtin_op meta_of op_of here).

(* The empty buildspec stands for the default meta-operation. *)
Definition written (ms : list metaopspec) : list metaopspec := match ms with [] => [mkmeta [] 0 []] | _ => ms end.

(* Every buildspec has exactly one plan. *)
Theorem C70_plan ms : exists js, Plan ms js /\ forall js', Plan ms js' -> js' = js.
Proof. exists (plan builtin defines_meta here ms). split; [apply Plan_ex | apply Plan_fun]. Qed.

(* It is executed as planned or execution stops where something is not supported. *)
Theorem C70_executed ms js fuel :
  Sane builtin defines_meta defines_op builtin_op meta_of op_of -> Coherent (written ms) -> Plan (written ms) js -> enough (written ms) <= fuel ->
  match run_buildspec fuel ms with
  | RDone es => Runs js es
  | RFail es => Stopped js es /\ forall es', ~ Runs js es'
  | _ => False
  end.
Proof.
  intros S C P F. rewrite (Plan_fun _ _ _ _ _ P). unfold RunModel.run_buildspec. fold (written ms).
  set (w := written ms) in *. assert (Nw : w <> []) by (subst w; unfold written; destruct ms; discriminate). clearbody w.
  assert (Hc : forall m o, In m w -> In o (all_ops m) -> CoherentOp builtin defines_meta here (used here w) o).
  { intros m o Hm Ho. split.
    - intros t Ht. unfold used. apply in_flat_map. exists m. split; [exact Hm |]. apply in_flat_map. exists o. auto.
    - intros t Ht N D. exact (C m o t Hm Ho Ht N D). }
  assert (Hi : Inv (used here w) None 0 w). { destruct w as [| m ms']; [exact I |]. cbn. split; [congruence |]. split; [lia | exact I]. }
  destruct (run_ok builtin defines_meta defines_op builtin_op meta_of op_of here S (used here w) fuel None 0 false [] [] w (fun x (H : In x []) => match H with end) Hc Hi) as [H1 H2].
  assert (L : measure None 0 w < fuel).
  { unfold enough, measure in *. destruct w as [| m ms']; cbn [fold_right] in *; unfold cost; lia. }
  specialize (H2 L).
  assert (E1 : remaining builtin defines_meta here None 0 w = plan builtin defines_meta here w) by (destruct w; reflexivity).
  rewrite E1 in H1. assert (Np : plan builtin defines_meta here w <> []).
  { destruct w as [| m ms']; [congruence |]. cbn. destruct (is_empty (mname m)); [| discriminate].
    pose proof (jobs_nonempty builtin defines_meta here (mparams m) (all_ops m)) as J.
    assert (A : all_ops m <> []) by (unfold all_ops; destruct (ops m); discriminate).
    destruct (jobs builtin defines_meta here (mparams m) (all_ops m)); [exfalso; apply J; auto | discriminate]. }
  destruct (run builtin defines_meta defines_op builtin_op meta_of op_of here fuel None 0 false [] [] w) as [es | | es |]; cbn [Outcome] in H1.
  - destruct H1 as ((e & -> & St) & N). split; [exact St |]. intros es' (ess & R & _). exact (N ess R).
  - exact H1.
  - destruct H1 as (ess & R & ->). exists ess. split; [exact R |].
    destruct (plan builtin defines_meta here w); [congruence | reflexivity].
  - congruence.
Qed.

(* Everything that starts ends, in the opposite order. *)
Lemma balanced_loads ts : Balanced (map Load ts).
Proof. induction ts as [| t ts IH]; [constructor |]. apply (B_app [Load t]); [apply B_one; exact I | exact IH]. Qed.
Lemma balanced_act a ts : Balanced (matched_and_executed a ts).
Proof. apply (B_app [Match a ts]); apply B_one; exact I. Qed.
Lemma balanced_aux m o q p body : Balanced body -> Balanced (auxiliary m o q p body).
Proof. intros H. apply B_op. apply (B_app [Current q o]); [apply B_one; exact I |]. apply B_enter, B_enter, H. Qed.
Lemma balanced_proper o u p body : Balanced body -> Balanced (proper o u p body).
Proof.
  intros H. apply (B_app [Current (oid o) (outer o)]); [apply B_one; exact I |]. destruct u.
  - apply B_enter, B_enter, H.
  - apply B_enter, H.
Qed.
Lemma balanced_op m r p ts : Balanced (op_events m r p ts).
Proof.
  apply B_op. apply B_app.
  - destruct (rpre r).
    + apply B_app; [apply balanced_aux, B_app; [apply balanced_loads | apply balanced_act] | apply balanced_proper, balanced_act].
    + apply balanced_proper, B_app; [apply balanced_loads | apply balanced_act].
  - destruct (rpost r); [apply balanced_aux, balanced_act | constructor].
Qed.
Theorem C70_balanced js es : Runs js es -> Balanced es.
Proof.
  intros (ess & F & ->). induction F as [| j e js ess (mi & es & _ & G & ->) F IH]; [constructor |].
  assert (B : Balanced (within (MetaPre (jname j) (jparams j)) (MetaPost (jname j)) (concat es))).
  { apply B_meta. induction G as [| o e' os es' (_ & r & _ & _ & ->) G IH']; [constructor |]. apply B_app; [apply balanced_op | exact IH']. }
  destruct ess as [| e' ess]; [exact B |].
  change (in_contexts (within (MetaPre (jname j) (jparams j)) (MetaPost (jname j)) (concat es) :: e' :: ess))
    with (within (MetaPre (jname j) (jparams j)) (MetaPost (jname j)) (concat es) ++ [Fresh] ++ in_contexts (e' :: ess)).
  apply B_app; [exact B |]. apply B_app; [apply B_one; exact I | exact IH].
Qed.
End Props.

(* Two projects: the first has a meta-operation gen, the second has an operation gen. Both can be updated and tested, testing
   updates first. *)
Definition ex_update : bytes := b "update".
Definition ex_test : bytes := b "test".
Definition ex_gen : bytes := b "gen".
Definition ex_configure : bytes := b "configure".
Definition ex_none (m : bytes) : bytes := [].
Definition ex_builtin (m : bytes) : bool := beqb m perform || beqb m ex_configure.
Definition ex_builtin_op (o : bytes) : bool := beqb o default || beqb o ex_update || beqb o ex_test.
Definition ex_defines_meta (t : nat) (m : bytes) : bool := (t =? 1) && beqb m ex_gen.
Definition ex_defines_op (t : nat) (o : bytes) : bool := (t =? 2) && beqb o ex_gen.
Definition ex_translated (o : bytes) : bytes := if beqb o default then ex_update else o.
Definition ex_meta_of (t : nat) (m : bytes) : option metainfo :=
  if beqb m perform then Some (mkmetainfo 1 ex_translated) else if beqb m ex_configure then Some (mkmetainfo 2 (fun o => o))
  else if (t =? 1) && beqb m ex_gen then Some (mkmetainfo 3 ex_translated) else None.
Definition ex_op_of (t : nat) (o : bytes) : option opinfo :=
  if beqb o default then Some (mkopinfo default 1 [] ex_none ex_none)
  else if beqb o ex_update then Some (mkopinfo ex_update 2 [] ex_none ex_none)
  else if beqb o ex_test then Some (mkopinfo ex_test 3 [] (fun m => if beqb m perform then ex_update else []) ex_none)
  else if (t =? 2) && beqb o ex_gen then Some (mkopinfo ex_gen 4 [] ex_none ex_none) else None.
Notation ex_run := (run_buildspec ex_builtin ex_defines_meta ex_defines_op ex_builtin_op ex_meta_of ex_op_of 0).
Lemma ex_sane : Sane ex_builtin ex_defines_meta ex_defines_op ex_builtin_op ex_meta_of ex_op_of.
Proof.
  unfold Sane, ex_builtin, ex_builtin_op, ex_defines_meta, ex_defines_op, ex_meta_of, ex_op_of. repeat split.
  - intros t m H. destruct (beqb m perform); [auto |]. destruct (beqb m ex_configure); [auto |]. destruct ((t =? 1) && beqb m ex_gen); [auto | congruence].
  - intros t o H. destruct (beqb o default); [auto |]. destruct (beqb o ex_update); [auto |]. destruct (beqb o ex_test); [auto |].
    destruct ((t =? 2) && beqb o ex_gen); [auto | congruence].
  - intros t. destruct (t =? 1); reflexivity.
Qed.

(* A meta-operation of one project hides the operation of the same name of another one: each of update(1) and gen(2) can be
   executed on its own, but not one after another. *)
Theorem C70_hidden_refuted : exists builtin defines_meta defines_op builtin_op meta_of op_of here o1 o2 fuel es1 es2 es,
  Sane builtin defines_meta defines_op builtin_op meta_of op_of /\
  let run os := run_buildspec builtin defines_meta defines_op builtin_op meta_of op_of here fuel [mkmeta [] 0 os] in
  run [o1] = RDone es1 /\ run [o2] = RDone es2 /\ run [o1; o2] = RFail es /\ 10 <= fuel.
Proof.
  exists ex_builtin, ex_defines_meta, ex_defines_op, ex_builtin_op, ex_meta_of, ex_op_of, 0, (mkop ex_update 0 [1]), (mkop ex_gen 0 [2]), 10.
  do 3 eexists. split; [exact ex_sane |]. cbv zeta. split; [vm_compute; reflexivity |]. split; [vm_compute; reflexivity |]. split; [vm_compute; reflexivity | lia].
Qed.
(* And an assertion fails instead of issuing diagnostics if both are targets of the same operation. *)
Theorem C70_assertion_refuted : exists builtin defines_meta defines_op builtin_op meta_of op_of here ms,
  Sane builtin defines_meta defines_op builtin_op meta_of op_of /\
  run_buildspec builtin defines_meta defines_op builtin_op meta_of op_of here (enough ms) ms = RAssert.
Proof.
  exists ex_builtin, ex_defines_meta, ex_defines_op, ex_builtin_op, ex_meta_of, ex_op_of, 0, [mkmeta [] 0 [mkop ex_gen 0 [2; 1]]].
  split; [exact ex_sane | vm_compute; reflexivity].
Qed.

(* b update(1 2) gen(1) test(2): hypotheses hold. *)
Definition ex_ms : list metaopspec := [mkmeta [] 0 [mkop ex_update 0 [1; 2]; mkop ex_gen 7 [1]; mkop ex_test 0 [2]]].
Example C70_coherent_example : Coherent ex_builtin ex_defines_meta 0 ex_ms.
Proof.
  intros m o t [<- | []] Ho _ N D. cbn in Ho. unfold ex_defines_meta in D. apply andb_true_iff in D. destruct D as [_ D]. apply beqb_eq in D.
  destruct Ho as [<- | [<- | [<- | []]]]; try (cbv in D; discriminate). split; [exact N | right; reflexivity].
Qed.
Example C70_plan_example : plan ex_builtin ex_defines_meta 0 ex_ms =
  [mkjob perform 0 [mkop ex_update 0 [1; 2]]; mkjob ex_gen 7 [mkop [] 0 [1]]; mkjob perform 0 [mkop ex_test 0 [2]]].
Proof. vm_compute. reflexivity. Qed.
Example C70_executed_example : ex_run (enough ex_ms) ex_ms = RDone
  ([MetaPre perform 0; OpPre perform ex_update; Current ex_update []; Enter ex_update 0 true; Load 1; Load 2;
    Match (perform, ex_update, []) [1; 2]; Execute (perform, ex_update, []) [1; 2]; Leave ex_update true; OpPost perform ex_update; MetaPost perform; Fresh] ++
   [MetaPre ex_gen 7; OpPre ex_gen default; Current ex_update []; Enter ex_update 0 true; Load 1;
    Match (ex_gen, ex_update, []) [1]; Execute (ex_gen, ex_update, []) [1]; Leave ex_update true; OpPost ex_gen ex_update; MetaPost ex_gen; Fresh] ++
   [MetaPre perform 0; OpPre perform ex_test;
    OpPre perform ex_update; Current ex_update ex_test; Enter ex_test 0 false; Enter ex_update 0 true; Load 2;
    Match (perform, ex_update, ex_test) [2]; Execute (perform, ex_update, ex_test) [2]; Leave ex_update true; Leave ex_test false; OpPost perform ex_update;
    Current ex_test []; Enter ex_test 0 true; Match (perform, ex_test, []) [2]; Execute (perform, ex_test, []) [2]; Leave ex_test true;
    OpPost perform ex_test; MetaPost perform]).
Proof. vm_compute. reflexivity. Qed.
(* b configure(configure(1)) is a nested meta-operation, update(1) before it is executed. *)
Example C70_failed_example : ex_run 20 [mkmeta [] 0 [mkop ex_update 0 [1]]; mkmeta ex_configure 0 [mkop ex_configure 0 [1]]] = RFail
  [MetaPre perform 0; OpPre perform ex_update; Current ex_update []; Enter ex_update 0 true; Load 1;
   Match (perform, ex_update, []) [1]; Execute (perform, ex_update, []) [1]; Leave ex_update true; OpPost perform ex_update; MetaPost perform; Fresh].
Proof. vm_compute. reflexivity. Qed.

Print Assumptions C70_plan.
Print Assumptions C70_executed.
Print Assumptions C70_balanced.
Print Assumptions C70_hidden_refuted.
Print Assumptions C70_assertion_refuted.
