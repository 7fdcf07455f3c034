(* C73: execution of testscripts. *)
From Verif Require Import Base TscrModel TscrSpec TscrProofs TscrProofs2.
From Coq Require Import Permutation.

Section Props.
Context (enters leaves : path -> bool) (run : nat -> outcome) (holds : nat -> check) (selected : path -> bool) (keep_going : bool).
Local Notation execution := (execution enters leaves run holds selected keep_going).
Local Notation step := (step enters leaves run holds selected keep_going).
Local Notation serial_script := (serial_script enters leaves run holds selected).

(* Whatever threads do, only what a serial execution would do is done, and at most as many times. If the execution ends, then the
   result is the result of the serial execution and, if it passed or we keep going, everything has been done. *)
Theorem C73_executed s es k : Sound s -> execution (script s) es k ->
  (exists rest, Permutation (fst (serial_script s)) (es ++ rest)) /\
  (forall passed, k = Done passed ->
     passed = snd (serial_script s) /\ (keep_going = true \/ passed = true -> Permutation (fst (serial_script s)) es)).
Proof.
  intros H E. assert (S : SoundP (script s)) by (unfold script; destruct (empty Always s); [exact I | exact H]).
  assert (R : TscrProofs.rest enters leaves run holds selected (script s) = serial_script s)
    by (unfold script, TscrSpec.serial_script; rewrite (empty_is_bare Always s H); destruct (bare Always s); reflexivity).
  destruct (execution_after _ _ _ _ _ _ _ _ _ E S) as (V & x & P & X). rewrite R in V, P, X. split.
  - eexists. exact P.
  - intros passed ->. cbn in V, P. split; [symmetry; exact V |]. intros K. rewrite <- V in K. rewrite (X K), app_nil_r in P. exact P.
Qed.

(* At no point has anything been done in a wrong order. *)
Theorem C73_order s es k : Unique s -> execution (script s) es k -> InOrder es.
Proof.
  intros U E. apply ordered_InOrder. unfold script in E. eapply (proj1 (execution_order _ _ _ _ _ _ _ _ _ E [] _)). Unshelve.
  destruct (empty Always s); [exact I | split; [reflexivity | exact U]].
Qed.

(* It always ends: from any point it is done or can continue, and it cannot continue forever. *)
Theorem C73_progress s es k : execution (script s) es k -> (exists passed, k = Done passed) \/ exists e k', step k e k'.
Proof. intros _. apply progress_all. Qed.
Theorem C73_ends s : exists n, forall f e, f 0 = script s -> (forall i, i < n -> step (f i) (e i) (f (S i))) -> False.
Proof.
  exists (S (weight (script s))). intros f e F H. assert (A : forall i, i <= S (weight (script s)) -> weight (f i) + i <= weight (script s)).
  { induction i as [| i IH]; intros L; [rewrite F; lia |]. pose proof (proj1 (step_weight _ _ _ _ _ _) _ _ _ (H i ltac:(lia))). specialize (IH ltac:(lia)). lia. }
  specialize (A _ (le_n _)). lia.
Qed.
End Props.

(* An if-else chain whose first block is empty is not executed if there is nothing else in the script, and the script passes. *)
Theorem C73_skipped_refuted : exists s enters leaves run holds selected keep_going,
  Unique s /\ snd (serial_script enters leaves run holds selected s) = false /\
  (forall es k, execution enters leaves run holds selected keep_going (script s) es k -> es = [] /\ k = Done true).
Proof.
  exists (Group None (CCons (b "t") (BCons (If false 0) (Test None) (BCons Else (Test (Some 1)) BNil)) CNil) None),
    (fun _ => true), (fun _ => true), (fun _ => Failure), (fun _ => No), (fun _ => true), true.
  split; [cbn; repeat constructor; intros [] |]. split; [reflexivity |]. cbn. intros es k E. inversion E; subst; [split; reflexivity |]. inversion H.
Qed.

Print Assumptions C73_executed.
Print Assumptions C73_order.
Print Assumptions C73_progress.
Print Assumptions C73_ends.
Print Assumptions C73_skipped_refuted.

(* Examples: setup, a test, an if-else chain with a nested group, teardown. *)
Definition ext_s : scope :=
  Group (Some 1) (CCons (b "a") (BCons Always (Test (Some 2)) BNil)
                 (CCons (b "g") (BCons (If false 3) (Test (Some 4))
                                (BCons Else (Group (Some 5) (CCons (b "x") (BCons Always (Test (Some 6)) BNil) CNil) None) BNil)) CNil)) (Some 7).
Definition ext_holds (k : nat) : check := No.
Definition yes (p : path) : bool := true.
Example C73_sound : Sound ext_s /\ Unique ext_s.
Proof. cbn. repeat split; repeat constructor; cbn; intuition discriminate. Qed.
Example C73_serial : serial_script yes yes (fun _ => Success) ext_holds yes ext_s =
  ([Enter []; Run [] SetupLines 1; Enter [b "a"]; Run [b "a"] TestLines 2; Leave [b "a"]; Check [] 3;
    Enter [b "g"]; Run [b "g"] SetupLines 5; Enter [b "g"; b "x"]; Run [b "g"; b "x"] TestLines 6; Leave [b "g"; b "x"]; Leave [b "g"];
    Run [] TeardownLines 7; Leave []], true).
Proof. reflexivity. Qed.
(* The test is executed by another thread, after the nested group was started. *)
Example C73_interleaved : exists es, execution yes yes (fun _ => Success) ext_holds yes false (script ext_s)
  ([Enter []; Run [] SetupLines 1; Check [] 3; Enter [b "g"]; Enter [b "a"]] ++ es) (Done true).
Proof.
  eexists. cbn.
  eapply (E_step _ _ _ _ _ _ _ [Enter []]); [apply S_enter |]. cbn.
  eapply (E_step _ _ _ _ _ _ _ [Run [] SetupLines 1]); [apply S_setup |]. cbn.
  eapply (E_step _ _ _ _ _ _ _ []); [apply S_chain; reflexivity |].
  eapply (E_step _ _ _ _ _ _ _ []); [apply (S_async _ _ _ _ _ _ _ _ Always); reflexivity |].
  eapply (E_step _ _ _ _ _ _ _ []); [apply S_chain; reflexivity |].
  eapply (E_step _ _ _ _ _ _ _ [Check [] 3]); [apply (S_no _ _ _ _ _ _ _ _ (If false 3)); reflexivity |].
  eapply (E_step _ _ _ _ _ _ _ []); [apply (S_sync _ _ _ _ _ _ _ _ Else); reflexivity |].
  eapply (E_step _ _ _ _ _ _ _ [Enter [b "g"]]); [apply S_inside, S_enter |]. cbn.
  eapply (E_step _ _ _ _ _ _ _ [Enter [b "a"]]); [apply S_kid_sync, S_first, S_enter |]. cbn.
  eapply (E_step _ _ _ _ _ _ _ [Run [b "g"] SetupLines 5]); [apply S_inside, S_setup |]. cbn.
  eapply (E_step _ _ _ _ _ _ _ []); [apply S_inside, S_chain; reflexivity |].
  eapply (E_step _ _ _ _ _ _ _ []); [apply S_inside, (S_sync _ _ _ _ _ _ _ _ Always); reflexivity |].
  eapply (E_step _ _ _ _ _ _ _ [Enter [b "g"; b "x"]]); [apply S_inside, S_inside, S_enter |]. cbn.
  eapply (E_step _ _ _ _ _ _ _ [Run [b "g"; b "x"] TestLines 6]); [apply S_inside, S_inside, S_test |]. cbn.
  eapply (E_step _ _ _ _ _ _ _ [Leave [b "g"; b "x"]]); [apply S_inside, S_inside, S_leave |]. cbn.
  eapply (E_step _ _ _ _ _ _ _ []); [apply S_inside, S_return |]. cbn.
  eapply (E_step _ _ _ _ _ _ _ []); [apply S_inside, S_end |].
  eapply (E_step _ _ _ _ _ _ _ []); [apply S_inside, S_wait; reflexivity |]. cbn.
  eapply (E_step _ _ _ _ _ _ _ []); [apply S_inside, (S_teardown _ _ _ _ _ _ _ None) |]. cbn.
  eapply (E_step _ _ _ _ _ _ _ [Leave [b "g"]]); [apply S_inside, S_leave |]. cbn.
  eapply (E_step _ _ _ _ _ _ _ [Run [b "a"] TestLines 2]); [apply S_kid_sync, S_first, S_test |]. cbn.
  eapply (E_step _ _ _ _ _ _ _ []); [apply S_return |]. cbn.
  eapply (E_step _ _ _ _ _ _ _ []); [apply S_end |].
  eapply (E_step _ _ _ _ _ _ _ [Leave [b "a"]]); [apply S_kid_wait, S_rest, S_first, S_leave |]. cbn.
  eapply (E_step _ _ _ _ _ _ _ []); [apply S_wait; reflexivity |]. cbn.
  eapply (E_step _ _ _ _ _ _ _ [Run [] TeardownLines 7]); [apply S_teardown |]. cbn.
  eapply (E_step _ _ _ _ _ _ _ [Leave []]); [apply S_leave |]. cbn.
  apply E_refl.
Qed.
