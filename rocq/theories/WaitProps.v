(* Properties of waiting for task counts: C18. *)
From Verif Require Import Base WaitModel WaitSpec WaitProofs.

(* A call of wait () that returns tc does so in a state in which the task count
   is tc, and tc is not greater than the start count. *)
Theorem C18_wait_returns_when_dropped : forall hash size c l s o s' i w tc,
  wrun hash size (wstart c) l = Some s -> wstep hash size s o = Some s' ->
  nth_error (waiters s') i = Some w -> w_state w = WDone tc -> nth_error (waiters s) i <> Some w ->
  tc = count_of s' (w_count w) /\ tc <= w_start w.
Proof.
  intros hash size c l s o s' i w tc _ Hs Hi Hw Hn. destruct (done_step hash size s o s' i w tc Hs Hi Hw) as [H|H]; [contradiction|exact H].
Qed.
Print Assumptions C18_wait_returns_when_dropped.

(* If the count is only changed by starting and finishing tasks then, when
   wait () with the value the count had before the tasks were started returns, all
   of these tasks are finished. *)
Theorem C18_all_tasks_finished : forall hash size c l s o s' i w tc,
  wrun hash size (wstart c) l = Some s -> wstep hash size s o = Some s' -> no_store (l ++ [o]) ->
  nth_error (waiters s') i = Some w -> w_state w = WDone tc -> nth_error (waiters s) i <> Some w ->
  w_start w <= c (w_count w) -> tasks_of (w_count w) s' = 0.
Proof.
  intros hash size c l s o s' i w tc Hr Hs Hn Hi Hw Hnew Hst.
  destruct (C18_wait_returns_when_dropped hash size c l s o s' i w tc Hr Hs Hi Hw Hnew) as [E1 E2].
  assert (forall a, count_of s a = c a + tasks_of a s) as H1.
  { apply (count_run hash size c l (wstart c) s); [|intros a; cbn; lia|exact Hr]. intros a v Hin. apply (Hn a v). apply in_or_app. left; exact Hin. }
  assert (forall a, count_of s' a = c a + tasks_of a s') as H2.
  { eapply count_step; [|exact H1|exact Hs]. intros a v ->. apply (Hn a v). apply in_or_app. right; left; reflexivity. }
  specialize (H2 (w_count w)). lia.
Qed.
Print Assumptions C18_all_tasks_finished.

(* A thread sleeps only if the count has not dropped yet, or somebody is about
   to wake it up: no wakeup is lost. *)
Theorem C18_no_lost_wakeup : forall hash size c l s w,
  start_counts_agree l -> wrun hash size (wstart c) l = Some s -> In w (waiters s) -> asleep w ->
  w_start w < count_of s (w_count w) \/ In (w_count w) (resumes s) \/ slot_shutdown s (slot hash size (w_count w)) = true.
Proof.
  intros hash size c l s w Ha Hr Hw Hs.
  eapply (wi_sleep hash size l s); [|exact Hw|exact Hs].
  eapply winv_run; [exact Ha|apply incl_refl|apply winv_start|exact Hr].
Qed.
Print Assumptions C18_no_lost_wakeup.

(* In particular: when all tasks of a group are finished and all calls of
   resume () were made, nobody who waits for the group sleeps. *)
Theorem C18_nobody_sleeps_after_completion : forall hash size c l s w,
  start_counts_agree l -> no_store l -> no_shutdown l -> wrun hash size (wstart c) l = Some s ->
  In w (waiters s) -> c (w_count w) <= w_start w -> tasks_of (w_count w) s = 0 -> resumes s = [] -> ~ asleep w.
Proof.
  intros hash size c l s w Ha Hn Hd Hr Hw Hst Ht Hre Hs.
  destruct (C18_no_lost_wakeup hash size c l s w Ha Hr Hw Hs) as [H|[H|H]].
  - pose proof (count_run hash size c l (wstart c) s Hn ltac:(intros a; cbn; lia) Hr (w_count w)). lia.
  - rewrite Hre in H. destruct H.
  - rewrite (shutdown_run hash size l (wstart c) s Hd ltac:(reflexivity) Hr) in H. discriminate.
Qed.
Print Assumptions C18_nobody_sleeps_after_completion.

(* Two task counts that share a slot; the thread that waits for the first goes
   to sleep, a task of the second finishes and wakes it up for nothing, then the
   task of the first finishes. *)
Definition shared : list wop :=
  [Async 0 3; Async 1 5; Wait 0 3; Lock 0; Finish 0; Resume 0; Lock 0; Finish 0].
Definition c35 (a : nat) : nat := if a =? 0 then 3 else 5.

Example C18_ex : exists s w, wrun (fun _ => 0) 7 (wstart c35) shared = Some s /\ start_counts_agree shared /\ no_store shared /\ no_shutdown shared /\
  waiters s = [w] /\ asleep w /\ count_of s 0 = 3 /\ resumes s = [0].
Proof.
  eexists. eexists. split; [vm_compute; reflexivity|]. repeat split.
  - intros a st sw H1 H2. cbn in *. repeat (destruct H2 as [H2|H2]; try discriminate); [|contradiction]. injection H2 as <- <-.
    repeat (destruct H1 as [H1|H1]; try discriminate); [|contradiction]. injection H1 as <-. lia.
  - intros a v H. cbn in H. repeat (destruct H as [H|H]; try discriminate). exact H.
  - intros j H. cbn in H. repeat (destruct H as [H|H]; try discriminate). exact H.
Qed.

Example C18_ex_returns : exists s s' w, wrun (fun _ => 0) 7 (wstart c35) (shared ++ [Resume 0]) = Some s /\
  wstep (fun _ => 0) 7 s (Lock 0) = Some s' /\ nth_error (waiters s') 0 = Some w /\ w_state w = WDone 3 /\ nth_error (waiters s) 0 <> Some w.
Proof.
  eexists. eexists. eexists. split; [vm_compute; reflexivity|]. split; [vm_compute; reflexivity|]. split; [vm_compute; reflexivity|].
  split; [reflexivity|]. vm_compute. discriminate.
Qed.

(* The condition on start counts is needed: if a task is started with a start
   count lower than that of the thread that waits then nobody wakes it up when
   the count has dropped enough for it. *)
Theorem C18_without_agreement_refuted :
  ~ (forall hash size c l s w, wrun hash size (wstart c) l = Some s -> In w (waiters s) -> asleep w ->
     w_start w < count_of s (w_count w) \/ In (w_count w) (resumes s) \/ slot_shutdown s (slot hash size (w_count w)) = true).
Proof.
  intros H. specialize (H (fun _ => 0) 7 (fun _ => 0) [Async 0 0; Async 0 0; Wait 0 1; Lock 0; Finish 0]).
  destruct (wrun (fun _ => 0) 7 (wstart (fun _ => 0)) [Async 0 0; Async 0 0; Wait 0 1; Lock 0; Finish 0]) as [s|] eqn:E; [|vm_compute in E; discriminate].
  specialize (H s (mkwaiter 0 1 WAsleep) eq_refl). vm_compute in E. injection E as <-. cbn in H.
  destruct (H (or_introl eq_refl) eq_refl) as [H'|[H'|H']]; [lia|contradiction|discriminate].
Qed.
Print Assumptions C18_without_agreement_refuted.
