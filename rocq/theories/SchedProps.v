(* Properties of the scheduler: C16, C17, C42, C43. *)
From Verif Require Import Base SchedModel SchedSpec SchedProofs SchedProofs2 SchedProofs3.

(* A run used in the examples below: two threads may be active. The main thread
   and two helpers take turns; the main thread waits and then has to wait for
   its turn, with a task left in the queue. *)
Definition busy_run : list op :=
  [Push 0; PushedLock 0 0; HelperStart 1; Take 1; Deactivate 0 false 0; Push 1; PushedLock 1 0; HelperStart 2; Take 2;
   Activate 0; Push 1; PushedLock 1 0].
(* Both helpers then wait, and the main thread gets its turn. *)
Definition drained_run : list op := busy_run ++ [Deactivate 1 false 0; Deactivate 2 false 0].

(* C16: before shutdown, the threads that run, the threads that were allocated
   to somebody, and the jobs that were given to jobserver clients are never
   more than the maximum number of active threads. *)
Theorem C16_active_limit : forall m n l s, 1 <= m -> run (startup m n) l = Some s -> shutdown s = false ->
  count running s + alloc s + js_active s <= max_active s.
Proof.
  intros m n l s Hm Hr Hs. pose proof (run_inv l _ _ (inv_startup m n Hm) Hr) as H.
  pose proof (i_active _ H). pose proof (i_limit _ H Hs). unfold count, cnt in *. lia.
Qed.
Print Assumptions C16_active_limit.

Example C16_active_limit_ex : exists s, run (startup 2 8) busy_run = Some s /\ shutdown s = false /\
  count running s = 2 /\ count in_line_asleep s = 1 /\ max_active s = 2.
Proof. eexists. split; [vm_compute; reflexivity|]. vm_compute. auto. Qed.

(* The limit also holds with allocated threads and jobserver clients. *)
Example C16_active_limit_ex2 : exists s, run (startup 4 8) [Allocate 0 2; JsAllocate] = Some s /\ shutdown s = false /\
  count running s = 1 /\ alloc s = 2 /\ js_active s = 1 /\ max_active s = 4.
Proof. eexists. split; [vm_compute; reflexivity|]. vm_compute. auto 10. Qed.

(* C17: each counter is the number of threads in the state it stands for, and
   the counters add up to the number of threads. *)
Theorem C17_counters : forall m n l s, 1 <= m -> run (startup m n) l = Some s ->
  active s = count running s + alloc s + js_active s /\
  idle s = count is_idle s /\
  waiting s = count blocked s /\
  external s = count blocked_external s /\
  ready s = count in_line s /\
  starting s = count is_starting s /\
  helpers s = count live_helper s /\
  active s + idle s + waiting s + ready s + starting s = 1 + helpers s + alloc s + js_active s.
Proof.
  intros m n l s Hm Hr. pose proof (run_inv l _ _ (inv_startup m n Hm) Hr) as H.
  destruct H as [I1 I2 I3 I4 I5 I6 I7 I8 I9 I10 I11 I12 I13 I14].
  pose proof (counts_sum _ I11). unfold count. unfold cnt in *. repeat split; lia.
Qed.
Print Assumptions C17_counters.

Example C17_counters_ex : exists s, run (startup 2 8) drained_run = Some s /\
  active s = 0 /\ waiting s = 2 /\ ready s = 1 /\ helpers s = 2 /\ queued s = 1.
Proof. eexists. split; [vm_compute; reflexivity|]. vm_compute. auto 10. Qed.

(* C42: tasks are never stranded: if there are queued tasks and no thread is
   active then some thread has been woken up or is starting. *)
Theorem C42_no_stall : forall m n l s, 1 <= m -> run (startup m n) l = Some s -> no_start_fail l -> shutdown s = false ->
  active s = 0 -> queued s <> 0 -> about_to_run s.
Proof.
  intros m n l s Hm Hr Hn Hs Ha Hq. pose proof (inv_startup m n Hm) as H0.
  assert (J (startup m n)) as J0 by (apply j_active; cbn; lia).
  destruct (run_j l _ _ Hn H0 J0 Hr Hs Ha) as [H|[H _]]; [|contradiction].
  unfold about_to_run, count. unfold cnt in H. lia.
Qed.
Print Assumptions C42_no_stall.

Example C42_no_stall_ex : exists s, run (startup 2 8) drained_run = Some s /\ no_start_fail drained_run /\ shutdown s = false /\
  active s = 0 /\ queued s = 1 /\ count in_line_notified s = 1.
Proof.
  eexists. split; [vm_compute; reflexivity|]. split; [|vm_compute; auto 10].
  intros i Hi. cbn in Hi. repeat (destruct Hi as [Hi|Hi]; [discriminate|]). exact Hi.
Qed.

(* A thread whose wait is over never stays asleep if there is room for it that
   nobody who was already woken up is going to take. *)
Theorem C42_ready_thread_not_forgotten : forall m n l s, 1 <= m -> run (startup m n) l = Some s -> shutdown s = false ->
  count in_line_asleep s <> 0 -> max_active s <= active s + count in_line_notified s.
Proof.
  intros m n l s Hm Hr Hs Ha. pose proof (run_inv l _ _ (inv_startup m n Hm) Hr) as H.
  destruct (i_line _ H Hs) as [E|E]; [|unfold count; unfold cnt in E; lia].
  exfalso. apply Ha. exact E.
Qed.
Print Assumptions C42_ready_thread_not_forgotten.

Example C42_ready_thread_not_forgotten_ex : exists s, run (startup 2 8) busy_run = Some s /\ shutdown s = false /\
  count in_line_asleep s = 1 /\ active s = 2.
Proof. eexists. split; [vm_compute; reflexivity|]. vm_compute. auto. Qed.

(* What does not hold: that queued tasks are picked up as soon as there is room
   for another active thread. Both helpers start to wait while the main thread
   waits for its turn: both wake up the main thread. It then runs alone although
   there is a queued task and room for one more thread, and nobody is woken up
   until it queues another task or waits. *)
Theorem C42_spare_capacity_is_used_refuted :
  ~ (forall m n l s, 1 <= m -> run (startup m n) l = Some s -> no_start_fail l -> shutdown s = false ->
     active s < max_active s -> queued s <> 0 -> helpers s < max_threads s ->
     about_to_run s \/ exists i, state_of s i = Some TPushed).
Proof.
  intros H. specialize (H 2 8 (drained_run ++ [Wake 0])).
  destruct (run (startup 2 8) (drained_run ++ [Wake 0])) as [s|] eqn:E; [|vm_compute in E; discriminate].
  specialize (H s (le_S _ _ (le_n _)) eq_refl). vm_compute in E. injection E as <-.
  assert (no_start_fail (drained_run ++ [Wake 0])) as Hn.
  { intros i Hi. cbn in Hi. repeat (destruct Hi as [Hi|Hi]; [discriminate|]). exact Hi. }
  specialize (H Hn eq_refl). cbn in H.
  destruct H as [H|[i H]]; try lia.
  - unfold about_to_run in H. vm_compute in H. lia.
  - unfold state_of in H. cbn in H. destruct i as [|[|[|i]]]; cbn in H; try discriminate.
    destruct i; cbn in H; discriminate.
Qed.
Print Assumptions C42_spare_capacity_is_used_refuted.

(* C43: if no thread is active and none waits for something external (that is,
   nothing can happen any more) then the deadlock monitor has been woken up,
   unless some thread is about to run. *)
Theorem C43_deadlock_is_noticed : forall m n l s, 1 <= m -> run (startup m n) l = Some s -> no_start_fail l -> shutdown s = false ->
  active s = 0 -> count blocked_external s = 0 -> monitor s = true \/ about_to_run s.
Proof.
  intros m n l s Hm Hr Hn Hs Ha He. pose proof (inv_startup m n Hm) as H0.
  assert (J (startup m n)) as J0 by (apply j_active; cbn; lia).
  pose proof (i_external _ (run_inv l _ _ H0 Hr)) as Ex.
  destruct (run_j l _ _ Hn H0 J0 Hr Hs Ha) as [H|[_ H]].
  - right. unfold about_to_run, count. unfold cnt in H. lia.
  - left. apply H. rewrite Ex. exact He.
Qed.
Print Assumptions C43_deadlock_is_noticed.

(* Two threads wait, none for anything external. *)
Definition deadlock_run : list op := [Push 0; PushedLock 0 0; HelperStart 1; Take 1; Deactivate 0 false 0; Deactivate 1 false 0].
Example C43_deadlock_is_noticed_ex : exists s, run (startup 2 8) deadlock_run = Some s /\ no_start_fail deadlock_run /\ shutdown s = false /\
  active s = 0 /\ count blocked s = 2 /\ count blocked_external s = 0 /\ monitor s = true.
Proof.
  eexists. split; [vm_compute; reflexivity|]. split; [|vm_compute; auto 10].
  intros i Hi. cbn in Hi. repeat (destruct Hi as [Hi|Hi]; [discriminate|]). exact Hi.
Qed.
(* It is not woken up while a thread waits for something external. *)
Example C43_external_ex : exists s, run (startup 2 8) [Deactivate 0 true 0] = Some s /\ active s = 0 /\ count blocked_external s = 1 /\ monitor s = false.
Proof. eexists. split; [vm_compute; reflexivity|]. vm_compute. auto. Qed.
