(* C14, C15 and C19: the scheduler's task queues. *)
From Coq Require Import Permutation.
From Verif Require Import Base QueueModel QueueSpec QueueProofs.

(* C14: whatever the owner and the helpers do, the queue behaves as a
   double-ended queue of at most D tasks and nothing goes out of bounds: the
   model's run never gets stuck. *)
Theorem C14_queue_is_a_deque : forall (A : Type) (D : nat) (l : list (@op A)), 0 < D ->
  exists rs w c, run D (mkworld (new_queue D) []) l = Some (rs, w) /\ deque_run D [] l rs c.
Proof.
  intros A D l HD. destruct (run_deque D HD l (mkworld (new_queue D) []) []) as [rs [w [c [H [_ H2]]]]].
  - apply rep_new; exact HD.
  - exists rs, w, c. split; [exact H|exact H2].
Qed.
Print Assumptions C14_queue_is_a_deque.

(* Every queued task is handed out exactly once or still queued. *)
Theorem C14_no_task_lost_or_repeated : forall (A : Type) (D : nat) (l : list (@op A)) rs w, 0 < D ->
  run D (mkworld (new_queue D) []) l = Some (rs, w) ->
  exists c, Permutation (queued l rs) (handed_out rs ++ c) /\ length c = t_size (w_q w).
Proof.
  intros A D l rs w HD H. destruct (run_deque D HD l (mkworld (new_queue D) []) []) as [rs' [w' [c [H1 [H2 H3]]]]].
  - apply rep_new; exact HD.
  - rewrite H in H1. injection H1 as <- <-. exists c. split; [exact (deque_perm D [] l rs c H3)|]. symmetry. apply H2.
Qed.
Print Assumptions C14_no_task_lost_or_repeated.

Definition three : list (@op nat) := [Async 1; Async 2; Async 3; Help; Async 4; Work; EndLevel; Help].
Example C14_case :
  run 2 (mkworld (new_queue 2) []) three =
    Some ([Queued; Queued; RunNow 3; Task 1; Queued; Task 4; Void; Task 2], mkworld (mktq 1 1 1 0 (Some [Some 4; Some 2])) [FFull 0])
  /\ queued three [Queued; Queued; RunNow 3; Task 1; Queued; Task 4; Void; Task 2] = [1; 2; 4].
Proof. split; reflexivity. Qed.

(* C15: whatever helpers do in the meantime, the owner only ever runs tasks
   that were queued since the innermost open level started. *)
Theorem C15_owner_runs_only_tasks_of_the_level :
  forall (A : Type) (D : nat) (l : list (@op A)) rs w x w', 0 < D ->
  run D (mkworld (new_queue D) []) l = Some (rs, w) ->
  step D w Work = Some (Task x, w') ->
  In x (hd [] (level_pushes [[]] l rs)).
Proof. intros A D l rs w x w' HD. exact (work_in_level D HD l rs w x w'). Qed.
Print Assumptions C15_owner_runs_only_tasks_of_the_level.

Definition nested : list (@op nat) := [Async 1; Async 2; Work; Async 3; Help].
Example C15_case : exists w w',
  run 4 (mkworld (new_queue 4) []) nested = Some ([Queued; Queued; Task 2; Queued; Task 1], w) /\
  step 4 w Work = Some (Task 3, w') /\ step 4 w' Work = Some (Nothing, w') /\
  level_pushes [[]] nested [Queued; Queued; Task 2; Queued; Task 1] = [[3]; [3; 2; 1]].
Proof. do 2 eexists. split; [vm_compute; reflexivity|]. split; [vm_compute; reflexivity|]. split; vm_compute; reflexivity. Qed.

(* Without helpers, and as long as every level finishes its tasks before it
   ends, the owner also gets every task of its level, last one first. *)
Theorem C15_owner_gets_every_task_of_the_level_partial :
  forall (A : Type) (D : nat) (l : list (@op A)) rs c bs, 0 < D ->
  lifo_run D ([], [0]) l rs (c, bs) ->
  exists w, run D (mkworld (new_queue D) []) l = Some (rs, w).
Proof.
  intros A D l rs c bs HD H.
  destruct (run_lifo D HD _ _ _ _ H (mkworld (new_queue D) []) (lf_new D HD)) as [w [Hw _]]. exists w. exact Hw.
Qed.
Print Assumptions C15_owner_gets_every_task_of_the_level_partial.

Example C15_case2 :
  lifo_run 4 ([], [0]) [Async 1; Async 2; Work; Async 3; Work; EndLevel; Work; EndLevel; Work]
    [Queued; Queued; Task 2; Queued; Task 3; Void; Nothing; Void; Task 1] ([], [0; 0]).
Proof.
  apply lr_cons with (s' := ([1], [0])); [apply (l_queue 4 []); simpl; lia|].
  apply lr_cons with (s' := ([1; 2], [0])); [apply (l_queue 4 [1]); simpl; lia|].
  apply lr_cons with (s' := ([1], [1; 0])); [apply (l_work 4 [1]); simpl; lia|].
  apply lr_cons with (s' := ([1; 3], [1; 0])); [apply (l_queue 4 [1]); simpl; lia|].
  apply lr_cons with (s' := ([1], [1; 1; 0])); [apply (l_work 4 [1]); simpl; lia|].
  apply lr_cons with (s' := ([1], [1; 0])); [apply (l_end 4 [1])|].
  apply lr_cons with (s' := ([1], [1; 0])); [apply (l_work_none 4 [1])|].
  apply lr_cons with (s' := ([1], [0])); [apply (l_end 4 [1])|].
  apply lr_cons with (s' := ([], [0; 0])); [apply (l_work 4 []); simpl; lia|].
  apply lr_nil.
Qed.

(* With helpers this fails: the owner fills the queue and runs a task
   synchronously, a helper takes the first task in the meantime, the owner queues
   another one (which takes the freed position the restored mark points to) and
   works it. Now the owner does not see its remaining tasks. *)
Theorem C15_owner_gets_every_task_of_the_level_refuted :
  exists (l : list (@op nat)) rs w w' x,
    run 2 (mkworld (new_queue 2) []) l = Some (rs, w) /\ w_frames w = [] /\
    In x (hd [] (level_pushes [[]] l rs)) /\
    step 2 w Work = Some (Nothing, w) /\ step 2 w Help = Some (Task x, w').
Proof.
  exists [Async 1; Async 2; Async 3; Help; EndLevel; Async 4; Work; EndLevel].
  do 3 eexists. exists 2. split; [vm_compute; reflexivity|]. split; [reflexivity|]. split; [vm_compute; auto|].
  split; vm_compute; reflexivity.
Qed.
Print Assumptions C15_owner_gets_every_task_of_the_level_refuted.

(* C19: sub-phases, nested to any depth: the run refines [multi_step], in which
   starting a sub-phase hides every queued task and ending it brings exactly
   those back. No assertion fails except that a sub-phase must not end while
   tasks of it are queued, and no operation on a queue fails. *)
Theorem C19_subphases_hide_and_restore : forall (A : Type) (D : nat) (l : list (@sop A)) rs s, 0 < D ->
  srun D (mksched [] 0 []) l = Some (rs, s) ->
  exists ds ps, multi_run D ([], []) l rs (ds, ps) /\
    s_count s = visible ds /\
    sstep D s SPush <> None /\
    (forall i o, i < length ds -> sstep D s (SOp i o) <> None) /\
    (ps <> [] -> visible ds = 0 -> sstep D s SPop <> None).
Proof.
  intros A D l rs s HD H. destruct (srun_multi D HD l _ _ _ _ _ (sc_init D) H) as [ds [ps [Hm HS]]].
  exists ds, ps. split; [exact Hm|]. split; [apply (sc_count D _ _ _ HS)|]. split; [eapply spush_ok; eauto|].
  split; [intros i o Hi; eapply sop_ok; eauto|]. intros Hp Hv. eapply spop_ok; eauto.
Qed.
Print Assumptions C19_subphases_hide_and_restore.

Definition phased : list (@sop nat) :=
  [SNew; SNew; SOp 0 (Async 1); SOp 1 (Async 2); SPush; SOp 0 Help; SOp 0 (Async 3); SNew; SOp 0 Help; SPop; SOp 1 Help; SOp 0 Help].
Example C19_case : exists s,
  srun 2 (mksched [] 0 []) phased =
    Some ([Void; Void; Queued; Queued; Void; Nothing; Queued; Void; Task 3; Void; Task 2; Task 1], s) /\ s_count s = 0.
Proof. eexists. split; [vm_compute; reflexivity|reflexivity]. Qed.
