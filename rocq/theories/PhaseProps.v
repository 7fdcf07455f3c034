(* Properties of the run phase mutex: C20-C23 and C44. *)
From Verif Require Import Base Count PhaseModel PhaseSpec PhaseProofs.

(* Three threads. The first two start in the match phase. The first switches to
   load and has to wait; the second switches to execute, which is possible right
   away; the third comes and waits for the match phase. *)
Definition mixed : list pop :=
  [NewThread; NewThread; NewThread; Lock 0 Match; Lock 1 Match; Relock 0 Load; Relock 1 Execute; Lock 2 Match].
(* The second switches back, then the third can join it; both leave, and the
   first gets its turn. *)
Definition mixed_end : list pop := mixed ++ [Relock 1 Match; Notify 0; Wake 2; Unlock 1; Unlock 2; Notify 0; Wake 0; LockLoad 0].

(* C20: every thread that executes in a phase executes in the current phase of
   the context; and if nobody is in or waits for a phase, it is load. *)
Theorem C20_phase_agreement : forall l s, run start l = Some s ->
  (forall t n, In t (threads s) -> executing_in n t = true -> n = cur s) /\ (unlocked s -> cur s = Load).
Proof.
  intros l s Hr. pose proof (run_pinv l _ _ pinv_start Hr) as H. split.
  - intros t n Ht He. symmetry. eapply (p_keep _ H); [exact Ht|]. destruct t; try discriminate. exact He.
  - intros Hu. apply (p_none _ H). rewrite (p_count _ H). apply num_zero_iff. intros x Hx. rewrite (Hu x Hx). reflexivity.
Qed.
Print Assumptions C20_phase_agreement.

Example C20_ex : exists s, run start mixed = Some s /\
  threads s = [PWait Load false; PHold Execute true; PWait Match false] /\ cur s = Execute.
Proof. eexists. split; [vm_compute; reflexivity|]. vm_compute. auto. Qed.
Example C20_ex2 : exists s, run start mixed_end = Some s /\ threads s = [PHold Load true; POut; POut] /\ cur s = Load.
Proof. eexists. split; [vm_compute; reflexivity|]. vm_compute. auto. Qed.

(* C21: at most one thread executes in the load phase. *)
Theorem C21_load_is_exclusive : forall l s i j ok ok', run start l = Some s ->
  nth_error (threads s) i = Some (PHold Load ok) -> nth_error (threads s) j = Some (PHold Load ok') -> i = j.
Proof.
  intros l s i j ok ok' Hr Hi Hj. pose proof (run_pinv l _ _ pinv_start Hr) as H.
  destruct (Nat.eq_dec i j) as [|Hn]; [assumption|]. exfalso.
  pose proof (num_two has_lm _ _ _ _ _ Hi Hj eq_refl eq_refl Hn) as H2. rewrite (p_lm _ H) in H2. destruct (lm s); cbn in H2; lia.
Qed.
Print Assumptions C21_load_is_exclusive.

(* Two threads in the load phase: the second waits for the first. *)
Example C21_ex : exists s, run start [NewThread; NewThread; Lock 0 Load; Lock 1 Load; LockLoad 0] = Some s /\
  threads s = [PHold Load true; PLoadMutex] /\ step s (LockLoad 1) = None.
Proof. eexists. split; [vm_compute; reflexivity|]. vm_compute. auto. Qed.

(* C22: if a thread waits for a phase other than the current one then there is
   another thread that keeps the current phase, or that has been woken up for
   it, or is about to be; and a thread never sleeps waiting for the current
   phase without somebody about to wake it up. *)
Theorem C22_no_stranded_thread : forall l s i n w, run start l = Some s -> nth_error (threads s) i = Some (PWait n w) ->
  (n <> cur s -> exists j t, j <> i /\ nth_error (threads s) j = Some t /\
                 (keeps (cur s) t = true \/ woken_for (cur s) t = true \/ (sleeps_for (cur s) t = true /\ In (cur s) (notifies s)))) /\
  (n = cur s -> w = false -> In n (notifies s)).
Proof.
  intros l s i n w Hr Ht. pose proof (run_pinv l _ _ pinv_start Hr) as H. split.
  - intros Hn. assert (get (cur s) s <> 0) as Hz.
    { intros Hz. destruct (p_none _ H Hz) as [_ Z]. specialize (Z n). rewrite (p_count _ H) in Z.
      pose proof (num_zero _ _ _ Z (nth_error_In _ _ Ht)) as E. cbn in E. rewrite phase_eqb_refl in E. discriminate. }
    rewrite (p_count _ H) in Hz. apply num_pos_ex in Hz. destruct Hz as [j [t [Hj Hc]]]. exists j, t.
    split; [intros ->; rewrite Ht in Hj; injection Hj as <-; cbn in Hc; apply phase_eqb_eq in Hc; contradiction|].
    split; [exact Hj|]. destruct t as [|m []| |m ok|]; cbn in *; try discriminate; auto.
    right; right. split; [exact Hc|]. eapply (p_sleep _ H); [eapply nth_error_In; exact Hj|exact Hc|reflexivity].
  - intros En ->. eapply (p_sleep _ H); [eapply nth_error_In; exact Ht|cbn; apply phase_eqb_refl|auto].
Qed.
Print Assumptions C22_no_stranded_thread.

Example C22_ex : exists s, run start mixed = Some s /\ nth_error (threads s) 0 = Some (PWait Load false) /\
  nth_error (threads s) 1 = Some (PHold Execute true) /\ cur s = Execute.
Proof. eexists. split; [vm_compute; reflexivity|]. vm_compute. auto. Qed.

(* C23: once a thread has failed in the load phase, every lock and every switch
   that is completed afterwards reports failure. *)
Theorem C23_failed_load_is_seen : forall l1 i l2 s1 s2 o s3 j n ok,
  run start (l1 ++ [Fail i]) = Some s1 -> run s1 l2 = Some s2 -> step s2 o = Some s3 ->
  nth_error (threads s3) j = Some (PHold n ok) -> nth_error (threads s2) j <> Some (PHold n ok) -> ok = false.
Proof.
  intros l1 i l2 s1 s2 o s3 j n ok H1 H2 H3 Hj Hn.
  assert (fail s1 = true) as F1.
  { revert H1. generalize start. induction l1 as [|o1 l1 IH]; intros s0 H1; cbn [app run] in H1.
    - destruct (step s0 (Fail i)) as [s|] eqn:E; [|discriminate]. injection H1 as <-. cbn [step] in E.
      destruct (nth_error (threads s0) i) as [[| | |[] ?|]|]; try discriminate. injection E as <-. reflexivity.
    - destruct (step s0 o1); [eapply IH; eauto|discriminate]. }
  pose proof (run_fail _ _ _ H2 F1) as F2.
  destruct (hold_step _ _ _ _ _ _ H3 Hj) as [E|E]; [contradiction|]. rewrite F2 in E. exact E.
Qed.
Print Assumptions C23_failed_load_is_seen.

(* A thread waits for the match phase while another fails to load. *)
Definition failing : list pop := [NewThread; NewThread; Lock 0 Match; Relock 0 Load; LockLoad 0; Lock 1 Match; Fail 0].
Example C23_ex : exists s2 s3, run start (failing ++ [Relock 0 Match; Leave 0; Notify 0]) = Some s2 /\ step s2 (Wake 1) = Some s3 /\
  nth_error (threads s3) 1 = Some (PHold Match false) /\ nth_error (threads s2) 1 = Some (PWait Match true).
Proof. eexists. eexists. split; [vm_compute; reflexivity|]. split; [vm_compute; reflexivity|]. vm_compute. auto. Qed.

(* C44: if the phases are used the way the code does within an operation then
   the scheduler sub-phases are balanced: we are inside of one exactly while the
   current phase is execute. *)
Theorem C44_subphases_balanced : forall l s, run start l = Some s -> disciplined start l ->
  pushes s = pops s + (if phase_eqb (cur s) Execute then 1 else 0).
Proof.
  intros l s Hr Hd. assert (DInv start) as D0 by (split; [reflexivity|intros x []]).
  apply (run_dinv l start s pinv_start D0 Hd Hr).
Qed.
Print Assumptions C44_subphases_balanced.

Example C44_ex : exists s, run start mixed_end = Some s /\ disciplined start mixed_end /\ pushes s = 1 /\ pops s = 1 /\ cur s = Load.
Proof.
  eexists. split; [vm_compute; reflexivity|]. split; [|vm_compute; auto].
  vm_compute. repeat match goal with |- _ /\ _ => split | |- True => exact I end; auto; try (eexists; reflexivity).
Qed.

(* Without the discipline they are not: if the lock is released in the execute
   phase while somebody waits for load, and then match is reached from load, the
   sub-phase is never left. *)
Theorem C44_subphases_balanced_refuted :
  ~ (forall l s, run start l = Some s -> pushes s = pops s + (if phase_eqb (cur s) Execute then 1 else 0)).
Proof.
  intros H. specialize (H [NewThread; NewThread; Lock 0 Match; Lock 1 Match; Relock 0 Load; Relock 1 Execute; Unlock 1; Notify 0; Wake 0; LockLoad 0; Relock 0 Match; Leave 0]).
  match type of H with forall s, ?r = Some s -> _ => destruct r as [s|] eqn:E; [|vm_compute in E; discriminate] end.
  specialize (H s eq_refl). vm_compute in E. injection E as <-. vm_compute in H. discriminate.
Qed.
Print Assumptions C44_subphases_balanced_refuted.
