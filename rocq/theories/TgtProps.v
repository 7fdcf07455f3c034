(* Properties of locking, matching and executing a target: C24-C26. *)
From Coq Require Import NArith.
From Verif Require Import Base Count ExecModel TgtModel TgtSpec TgtProofs.

(* Two dependents match the target: the first locks and applies it, the second
   waits for that. *)
Definition matched : list top :=
  [NewThread; NewThread; Lock 0 true 1%N; Lock 1 true 1%N; Cas 0; Cas 1; Got 0; Wait 1; MatchStep 0 MMatched; MatchStep 0 (MApplied false 1%N);
   Unlock 0; Resume; Wait 1; Check 1; Inc 0; Inc 1; ToExecute].
(* The first one executes it and the other waits for that. *)
Definition executed_by_both : list top :=
  matched ++ [Execute 1; Execute 0; Cas 1; Cas 0; Wait 0; Won 1 None; Recipe 1 changed; Finish 1; Resume; Wait 0; Read 0].

(* C24: in one operation the recipe of a target is executed at most once. *)
Theorem C24_runs_at_most_once : forall l0 l s, run (start l0) l = Some s -> runs s <= 1.
Proof. intros l0 l s Hr. apply (v_runs _ (run_inv _ _ _ (inv_start l0) Hr)). Qed.
Print Assumptions C24_runs_at_most_once.

(* C24: everyone who has executed the target gets the same state: the one the
   recipe has set (where postponed counts as unchanged); if the recipe was not
   executed, then because the target had failed to match and so everyone gets
   failed. Not if a match has failed after the target had been applied. *)
Theorem C24_same_result : forall l0 l s r, run (start l0) l = Some s -> bad s = false -> In (EDone r) (threads s) ->
  (exists x, runs s = 1 /\ result s = Some x /\ r = executed_state x) \/ (runs s = 0 /\ st s = failed /\ r = failed).
Proof.
  intros l0 l s r Hr Hb Hi. pose proof (run_inv _ _ _ (inv_start l0) Hr) as H. pose proof (v_ok _ H _ Hi) as K. cbn in K.
  destruct K as [K|[[K|[[Hf K] _]] E]]; [congruence|congruence|]. destruct K as [[K1 K2]|[K1 [K2 K3]]].
  - left. exists (st s). auto.
  - right. rewrite K1 in E. auto.
Qed.
Print Assumptions C24_same_result.

(* C24: no assertion fails. *)
Theorem C24_no_assertion : forall l0 l s, run (start l0) l = Some s -> In ECrash (threads s) -> bad s = true.
Proof. intros l0 l s Hr Hi. exact (v_ok _ (run_inv _ _ _ (inv_start l0) Hr) _ Hi). Qed.
Print Assumptions C24_no_assertion.

Example C24_ex : exists s, run (start false) executed_by_both = Some s /\ bad s = false /\ runs s = 1 /\ result s = Some changed /\
  threads s = [EDone changed; EDone changed].
Proof. eexists. split; [vm_compute; reflexivity|]. vm_compute. auto. Qed.

(* C24 without its exclusion is false. Here the second dependent asks for more
   than the first one, which makes the rule fail. The first one has already
   counted itself as a dependent; it goes on to execute the target and finds it
   in the failed state, which execute_impl () does not expect. *)
Theorem C24_no_assertion_refuted : ~ (forall l0 l s, run (start l0) l = Some s -> ~ In ECrash (threads s)).
Proof.
  intros H.
  assert (exists s, run (start false)
    [NewThread; NewThread; Lock 0 true 1%N; Cas 0; Got 0; MatchStep 0 MMatched; MatchStep 0 (MApplied false 1%N); Unlock 0; Inc 0;
     Lock 1 true 3%N; Cas 1; Check 1; Cas 1; Got 1; MatchStep 1 MFailed; Unlock 1; ToExecute; Execute 0; Cas 0; Won 0 None] = Some s /\
    In ECrash (threads s)) as [s [Hr Hi]] by (eexists; split; [vm_compute; reflexivity|vm_compute; auto]).
  exact (H _ _ _ Hr Hi).
Qed.
Print Assumptions C24_no_assertion_refuted.

(* C25: when the mode is last, the recipe of a target is only executed after
   every dependent that had matched it has asked for its execution. (This is
   about execution on behalf of dependents, not about direct execution.) *)
Theorem C25_last_after_all_asked : forall l0 l s, run (start l0) l = Some s -> no_direct l -> last s = true -> runs s <> 0 ->
  exists l1 l2 s1, l = l1 ++ l2 /\ run (start l0) l1 = Some s1 /\ on s1 = on s /\
    runs s1 = 0 /\ 0 < incs s1 /\ calls s1 = incs s1.
Proof. intros l0 l s Hr Hd Hl Hn. apply (run_asked l0 l s Hr Hd Hl). left. exact Hn. Qed.
Print Assumptions C25_last_after_all_asked.

(* C25: ... and when all have asked and nothing is going on, it has been executed. *)
Theorem C25_last_not_forgotten : forall l0 l s, run (start l0) l = Some s -> last s = true -> 0 < incs s -> calls s = incs s ->
  (forall t, In t (threads s) -> at_rest t = true) -> lost s = false -> bad s = false ->
  tc s = executed s /\ runs s = 1 /\ exists r, result s = Some r /\ final r = true.
Proof.
  intros l0 l s Hr Hl Hi Hc Hrest Hlo Hb. pose proof (run_inv _ _ _ (inv_start l0) Hr) as H.
  assert (L (start l0)) as HL by (intros ? HH; cbn in HH; lia).
  pose proof (run_L _ _ _ (inv_start l0) HL Hr Hl Hi Hc) as K.
  assert (held s = 0) as H0.
  { apply nonholders_free; [exact Hlo|]. intros t Ht. specialize (Hrest t Ht). destruct t; try discriminate; reflexivity. }
  assert (5 <= lev s) as H5.
  { destruct K as [K|[K|[K|[t [Ht Kt]]]]]; [congruence|congruence|exact K|]. specialize (Hrest t Ht). destruct t; discriminate. }
  destruct (v_free _ H H0) as [Hf _]. rewrite (lev_free _ H0) in H5. unfold executed, o_executed in *.
  assert (tc s = base s + 5) as E by lia. split; [exact E|].
  pose proof (v_lev _ H Hlo) as J5. rewrite (lev_free _ H0) in J5. replace (tc s - base s) with 5 in J5 by lia.
  destruct J5 as [_ [_ [_ [_ [J5 _]]]]]. destruct (J5 eq_refl) as [F [[_ [[R1 R2]|[_ [_ [_ R3]]]]]|[R1 _]]]; [|lia|congruence].
  split; [exact R1|]. eauto.
Qed.
Print Assumptions C25_last_not_forgotten.

(* The first dependent to ask gets postponed, the second one executes. *)
Definition last_mode : list top := matched ++ [Execute 1; Execute 0; Cas 0; Won 0 None; Recipe 0 changed; Finish 0; Resume].
Example C25_ex : exists s, run (start true) last_mode = Some s /\ last s = true /\ incs s = 2 /\ calls s = 2 /\ runs s = 1 /\
  threads s = [EDone changed; EPostponed] /\ lost s = false /\ bad s = false.
Proof. eexists. split; [vm_compute; reflexivity|]. vm_compute. auto 10. Qed.
Example C25_ex_no_direct : no_direct last_mode.
Proof. intros o Ho. cbn in Ho. repeat (destruct Ho as [<-|Ho]; [exact I|]). contradiction. Qed.

(* C26: at most one thread matches or executes a target at a time, and the
   target is marked busy exactly while there is one. *)
Theorem C26_mutual_exclusion : forall l0 l s, run (start l0) l = Some s ->
  (forall i j t t', nth_error (threads s) i = Some t -> nth_error (threads s) j = Some t' -> holder t = true -> holder t' = true -> i = j) /\
  (lost s = false -> (cbusy s <= tc s <-> exists t, In t (threads s) /\ holder t = true)).
Proof.
  intros l0 l s Hr. pose proof (run_inv _ _ _ (inv_start l0) Hr) as H. split.
  - intros i j t t' Hi Hj Ht Ht'. destruct (Nat.eq_dec i j) as [|Hn]; [assumption|]. exfalso.
    pose proof (num_two holder _ _ _ _ _ Hi Hj Ht Ht' Hn). pose proof (v_held _ H) as K. unfold held in K. lia.
  - intros Lo. split.
    + intros Hb. destruct (held s) as [|n] eqn:E.
      * destruct (v_free _ H E) as [K _]. unfold executed, cbusy, o_executed, o_busy in *. lia.
      * unfold held in E. rewrite Lo in E. cbn in E. assert (num holder (threads s) <> 0) as Hz by lia.
        apply num_pos_ex in Hz. destruct Hz as [j [t [Hj Hc]]]. exists t. split; [eapply nth_error_In; eauto|exact Hc].
    + intros [t [Ht Hh]]. apply In_nth_error in Ht. destruct Ht as [i Ht]. destruct (lev_in _ _ _ H Ht Hh) as [_ [K _]].
      rewrite (v_busy _ H K). lia.
Qed.
Print Assumptions C26_mutual_exclusion.

(* C26: a thread that is suspended until the target is unlocked is resumed: if
   the target is not busy then there is a resume call yet to be made. *)
Theorem C26_no_lost_wakeup : forall l0 l s t, run (start l0) l = Some s -> In t (threads s) -> sleeping t = true ->
  free s -> 0 < resumes s.
Proof.
  intros l0 l s t Hr Ht Hs [Hf Lo]. pose proof (run_inv _ _ _ (inv_start l0) Hr) as H.
  destruct (v_free _ H (nonholders_free _ Lo Hf)) as [K _].
  assert (tc s < cbusy s) as Hl by (unfold executed, cbusy, o_executed, o_busy in *; lia).
  pose proof (v_ok _ H _ Ht) as Q. destruct t; try discriminate; cbn in Q; [exact (Q Hl)|]. destruct Q as [_ [_ [_ Q]]]. exact (Q Hl).
Qed.
Print Assumptions C26_no_lost_wakeup.

(* C26: what has been achieved with the target (touched, tried, matched, applied,
   executed) is never undone by those who lock it later in the same operation. *)
Theorem C26_progress_is_kept : forall l0 l l2 s s2, run (start l0) l = Some s -> run s l2 = Some s2 -> same_operation l2 ->
  free s -> free s2 -> bad s2 = false -> tc s - base s <= tc s2 - base s2 /\ tc s2 <= executed s2.
Proof.
  intros l0 l l2 s s2 Hr Hr2 Hs [F1 L1] [F2 L2] Hb. pose proof (run_inv _ _ _ (inv_start l0) Hr) as H. pose proof (run_inv _ _ _ H Hr2) as H2.
  destruct (run_rank _ _ _ H Hr2 Hs L2 Hb) as [K Eo].
  pose proof (nonholders_free _ L1 F1) as E1. pose proof (nonholders_free _ L2 F2) as E2.
  destruct (v_free _ H E1) as [K1 _]. destruct (v_free _ H2 E2) as [K2 _].
  rewrite (lev_free _ E1), (lev_free _ E2) in K. unfold executed, o_executed in *. split; [|exact K2].
  unfold rank in K. destruct (Nat.eqb_spec (tc s - base s) 6), (Nat.eqb_spec (tc s2 - base s2) 6); lia.
Qed.
Print Assumptions C26_progress_is_kept.

(* While the first dependent matches, the second one sleeps. *)
Example C26_ex : exists s s2, run (start false) (firstn 10 matched) = Some s /\ threads s = [LHold 4; LSleep 1%N] /\ tc s = cbusy s /\
  run s [Unlock 0] = Some s2 /\ threads s2 = [LRet 4; LSleep 1%N] /\ free s2 /\ resumes s2 = 1 /\ tc s2 = applied s2.
Proof.
  eexists. eexists. split; [vm_compute; reflexivity|]. split; [vm_compute; reflexivity|]. split; [vm_compute; reflexivity|].
  split; [vm_compute; reflexivity|]. split; [vm_compute; reflexivity|]. split; [|vm_compute; auto].
  split; [|reflexivity]. intros t Ht. vm_compute in Ht. destruct Ht as [<-|[<-|[]]]; reflexivity.
Qed.
(* From applied to executed. *)
Example C26_progress_ex : exists s s2, run (start false) matched = Some s /\ run s (skipn (length matched) executed_by_both) = Some s2 /\
  same_operation (skipn (length matched) executed_by_both) /\ free s /\ free s2 /\ bad s2 = false /\ tc s = 4 /\ tc s2 = 5.
Proof.
  eexists. eexists. split; [vm_compute; reflexivity|]. split; [vm_compute; reflexivity|].
  split; [intros o Ho; cbn in Ho; repeat (destruct Ho as [<-|Ho]; [exact I|]); contradiction|].
  split; [split; [intros t Ht; vm_compute in Ht; destruct Ht as [<-|[<-|[]]]; reflexivity|reflexivity]|].
  split; [split; [intros t Ht; vm_compute in Ht; destruct Ht as [<-|[<-|[]]]; reflexivity|reflexivity]|].
  vm_compute. auto.
Qed.

(* C26 without the exclusion of abandoned locks is false: here the task that
   matches the target cannot lock the phase (because the load has failed). It
   leaves the target busy, with nobody to unlock it, and the one that waits for
   it is left suspended with nobody to resume it. *)
Theorem C26_everyone_resumed_refuted : ~ (forall l0 l s t, run (start l0) l = Some s -> In t (threads s) -> sleeping t = true ->
  (forall t', In t' (threads s) -> holder t' = false) -> 0 < resumes s).
Proof.
  intros H.
  assert (exists s, run (start false)
    [NewThread; NewThread; Lock 0 true 1%N; Lock 1 true 1%N; Cas 0; Cas 1; Got 0; Wait 1; Abandon 0] = Some s /\
    threads s = [TIdle; LSleep 1%N] /\ resumes s = 0) as [s [Hr [Et Er]]] by (eexists; split; [vm_compute; reflexivity|vm_compute; auto]).
  assert (0 < resumes s); [|lia]. apply (H false _ s (LSleep 1%N) Hr); [rewrite Et; cbn; auto|reflexivity|].
  rewrite Et. intros t' [<-|[<-|[]]]; reflexivity.
Qed.
Print Assumptions C26_everyone_resumed_refuted.
