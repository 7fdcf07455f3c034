(* C92: the path of a target. *)
From Verif Require Import Base PathModel PathSpec PathProofs PathProofs2.

Section Props.
Context (fs : bytes -> nat) (prog : nat -> list op).

(* Whatever the threads do, all calls that find the path find the same one, it
   is whole, and it is one that some thread has set. *)
Theorem C92_same sched e v f w :
  let l := log (exec fs sched (start prog)) in
  In e l -> In f l -> finds e v -> finds f w ->
  v = w /\ exists p, v = Val p /\ to_set prog p.
Proof.
  cbv zeta. pose proof (run_inv fs prog sched) as I.
  set (s := exec fs sched (start prog)) in *. intros Ie If_ Fe Ff.
  pose proof (i_ev prog s I e Ie) as A. pose proof (i_ev prog s I f If_) as B.
  assert (pst s = 2 /\ v = pval s) as [E2 ->] by (inversion Fe; subst; cbn in A; tauto).
  assert (w = pval s) as -> by (inversion Ff; subst; cbn in B; tauto).
  split; [reflexivity|]. exact (i_val prog s I E2).
Qed.

(* The call that sets a path returns only with this path set. *)
Theorem C92_set sched i p v :
  In (ESet i p v) (log (exec fs sched (start prog))) -> v = Val p.
Proof.
  intros H. apply (i_ev prog _ (run_inv fs prog sched)) in H. cbn in H.
  destruct H as [_ [-> E]]. exact E.
Qed.

(* Once found, the path is found by every later query. *)
Theorem C92_stays sched e v i r :
  later (log (exec fs sched (start prog))) e (EGet i r) -> finds e v -> r = Some v.
Proof.
  pose proof (run_inv fs prog sched) as I. set (s := exec fs sched (start prog)) in *.
  intros [x [y [z El]]] F. destruct r as [w|].
  - f_equal. assert (In e (log s)) as Ie.
    { rewrite El. apply in_or_app. right. right. apply in_or_app. right. now left. }
    assert (In (EGet i (Some w)) (log s)) as Iw.
    { rewrite El. apply in_or_app. right. now left. }
    now destruct (C92_same sched (EGet i (Some w)) w e v Iw Ie (fi_get i w) F) as [-> _].
  - exfalso. refine (i_none prog s I x i (y ++ e :: z) El e v _ F).
    apply in_or_app. right. now left.
Qed.

(* The assertion fails only for a thread that sets another path than the one
   that is set (and such a thread never gets to use it). *)
Theorem C92_fails sched i p :
  In (EFail i (Some p)) (log (exec fs sched (start prog))) ->
  to_set prog p /\ exists q, q <> p /\ to_set prog q.
Proof.
  pose proof (run_inv fs prog sched) as I. intros H. apply (i_ev prog _ I) in H. cbn in H.
  destruct H as [E2 [Nv Tp]]. split; [easy|].
  destruct (i_val prog _ I E2) as [q [Eq Tq]]. exists q. split; [|easy]. intros ->. now apply Nv.
Qed.

(* While a path is being set there is exactly one thread that does it, and
   three steps of it, whatever the others do before or after, are enough to
   let the waiting ones go on. *)
Theorem C92_progress sched :
  let s := exec fs sched (start prog) in
  pst s = 1 -> exists i k, k <= 3 /\ pst (exec fs (repeat i k) s) = 2 /\
                           forall j, owner (fst (thr s j)) = true -> j = i.
Proof.
  cbv zeta. pose proof (run_inv fs prog sched) as I. set (s := exec fs sched (start prog)) in *.
  clearbody s. intros E1. destruct (i_some prog s I E1) as [i Oi]. exists i.
  assert (forall j, owner (fst (thr s j)) = true -> j = i) as U by (intros j Oj; now apply (i_one prog s I)).
  destruct (thr s i) as [c r] eqn:T. cbn in Oi.
  destruct c as [| |p|p|p|p|e p|p|b0|m|]; try discriminate.
  - exists 3. split; [lia|]. split; [|easy]. cbn [repeat exec].
    unfold step at 3. rewrite T. unfold step at 2. cbn [thr]. rewrite upd_same.
    unfold step. cbn [thr]. rewrite upd_same. cbn [pst]. lia.
  - exists 2. split; [lia|]. split; [|easy]. cbn [repeat exec].
    unfold step at 2. rewrite T. unfold step. cbn [thr]. rewrite upd_same. cbn [pst]. lia.
  - exists 1. split; [lia|]. split; [|easy]. cbn [repeat exec].
    unfold step. rewrite T. cbn [pst]. lia.
Qed.

(* If times are set after paths only, then a thread that has seen the time (as
   the fallback rule for files does) finds the path, and so do all others from
   then on. *)
Theorem C92_time sched i m j r : path_first prog ->
  later (log (exec fs sched (start prog))) (ETime i (Some m)) (EGet j r) -> r <> None.
Proof.
  intros First [x [y [z El]]] ->. pose proof (run_tinv fs prog First sched) as Tv.
  refine (t_order prog _ Tv x j (y ++ ETime i (Some m) :: z) El i m _).
  apply in_or_app. right. now left.
Qed.
End Props.

(* With one path for all threads no assertion on it fails. *)
Theorem C92_agree fs prog sched p0 i p : (forall p, to_set prog p -> p = p0) ->
  ~ In (EFail i (Some p)) (log (exec fs sched (start prog))).
Proof.
  intros H F. apply C92_fails in F. destruct F as [Tp [q [Nq Tq]]].
  apply H in Tp. apply H in Tq. congruence.
Qed.

(* If the time is set first, the path may be missing. *)
Definition ex_wrong (i : nat) : list op :=
  match i with 0 => [SetTime 5; SetPath (b "/f")] | 1 => [GetTime; GetPath] | _ => [] end.

Theorem C92_time_first_refuted :
  ~ (forall fs prog sched i m j r,
     later (log (exec fs sched (start prog))) (ETime i (Some m)) (EGet j r) -> r <> None).
Proof.
  intros H. apply (H (fun _ => 7) ex_wrong [0; 1; 1] 1 5 1 None); [|reflexivity].
  exists [], [], []. reflexivity.
Qed.

(* The time, unlike the path, does not stay: the one loaded from the file can
   replace one that was set in the meantime. *)
Definition ex_race (i : nat) : list op :=
  match i with 0 => [SetPath (b "/f"); SetTime 5; GetTime] | 1 => [LoadTime] | 2 => [GetTime] | _ => [] end.

Theorem C92_time_stays_refuted :
  ~ (forall fs prog sched i m j n, path_first prog ->
     later (log (exec fs sched (start prog))) (ETime i (Some m)) (ETime j (Some n)) ->
     m = n).
Proof.
  intros H. assert (5 = 7) as E; [|discriminate E].
  apply (H (fun _ => 7) ex_race [0; 0; 0; 0; 0; 1; 1; 0; 0; 1; 2] 0 5 2 7).
  - intros [|[|[|i]]] x m y E; cbn in E.
    + destruct x as [|o [|o2 x]]; cbn in E.
      * discriminate.
      * injection E as <- _. eexists. now left.
      * injection E as <- _ _. eexists. now left.
    + destruct x as [|o [|o2 x]]; discriminate.
    + destruct x as [|o [|o2 x]]; discriminate.
    + destruct x; discriminate.
  - exists [], [ETime 1 (Some 7)], [ESet 0 (b "/f") (Val (b "/f"))]. reflexivity.
Qed.

Print Assumptions C92_same. Print Assumptions C92_set. Print Assumptions C92_stays.
Print Assumptions C92_fails. Print Assumptions C92_progress. Print Assumptions C92_time.
Print Assumptions C92_agree. Print Assumptions C92_time_first_refuted.
Print Assumptions C92_time_stays_refuted.

(* ---- examples ---- *)
Definition ex_two (i : nat) : list op :=
  match i with
  | 0 => [SetPath (b "/f"); GetPath]
  | 1 => [GetPath; SetPath (b "/f"); GetPath]
  | 2 => [SetPath (b "/g")]
  | _ => []
  end.

(* Threads 0 and 1 at once, with 1 waiting; 2 fails. *)
Example C92_nonvacuous :
  log (exec (fun _ => 0) [0; 1; 0; 1; 1; 0; 1; 0; 0; 1; 1; 1; 2; 2; 0; 0; 1; 1] (start ex_two)) =
  [EGet 1 (Some (Val (b "/f"))); EGet 0 (Some (Val (b "/f"))); EFail 2 (Some (b "/g"));
   ESet 1 (b "/f") (Val (b "/f")); ESet 0 (b "/f") (Val (b "/f")); EGet 1 None].
Proof. reflexivity. Qed.

Example C92_progress_nonvacuous :
  pst (exec (fun _ => 0) [0; 0; 1; 1] (start ex_two)) = 1.
Proof. reflexivity. Qed.

Example C92_time_nonvacuous :
  later (log (exec (fun _ => 7) [0; 0; 0; 0; 0; 0; 0; 1; 1]
                (start (fun i => match i with
                                 | 0 => [SetPath (b "/f"); SetTime 5; GetTime]
                                 | 1 => [GetPath] | _ => [] end))))
    (ETime 0 (Some 5)) (EGet 1 (Some (Val (b "/f")))).
Proof. exists [], [], [ESet 0 (b "/f") (Val (b "/f"))]. reflexivity. Qed.
