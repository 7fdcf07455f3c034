(* C61: dependency cycles. *)
From Coq Require Import Relations.
From Verif Require Import Base CycModel CycSpec CycProofs CycProofs2 CycProofs3.

(* What is diagnosed is a cycle. *)
Theorem C61_sound : forall deps bad keep_going root s es c, gets_to deps bad keep_going root s es -> In (Cycle c) es -> needs deps root c /\ depends deps c c.
Proof. intros deps bad kg root s es c (xs & R) I. exact (proj1 (proj2 (reach_inv _ _ _ _ _ _ _ R)) c I). Qed.
Print Assumptions C61_sound.

(* A target is only matched if there is no cycle in what it depends on, all of which is then matched. *)
Theorem C61_never_silent : forall deps bad keep_going root s es t, gets_to deps bad keep_going root s es -> s t = Done true ->
  ~ cyclic deps t /\ forall d, needs deps t d -> s d = Done true.
Proof.
  intros deps bad kg root s es t (xs & R) D. pose proof (reach_inv _ _ _ _ _ _ _ R) as I. split; [|intros d N; exact (matched_needs _ _ _ _ _ _ _ I D N)].
  intros (c & N & C). pose proof (matched_needs _ _ _ _ _ _ _ I D N) as Dc. pose proof (proj1 I c) as G. unfold good in G. rewrite Dc in G. exact (complete_acyclic _ _ (proj1 (proj2 G)) C).
Qed.
Print Assumptions C61_never_silent.

(* There is a reason for a failure. *)
Theorem C61_failed : forall deps bad keep_going root s es t, gets_to deps bad keep_going root s es -> s t = Done false ->
  (exists c, In (Cycle c) es /\ needs deps t c) \/ (exists d, needs deps t d /\ bad d = true).
Proof.
  intros deps bad kg root s es t (xs & R) D. pose proof (proj1 (reach_inv _ _ _ _ _ _ _ R) t) as G. unfold good in G. rewrite D in G. exact (proj1 G).
Qed.
Print Assumptions C61_failed.

(* A build does not go on forever, whatever the schedule. *)
Theorem C61_terminates : forall deps bad keep_going root, finite deps root ->
  exists n, forall xs s es, run deps bad keep_going (init deps root) xs = Some (s, es) -> length xs <= n.
Proof.
  intros deps bad kg root (all & F). exists (total deps (nodup Nat.eq_dec all) (init deps root)). intros xs s es R.
  pose proof (run_weight deps bad kg root _ xs (NoDup_nodup Nat.eq_dec all) (fun t N => proj2 (nodup_In Nat.eq_dec all t) (F t N)) _ _ _ _ (init_inv deps bad root) R). eapply Nat.le_trans; [|eassumption]. apply Nat.le_add_r.
Qed.
Print Assumptions C61_terminates.

(* It only gets stuck if there is a cycle: of targets that are being matched. *)
Theorem C61_deadlock : forall deps bad keep_going root s es, finite deps root -> gets_to deps bad keep_going root s es -> stopped deps bad keep_going s ->
  (exists ok, s root = Done ok) \/ (exists c, needs deps root c /\ depends deps c c /\ exists stack p, s c = Running stack p).
Proof.
  intros deps bad kg root s es (all & F) (xs & R) St. pose proof (reach_inv _ _ _ _ _ _ _ R) as I. destruct (s root) as [|stk|stk p|ok] eqn:E; [destruct (proj2 (proj2 I) E)| | |left; exists ok; reflexivity]; right.
  all: destruct (walk deps (fun t => busy (s t)) all root) as (c & B & C);
    [intros t B; apply F, (non_idle_needs _ _ _ _ _ _ I); destruct (s t); cbn in B; try contradiction; discriminate|exact (fun t B => stuck_dep _ _ _ _ _ _ _ I St B)|rewrite E; exact Logic.I|];
    exists c; split; [apply (non_idle_needs _ _ _ _ _ _ I); destruct (s c); cbn in B; try contradiction; discriminate|]; split; [exact C|];
    specialize (St (Start c false)); cbn in St; destruct (s c) as [| |stk' p'|]; try contradiction; [discriminate St|exists stk', p'; reflexivity].
Qed.
Print Assumptions C61_deadlock.

(* Without cycles and failures everything gets matched, whatever the schedule. *)
Theorem C61_acyclic : forall deps bad keep_going root s es, finite deps root -> ~ cyclic deps root -> (forall t, needs deps root t -> bad t = false) ->
  gets_to deps bad keep_going root s es -> stopped deps bad keep_going s -> forall t, needs deps root t -> s t = Done true.
Proof.
  intros deps bad kg root s es F C B G St. destruct (C61_deadlock _ _ _ _ _ _ F G St) as [([|] & D)|(c & N & Cc & _)].
  - exact (proj2 (C61_never_silent _ _ _ _ _ _ _ G D)).
  - destruct (C61_failed _ _ _ _ _ _ _ G D) as [(c & I & _)|(d & N & Bd)]; [destruct C; exists c; exact (C61_sound _ _ _ _ _ _ _ G I)|rewrite (B d N) in Bd; discriminate Bd].
  - destruct C. exists c. auto.
Qed.
Print Assumptions C61_acyclic.

(* When the build is done, nothing is still being matched or about to be. *)
Theorem C61_nothing_left : forall deps bad keep_going root s es ok, gets_to deps bad keep_going root s es -> s root = Done ok ->
  forall t, s t = Idle \/ exists ok', s t = Done ok'.
Proof.
  intros deps bad kg root s es ok (xs & R) D t. pose proof (reach_inv _ _ _ _ _ _ _ R) as I. destruct (s t) as [|stk|stk p|ok'] eqn:E; [left; reflexivity| | |right; exists ok'; reflexivity];
    (destruct (busy_root _ _ _ _ _ t I); [rewrite E; exact Logic.I|rewrite D; reflexivity]).
Qed.
Print Assumptions C61_nothing_left.

(* A target is matched once. *)
Theorem C61_final : forall deps bad keep_going xs s s' es t ok, run deps bad keep_going s xs = Some (s', es) -> s t = Done ok -> s' t = Done ok.
Proof. intros deps bad kg xs s s' es t ok. apply run_final. Qed.
Print Assumptions C61_final.

(* In a serial build there are no deadlocks: a cycle is always diagnosed (unless something else fails). *)
Theorem C61_serial : forall deps bad keep_going root s es, gets_to_serially deps bad keep_going root s es -> stopped_serially deps bad keep_going s ->
  (exists ok, s root = Done ok) /\
  (cyclic deps root -> (exists c, In (Cycle c) es) \/ (exists d, needs deps root d /\ bad d = true)).
Proof.
  intros deps bad kg root s es (xs & Fs & R) St. pose proof (reach_inv _ _ _ _ _ _ _ R) as I. assert (B : ~ busy (s root)) by (exact (serial_stuck _ _ _ _ (serial_run _ _ _ root _ _ _ _ (serial_init deps bad root) Fs R) St root)).
  destruct (s root) as [| | |ok] eqn:D; try (destruct (B Logic.I)); [destruct (proj2 (proj2 I) D)|]. split; [exists ok; reflexivity|]. intros C. destruct ok; [destruct (proj1 (C61_never_silent _ _ _ _ _ _ _ (ex_intro _ xs R) D) C)|].
  destruct (C61_failed _ _ _ _ _ _ _ (ex_intro _ xs R) D) as [(c & Ic & _)|X]; [left; exists c; exact Ic|right; exact X].
Qed.
Print Assumptions C61_serial.

(* In a parallel one, on the other hand, a cycle can also be a deadlock: two threads that match two
   targets that depend on each other wait for each other. *)
Definition tangle (t : nat) : list nat := match t with 0 => [1; 2] | 1 => [2] | 2 => [1] | _ => [] end.
Theorem C61_always_diagnosed_refuted : exists deps root s es, finite deps root /\ gets_to deps (fun _ => false) false root s es /\ stopped deps (fun _ => false) false s /\
  cyclic deps root /\ (forall c, ~ In (Cycle c) es) /\ exists stack p, s root = Running stack p.
Proof.
  exists tangle, 0.
  destruct (run tangle (fun _ => false) false (init tangle 0)
    [Advance 0 true; Advance 0 true; Advance 0 true; Start 1 false; Start 2 true; Advance 1 true; Advance 2 true; Advance 1 true; Advance 2 true; Advance 1 true; Advance 2 true]) as [[s es]|] eqn:R; [|vm_compute in R; discriminate R].
  exists s, es. split.
  - exists [0; 1; 2]. assert (X : forall x y, depends tangle x y -> In y [0; 1; 2]) by (intros x y H; induction H as [x y H|]; [destruct x as [|[|[|]]]; cbn in *; tauto|assumption]). intros t [<-|H]; [left; reflexivity|exact (X _ _ H)].
  - split; [eexists; exact R|]. vm_compute in R. injection R as <- <-. split; [|split; [exists 1; split; [right|]|split; [intros c I; cbn in I; repeat (destruct I as [I|I]; [discriminate I|]); exact I|eexists; eexists; reflexivity]]].
    + intros [[|[|[|t]]] queue|[|[|[|c]]] nested]; try reflexivity; destruct queue; reflexivity.
    + apply t_step. left. reflexivity.
    + apply t_trans with 2; apply t_step; left; reflexivity.
Qed.
Print Assumptions C61_always_diagnosed_refuted.

(* Concrete cases: a diamond in parallel and with a failure; a cycle found by a thread that executes its
   own tasks. *)
Definition diamond (t : nat) : list nat := match t with 0 => [1] | 1 => [2; 3] | 2 => [4] | 3 => [4] | _ => [] end.
Definition outcome (r : option (state * list event)) (ts : list nat) := option_map (fun r => (map (fst r) ts, snd r)) r.
Fixpoint advance_n (n t : nat) : list choice := match n with O => [] | S n => Advance t true :: advance_n n t end.
Definition diamond_run (n1 n2 n3 n4 : nat) : list choice :=
  advance_n 2 0 ++ [Start 1 true] ++ advance_n 3 1 ++ [Start 2 false; Start 3 true; Advance 2 true; Start 4 false; Advance 3 true] ++
  advance_n n4 4 ++ advance_n n2 2 ++ advance_n n3 3 ++ advance_n n1 1 ++ advance_n 4 0.
Example ex_diamond : outcome (run diamond (fun _ => false) false (init diamond 0) (diamond_run 5 4 4 3)) [0; 1; 2; 3; 4] =
  Some (repeat (Done true) 5, repeat Quiet (length (diamond_run 5 4 4 3))).
Proof. vm_compute. reflexivity. Qed.
Example ex_cycle : forall t, t = 1 \/ t = 2 -> exists xs s es, run tangle (fun _ => false) false (init tangle 0) xs = Some (s, es) /\ Forall serial xs /\ s t = Done false /\ In (Cycle 1) es.
Proof.
  intros t T. exists [Advance 0 false; Advance 1 false; Advance 2 false; Advance 2 false; Advance 1 false; Advance 1 false]. eexists. eexists. split; [vm_compute; reflexivity|]. split; [repeat constructor|]. destruct T as [-> | ->]; split; try reflexivity; cbn; tauto.
Qed.
Example ex_finite : finite diamond 0 /\ ~ cyclic diamond 0 /\ cyclic tangle 0.
Proof.
  assert (X : forall x y, depends diamond x y -> (x < y)%nat /\ In y [0; 1; 2; 3; 4]).
  { intros x y H. induction H as [x y H|x y z _ [IH1 _] _ [IH2 I]]; [|split; [exact (Nat.lt_trans _ _ _ IH1 IH2)|exact I]]. destruct x as [|[|[|[|x]]]]; cbn in H; repeat (destruct H as [<-|H]); try contradiction; (split; [repeat constructor|cbn; tauto]). }
  split; [exists [0; 1; 2; 3; 4]; intros t [<-|H]; [left; reflexivity|apply (X _ _ H)]|]. split; [intros (c & _ & H); apply (Nat.lt_irrefl c), (X _ _ H)|].
  exists 1. split; [right; apply t_step; left; reflexivity|]. apply t_trans with 2; apply t_step; left; reflexivity.
Qed.
