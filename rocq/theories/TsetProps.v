(* Properties of the set of targets used by several threads. *)
From Verif Require Import Base TsetModel TsetSpec TsetProofs.

Section C63.
Context (fixed : nat -> fixing).

(* Whatever the threads do and however their steps interleave, everything that has been done is as if it
   had been done one at a time. *)
Theorem C63_atomic s : gets_to fixed s -> history fixed (log s) (targets s).
Proof. intro G. apply (good_gets fixed s G). Qed.

(* No two targets can be taken for one another: those with the same type, directories and name have
   different extensions, all specified. *)
Theorem C63_unique s i j t u : gets_to fixed s -> nth_error (targets s) i = Some t -> nth_error (targets s) j = Some u -> i <> j ->
  base t = base u -> ext t <> None /\ ext u <> None /\ ext t <> ext u.
Proof. intros G. eapply history_distinct, C63_atomic; eauto. Qed.

(* The target returned is, from then on, the one that has been asked for. *)
Theorem C63_asked s o r k e i : gets_to fixed s -> In (o, r) (log s) -> asks fixed o k e -> target_of r = Some i ->
  exists t, nth_error (targets s) i = Some t /\ base t = k /\ (e = None \/ ext t = e).
Proof. intros G. eapply history_asks, C63_atomic; eauto. Qed.

(* Two threads (or one) that ask for the same target with the extension known get the same one. *)
Theorem C63_same s o1 o2 r1 r2 k e i j : gets_to fixed s -> In (o1, r1) (log s) -> In (o2, r2) (log s) ->
  asks fixed o1 k (Some e) -> asks fixed o2 k (Some e) -> target_of r1 = Some i -> target_of r2 = Some j -> i = j.
Proof.
  intros G I1 I2 A1 A2 T1 T2.
  destruct (C63_asked _ _ _ _ _ _ G I1 A1 T1) as (t & N1 & B1 & X1). destruct (C63_asked _ _ _ _ _ _ G I2 A2 T2) as (u & N2 & B2 & X2).
  destruct (Nat.eq_dec i j) as [| D]; auto. exfalso.
  destruct (C63_unique _ _ _ _ _ G N1 N2 D ltac:(congruence)) as (_ & _ & X). destruct X1, X2; congruence.
Qed.

(* Each target has been inserted by exactly one operation and nothing else has been inserted. *)
Theorem C63_inserted_once s i : gets_to fixed s ->
  length (filter (fun x => match snd x with Inserted j => j =? i | _ => false end) (log s)) = if i <? length (targets s) then 1 else 0.
Proof. intros G. apply (history_new fixed), C63_atomic; auto. Qed.

(* Targets stay: they keep the place, type, directories and name and, once specified, the extension. A
   real declaration stays real. *)
Theorem C63_stable s xs s' i t : gets_to fixed s -> run fixed s xs = Some s' -> nth_error (targets s) i = Some t ->
  exists t', nth_error (targets s') i = Some t' /\ base t' = base t /\ (ext t = None \/ ext t' = ext t) /\ (real t = true -> real t' = true).
Proof.
  intros G R N. assert (E : extends (targets s) (targets s')); [| exact (E i t N)]. apply good_gets in G. clear N. revert s G R.
  induction xs as [| a xs IH]; cbn; intros s G R; [injection R as <-; apply extends_refl |].
  destruct (act fixed s a) as [s1 |] eqn: A; [| discriminate]. eapply extends_trans; [| apply (IH s1); eauto; eapply good_act; eauto].
  clear IH R. destruct G as (GH & GF & GT). destruct a as [u o | u c]; cbn in A.
  - destruct (threads s u); [discriminate |]. injection A as <-. apply extends_refl.
  - destruct (threads s u) as [(o, p) |] eqn: E; [| discriminate]. destruct (step fixed (targets s) o p c) as [(ts, x) |] eqn: S; [| discriminate].
    pose proof (step_does _ _ _ _ _ _ _ GF (GT _ _ _ E) S) as D. destruct x; injection A as <-; cbn.
    + destruct D as (-> & _). apply extends_refl.
    + eapply does_extends; eauto.
Qed.

(* What has been found or inserted can no longer be not found. The log is the last first. *)
Theorem C63_kept s l1 l2 o r k e e' i : gets_to fixed s -> log s = l1 ++ (Find k e', Null) :: l2 -> In (o, r) l2 ->
  asks fixed o k e -> target_of r = Some i -> e' = None \/ e' = e -> False.
Proof.
  intros G E I A T Q. apply C63_atomic in G. rewrite E in G. apply history_split in G as (ts1 & ts2 & H & D & _). cbn in D.
  destruct (history_asks _ _ _ _ _ _ _ _ H I A T) as (t & N & B & X). inversion D as [? ? NR | | | | | | |]; subst.
  apply (NR t); [eapply nth_error_In; eauto |]. split; auto. destruct Q as [| ->]; auto. destruct X; auto.
Qed.

(* If everyone who specifies the extension specifies the same one then this is one target, whatever the
   order. *)
Theorem C63_one_extension s k a i j t u : gets_to fixed s ->
  (forall o r e, In (o, r) (log s) -> asks fixed o k e -> e = None \/ e = Some a) ->
  (forall n v r t, In (Brand n v, r) (log s) -> nth_error (targets s) n = Some t -> base t = k -> v = a) ->
  nth_error (targets s) i = Some t -> nth_error (targets s) j = Some u -> base t = k -> base u = k -> i = j.
Proof.
  intros G O R T U BT BU. destruct (Nat.eq_dec i j) as [| D]; auto. exfalso.
  destruct (C63_unique _ _ _ _ _ G T U D ltac:(congruence)) as (X & Y & Z).
  assert (W : forall n v, nth_error (targets s) n = Some v -> base v = k -> ext v <> None -> ext v = Some a).
  { intros n v N BV NV. destruct (ext v) as [x |] eqn: EV; [| congruence].
    destruct (history_from _ _ _ (C63_atomic s G) _ _ _ N EV) as [(o & r & I & A) | (r & I)].
    - rewrite BV in A. destruct (O _ _ _ I A); congruence.
    - f_equal. eauto. }
  rewrite (W _ _ T BT X), (W _ _ U BU Y) in Z. congruence.
Qed.

(* An operation takes at most four steps, whatever the others do: whoever is not done has taken three at
   most. *)
Theorem C63_steps xs s t o p : run fixed initial xs = Some s -> threads s t = Some (o, p) -> taken t 0 xs <= 3.
Proof.
  intros R T. eapply stage_bound, run_stage; eauto using good_initial. discriminate.
Qed.

(* And the next step can always be taken: nobody has to wait for anything but the lock. *)
Theorem C63_progress s t o p : gets_to fixed s -> threads s t = Some (o, p) ->
  (forall i v, o = Brand i v -> i < length (targets s)) -> exists c s', act fixed s (Step t c) = Some s'.
Proof.
  intros G T V. apply good_gets in G as (_ & F & H). destruct (can_step _ _ _ _ F (H _ _ _ T) V) as (c & (ts, x) & S).
  exists c. cbn. rewrite T, S. destruct x; eauto.
Qed.
End C63.

(* Examples: two threads with foo.a and foo, and the target is not yet there. Both have not found it. *)
Definition free : nat -> fixing := fun k => if k =? 7 then Fixed (b "x") else if k =? 8 then Must else Free.
Definition A : ext_t := Some (b "a").
Definition B : ext_t := Some (b "b").
Definition shown (s : state) := (targets s, log s, threads s 1).
Example ex_race : option_map shown (run free initial
  [Begin 1 (Insert 5 A true false); Begin 2 (Insert 5 None false false); Step 1 0; Step 2 0; Step 2 0; Step 1 0]) =
  Some ([mkentry 5 A true], [(Insert 5 A true false, Found 0); (Insert 5 None false false, Inserted 0)], None).
Proof. vm_compute. reflexivity. Qed.
(* While a thread waits to set the extension, another has set it to something else. *)
Example ex_retry : option_map shown (run free initial
  [Begin 1 (Insert 5 None false false); Step 1 0; Step 1 0; Begin 1 (Insert 5 A false false); Begin 2 (Find 5 B); Step 1 0; Step 2 0;
   Step 2 0; Step 1 0; Step 1 0]) =
  Some ([mkentry 5 B false], [(Find 5 B, Found 0); (Insert 5 None false false, Inserted 0)], Some (Insert 5 A false false, Inserting)).
Proof. vm_compute. reflexivity. Qed.
Example ex_retried : option_map shown (run free initial
  [Begin 1 (Insert 5 None false false); Step 1 0; Step 1 0; Begin 1 (Insert 5 A false false); Begin 2 (Find 5 B); Step 1 0; Step 2 0;
   Step 2 0; Step 1 0; Step 1 0; Step 1 0]) =
  Some ([mkentry 5 B false; mkentry 5 A false], [(Insert 5 A false false, Inserted 1); (Find 5 B, Found 0); (Insert 5 None false false, Inserted 0)], None).
Proof. vm_compute. reflexivity. Qed.
(* Fixed and required extensions, and setting one. *)
Example ex_fixed : option_map (fun s => (targets s, map snd (log s))) (run free initial
  [Begin 1 (Insert 7 (Some (b "y")) false true); Step 1 0; Begin 1 (Find 7 None); Step 1 0; Begin 1 (Find 7 (Some (b "y"))); Step 1 0;
   Begin 1 (Insert 8 None false false); Step 1 0; Step 1 0; Begin 1 (Insert 5 None false false); Step 1 0; Step 1 0;
   Begin 1 (Brand 1 (b "a")); Step 1 0; Begin 1 (Brand 1 (b "b")); Step 1 0]) =
  Some ([mkentry 7 (Some (b "x")) false; mkentry 5 A false], [Failed; Found 1; Inserted 1; Failed; Null; Found 0; Inserted 0]).
Proof. vm_compute. reflexivity. Qed.

(* It is not the case that which target an unspecified extension refers to doesn't depend on who comes
   first: foo can be foo.a or foo.b. *)
Definition same_meaning : Prop := forall fixed xs ys s s' k a i j i' j',
  run fixed initial xs = Some s -> run fixed initial ys = Some s' ->
  (forall o, In o (map fst (log s)) <-> In o (map fst (log s'))) ->
  In (Insert k None false false, Inserted i) (log s) \/ In (Insert k None false false, Found i) (log s) ->
  In (Insert k (Some a) false false, Inserted j) (log s) \/ In (Insert k (Some a) false false, Found j) (log s) ->
  In (Insert k None false false, Inserted i') (log s') \/ In (Insert k None false false, Found i') (log s') ->
  In (Insert k (Some a) false false, Inserted j') (log s') \/ In (Insert k (Some a) false false, Found j') (log s') ->
  i = j -> i' = j'.
Theorem C63_meaning_refuted : ~ same_meaning.
Proof.
  intro H.
  pose (N := Insert 5 None false false). pose (IA := Insert 5 A false false). pose (IB := Insert 5 B false false).
  destruct (run free initial [Begin 1 N; Step 1 0; Step 1 0; Begin 1 IA; Step 1 0; Step 1 0; Begin 1 IB; Step 1 0; Step 1 0]) as [s |] eqn: R; [| vm_compute in R; discriminate].
  destruct (run free initial [Begin 1 N; Step 1 0; Step 1 0; Begin 1 IB; Step 1 0; Step 1 0; Begin 1 IA; Step 1 0; Step 1 0]) as [s' |] eqn: R'; [| vm_compute in R'; discriminate].
  assert (L : log s = [(IB, Inserted 1); (IA, Found 0); (N, Inserted 0)]) by (apply (f_equal (option_map log)) in R; vm_compute in R; injection R as E; symmetry; exact E).
  assert (L' : log s' = [(IA, Inserted 1); (IB, Found 0); (N, Inserted 0)]) by (apply (f_equal (option_map log)) in R'; vm_compute in R'; injection R' as E; symmetry; exact E).
  enough (0 = 1) by discriminate.
  apply (H free _ _ s s' 5 (b "a") 0 0 0 1 R R'); rewrite ?L, ?L'; cbn; auto 10. intro o. tauto.
Qed.

Print Assumptions C63_atomic.
Print Assumptions C63_unique.
Print Assumptions C63_asked.
Print Assumptions C63_same.
Print Assumptions C63_inserted_once.
Print Assumptions C63_stable.
Print Assumptions C63_kept.
Print Assumptions C63_one_extension.
Print Assumptions C63_steps.
Print Assumptions C63_progress.
Print Assumptions C63_meaning_refuted.
