(* Proofs about locking and executing a target. *)
From Coq Require Import NArith.
From Verif Require Import Base Count ExecModel TgtModel TgtSpec.

(* What has been achieved with the target in this operation: the offset, with 6
   while the recipe is being executed and 7 right after that. *)
Definition levt (b : nat) (t : thr) : nat :=
  match t with LGot e _ => e - b | LHold off => off | EWon _ => 4 | ERun => 6 | EFinish _ => 7 | _ => 0 end.
Fixpoint flev (b c : nat) (l : list thr) : nat :=
  match l with [] => c - b | t :: l' => if holder t then levt b t else flev b c l' end.
Definition lev (s : tgt) : nat := flev (base s) (tc s) (threads s).
Definition held (s : tgt) : nat := num holder (threads s) + b2n (lost s).
Arguments lev : simpl never.
Arguments base : simpl never.
Arguments applied : simpl never.
Arguments executed : simpl never.
Arguments cbusy : simpl never.
Arguments held : simpl never.

Lemma flev_none b c l : num holder l = 0 -> flev b c l = c - b.
Proof.
  induction l as [|t l IH]; intros H; [reflexivity|]. rewrite num_cons in H. simpl. destruct (holder t); [cbn in H; lia|]. apply IH. cbn in H. exact H.
Qed.
Lemma flev_some b c l i t : nth_error l i = Some t -> holder t = true -> num holder l <= 1 -> flev b c l = levt b t.
Proof.
  revert i; induction l as [|y l IH]; intros [|i] Hn Ht H1; simpl in *; try discriminate.
  - injection Hn as ->. rewrite Ht. reflexivity.
  - rewrite num_cons in H1. pose proof (num_pos _ _ _ _ Hn Ht). destruct (holder y); [cbn in H1; lia|]. eapply IH; eauto.
Qed.
Lemma flev_keep b c c' l i t x : nth_error l i = Some t -> holder t = false -> holder x = false ->
  (num holder l = 0 -> c = c') -> flev b c' (lupd l i x) = flev b c l.
Proof.
  revert i; induction l as [|y l IH]; intros [|i] Hn Ht Hx Hc; simpl in *; try discriminate.
  - injection Hn as ->. rewrite Ht, Hx. rewrite num_cons, Ht in Hc. cbn in Hc. clear - Hc.
    induction l as [|z l IH]; [simpl; rewrite Hc; reflexivity|]. simpl. destruct (holder z) eqn:E; [reflexivity|]. apply IH.
    rewrite num_cons, E in Hc. exact Hc.
  - destruct (holder y) eqn:E; [reflexivity|]. eapply IH; eauto. rewrite num_cons, E in Hc. exact Hc.
Qed.

Definition R (s : tgt) : Prop :=
  final (st s) = true /\ (runs s = 1 /\ result s = Some (st s) \/ st s = failed /\ runs s = 0 /\ result s = None).

Definition J (s : tgt) (n : nat) : Prop :=
  n <= 7 /\
  (n = 0 -> incs s = 0 /\ calls s = 0) /\
  (n <= 3 -> runs s = 0 /\ result s = None /\ bad s = false) /\
  (n = 4 -> (bad s = false /\ runs s = 0 /\ result s = None /\ (st s = unknown \/ st s = unchanged \/ st s = failed /\ incs s = 0)) \/
            (bad s = true /\ st s = failed)) /\
  (n = 5 -> final (st s) = true /\
            (bad s = false /\ (runs s = 1 /\ result s = Some (st s) \/ st s = failed /\ runs s = 0 /\ result s = None /\ incs s = 0) \/
             bad s = true /\ st s = failed)) /\
  (n = 6 -> bad s = false /\ runs s = 1 /\ result s = None /\ st s = unknown) /\
  (n = 7 -> bad s = false /\ runs s = 1 /\ result s = Some (st s) /\ final (st s) = true).

Definition at4 (s : tgt) : Prop := lost s = false -> 4 <= lev s.
Definition resd (s : tgt) : Prop := bad s = true \/ (R s /\ (lost s = false -> lev s = 5)).

Definition ok (s : tgt) (t : thr) : Prop :=
  match t with
  | TIdle | LWait _ | EPostponed => True
  | LTry e _ _ | LCheck e _ _ => exec s = false /\ e <= executed s /\ (applied s <= e -> at4 s)
  | LSleep _ => tc s < cbusy s -> 0 < resumes s
  | LGot e _ => exec s = false /\ e <= executed s /\ children s = 0
  | LHold off => 1 <= off <= 5
  | LRet off => 4 <= off < 6 -> at4 s
  | ECas d => exec s = true /\ at4 s /\ (d = false -> 0 < incs s)
  | EWon d => exec s = true /\ (d = false -> 0 < incs s) /\ children s = 0
  | ERun => exec s = true
  | EFinish r => exec s = true /\ children s = 0 /\ st s = r
  | EWait => exec s = true /\ at4 s /\ (held s = 0 -> tc s = executed s)
  | ESleep => exec s = true /\ at4 s /\ (held s = 0 -> tc s = executed s) /\ (tc s < cbusy s -> 0 < resumes s)
  | ERead => exec s = true /\ resd s
  | EDone r => bad s = true \/ (resd s /\ r = executed_state (st s))
  | ECrash => bad s = true
  end.

Record Inv (s : tgt) : Prop := mkinv {
  v_on : 1 <= on s;
  v_held : held s <= 1;
  v_free : held s = 0 -> tc s <= executed s /\ children s = 0;
  v_busy : held s = 1 -> tc s = cbusy s + children s;
  v_deps : deps s + calls s = incs s \/ (lost s = false /\ lev s = 0);
  v_calls : calls s <= incs s;
  v_runs : runs s <= 1;
  v_lev : lost s = false -> J s (lev s);
  v_inc : 0 < incs s -> at4 s;
  v_ok : forall t, In t (threads s) -> ok s t
}.

Lemma inv_start l : Inv (start l).
Proof. split; unfold held, at4, lev; cbn; auto; try lia; try discriminate; try contradiction. intros _. unfold J. cbn. repeat split; auto; lia. Qed.

Lemma ok_mono s s' t :
  on s' = on s -> exec s' = exec s -> (at4 s -> at4 s') ->
  ((tc s < cbusy s -> 0 < resumes s) -> tc s' < cbusy s' -> 0 < resumes s') ->
  (0 < incs s -> 0 < incs s') ->
  (exec s = true -> (held s = 0 -> tc s = executed s) -> held s' = 0 -> tc s' = executed s') ->
  (holder t = true -> children s' = children s /\ st s' = st s) ->
  (bad s = true -> bad s' = true) ->
  (bad s = false -> R s -> (lost s = false -> lev s = 5) -> bad s' = true \/ (R s' /\ (lost s' = false -> lev s' = 5) /\ st s' = st s)) ->
  ok s t -> ok s' t.
Proof.
  intros Hon Hex H4 Hsl Hinc Hew Hho Hb Hr H.
  assert (resd s -> bad s' = true \/ (resd s' /\ st s' = st s)) as Hrd.
  { intros [B|[A B]]; [left; auto|]. destruct (bad s) eqn:Eb; [left; auto|]. destruct (Hr eq_refl A B) as [K|[K1 [K2 K3]]]; [left; exact K|right]. split; [right; auto|exact K3]. }
  destruct t; cbn [ok] in *; unfold executed, applied, base in *; rewrite ?Hon, ?Hex in *; try tauto.
  1-3: destruct (Hho eq_refl) as [E1 E2]; rewrite E1, ?E2; tauto.
  - destruct H as [H1 H2]. split; [exact H1|]. destruct (Hrd H2) as [K|[K _]]; [left; exact K|exact K].
  - destruct H as [H|[H1 H2]]; [left; auto|]. destruct (Hrd H1) as [K|[K1 K2]]; [left; exact K|right]. rewrite K2. auto.
Qed.

Lemma held_go i t x s s1 : threads s1 = threads s -> lost s1 = lost s -> nth_error (threads s) i = Some t ->
  held (go i x s1) + b2n (holder t) = held s + b2n (holder x).
Proof.
  intros E1 E2 Ht. unfold held. cbn [go set_threads threads lost]. rewrite E1, E2. pose proof (num_lupd holder _ _ _ x Ht). lia.
Qed.
Lemma lev_keep i t x s s1 : threads s1 = threads s -> on s1 = on s -> nth_error (threads s) i = Some t -> holder t = false -> holder x = false ->
  (num holder (threads s) = 0 -> tc s = tc s1) -> lev (go i x s1) = lev s.
Proof.
  intros E1 E2 Ht H1 H2 Hc. unfold lev, base. cbn [go set_threads threads on tc]. rewrite E1, E2. eapply flev_keep; eauto.
Qed.
Lemma lev_hold i t x s1 : nth_error (threads s1) i = Some t -> holder x = true -> held (go i x s1) <= 1 -> lev (go i x s1) = levt (base s1) x.
Proof.
  intros Ht Hx Hh. unfold lev. change (base (go i x s1)) with (base s1). eapply flev_some; [|exact Hx|unfold held in Hh; lia].
  cbn [go set_threads threads]. eapply lupd_same; eauto.
Qed.
Lemma lev_free s1 : held s1 = 0 -> lev s1 = tc s1 - base s1.
Proof. intros H. unfold lev. apply flev_none. unfold held in H. lia. Qed.
Lemma lev_in s i t : Inv s -> nth_error (threads s) i = Some t -> holder t = true -> lev s = levt (base s) t /\ held s = 1 /\ lost s = false.
Proof.
  intros H Ht Hh. pose proof (v_held _ H) as H1. unfold held in *. pose proof (num_pos _ _ _ _ Ht Hh).
  split; [unfold lev; eapply flev_some; eauto; lia|]. destruct (lost s); cbn in *; split; auto; lia.
Qed.
Lemma not_busy_free s : Inv s -> tc s < cbusy s -> held s = 0.
Proof. intros H Hl. pose proof (v_held _ H). pose proof (v_busy _ H) as K. destruct (held s) as [|[|]]; [reflexivity| |lia]. specialize (K eq_refl). lia. Qed.
Lemma lost_busy s : Inv s -> lost s = true -> held s = 1.
Proof. intros H E. pose proof (v_held _ H). unfold held in *. rewrite E in *. cbn in *. lia. Qed.
Lemma nonholder_other s i t t' : Inv s -> nth_error (threads s) i = Some t -> holder t = true -> forall x, In t' (lupd (threads s) i x) -> t' = x \/ (In t' (threads s) /\ holder t' = false).
Proof.
  intros H Ht Hh x Hi. apply In_nth_error in Hi. destruct Hi as [j Hj]. apply lupd_nth in Hj. destruct Hj as [[_ E]|[Hn Hj]]; [auto|right].
  split; [eapply nth_error_In; eauto|]. destruct (holder t') eqn:E; [|reflexivity].
  pose proof (num_two holder _ _ _ _ _ Hj Ht E Hh Hn). pose proof (v_held _ H). unfold held in *. lia.
Qed.

(* A thread that does not have the target locked goes to another such state. *)
Lemma inv_go i t x s : Inv s -> nth_error (threads s) i = Some t -> holder t = false -> holder x = false -> ok s x -> Inv (go i x s).
Proof.
  intros H Ht H1 H2 Hx. pose proof (held_go i t x s s eq_refl eq_refl Ht) as Hh. rewrite H1, H2 in Hh.
  assert (held (go i x s) = held s) as Eh by (cbn [b2n] in Hh; lia). clear Hh.
  pose proof (lev_keep i t x s s eq_refl eq_refl Ht H1 H2 (fun _ => eq_refl)) as El.
  assert (forall t', ok s t' -> ok (go i x s) t') as Hok.
  { intros t' Ht'. eapply ok_mono; [..|exact Ht']; try rewrite Eh; unfold at4; try rewrite El; auto. }
  destruct H as [I1 I2 I3 I4 I5 I6 I7 I8 I9 I10]. split; unfold at4; rewrite ?Eh, ?El; auto.
  intros t' Ht'. apply lupd_in in Ht'. destruct Ht' as [->|Ht']; auto.
Qed.

Ltac lup Ht' := apply lupd_in in Ht'; destruct Ht' as [->|Ht'].

(* A thread that does not have the target locked when it is free takes it: lock_impl () or execute_impl (). *)
Lemma inv_take i t x s : Inv s -> nth_error (threads s) i = Some t -> holder t = false -> holder x = true -> tc s < cbusy s ->
  levt (base s) x = lev s -> (forall s', exec s' = exec s -> on s' = on s -> incs s' = incs s -> children s' = 0 -> ok s' x) -> Inv (go i x (set_tc (cbusy s) s)).
Proof.
  intros H Ht H1 H2 Hc Hl Hx. pose proof (not_busy_free _ H Hc) as Hf.
  pose proof (held_go i t x s (set_tc (cbusy s) s) eq_refl eq_refl Ht) as Hh. rewrite H1, H2, Hf in Hh. cbn [b2n] in Hh.
  set (s' := go i x (set_tc (cbusy s) s)) in *. assert (held s' = 1) as Eh by lia. clear Hh.
  assert (lev s' = lev s) as El.
  { unfold s'. rewrite lev_hold with (t := t); [exact Hl|exact Ht|exact H2|]. fold s'. rewrite Eh. auto. }
  destruct H as [I1 I2 I3 I4 I5 I6 I7 I8 I9 I10]. destruct (I3 Hf) as [_ Hch].
  split; rewrite ?Eh; unfold at4; rewrite ?El; auto.
  - discriminate.
  - intros _. change (tc s') with (cbusy s). change (cbusy s') with (cbusy s). change (children s') with (children s). lia.
  - intros t' Ht'. lup Ht'; [apply Hx; auto|]. eapply ok_mono; [..|apply I10; exact Ht'];
      try rewrite Eh; unfold at4; try rewrite El; auto; try discriminate; change (tc s') with (cbusy s); change (cbusy s') with (cbusy s); lia.
Qed.

(* The thread that has the target locked keeps it, or changes the data. *)
Lemma inv_work i t x s s1 : Inv s -> nth_error (threads s) i = Some t -> holder t = true -> holder x = true ->
  threads s1 = threads s -> on s1 = on s -> exec s1 = exec s -> lost s1 = lost s -> tc s1 = tc s -> children s1 = children s ->
  resumes s1 = resumes s -> calls s1 = calls s -> incs s1 = incs s ->
  deps s1 + calls s = incs s -> runs s1 <= 1 ->
  (4 <= lev s -> 4 <= levt (base s) x) -> (bad s = true -> bad s1 = true) ->
  (bad s = false -> lev s <> 5 \/ bad s1 = true \/ (lev s = 5 /\ R s1 /\ st s1 = st s /\ levt (base s) x = 5)) ->
  J (go i x s1) (levt (base s) x) -> ok (go i x s1) x ->
  Inv (go i x s1).
Proof.
  intros H Ht H1 H2 E1 E2 E3 E4 E5 E6 E7 E8 E9 Hd Hr H4 Hb Hres HJ Hx.
  destruct (lev_in _ _ _ H Ht H1) as [Hl [Hh Hlo]].
  pose proof (held_go i t x s s1 E1 E4 Ht) as Hh'. rewrite H1, H2, Hh in Hh'. cbn [b2n] in Hh'.
  set (s' := go i x s1) in *. assert (held s' = 1) as Eh by lia. clear Hh'.
  assert (lev s' = levt (base s) x) as El.
  { unfold s'. rewrite lev_hold with (t := t); [unfold base; rewrite E2; reflexivity|rewrite E1; exact Ht|exact H2|]. fold s'. rewrite Eh. auto. }
  pose proof H as [I1 I2 I3 I4 I5 I6 I7 I8 I9 I10].
  assert (at4 s -> at4 s') as K4 by (unfold at4; rewrite El; intros K _; apply H4; apply K; exact Hlo).
  split; rewrite ?Eh; auto.
  - unfold s'; cbn; lia.
  - discriminate.
  - intros _. unfold s', cbusy, base. cbn. rewrite E2, E5, E6. apply I4. exact Hh.
  - left. unfold s'; cbn. rewrite E8, E9. exact Hd.
  - unfold s'; cbn; lia.
  - intros _. rewrite El. exact HJ.
  - unfold s'; cbn. rewrite E9. auto.
  - intros t' Ht'. destruct (nonholder_other s i t t' H Ht H1 x) as [->|[Hi Hn]].
    { unfold s' in Ht'. cbn in Ht'. rewrite E1 in Ht'. exact Ht'. }
    { exact Hx. }
    eapply ok_mono; [..|apply I10; exact Hi]; unfold s', cbusy, base; cbn; rewrite ?E1, ?E2, ?E3, ?E5, ?E7, ?E9; auto; fold s'.
    + rewrite Eh. discriminate.
    + congruence.
    + intros B _ K. destruct (Hres B) as [K1|[K1|[K1 [K2 [K3 K4']]]]]; [destruct (K1 (K Hlo))|left; exact K1|right]. split; [exact K2|]. split; [|exact K3]. intros _. rewrite El. exact K4'.
Qed.

(* The thread unlocks the target. *)
Lemma inv_release i t x c s s1 : Inv s -> nth_error (threads s) i = Some t -> holder t = true -> holder x = false ->
  threads s1 = threads s -> on s1 = on s -> exec s1 = exec s -> lost s1 = lost s -> children s1 = 0 ->
  calls s1 = calls s -> incs s1 = incs s -> deps s1 = deps s -> bad s1 = bad s -> runs s1 <= 1 ->
  c <= executed s -> (exec s = true -> c = executed s) -> 1 <= lev s ->
  (4 <= lev s -> 4 <= c - base s) ->
  (lev s = 5 -> bad s = false -> R s1 /\ st s1 = st s /\ c = executed s) ->
  J s1 (c - base s) -> (forall s', exec s' = exec s -> on s' = on s -> st s' = st s1 -> bad s' = bad s -> result s' = result s1 -> runs s' = runs s1 -> lost s' = false -> lev s' = c - base s -> ok s' x) ->
  Inv (publish c (go i x s1)).
Proof.
  intros H Ht H1 H2 E1 E2 E3 E4 E6 E8 E9 Ed Eb Hr Hc Hce Hl1 H4 Hres HJ Hx.
  destruct (lev_in _ _ _ H Ht H1) as [Hl [Hh Hlo]].
  pose proof (held_go i t x s s1 E1 E4 Ht) as Hh'. rewrite H1, H2, Hh in Hh'. cbn [b2n] in Hh'.
  set (s' := publish c (go i x s1)) in *. assert (held s' = 0) as Eh by (change (held s') with (held (go i x s1)); lia). clear Hh'.
  assert (base s' = base s) as Eba by (unfold s', base; cbn; rewrite E2; reflexivity).
  assert (lev s' = c - base s) as El by (rewrite lev_free by exact Eh; rewrite Eba; reflexivity).
  pose proof H as [I1 I2 I3 I4 I5 I6 I7 I8 I9 I10].
  assert (at4 s -> at4 s') as K4 by (unfold at4; rewrite El; intros K _; apply H4; apply K; exact Hlo).
  assert (executed s' = executed s) as Eex by (unfold executed; rewrite Eba; reflexivity).
  split; rewrite ?Eh; auto.
  - unfold s'; cbn; lia.
  - intros _. rewrite Eex. split; [exact Hc|exact E6].
  - discriminate.
  - left. unfold s'; cbn. rewrite E8, E9, Ed. destruct I5 as [I5|[_ I5]]; [exact I5|lia].
  - unfold s'; cbn; lia.
  - intros _. rewrite El. exact HJ.
  - unfold s'; cbn. rewrite E9. auto.
  - intros t' Ht'. destruct (nonholder_other s i t t' H Ht H1 x) as [->|[Hi Hn]].
    { unfold s' in Ht'. cbn in Ht'. rewrite E1 in Ht'. exact Ht'. }
    { apply Hx; auto; unfold s'; cbn; congruence. }
    assert (tc s' = c) as Et by reflexivity. assert (st s' = st s1) as Est by reflexivity. assert (bad s' = bad s) as Ebb by (unfold s'; cbn; exact Eb).
    assert (R s1 -> R s') as KR by auto.
    eapply ok_mono; [..|apply I10; exact Hi]; auto.
    + unfold s'; cbn. intros _ _. lia.
    + unfold s'; cbn; rewrite E9; auto.
    + intros Ex _ _. rewrite Eex, Et. auto.
    + congruence.
    + congruence.
    + intros B _ K. destruct (Hres (K Hlo) B) as [K1 [K2 K3]]. right. split; [auto|]. split; [|congruence]. intros _. rewrite El, K3. unfold executed. rewrite Nat.add_comm. apply Nat.add_sub.
Qed.

(* Only the numbers of dependents change. *)
Lemma inv_hist i t x s d a b : Inv s -> nth_error (threads s) i = Some t -> holder t = false -> holder x = false ->
  d + b = a -> incs s <= a -> at4 s -> (a = incs s \/ st s <> failed) -> ok (go i x (set_hist a b (set_deps d s))) x ->
  Inv (go i x (set_hist a b (set_deps d s))).
Proof.
  intros H Ht H1 H2 Hd Ha H4 Hst Hx. set (s1 := set_hist a b (set_deps d s)) in *.
  pose proof (held_go i t x s s1 eq_refl eq_refl Ht) as Hh. rewrite H1, H2 in Hh. cbn [b2n] in Hh.
  pose proof (lev_keep i t x s s1 eq_refl eq_refl Ht H1 H2 (fun _ => eq_refl)) as El.
  set (s' := go i x s1) in *. assert (held s' = held s) as Eh by lia. clear Hh.
  assert (forall t', ok s t' -> ok s' t') as Hok.
  { intros t' Ht'. eapply ok_mono; [..|exact Ht']; unfold at4; rewrite ?Eh, ?El; auto. unfold s', s1. cbn. lia. }
  destruct H as [I1 I2 I3 I4 I5 I6 I7 I8 I9 I10]. split; unfold at4; rewrite ?Eh, ?El; auto.
  - unfold s', s1. cbn. lia.
  - intros Hlo. specialize (H4 Hlo). specialize (I8 Hlo). destruct I8 as [J1 [J2 [J3 [J4 [J5 [J6 J7]]]]]].
    unfold J. change (runs s') with (runs s). change (result s') with (result s). change (bad s') with (bad s). change (st s') with (st s).
    change (incs s') with a. change (calls s') with b.
    split; [exact J1|]. split; [lia|]. split; [lia|]. split; [|split].
    + intros E. destruct (J4 E) as [[B [C [D [F|[F|[F G]]]]]]|F]; auto; try tauto. left. repeat split; auto. right; right. split; [exact F|]. destruct Hst as [->|K]; [exact G|contradiction].
    + intros E. destruct (J5 E) as [F [[B [C|[C [D [G K]]]]]|C]]; split; auto. left. split; [exact B|]. right. repeat split; auto. destruct Hst as [->|Z]; [exact K|contradiction].
    + auto.
  - intros t' Ht'. lup Ht'; auto.
Qed.

Lemma tstate_eqb_eq x y : tstate_eqb x y = true <-> x = y.
Proof. destruct x, y; cbn; split; intros; try discriminate; reflexivity. Qed.

Lemma flev_snoc b c l t : holder t = false -> flev b c (l ++ [t]) = flev b c l.
Proof. intros H. induction l as [|y l IH]; simpl; [rewrite H; reflexivity|]. rewrite IH. reflexivity. Qed.
Lemma flev_map b c f l : (forall t, holder (f t) = holder t /\ (holder t = true -> f t = t)) -> flev b c (map f l) = flev b c l.
Proof.
  intros H. induction l as [|y l IH]; simpl; [reflexivity|]. destruct (H y) as [E1 E2]. rewrite E1. destruct (holder y); [rewrite E2 by reflexivity; reflexivity|exact IH].
Qed.

Lemma wake_holder t : holder (wake t) = holder t /\ (holder t = true -> wake t = t).
Proof. destruct t; auto; split; auto; discriminate. Qed.

Lemma base_plus s n : base s + n - base s = n.
Proof. lia. Qed.

(* Operations that do not involve locking. *)
Lemma step_new s : Inv s -> Inv (set_threads (threads s ++ [TIdle]) s).
Proof.
  intros H. set (s' := set_threads _ s).
  assert (held s' = held s) as Eh by (unfold held, s'; cbn [set_threads threads lost]; rewrite num_snoc; cbn; lia).
  assert (lev s' = lev s) as El by (unfold lev, s'; cbn; apply flev_snoc; reflexivity).
  destruct H as [I1 I2 I3 I4 I5 I6 I7 I8 I9 I10]. split; unfold at4; rewrite ?Eh, ?El; auto.
  intros t Ht. unfold s' in Ht. cbn in Ht. apply in_app_or in Ht. destruct Ht as [Ht|[<-|[]]]; [|exact I].
  eapply ok_mono; [..|apply I10; exact Ht]; unfold at4; rewrite ?Eh, ?El; auto.
Qed.

Lemma step_resume s : Inv s -> resumes s <> 0 -> Inv (set_resumes (resumes s - 1) (set_threads (map wake (threads s)) s)).
Proof.
  intros H Hr. set (s' := set_resumes _ _).
  assert (held s' = held s) as Eh.
  { unfold held, s'. cbn [set_resumes set_threads threads lost]. rewrite num_map. rewrite (num_ext _ holder); [reflexivity|]. intros x. apply wake_holder. }
  assert (lev s' = lev s) as El by (unfold lev, s'; cbn; apply flev_map; apply wake_holder).
  destruct H as [I1 I2 I3 I4 I5 I6 I7 I8 I9 I10]. split; unfold at4; rewrite ?Eh, ?El; auto.
  intros t Ht. unfold s' in Ht. cbn in Ht. apply in_map_iff in Ht. destruct Ht as [t0 [<- Ht]].
  assert (sleeping (wake t0) = false) as Hs by (destruct t0; reflexivity).
  assert (ok s (wake t0)) as Ho by (specialize (I10 _ Ht); destruct t0; cbn in *; tauto).
  destruct (wake t0); try discriminate; cbn [ok] in *; unfold at4, resd in *; rewrite ?Eh, ?El in *; auto.
Qed.

Lemma step_child i t s : Inv s -> nth_error (threads s) i = Some t -> holder t = true -> (forall r, t <> EFinish r) -> (forall e o, t <> LGot e o) -> (forall d, t <> EWon d) ->
  Inv (set_children (children s + 1) (set_tc (tc s + 1) s)).
Proof.
  intros H Ht Hh Hf Hf1 Hf2. destruct (lev_in _ _ _ H Ht Hh) as [Hl [Hd Hlo]]. set (s' := set_children _ _).
  assert (lev s' = lev s) as El.
  { rewrite Hl. unfold lev, s'. cbn. eapply flev_some; eauto. pose proof (v_held _ H). unfold held in *. lia. }
  pose proof H as [I1 I2 I3 I4 I5 I6 I7 I8 I9 I10]. split; unfold at4; change (held s') with (held s); rewrite ?El; auto.
  - rewrite Hd. discriminate.
  - intros _. specialize (I4 Hd). change (cbusy s') with (cbusy s). unfold s'. cbn [set_children set_tc tc children]. lia.
  - intros t' Ht'. change (threads s') with (threads s) in Ht'. apply In_nth_error in Ht'. destruct Ht' as [j Hj].
    assert (ok s t') as Ho by (eapply I10, nth_error_In; eauto).
    destruct (holder t') eqn:E.
    + assert (t' = t) as ->.
      { destruct (Nat.eq_dec j i) as [->|Hn]; [congruence|]. pose proof (num_two _ _ _ _ _ _ Hj Ht E Hh Hn). unfold held in *. lia. }
      destruct t; try discriminate; cbn [ok] in *; auto; exfalso; [eapply Hf1|eapply Hf2|eapply Hf]; reflexivity.
    + eapply ok_mono; [..|exact Ho]; auto; unfold at4; rewrite ?El; auto.
      * intros _. specialize (I4 Hd). change (cbusy s') with (cbusy s). change (tc s') with (tc s + 1). lia.
      * intros _ _. change (held s') with (held s). lia.
      * congruence.
Qed.

Lemma step_child_done s : Inv s -> children s <> 0 -> Inv (set_children (children s - 1) (set_tc (tc s - 1) s)).
Proof.
  intros H Hc. set (s' := set_children _ _).
  assert (held s = 1) as Hd by (pose proof (v_held _ H); pose proof (v_free _ H) as K; destruct (held s) as [|[|]]; [destruct (K eq_refl); contradiction|reflexivity|lia]).
  pose proof H as [I1 I2 I3 I4 I5 I6 I7 I8 I9 I10]. specialize (I4 Hd) as Ht.
  assert (lost s = false -> lev s' = lev s) as El.
  { intros Hlo. unfold held in Hd. rewrite Hlo in Hd. cbn in Hd. rewrite Nat.add_0_r in Hd.
    destruct (num_pos_ex holder (threads s)) as [i [t [Hi Hh]]]; [lia|].
    unfold lev, s'. cbn. rewrite !(flev_some _ _ _ _ _ Hi Hh) by lia. reflexivity. }
  split; unfold at4; change (held s') with (held s); auto.
  - rewrite Hd. discriminate.
  - intros _. change (cbusy s') with (cbusy s). unfold s'. cbn [set_children set_tc tc children]. lia.
  - destruct I5 as [I5|[I5 I5']]; [left; exact I5|right]. split; [exact I5|]. rewrite El by exact I5. exact I5'.
  - change (lost s') with (lost s). intros Hlo. rewrite El by exact Hlo. apply I8. exact Hlo.
  - change (lost s') with (lost s). intros Hi Hlo. rewrite El by exact Hlo. apply I9; auto.
  - intros t Hi. specialize (I10 _ Hi).
    destruct (holder t) eqn:E.
    + destruct t; try discriminate; cbn [ok] in *; auto; destruct I10 as [K1 [K2 K3]]; contradiction.
    + eapply ok_mono; [..|exact I10]; auto; unfold at4; try change (lost s') with (lost s).
      * intros K Hlo. rewrite El by exact Hlo. auto.
      * intros _. change (cbusy s') with (cbusy s). change (tc s') with (tc s - 1). lia.
      * intros _ _. change (held s') with (held s). lia.
      * congruence.
      * intros _ K1 K2. right. split; [exact K1|]. split; [|reflexivity]. intros Hlo. rewrite El by exact Hlo. auto.
Qed.

Lemma step_phase s (b : bool) : Inv s -> (forall t, In t (threads s) -> (if b then in_match t else in_exec t) = false) -> Inv (set_exec b s).
Proof.
  intros H Hp. destruct H as [I1 I2 I3 I4 I5 I6 I7 I8 I9 I10]. split; auto.
  intros t Ht. specialize (I10 t Ht). specialize (Hp t Ht). destruct t, b; cbn [ok] in *; cbn in Hp; try discriminate; auto; repeat match goal with H : _ /\ _ |- _ => destruct H end; repeat split; auto.
Qed.

Lemma step_nextop s l : Inv s -> lost s = false -> (forall t, In t (threads s) -> at_rest t = true) ->
  Inv (mktgt (on s + 1) false l (tc s) (children s) (deps s) (st s) (opts s) (resumes s) (map (fun _ => TIdle) (threads s)) 0 None false false 0 0).
Proof.
  intros H Hlo Hr. set (s' := mktgt _ _ _ _ _ _ _ _ _ _ _ _ _ _ _ _).
  assert (held s = 0) as Hd.
  { unfold held. rewrite Hlo. cbn. rewrite Nat.add_0_r. apply num_zero_iff. intros t Ht. specialize (Hr t Ht). destruct t; try discriminate; reflexivity. }
  assert (held s' = 0) as Hd'.
  { unfold held. change (lost s') with false. cbn [b2n]. rewrite Nat.add_0_r. apply num_zero_iff. intros t Ht. unfold s' in Ht. cbn in Ht. apply in_map_iff in Ht. destruct Ht as [? [<- _]]. reflexivity. }
  assert (base s' = executed s) as Eb by (unfold base, executed, s', base, o_executed; pose proof (v_on _ H); cbn [on]; lia).
  destruct (v_free _ H Hd) as [F1 F2].
  assert (lev s' = 0) as El by (rewrite lev_free by exact Hd'; rewrite Eb; change (tc s') with (tc s); lia).
  split; rewrite ?Hd', ?El; auto; try discriminate; try (cbn; lia).
  - intros _. split; [unfold executed; rewrite Eb; change (tc s') with (tc s); lia|exact F2].
  - intros _. unfold J. cbn. repeat split; auto; lia.
  - intros t Ht. unfold s' in Ht. cbn in Ht. apply in_map_iff in Ht. destruct Ht as [? [<- _]]. exact I.
Qed.

Lemma step_abandon i t x s : Inv s -> nth_error (threads s) i = Some t -> holder t = true -> holder x = false -> 1 <= lev s ->
  (forall s', bad s' = bad s -> ok s' x) -> Inv (go i x (set_lost true s)).
Proof.
  intros H Ht Hh Hx Hl Hok. destruct (lev_in _ _ _ H Ht Hh) as [El [Hd Hlo]]. set (s' := go i x _).
  assert (held s' = 1) as Hd'.
  { unfold held, s'. cbn [go set_threads threads set_lost lost b2n]. pose proof (num_lupd holder _ _ _ x Ht) as K. rewrite Hh, Hx in K.
    unfold held in Hd. rewrite Hlo in Hd. cbn in *. lia. }
  pose proof H as [I1 I2 I3 I4 I5 I6 I7 I8 I9 I10]. split; rewrite ?Hd'; auto; try discriminate.
  - destruct I5 as [I5|[_ I5]]; [left; exact I5|lia].
  - intros t' Ht'. unfold s' in Ht'. cbn in Ht'. destruct (nonholder_other _ _ _ _ H Ht Hh _ Ht') as [->|[Hi Hn]]; [apply Hok; reflexivity|].
    eapply (ok_mono s); [..|apply I10; exact Hi]; auto; rewrite ?Hd'; try discriminate; try congruence.
    + intros _ K _. right. repeat split; auto; try apply K. discriminate.
Qed.

Ltac ofs := unfold o_touched, o_tried, o_matched, o_applied, o_executed, o_busy in *.

Lemma step_got i e o s : Inv s -> nth_error (threads s) i = Some (LGot e o) -> Inv (lock_got i e o s).
Proof.
  intros H Ht. destruct (lev_in _ _ _ H Ht eq_refl) as [El [Hd Hlo]]. cbn in El.
  pose proof (v_ok _ H _ (nth_error_In _ _ Ht)) as [Hex [He Hch]]. pose proof (v_lev _ H Hlo) as HJ. pose proof (v_deps _ H) as Hdep.
  pose proof (v_runs _ H) as Hru. unfold lock_got.
  destruct (e <=? base s) eqn:E1.
  - apply Nat.leb_le in E1. assert (lev s = 0) as L0 by lia. rewrite L0 in HJ. destruct HJ as [_ [J2 [J3 _]]]. destruct (J2 eq_refl) as [K1 K2]. destruct J3 as [K3 [K4 K5]]; [lia|].
    eapply inv_work; eauto; try reflexivity; cbn; try lia; try congruence.
    + unfold J, o_touched. cbn. repeat split; auto; lia.
    + unfold o_touched. lia.
  - apply Nat.leb_gt in E1. destruct ((base s + o_applied <=? e) && has_options (opts s) o) eqn:E2.
    + apply andb_true_iff in E2. destruct E2 as [E2 _]. apply Nat.leb_le in E2. unfold o_applied in E2.
      eapply inv_release; eauto; try reflexivity; try lia; try congruence.
      * intros L B. rewrite L in HJ. destruct HJ as [_ [_ [_ [_ [J5 _]]]]]. destruct (J5 eq_refl) as [Q1 [[Q2 Q3]|[Q2 Q3]]]; [|congruence].
        split; [|split; [auto|unfold executed, o_executed; lia]]. split; [exact Q1|]. tauto.
      * intros s' _ _ _ _ _ _ Z1 Z2. cbn. unfold at4. lia.
    + eapply inv_work; eauto; try reflexivity; cbn; try lia; try congruence.
      * rewrite El. intros B. destruct (Nat.eq_dec (e - base s) 5) as [K|K]; [|auto]. right; right. split; [exact K|]. rewrite <- El in *. rewrite K in HJ. destruct HJ as [_ [_ [_ [_ [J5 _]]]]]. destruct (J5 eq_refl) as [Q1 [[Q2 Q3]|[Q2 Q3]]]; [|congruence].
        split; [|auto]. split; [exact Q1|]. tauto.
      * rewrite <- El. exact HJ.
      * unfold executed, o_executed in He. lia.
Qed.

Lemma J5R s : J s 5 -> bad s = false -> R s.
Proof.
  intros [_ [_ [_ [_ [J5 _]]]]] B. destruct (J5 eq_refl) as [Q1 [[Q2 Q3]|[Q2 Q3]]]; [|congruence]. split; [exact Q1|]. tauto.
Qed.

Lemma set_opts_inv o s : Inv s -> Inv (set_opts o s).
Proof. intros [I1 I2 I3 I4 I5 I6 I7 I8 I9 I10]. split; assumption. Qed.

Lemma step_match i off m s s' : Inv s -> nth_error (threads s) i = Some (LHold off) -> match_step i off m s = Some s' -> Inv s'.
Proof.
  intros H Ht Hs. destruct (lev_in _ _ _ H Ht eq_refl) as [El [Hd Hlo]]. cbn in El.
  pose proof (v_ok _ H _ (nth_error_In _ _ Ht)) as Hoff. cbn in Hoff. pose proof (v_lev _ H Hlo) as HJ. rewrite El in HJ.
  assert (deps s + calls s = incs s) as Hdep by (destruct (v_deps _ H) as [K|[_ K]]; [exact K|lia]).
  pose proof (v_runs _ H) as Hru. pose proof (v_inc _ H) as Hinc.
  assert (off <= 3 -> incs s = 0) as Hi0.
  { intros K. destruct (incs s) as [|n]; [reflexivity|]. specialize (Hinc (Nat.lt_0_succ n) Hlo). lia. }
  pose proof HJ as HJ0. destruct HJ as [_ [_ [J3 [J4 [J5 _]]]]].
  destruct m; cbn [match_step] in Hs.
  - destruct (off <=? o_tried) eqn:E; [|discriminate]. apply Nat.leb_le in E. injection Hs as <-. ofs. destruct J3 as [K1 [K2 K3]]; [lia|].
    eapply inv_work; eauto; try reflexivity; cbn; try lia; try congruence. unfold J. cbn. repeat split; auto; lia.
  - destruct (off <=? o_tried) eqn:E; [|discriminate]. apply Nat.leb_le in E. injection Hs as <-. ofs. destruct J3 as [K1 [K2 K3]]; [lia|].
    eapply inv_work; eauto; try reflexivity; cbn; try lia; try congruence. unfold J. cbn. repeat split; auto; lia.
  - destruct (off =? o_matched) eqn:E; [|discriminate]. apply Nat.eqb_eq in E. injection Hs as <-. ofs. destruct J3 as [K1 [K2 K3]]; [lia|].
    eapply inv_work; eauto; try reflexivity; cbn; try lia; try congruence.
    unfold J. cbn. repeat split; auto; try lia. intros _. left. repeat split; auto. destruct noop; auto.
  - destruct (off <=? o_tried) eqn:E; [|discriminate]. apply Nat.leb_le in E. injection Hs as <-. ofs. destruct J3 as [K1 [K2 K3]]; [lia|].
    eapply inv_work; eauto; try reflexivity; cbn; try lia; try congruence.
    unfold J. cbn. repeat split; auto; try lia. intros _. left. repeat split; auto. destruct noop; auto.
  - destruct (off =? o_applied) eqn:E; [|discriminate]. injection Hs as <-. apply set_opts_inv. exact H.
  - injection Hs as <-. ofs. eapply inv_work; eauto; try reflexivity; cbn; try lia; try congruence.
    + intros ->. reflexivity.
    + intros B. rewrite El. destruct (Nat.eq_dec off 5) as [->|K]; [|auto]. right; left. apply orb_true_iff. right. reflexivity.
    + unfold J. cbn. repeat split; auto; try lia. intros _. destruct (4 <=? off) eqn:E.
      * right. split; [apply orb_true_iff; auto|reflexivity].
      * apply Nat.leb_gt in E. destruct J3 as [K1 [K2 K3]]; [lia|]. left. rewrite K3. assert (incs s = 0) as Z by (apply Hi0; lia). destruct off as [|[|[|[|off]]]]; cbn; try lia; auto 10.
Qed.

Lemma step_unlock i off s : Inv s -> nth_error (threads s) i = Some (LHold off) -> exec s = false -> children s = 0 ->
  Inv (publish (off + base s) (go i (LRet off) s)).
Proof.
  intros H Ht Hex Hch. destruct (lev_in _ _ _ H Ht eq_refl) as [El [Hd Hlo]]. cbn in El.
  pose proof (v_ok _ H _ (nth_error_In _ _ Ht)) as Hoff. cbn in Hoff. pose proof (v_lev _ H Hlo) as HJ.
  assert (off + base s - base s = off) as Eo by lia.
  eapply inv_release; eauto; try reflexivity; rewrite ?Eo; try congruence; try lia.
  - apply (v_runs _ H).
  - unfold executed, o_executed. lia.
  - intros L B. rewrite L in HJ. split; [apply J5R; auto|]. split; [reflexivity|unfold executed, o_executed; lia].
  - intros s' _ _ _ _ _ _ Z1 Z2. cbn. unfold at4. lia.
Qed.

Lemma step_won i d cb s : Inv s -> nth_error (threads s) i = Some (EWon d) -> match cb with Some r => final r | None => true end = true ->
  Inv (exec_won i d cb s).
Proof.
  intros H Ht Hcb. destruct (lev_in _ _ _ H Ht eq_refl) as [El [Hd Hlo]]. cbn in El.
  pose proof (v_ok _ H _ (nth_error_In _ _ Ht)) as Hoff. cbn in Hoff. destruct Hoff as [Hex [Hin Hch]]. pose proof (v_lev _ H Hlo) as HJ. rewrite El in HJ.
  assert (executed s - base s = 5) as E5 by (unfold executed, o_executed; lia).
  assert (deps s + calls s = incs s) as Hdep by (destruct (v_deps _ H) as [K|[_ K]]; [exact K|lia]).
  pose proof (v_inc _ H) as Hinc.
  destruct HJ as [_ [_ [_ [J4 _]]]]. specialize (J4 eq_refl). unfold exec_won.
  destruct (st s) eqn:Es; try (exfalso; destruct J4 as [[_ [_ [_ [?|[?|[? _]]]]]]|[_ ?]]; discriminate).
  - (* unknown *)
    destruct J4 as [[B [K1 [K2 _]]]|[_ ?]]; [|discriminate].
    eapply inv_work; eauto; try reflexivity; cbn; try lia; try congruence.
    unfold J. cbn. repeat split; auto; lia.
  - (* unchanged *)
    destruct J4 as [[B [K1 [K2 _]]]|[_ ?]]; [|discriminate].
    set (r := match cb with Some r => r | None => unchanged end). assert (final r = true) as Hf by (unfold r; destruct cb; auto).
    eapply inv_release; eauto; try reflexivity; rewrite ?E5; cbn; try congruence; try lia.
    + unfold J. cbn. repeat split; auto; try lia. left. split; [exact B|]. left. split; [lia|reflexivity].
    + intros s' Z1 Z2 Z3 Z4 Z5 Z6 Z7 Z8. cbn in *. right. split.
      * right. split; [|lia]. unfold R. rewrite Z3, Z5, Z6. split; [exact Hf|]. left. split; [lia|reflexivity].
      * rewrite Z3. reflexivity.
  - (* failed *)
    destruct d.
    + eapply inv_release; eauto; try reflexivity; rewrite ?E5; try congruence; try lia.
      * apply (v_runs _ H).
      * unfold J. rewrite Es. repeat split; auto; try lia. destruct J4 as [[B [K1 [K2 [K|[K|[_ K]]]]]]|[B _]]; try discriminate; auto. left. split; [exact B|]. right. auto.
      * intros s' Z1 Z2 Z3 Z4 Z5 Z6 Z7 Z8. cbn. rewrite Z4. destruct J4 as [[B [K1 [K2 [K|[K|[_ K]]]]]]|[B _]]; try discriminate; auto.
        right. unfold resd, R. rewrite Z3, Z4, Z5, Z6, Es. split; [right; split; [|lia]|reflexivity]. split; [reflexivity|]. right. auto.
    + assert (bad s = true) as B.
      { destruct J4 as [[B [K1 [K2 [K|[K|[_ K]]]]]]|[B _]]; try discriminate; auto. specialize (Hin eq_refl). lia. }
      eapply step_abandon; eauto; try lia. intros s' Z. cbn. congruence.
Qed.

Lemma step_recipe i r s : Inv s -> nth_error (threads s) i = Some ERun -> final r = true -> children s = 0 ->
  Inv (go i (EFinish r) (set_ran (runs s) (Some r) (set_st r s))).
Proof.
  intros H Ht Hf Hch. destruct (lev_in _ _ _ H Ht eq_refl) as [El [Hd Hlo]]. cbn in El.
  pose proof (v_ok _ H _ (nth_error_In _ _ Ht)) as Hoff. cbn in Hoff. pose proof (v_lev _ H Hlo) as HJ. rewrite El in HJ.
  assert (deps s + calls s = incs s) as Hdep by (destruct (v_deps _ H) as [K|[_ K]]; [exact K|lia]).
  destruct HJ as [_ [_ [_ [_ [_ [J6 _]]]]]]. destruct (J6 eq_refl) as [B [K1 [K2 K3]]].
  eapply inv_work; eauto; try reflexivity; cbn; try lia; try congruence.
  - unfold J. cbn. repeat split; auto; try lia.
  - auto.
Qed.

Lemma step_finish i r s : Inv s -> nth_error (threads s) i = Some (EFinish r) ->
  tc s = cbusy s /\ Inv (publish (tc s - (o_busy - o_executed)) (go i (EDone (executed_state r)) s)).
Proof.
  intros H Ht. destruct (lev_in _ _ _ H Ht eq_refl) as [El [Hd Hlo]]. cbn in El.
  pose proof (v_ok _ H _ (nth_error_In _ _ Ht)) as Hoff. cbn in Hoff. destruct Hoff as [Hex [Hch Hst]]. pose proof (v_lev _ H Hlo) as HJ. rewrite El in HJ.
  destruct HJ as [_ [_ [_ [_ [_ [_ J7]]]]]]. destruct (J7 eq_refl) as [B [K1 [K2 K3]]].
  pose proof (v_busy _ H Hd) as Ht'. rewrite Hch, Nat.add_0_r in Ht'. split; [exact Ht'|].
  assert (tc s - (o_busy - o_executed) = executed s) as -> by (rewrite Ht'; unfold cbusy, executed; ofs; lia).
  assert (executed s - base s = 5) as E5 by (unfold executed, o_executed; lia).
  eapply inv_release; eauto; try reflexivity; rewrite ?E5; try congruence; try lia.
  - unfold J. repeat split; auto; try lia.
  - intros s' Z1 Z2 Z3 Z4 Z5 Z6 Z7 Z8. cbn. right. rewrite Z3, Hst. split; [|reflexivity]. right. unfold R. rewrite Z3, Z5, Z6. split; [|lia]. split; [exact K3|]. left. auto.
Qed.

Lemma step_inv s o s' : Inv s -> step s o = Some s' -> Inv s'.
Proof.
  intros H Hs. destruct o; cbn [step] in Hs; try (destruct (nth_error (threads s) i) as [t|] eqn:Ht; [|discriminate]);
    try (pose proof (v_ok _ H _ (nth_error_In _ _ Ht)) as Hok).
  - injection Hs as <-. apply step_new; assumption.
  - destruct (at_rest t && negb (exec s) && _) eqn:E; [|discriminate]. injection Hs as <-. repeat rewrite andb_true_iff in E. destruct E as [[E1 E2] _].
    eapply inv_go; [exact H|exact Ht|destruct t; try discriminate; reflexivity|reflexivity|]. cbn. apply negb_true_iff in E2. unfold executed, applied; ofs. repeat split; auto; lia.
  - destruct t; try discriminate.
    + cbn in Hok. destruct Hok as [Hex [He H4]]. destruct (tc s =? e) eqn:E.
      * apply Nat.eqb_eq in E. injection Hs as <-. assert (tc s < cbusy s) as Hc by (unfold cbusy, executed in *; ofs; lia). eapply inv_take; eauto; try reflexivity.
        -- rewrite lev_free by (apply not_busy_free; assumption). cbn. lia.
        -- intros s' Z1 Z2 Z3 Z4. cbn. unfold executed, base in *. rewrite Z2. repeat split; auto; congruence.
      * destruct (cbusy s <=? tc s) eqn:E2; injection Hs as <-.
        -- eapply inv_go; [exact H|exact Ht|reflexivity|destruct w; reflexivity|]. apply Nat.leb_le in E2. destruct w; [exact I|]. cbn. unfold cbusy in *; ofs; lia.
        -- apply Nat.leb_gt in E2. eapply inv_go; [exact H|exact Ht|reflexivity|reflexivity|]. cbn. assert (held s = 0) as Hf by (apply not_busy_free; assumption).
           destruct (v_free _ H Hf) as [F _]. repeat split; auto. intros K _. rewrite lev_free by exact Hf. unfold applied in K; ofs; lia.
    + cbn in Hok. destruct Hok as [Hex [H4 Hi]]. destruct (tc s =? applied s) eqn:E.
      * apply Nat.eqb_eq in E. injection Hs as <-. assert (tc s < cbusy s) as Hc by (unfold cbusy, applied in *; ofs; lia). eapply inv_take; eauto; try reflexivity.
        -- rewrite lev_free by (apply not_busy_free; assumption). cbn. unfold applied in *; ofs; lia.
        -- intros s' Z1 Z2 Z3 Z4. cbn. rewrite Z3. repeat split; auto; congruence.
      * apply Nat.eqb_neq in E. destruct (cbusy s <=? tc s) eqn:E2; [injection Hs as <-|].
        -- eapply inv_go; [exact H|exact Ht|reflexivity|reflexivity|]. apply Nat.leb_le in E2. cbn. repeat split; auto. intros K. destruct (v_free _ H K) as [F _]. unfold cbusy, executed in *; ofs; lia.
        -- apply Nat.leb_gt in E2. assert (held s = 0) as Hf by (apply not_busy_free; assumption). destruct (v_free _ H Hf) as [F _].
           assert (lost s = false) as Hlo by (unfold held in Hf; destruct (lost s); [cbn in Hf; lia|reflexivity]).
           specialize (H4 Hlo). rewrite lev_free in H4 by exact Hf.
           assert (tc s = executed s) as Et by (unfold executed, applied in *; ofs; lia).
           rewrite (proj2 (Nat.eqb_eq _ _) Et) in Hs. injection Hs as <-. eapply inv_go; [exact H|exact Ht|reflexivity|reflexivity|]. cbn. split; [exact Hex|].
           unfold resd. destruct (bad s) eqn:B; [auto|right]. assert (lev s = 5) as L5 by (rewrite lev_free by exact Hf; unfold executed in *; ofs; lia).
           split; [|auto]. apply J5R; [|exact B]. rewrite <- L5. apply (v_lev _ H Hlo).
  - destruct t; try discriminate. destruct (cbusy s <=? tc s); [|discriminate]. injection Hs as <-. eapply inv_go; [exact H|exact Ht|reflexivity|reflexivity|]. exact I.
  - destruct t; try discriminate.
    + destruct (tc s <=? cbusy s - 1) eqn:E.
      * destruct (exec s) eqn:Ex; [discriminate|]. injection Hs as <-. apply Nat.leb_le in E. eapply inv_go; [exact H|exact Ht|reflexivity|reflexivity|].
        assert (held s = 0) as Hf by (apply not_busy_free; [assumption|unfold cbusy in *; ofs; lia]). cbn.
        destruct (v_free _ H Hf) as [F _]. repeat split; auto. intros K _. rewrite lev_free by exact Hf. unfold applied in K; ofs; lia.
      * injection Hs as <-. apply Nat.leb_gt in E. eapply inv_go; [exact H|exact Ht|reflexivity|reflexivity|]. cbn. unfold cbusy in *; ofs; lia.
    + injection Hs as <-. cbn in Hok. destruct Hok as [Hex [H4 Hw]]. eapply inv_go; [exact H|exact Ht|reflexivity|destruct (_ <=? _); reflexivity|].
      destruct (tc s <=? executed s) eqn:E.
      * apply Nat.leb_le in E. assert (held s = 0) as Hf by (apply not_busy_free; [assumption|unfold cbusy, executed in *; ofs; lia]). specialize (Hw Hf).
        assert (lost s = false) as Hlo by (unfold held in Hf; destruct (lost s); [cbn in Hf; lia|reflexivity]).
        cbn. split; [exact Hex|]. unfold resd. destruct (bad s) eqn:B; [auto|right]. assert (lev s = 5) as L5 by (rewrite lev_free by exact Hf; unfold executed in *; ofs; lia).
        split; [|auto]. apply J5R; [|exact B]. rewrite <- L5. apply (v_lev _ H Hlo).
      * apply Nat.leb_gt in E. cbn. repeat split; auto. unfold cbusy, executed in *; ofs; lia.
  - destruct t; try discriminate. injection Hs as <-. cbn in Hok. destruct Hok as [Hex [He H4]].
    destruct ((applied s <=? e) && has_options (opts s) o) eqn:E; (eapply inv_go; [exact H|exact Ht|reflexivity|reflexivity|]); cbn.
    + intros _. apply H4. apply andb_true_iff in E. destruct E as [E _]. apply Nat.leb_le in E. exact E.
    + auto.
  - destruct t; try discriminate. injection Hs as <-. apply step_got; assumption.
  - destruct t; try discriminate. destruct (exec s); [discriminate|]. eapply step_match; eauto.
  - destruct t; try discriminate. destruct (exec s || negb (children s =? 0)) eqn:E; [discriminate|]. injection Hs as <-.
    apply orb_false_iff in E. destruct E as [E1 E2]. apply negb_false_iff, Nat.eqb_eq in E2. apply step_unlock; assumption.
  - destruct t; try discriminate. injection Hs as <-. destruct (lev_in _ _ _ H Ht eq_refl) as [El _]. cbn in *. eapply step_abandon; eauto; try reflexivity. lia.
  - destruct t; try discriminate. destruct ((o_applied <=? off) && (off <? o_busy) && negb (exec s) && negb (tstate_eqb (st s) failed)) eqn:E; [|discriminate]. injection Hs as <-.
    repeat rewrite andb_true_iff in E. destruct E as [[[E1 E2] E3] E4]. apply Nat.leb_le in E1. apply Nat.ltb_lt in E2. ofs. cbn in Hok. specialize (Hok (conj E1 E2)).
    eapply inv_hist; eauto; try lia.
    + destruct (v_deps _ H) as [K|[K1 K2]]; [lia|]. specialize (Hok K1). lia.
    + right. intros K. rewrite K in E4. discriminate.
    + exact I.
  - destruct (at_rest t) eqn:E; [|discriminate]. injection Hs as <-. eapply inv_go; [exact H|exact Ht|destruct t; try discriminate; reflexivity|reflexivity|exact I].
  - destruct t; try discriminate. destruct (exec s && (calls s <? incs s)) eqn:E; [|discriminate]. apply andb_true_iff in E. destruct E as [E1 E2]. apply Nat.ltb_lt in E2. injection Hs as <-.
    assert (at4 s) as H4 by (apply (v_inc _ H); lia).
    assert (deps s + calls s = incs s) as Hd by (destruct (v_deps _ H) as [K|[K1 K2]]; [exact K|specialize (H4 K1); lia]).
    destruct (deps s =? 0) eqn:E0; [apply Nat.eqb_eq in E0; lia|]. apply Nat.eqb_neq in E0.
    eapply inv_hist; eauto; try lia; try (destruct (_ && _); reflexivity).
    destruct (last s && negb (deps s - 1 =? 0)); [exact I|]. cbn. split; [exact E1|]. split; [|lia].
    unfold at4. erewrite lev_keep; try eassumption; try reflexivity.
  - destruct t; try discriminate. destruct (exec s && (o_applied <=? off) && (off <? o_busy)) eqn:E; [|discriminate]. injection Hs as <-.
    repeat rewrite andb_true_iff in E. destruct E as [[E1 E2] E3]. apply Nat.leb_le in E2. apply Nat.ltb_lt in E3. ofs.
    eapply inv_go; [exact H|exact Ht|reflexivity|reflexivity|]. cbn in *. repeat split; auto. discriminate.
  - destruct t; try discriminate. destruct (match cb with Some r => final r | None => true end) eqn:E; [|discriminate]. injection Hs as <-. apply step_won; assumption.
  - destruct t; try discriminate. destruct (final r && (children s =? 0)) eqn:E; [|discriminate]. injection Hs as <-. apply andb_true_iff in E. destruct E as [E1 E2]. apply Nat.eqb_eq in E2. apply step_recipe; assumption.
  - destruct t; try discriminate. destruct (step_finish _ _ _ H Ht) as [K1 K2]. rewrite (proj2 (Nat.eqb_eq _ _) K1) in Hs. injection Hs as <-. exact K2.
  - destruct t; try discriminate. injection Hs as <-. eapply inv_go; [exact H|exact Ht|reflexivity|reflexivity|]. cbn in *. right. destruct Hok. auto.
  - destruct t; try discriminate; injection Hs as <-; eapply step_child; eauto; discriminate.
  - destruct (children s =? 0) eqn:E; [discriminate|]. injection Hs as <-. apply Nat.eqb_neq in E. apply step_child_done; assumption.
  - destruct (resumes s =? 0) eqn:E; [discriminate|]. injection Hs as <-. apply Nat.eqb_neq in E. apply step_resume; assumption.
  - destruct (exec s || negb (num in_match (threads s) =? 0)) eqn:E; [discriminate|]. injection Hs as <-. apply orb_false_iff in E. destruct E as [_ E]. apply negb_false_iff, Nat.eqb_eq in E.
    apply (step_phase s true); [assumption|]. intros t Ht. eapply num_zero; eauto.
  - destruct (negb (exec s) || negb (num in_exec (threads s) =? 0)) eqn:E; [discriminate|]. injection Hs as <-. apply orb_false_iff in E. destruct E as [_ E]. apply negb_false_iff, Nat.eqb_eq in E.
    apply (step_phase s false); [assumption|]. intros t Ht. eapply num_zero; eauto.
  - destruct (lost s || _) eqn:E; [discriminate|]. injection Hs as <-. apply orb_false_iff in E. destruct E as [E1 E]. apply negb_false_iff, Nat.eqb_eq in E.
    apply step_nextop; auto. intros t Ht. pose proof (num_zero _ _ _ E Ht) as K. apply negb_false_iff in K. exact K.
Qed.

Lemma run_inv l : forall s s', Inv s -> run s l = Some s' -> Inv s'.
Proof.
  induction l as [|o l IH]; intros s s' H Hr; simpl in Hr; [injection Hr as <-; exact H|].
  destruct (step s o) as [s1|] eqn:E; [|discriminate]. eapply IH; [eapply step_inv; eauto|exact Hr].
Qed.

(* How the level changes. *)
Definition lle (n n' : nat) : Prop := n = n' \/ (n <= 4 /\ n <= n') \/ (6 <= n /\ (n' = 5 \/ n' = 7)).
Definition not_next (o : top) : Prop := match o with NextOperation _ => False | _ => True end.

Lemma lev_go s i t x : nth_error (threads s) i = Some t -> holder t = false -> holder x = false -> lev (go i x s) = lev s.
Proof. intros. eapply lev_keep; eauto. Qed.
Lemma nth_go s i t x : nth_error (threads s) i = Some t -> nth_error (threads (go i x s)) i = Some x.
Proof. intros. cbn. eapply lupd_same; eauto. Qed.
Lemma free_lost s : held s = 0 -> lost s = false.
Proof. unfold held. destruct (lost s); cbn; [lia|auto]. Qed.
Lemma nonholders_free s : lost s = false -> (forall t, In t (threads s) -> holder t = false) -> held s = 0.
Proof. intros E H. unfold held. rewrite E. cbn. rewrite Nat.add_0_r. apply num_zero_iff. exact H. Qed.

Lemma release_lev i t x c s s1 : Inv s -> nth_error (threads s) i = Some t -> holder t = true -> holder x = false ->
  threads s1 = threads s -> on s1 = on s -> lost s1 = lost s -> lev (publish c (go i x s1)) = c - base s.
Proof.
  intros H Ht H1 H2 E1 E2 E4. destruct (lev_in _ _ _ H Ht H1) as [_ [Hd _]].
  pose proof (held_go i t x s s1 E1 E4 Ht) as Hh. rewrite H1, H2, Hd in Hh. cbn [b2n] in Hh.
  rewrite lev_free by (change (held (publish c (go i x s1))) with (held (go i x s1)); lia). unfold base. cbn. rewrite E2. reflexivity.
Qed.

Lemma lev_new s i t x : Inv (go i x s) -> nth_error (threads s) i = Some t -> holder x = true -> lev (go i x s) = levt (base s) x.
Proof. intros H Ht Hx. eapply lev_hold; eauto. apply (v_held _ H). Qed.

Lemma step_lev s o s' : Inv s -> step s o = Some s' -> not_next o ->
  lost s' = true \/ bad s' = true \/ (lle (lev s) (lev s') /\ bad s' = bad s /\ lost s' = lost s).
Proof.
  intros H Hs Hn. pose proof (step_inv _ _ _ H Hs) as H'. destruct (lost s') eqn:Lo'; [auto|]. right. destruct (bad s') eqn:B'; [auto|]. right.
  assert (lost s = false) as Lo.
  { destruct (lost s) eqn:E; [|reflexivity]. exfalso. pose proof (lost_busy _ H E) as Hb.
    assert (forall i t, nth_error (threads s) i = Some t -> holder t = true -> False) as Z.
    { intros i t Ht Hh. destruct (lev_in _ _ _ H Ht Hh) as [_ [_ K]]. congruence. }
    destruct o; cbn [step] in Hs; try contradiction; try (destruct (nth_error (threads s) i) as [t|] eqn:Ht; [|discriminate]; destruct t; try discriminate; try (eapply Z; [exact Ht|reflexivity]));
      repeat match type of Hs with context [if ?c then _ else _] => destruct c eqn:?; try discriminate end; try (injection Hs as <-; cbn in Lo'; congruence). }
  assert (bad s = false) as B.
  { destruct (bad s) eqn:E; [|reflexivity]. exfalso. destruct o; cbn [step] in Hs; try contradiction; try (destruct (nth_error (threads s) i) as [t|] eqn:Ht; [|discriminate]; destruct t; try discriminate);
      repeat match type of Hs with context [if ?c then _ else _] => destruct c eqn:?; try discriminate end; try (injection Hs as <-; cbn in B'; congruence).
    - injection Hs as <-. unfold lock_got in B'. destruct (_ <=? _); [cbn in B'; congruence|]. destruct (_ && _); cbn in B'; congruence.
    - destruct m; cbn [match_step] in Hs; repeat match type of Hs with context [if ?c then _ else _] => destruct c eqn:?; try discriminate end; injection Hs as <-; cbn in B'; try congruence. rewrite E in B'. discriminate.
    - injection Hs as <-. unfold exec_won in B'. destruct (st s); try destruct direct; cbn in B'; congruence. }
  split; [|split; congruence].
  assert (lle (lev s) (lev s)) as Z0 by (left; reflexivity).
  destruct o; cbn [step] in Hs; try contradiction; try (destruct (nth_error (threads s) i) as [t|] eqn:Ht; [|discriminate]).
  - injection Hs as <-. unfold lev. cbn. rewrite flev_snoc by reflexivity. exact Z0.
  - destruct (at_rest t && _ && _) eqn:E; [|discriminate]. injection Hs as <-. repeat rewrite andb_true_iff in E. erewrite lev_go; eauto. destruct t; auto; destruct E as [[E _] _]; discriminate.
  - destruct t; try discriminate.
    + destruct (tc s =? e) eqn:E.
      * injection Hs as <-. assert (tc s < cbusy s) as Hc.
        { apply Nat.eqb_eq in E. pose proof (v_ok _ H _ (nth_error_In _ _ Ht)) as [_ [K _]]. unfold cbusy, executed in *; ofs; lia. }
        erewrite lev_new; [|exact H'|exact Ht|reflexivity]. rewrite lev_free by (apply not_busy_free; assumption).
        apply Nat.eqb_eq in E. cbn. change (base (set_tc (cbusy s) s)) with (base s). rewrite E. left. reflexivity.
      * destruct (cbusy s <=? tc s); injection Hs as <-; erewrite lev_go; eauto. destruct w; reflexivity.
    + destruct (tc s =? applied s) eqn:E.
      * injection Hs as <-. apply Nat.eqb_eq in E. assert (tc s < cbusy s) as Hc by (unfold cbusy, applied in *; ofs; lia).
        erewrite lev_new; [|exact H'|exact Ht|reflexivity]. rewrite lev_free by (apply not_busy_free; assumption).
        cbn. left. unfold applied in *; ofs; lia.
      * repeat match type of Hs with context [if ?c then _ else _] => destruct c eqn:?; try discriminate end; injection Hs as <-; erewrite lev_go; eauto.
  - destruct t; try discriminate. destruct (cbusy s <=? tc s); [|discriminate]. injection Hs as <-. erewrite lev_go; eauto.
  - destruct t; try discriminate; repeat match type of Hs with context [if ?c then _ else _] => destruct c eqn:?; try discriminate end; injection Hs as <-; erewrite lev_go; eauto.
  - destruct t; try discriminate. injection Hs as <-. erewrite lev_go; eauto. destruct (_ && _); reflexivity.
  - destruct t; try discriminate. injection Hs as <-. destruct (lev_in _ _ _ H Ht eq_refl) as [El _]. rewrite El. cbn. revert H'. unfold lock_got. intros H'. destruct (e <=? base s) eqn:E1.
    + erewrite lev_new; [|exact H'|exact Ht|reflexivity]. cbn. apply Nat.leb_le in E1. right; left. ofs; lia.
    + destruct (_ && _).
      * erewrite (release_lev i _ _ _ s); [|exact H|exact Ht|reflexivity|reflexivity|reflexivity|reflexivity|reflexivity]. left. reflexivity.
      * erewrite lev_new; [|exact H'|exact Ht|reflexivity]. cbn. left. reflexivity.
  - destruct t; try discriminate. destruct (exec s); [discriminate|]. destruct (lev_in _ _ _ H Ht eq_refl) as [El _]. rewrite El. cbn.
    pose proof (v_ok _ H _ (nth_error_In _ _ Ht)) as Hoff. cbn in Hoff.
    destruct m; cbn [match_step] in Hs; repeat match type of Hs with context [if ?c then _ else _] => destruct c eqn:?; try discriminate end; injection Hs as <-;
      try (erewrite lev_new; [|exact H'|exact Ht|reflexivity]); cbn; unfold lle;
      repeat match goal with K : (_ <=? _) = true |- _ => apply Nat.leb_le in K | K : (_ =? _) = true |- _ => apply Nat.eqb_eq in K end; ofs; try lia.
    + left. change (lev (set_opts (N.lor (opts s) o) s)) with (lev s). rewrite El. reflexivity.
    + cbn in B'. apply orb_false_iff in B'. destruct B' as [_ B']. assert (off <= 3) by (destruct off as [|[|[|[|off]]]]; [lia|lia|lia|lia|discriminate]). lia.
  - destruct t; try discriminate. destruct (_ || _); [discriminate|]. injection Hs as <-. erewrite (release_lev i _ _ _ s); [|exact H|exact Ht|reflexivity|reflexivity|reflexivity|reflexivity|reflexivity]. destruct (lev_in _ _ _ H Ht eq_refl) as [-> _]. cbn. left. lia.
  - destruct t; try discriminate. injection Hs as <-. discriminate.
  - destruct t; try discriminate. destruct (_ && _ && _ && _); [|discriminate]. injection Hs as <-. erewrite (lev_keep i); eauto.
  - destruct (at_rest t) eqn:E; [|discriminate]. injection Hs as <-. erewrite lev_go; eauto. destruct t; auto; discriminate.
  - destruct t; try discriminate. destruct (_ && _); [|discriminate]. injection Hs as <-. erewrite (lev_keep i); eauto. destruct (_ =? _); [reflexivity|]. destruct (_ && _); reflexivity.
  - destruct t; try discriminate. destruct (_ && _ && _); [|discriminate]. injection Hs as <-. erewrite lev_go; eauto.
  - destruct t; try discriminate. destruct (match cb with Some r => final r | None => true end); [|discriminate]. injection Hs as <-.
    destruct (lev_in _ _ _ H Ht eq_refl) as [El _]. rewrite El. cbn. revert H' Lo'. unfold exec_won. intros H' Lo'.
    destruct (st s); try (cbn in Lo'; discriminate).
    + erewrite lev_new; [|exact H'|exact Ht|reflexivity]. cbn. unfold lle. lia.
    + erewrite (release_lev i _ _ _ s); [|exact H|exact Ht|reflexivity|reflexivity|reflexivity|reflexivity|reflexivity]. unfold executed; ofs. right; left; lia.
    + destruct direct; [|cbn in Lo'; discriminate]. erewrite (release_lev i _ _ _ s); [|exact H|exact Ht|reflexivity|reflexivity|reflexivity|reflexivity|reflexivity]. unfold executed; ofs. right; left; lia.
  - destruct t; try discriminate. destruct (_ && _); [|discriminate]. injection Hs as <-. destruct (lev_in _ _ _ H Ht eq_refl) as [El _]. rewrite El.
    erewrite lev_new; [|exact H'|exact Ht|reflexivity]. cbn. unfold lle. lia.
  - destruct t; try discriminate. destruct (step_finish _ _ _ H Ht) as [K1 _]. rewrite (proj2 (Nat.eqb_eq _ _) K1) in Hs. injection Hs as <-.
    destruct (lev_in _ _ _ H Ht eq_refl) as [El _]. rewrite El. erewrite (release_lev i _ _ _ s); [|exact H|exact Ht|reflexivity|reflexivity|reflexivity|reflexivity|reflexivity]. rewrite K1. unfold cbusy, lle; ofs; cbn; lia.
  - destruct t; try discriminate. injection Hs as <-. erewrite lev_go; eauto.
  - destruct t; try discriminate; injection Hs as <-; destruct (lev_in _ _ _ H Ht eq_refl) as [El _]; rewrite El;
      left; destruct (lev_in _ i _ H' Ht eq_refl) as [K _]; rewrite K; reflexivity.
  - destruct (children s =? 0) eqn:E; [discriminate|]. injection Hs as <-. left.
    assert (held s = 1) as Hd by (pose proof (v_held _ H); pose proof (v_free _ H) as K; apply Nat.eqb_neq in E; destruct (held s) as [|[|]]; [destruct (K eq_refl); contradiction|reflexivity|lia]).
    unfold held in Hd. rewrite Lo in Hd. cbn in Hd. rewrite Nat.add_0_r in Hd.
    destruct (num_pos_ex holder (threads s)) as [i [t [Hi Hh]]]; [lia|]. unfold lev. cbn. rewrite !(flev_some _ _ _ _ _ Hi Hh) by lia. reflexivity.
  - destruct (_ =? _); [discriminate|]. injection Hs as <-. unfold lev. cbn. rewrite flev_map by apply wake_holder. exact Z0.
  - destruct (_ || _); [discriminate|]. injection Hs as <-. exact Z0.
  - destruct (_ || _); [discriminate|]. injection Hs as <-. exact Z0.
Qed.

(* The last dependent. *)
Definition pend (t : thr) : bool := match t with ECas _ | EWon _ | EWait | ESleep => true | _ => false end.
Definition L (s : tgt) : Prop := last s = true -> 0 < incs s -> calls s = incs s ->
  lost s = true \/ bad s = true \/ 5 <= lev s \/ exists t, In t (threads s) /\ pend t = true.

Lemma lupd_in_new {X} (l : list X) i x t : nth_error l i = Some t -> In x (lupd l i x).
Proof. intros H. eapply nth_error_In. eapply lupd_same; eauto. Qed.
Lemma lupd_in_old {X} (l : list X) i x y z : nth_error l i = Some z -> In y l -> y = z \/ In y (lupd l i x).
Proof.
  intros Hz Hy. apply In_nth_error in Hy. destruct Hy as [j Hj]. destruct (Nat.eq_dec j i) as [->|Hn]; [left; congruence|right].
  eapply nth_error_In with (n := j). rewrite lupd_other by lia. exact Hj.
Qed.

Lemma L_update s s' i t x : threads s' = lupd (threads s) i x -> nth_error (threads s) i = Some t -> Inv s' ->
  last s' = last s -> incs s' = incs s -> calls s' = calls s -> lost s' = lost s -> bad s' = bad s -> lle (lev s) (lev s') ->
  (pend t = true -> pend x = true \/ 5 <= lev s') -> L s -> L s'.
Proof.
  intros E Ht H' E1 E2 E3 E4 E5 Hl Hp HL. unfold L. rewrite E1, E2, E3, E4, E5. intros K1 K2 K3.
  destruct (HL K1 K2 K3) as [K|[K|[K|[y [Hy Py]]]]]; auto.
  - right; right; left. unfold lle in Hl. lia.
  - destruct (lupd_in_old _ _ x _ _ Ht Hy) as [->|Hi].
    + destruct (Hp Py) as [Px|Q]; [|auto]. right; right; right. exists x. rewrite E. split; [eapply lupd_in_new; eauto|exact Px].
    + right; right; right. exists y. rewrite E. auto.
Qed.

Lemma read_lev s r : Inv s -> lost s = false -> bad s = false -> In ERead (threads s) \/ In (EDone r) (threads s) -> lev s = 5.
Proof.
  intros H Hl Hb [Hi|Hi]; pose proof (v_ok _ H _ Hi) as K; cbn in K; unfold resd in K.
  - destruct K as [_ [K|[_ K]]]; [congruence|auto].
  - destruct K as [K|[[K|[_ K]] _]]; [congruence|congruence|auto].
Qed.

Ltac Lup := match goal with H' : Inv ?s', Ht : nth_error (threads ?s) _ = Some _, HL : L ?s |- L ?s' =>
  eapply (L_update s); [reflexivity|exact Ht|exact H'|reflexivity|reflexivity|reflexivity|congruence|congruence|assumption| |exact HL] end.

Lemma step_L s o s' : Inv s -> L s -> step s o = Some s' -> L s'.
Proof.
  intros H HL Hs. pose proof (step_inv _ _ _ H Hs) as H'.
  assert (not_next o \/ exists l, o = NextOperation l) as [Hn|[l ->]] by (destruct o; eauto; left; exact I).
  2: { cbn [step] in Hs. destruct (_ || _); [discriminate|]. injection Hs as <-. intros _ K. cbn in K. lia. }
  destruct (step_lev _ _ _ H Hs Hn) as [K|[K|[Hl [Eb El]]]]; [unfold L; auto|unfold L; auto|].
  destruct (lost s') eqn:Lo; [unfold L; auto|]. destruct (bad s') eqn:Ba; [unfold L; auto|].
  destruct o; cbn [step] in Hs; try contradiction; try (destruct (nth_error (threads s) i) as [t|] eqn:Ht; [|discriminate]).
  - injection Hs as <-. intros K1 K2 K3. destruct (HL K1 K2 K3) as [K|[K|[K|[y [Hy Py]]]]]; auto.
    + right; right; left. unfold lle in Hl. lia.
    + right; right; right. exists y. split; [|exact Py]. cbn. apply in_or_app. auto.
  - destruct (at_rest t && _ && _) eqn:E; [|discriminate]. injection Hs as <-. Lup. intros K. destruct t; discriminate.
  - destruct t; try discriminate.
    + destruct (tc s =? e); [|destruct (cbusy s <=? tc s)]; injection Hs as <-; (Lup; discriminate).
    + destruct (tc s =? applied s); [|destruct (cbusy s <=? tc s); [|destruct (tc s =? executed s)]]; injection Hs as <-; (Lup); auto; intros _; right.
      * rewrite (read_lev _ unknown H'); auto. left. cbn. eapply lupd_in_new; eauto.
      * assert (bad (go i ECrash s) = true) as Z by (apply (v_ok _ H' ECrash); eapply lupd_in_new; eauto). congruence.
  - destruct t; try discriminate. destruct (_ <=? _); [|discriminate]. injection Hs as <-. Lup. discriminate.
  - destruct t; try discriminate.
    + destruct (tc s <=? _); [destruct (exec s); [discriminate|]|]; injection Hs as <-; (Lup; discriminate).
    + injection Hs as <-. Lup. intros _. destruct (tc s <=? executed s) eqn:E; [right|left; reflexivity].
      rewrite (read_lev _ unknown H'); auto. left. rewrite ?E. cbn. eapply lupd_in_new; eauto.
  - destruct t; try discriminate. injection Hs as <-. Lup. discriminate.
  - destruct t; try discriminate. injection Hs as <-. revert H' Hl Eb El Lo Ba. unfold lock_got. intros. destruct (_ <=? _); [|destruct (_ && _)];
      (Lup; discriminate).
  - destruct t; try discriminate. destruct (exec s); [discriminate|].
    destruct m; cbn [match_step] in Hs; repeat match type of Hs with context [if ?c then _ else _] => destruct c eqn:?; try discriminate end; injection Hs as <-;
      try (Lup; discriminate).
    intros K1 K2 K3. destruct (HL K1 K2 K3) as [K|[K|[K|K]]]; auto.
  - destruct t; try discriminate. destruct (_ || _); [discriminate|]. injection Hs as <-. Lup. discriminate.
  - destruct t; try discriminate. injection Hs as <-. discriminate.
  - destruct t; try discriminate. destruct (_ && _ && _ && _); [|discriminate]. injection Hs as <-. intros _ _ K. cbn in K. pose proof (v_calls _ H). lia.
  - destruct (at_rest t) eqn:E; [|discriminate]. injection Hs as <-. Lup. intros K. destruct t; discriminate.
  - destruct t; try discriminate. destruct (exec s && (calls s <? incs s)) eqn:E; [|discriminate]. injection Hs as <-. intros K1 K2 K3. cbn in K1, K2, K3.
    assert (at4 s) as H4 by (apply (v_inc _ H); lia).
    assert (deps s + calls s = incs s) as Hd by (destruct (v_deps _ H) as [K|[Q1 Q2]]; [exact K|specialize (H4 Q1); lia]).
    right; right; right. exists (ECas false). split; [|reflexivity]. cbn. assert (deps s = 1) as -> by lia. rewrite K1. cbn. eapply lupd_in_new; eauto.
  - destruct t; try discriminate. destruct (_ && _ && _); [|discriminate]. injection Hs as <-. Lup. discriminate.
  - destruct t; try discriminate. destruct (match cb with Some r => final r | None => true end); [|discriminate]. injection Hs as <-.
    revert H' Hl Eb El Lo Ba. unfold exec_won. intros. destruct (st s); try (cbn in Lo; discriminate).
    + Lup. intros _. right. erewrite lev_new; [|exact H'|exact Ht|reflexivity]. cbn. lia.
    + Lup. intros _. right. erewrite read_lev; [auto|exact H'|exact Lo|exact Ba|]. right. cbn. eapply lupd_in_new; eauto.
    + destruct direct; [|cbn in Lo; discriminate]. Lup. intros _. right. erewrite read_lev; [auto|exact H'|exact Lo|exact Ba|]. right. cbn. eapply lupd_in_new; eauto.
  - destruct t; try discriminate. destruct (_ && _); [|discriminate]. injection Hs as <-. Lup. discriminate.
  - destruct t; try discriminate. destruct (tc s =? cbusy s); injection Hs as <-; [|discriminate]. Lup. discriminate.
  - destruct t; try discriminate. injection Hs as <-. Lup. discriminate.
  - destruct t; try discriminate; injection Hs as <-; intros K1 K2 K3; (destruct (HL K1 K2 K3) as [K|[K|[K|K]]]; auto); right; right; left; unfold lle in Hl; lia.
  - destruct (children s =? 0); [discriminate|]. injection Hs as <-. intros K1 K2 K3; (destruct (HL K1 K2 K3) as [K|[K|[K|K]]]; auto); right; right; left; unfold lle in Hl; lia.
  - destruct (_ =? _); [discriminate|]. injection Hs as <-. intros K1 K2 K3; (destruct (HL K1 K2 K3) as [K|[K|[K|[y [Hy Py]]]]]; auto); [right; right; left; unfold lle in Hl; lia|].
    right; right; right. exists (wake y). split; [cbn; apply in_map; exact Hy|]. destruct y; try discriminate; reflexivity.
  - destruct (_ || _); [discriminate|]. injection Hs as <-. exact HL.
  - destruct (_ || _); [discriminate|]. injection Hs as <-. exact HL.
Qed.

Lemma run_L l : forall s s', Inv s -> L s -> run s l = Some s' -> L s'.
Proof.
  induction l as [|o l IH]; intros s s' H HL Hr; simpl in Hr; [injection Hr as <-; exact HL|].
  destruct (step s o) as [s1|] eqn:E; [|discriminate]. eapply IH; [eapply step_inv; eauto|eapply step_L; eauto|exact Hr].
Qed.

Lemma run_app l1 : forall l2 s, run s (l1 ++ l2) = match run s l1 with Some s1 => run s1 l2 | None => None end.
Proof. induction l1 as [|o l1 IH]; intros l2 s; [reflexivity|]. simpl. destruct (step s o); [apply IH|reflexivity]. Qed.

Definition taking (t : thr) : bool := match t with ECas _ | EWon _ => true | _ => false end.
Definition T (s : tgt) : Prop := runs s <> 0 \/ exists t, In t (threads s) /\ taking t = true.

Lemma T_update s s' i t x : threads s' = lupd (threads s) i x -> nth_error (threads s) i = Some t -> (runs s' = runs s \/ taking t = true) ->
  (taking x = true -> taking t = true) -> T s' -> T s.
Proof.
  intros E Ht Hr Hx [K|[y [Hy Ky]]].
  - destruct Hr as [Hr|Hr]; [left; congruence|]. right. exists t. split; [eapply nth_error_In; eauto|exact Hr].
  - rewrite E in Hy. apply lupd_in in Hy. destruct Hy as [->|Hy]; right; [exists t; split; [eapply nth_error_In; eauto|auto]|exists y; auto].
Qed.

Ltac Tup := match goal with Ht : nth_error (threads ?s) _ = Some _ |- _ =>
  left; split; [reflexivity|]; split; [reflexivity|]; eapply T_update; [reflexivity|exact Ht|auto|try discriminate; auto] end.

Lemma step_T s o s' : Inv s -> step s o = Some s' -> not_next o -> (forall i, o <> ExecuteDirect i) ->
  (on s' = on s /\ last s' = last s /\ (T s' -> T s)) \/
  (on s' = on s /\ last s' = last s /\ runs s' = runs s /\ 0 < incs s' /\ (last s = true -> calls s' = incs s')).
Proof.
  intros H Hs Hn Hd. destruct o; cbn [step] in Hs; try contradiction; try (destruct (nth_error (threads s) i) as [t|] eqn:Ht; [|discriminate]).
  - injection Hs as <-. left. repeat split. intros [K|[y [Hy Ky]]]; [left; exact K|right]. cbn in Hy. apply in_app_or in Hy. destruct Hy as [Hy|[<-|[]]]; [eauto|discriminate].
  - destruct (at_rest t && _ && _) eqn:E; [|discriminate]. injection Hs as <-. Tup.
  - destruct t; try discriminate.
    + destruct (tc s =? e); [|destruct (cbusy s <=? tc s)]; injection Hs as <-; Tup. destruct w; discriminate.
    + destruct (tc s =? applied s); [|destruct (cbusy s <=? tc s); [|destruct (tc s =? executed s)]]; injection Hs as <-; Tup.
  - destruct t; try discriminate. destruct (_ <=? _); [|discriminate]. injection Hs as <-. Tup.
  - destruct t; try discriminate.
    + destruct (tc s <=? _); [destruct (exec s); [discriminate|]|]; injection Hs as <-; Tup.
    + injection Hs as <-. Tup. destruct (_ <=? _); discriminate.
  - destruct t; try discriminate. injection Hs as <-. Tup. destruct (_ && _); discriminate.
  - destruct t; try discriminate. injection Hs as <-. unfold lock_got. destruct (_ <=? _); [|destruct (_ && _)]; Tup.
  - destruct t; try discriminate. destruct (exec s); [discriminate|].
    destruct m; cbn [match_step] in Hs; repeat match type of Hs with context [if ?c then _ else _] => destruct c eqn:?; try discriminate end; injection Hs as <-; try Tup.
    left. repeat split. auto.
  - destruct t; try discriminate. destruct (_ || _); [discriminate|]. injection Hs as <-. Tup.
  - destruct t; try discriminate. injection Hs as <-. Tup.
  - destruct t; try discriminate. destruct (_ && _ && _ && _); [|discriminate]. injection Hs as <-. Tup.
  - destruct (at_rest t) eqn:E; [|discriminate]. injection Hs as <-. Tup.
  - destruct t; try discriminate. destruct (exec s && (calls s <? incs s)) eqn:E; [|discriminate]. apply andb_true_iff in E. destruct E as [_ E]. apply Nat.ltb_lt in E. injection Hs as <-.
    assert (at4 s) as H4 by (apply (v_inc _ H); lia).
    assert (deps s + calls s = incs s) as Hde by (destruct (v_deps _ H) as [K|[Q1 Q2]]; [exact K|specialize (H4 Q1); lia]).
    destruct (deps s =? 0) eqn:E0; [Tup|]. apply Nat.eqb_neq in E0. destruct (last s) eqn:El; [|right; cbn; repeat split; auto; lia || discriminate].
    destruct (negb (deps s - 1 =? 0)) eqn:E1; cbn [andb]; [left; split; [reflexivity|]; split; [cbn; congruence|]; eapply T_update; [reflexivity|exact Ht|auto|discriminate]|].
    apply negb_false_iff, Nat.eqb_eq in E1. right. cbn. repeat split; auto; lia.
  - destruct (Hd i eq_refl).
  - destruct t; try discriminate. destruct (match cb with Some r => final r | None => true end); [|discriminate]. injection Hs as <-.
    unfold exec_won. destruct (st s); try destruct direct; Tup.
  - destruct t; try discriminate. destruct (_ && _); [|discriminate]. injection Hs as <-. Tup.
  - destruct t; try discriminate. destruct (tc s =? cbusy s); injection Hs as <-; Tup.
  - destruct t; try discriminate. injection Hs as <-. Tup.
  - destruct t; try discriminate; injection Hs as <-; left; repeat split; auto.
  - destruct (children s =? 0); [discriminate|]. injection Hs as <-. left; repeat split; auto.
  - destruct (_ =? _); [discriminate|]. injection Hs as <-. left. repeat split. intros [K|[y [Hy Ky]]]; [left; exact K|right]. cbn in Hy. apply in_map_iff in Hy. destruct Hy as [z [<- Hz]]. exists z. split; [exact Hz|]. destruct z; try discriminate; auto.
  - destruct (_ || _); [discriminate|]. injection Hs as <-. left; repeat split; auto.
  - destruct (_ || _); [discriminate|]. injection Hs as <-. left; repeat split; auto.
Qed.

Definition asked (l0 : bool) (l : list top) (s : tgt) : Prop :=
  exists l1 l2 s1, l = l1 ++ l2 /\ run (start l0) l1 = Some s1 /\ on s1 = on s /\ runs s1 = 0 /\ 0 < incs s1 /\ calls s1 = incs s1.

Lemma asked_more l0 l s o s' : asked l0 l s -> on s' = on s -> asked l0 (l ++ [o]) s'.
Proof. intros [l1 [l2 [s1 [-> H]]]] E. exists l1, (l2 ++ [o]), s1. rewrite app_assoc, E. auto. Qed.

Lemma run_asked l0 l : forall s, run (start l0) l = Some s -> no_direct l -> last s = true -> T s -> asked l0 l s.
Proof.
  induction l as [|o l IH] using rev_ind; intros s Hr Hd Hl HT.
  - injection Hr as <-. destruct HT as [K|[t [[] _]]]. destruct (K eq_refl).
  - pose proof Hr as Hr0. rewrite run_app in Hr. destruct (run (start l0) l) as [s1|] eqn:E; [|discriminate]. simpl in Hr. destruct (step s1 o) as [s2|] eqn:Es; [|discriminate]. injection Hr as ->.
    pose proof (run_inv _ _ _ (inv_start l0) E) as H.
    assert (no_direct l) as Hd' by (intros x Hx; apply Hd; apply in_or_app; auto).
    assert (not_next o \/ exists x, o = NextOperation x) as [Hn|[x ->]] by (destruct o; eauto; left; exact I).
    2: { exfalso. cbn [step] in Es. destruct (_ || _); [discriminate|]. injection Es as <-. destruct HT as [K|[t [Ht Kt]]]; [apply K; reflexivity|].
         cbn in Ht. apply in_map_iff in Ht. destruct Ht as [? [<- _]]. discriminate. }
    assert (forall i, o <> ExecuteDirect i) as Hnd.
    { intros i ->. specialize (Hd (ExecuteDirect i)). apply Hd. apply in_or_app. right. left. reflexivity. }
    destruct (step_T _ _ _ H Es Hn Hnd) as [[E1 [E2 E3]]|[E1 [E2 [E3 [E4 E5]]]]].
    + eapply asked_more; [|exact E1]. apply IH; auto. congruence.
    + destruct (runs s1) as [|n] eqn:En.
      * exists (l ++ [o]), [], s. rewrite app_nil_r. split; [reflexivity|]. split; [exact Hr0|]. repeat split; auto. apply E5. congruence.
      * eapply asked_more; [|exact E1]. apply IH; auto; [congruence|]. left. lia.
Qed.

Definition rank (n : nat) : nat := if n =? 6 then 4 else Nat.min n 5.
Lemma lle_rank n n' : lle n n' -> n' <= 7 -> rank n <= rank n'.
Proof. unfold lle, rank. intros H K. destruct (Nat.eqb_spec n 6), (Nat.eqb_spec n' 6); lia. Qed.

Lemma run_rank l : forall s s', Inv s -> run s l = Some s' -> same_operation l -> lost s' = false -> bad s' = false ->
  rank (lev s) <= rank (lev s') /\ on s' = on s.
Proof.
  induction l as [|o l IH]; intros s s' H Hr Hn Lo Ba; simpl in Hr; [injection Hr as <-; auto|].
  destruct (step s o) as [s1|] eqn:E; [|discriminate]. pose proof (step_inv _ _ _ H E) as H1.
  assert (not_next o) as Hno by (specialize (Hn o (or_introl eq_refl)); destruct o; auto).
  assert (same_operation l) as Hn' by (intros x Hx; apply Hn; right; exact Hx).
  specialize (IH s1 s' H1 Hr Hn' Lo Ba) as [IH1 IH2].
  assert (forall l s, Inv s -> run s l = Some s' -> same_operation l -> lost s = false /\ bad s = false) as Back.
  { clear - Lo Ba. induction l as [|o l IH]; intros s H Hr Hn; simpl in Hr; [injection Hr as ->; auto|].
    destruct (step s o) as [s1|] eqn:E; [|discriminate]. pose proof (step_inv _ _ _ H E) as H1.
    assert (not_next o) as Hno by (specialize (Hn o (or_introl eq_refl)); destruct o; auto).
    destruct (IH s1 H1 Hr) as [K1 K2]; [intros x Hx; apply Hn; right; exact Hx|].
    destruct (step_lev _ _ _ H E Hno) as [K|[K|[_ [K3 K4]]]]; [congruence|congruence|]. split; congruence. }
  destruct (Back l s1 H1 Hr Hn') as [K1 K2].
  destruct (step_lev _ _ _ H E Hno) as [K|[K|[Q [K3 K4]]]]; [congruence|congruence|].
  split.
  - etransitivity; [|exact IH1]. apply lle_rank; [exact Q|]. apply (v_lev _ H1 K1).
  - rewrite IH2. clear - E Hno. destruct o; cbn [step] in E; try contradiction; try (destruct (nth_error (threads s) i) as [t|]; [|discriminate]; destruct t; try discriminate);
      repeat match type of E with context [if ?c then _ else _] => destruct c eqn:?; try discriminate end; try (injection E as <-; reflexivity).
    + injection E as <-. unfold lock_got. destruct (_ <=? _); [reflexivity|]. destruct (_ && _); reflexivity.
    + destruct m; cbn [match_step] in E; repeat match type of E with context [if ?c then _ else _] => destruct c eqn:?; try discriminate end; injection E as <-; reflexivity.
    + injection E as <-. unfold exec_won. destruct (st s); try destruct direct; reflexivity.
Qed.
