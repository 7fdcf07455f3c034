From Verif Require Import Base SchedModel SchedSpec.

Definition cnt (p : thread -> bool) (l : list thread) : nat := length (filter p l).
Definition b2n (x : bool) : nat := if x then 1 else 0.

Lemma cnt_cons p t l : cnt p (t :: l) = b2n (p t) + cnt p l.
Proof. unfold cnt. simpl. destruct (p t); reflexivity. Qed.
Lemma cnt_app p l l' : cnt p (l ++ l') = cnt p l + cnt p l'.
Proof. unfold cnt. rewrite filter_app, app_length. reflexivity. Qed.

Lemma upd_nth {X} (l : list X) i x j : nth_error (upd l i x) j =
  if i =? j then (match nth_error l i with Some _ => Some x | None => None end) else nth_error l j.
Proof.
  revert i j; induction l as [|y l IH]; intros i j; simpl.
  - destruct (i =? j), i, j; reflexivity.
  - destruct i as [|i], j as [|j]; simpl; try reflexivity. apply IH.
Qed.

Lemma cnt_upd p l : forall i t x, nth_error l i = Some t -> cnt p (upd l i x) + b2n (p t) = cnt p l + b2n (p x).
Proof.
  induction l as [|y l IH]; intros [|i] t x H; simpl in H; try discriminate.
  - injection H as ->. simpl. rewrite !cnt_cons. lia.
  - simpl. rewrite !cnt_cons. specialize (IH i t x H). lia.
Qed.

(* s' is s with other thread states. *)
Definition moved (ts ts' : list thread) (i : nat) (t : thread) (x : tst) : Prop :=
  (forall p, cnt p ts' + b2n (p t) = cnt p ts + b2n (p (mkthread (is_helper t) x))) /\
  nth_error ts' i = Some (mkthread (is_helper t) x) /\
  forall j, j <> i -> nth_error ts' j = nth_error ts j.

Lemma go_spec i x s t : nth_error (threads s) i = Some t ->
  exists ts', go i x s = set_threads ts' s /\ moved (threads s) ts' i t x.
Proof.
  intros H. unfold go. rewrite H. eexists. split; [reflexivity|]. split; [|split].
  - intros p. apply cnt_upd. exact H.
  - rewrite upd_nth, Nat.eqb_refl, H. reflexivity.
  - intros j Hj. rewrite upd_nth. destruct (Nat.eqb_spec i j); [congruence|reflexivity].
Qed.

Lemma find_index_some p l i : find_index p l = Some i -> exists t, nth_error l i = Some t /\ p t = true.
Proof.
  revert i; induction l as [|y l IH]; intros i H; simpl in H; [discriminate|].
  destruct (p y) eqn:E; [injection H as <-; exists y; auto|]. destruct (find_index p l) as [n|] eqn:En; [|discriminate].
  injection H as <-. simpl. apply IH. reflexivity.
Qed.
Lemma find_index_none p l : find_index p l = None -> cnt p l = 0.
Proof.
  induction l as [|y l IH]; intros H; [reflexivity|]. simpl in H. rewrite cnt_cons. destruct (p y); [discriminate|].
  destruct (find_index p l); [discriminate|]. rewrite IH; reflexivity.
Qed.
Lemma notified_some p k s i : notified p k s = Some i -> exists t, nth_error (threads s) i = Some t /\ p t = true.
Proof.
  unfold notified. destruct (nth_error (threads s) k) as [t|] eqn:E; [destruct (p t) eqn:Ep|].
  - intros H; injection H as <-. eauto.
  - apply find_index_some.
  - apply find_index_some.
Qed.
Lemma notified_none p k s : notified p k s = None -> cnt p (threads s) = 0.
Proof.
  unfold notified. destruct (nth_error (threads s) k) as [t|] eqn:E; [destruct (p t) eqn:Ep|].
  - discriminate.
  - apply find_index_none.
  - apply find_index_none.
Qed.

(* Effect of waking up one waiter. *)
Lemma notify_ready_spec k s : exists ts', notify_ready k s = set_threads ts' s /\
  ((cnt ready_asleep (threads s) = 0 /\ ts' = threads s) \/
   exists i t, nth_error (threads s) i = Some t /\ tstate t = TReady false /\ moved (threads s) ts' i t (TReady true)).
Proof.
  unfold notify_ready. destruct (notified ready_asleep k s) as [i|] eqn:E.
  - apply notified_some in E. destruct E as [t [Ht Hp]]. unfold ready_asleep in Hp.
    destruct (tstate t) as [| | | |[]| | |] eqn:Et; try discriminate.
    destruct (go_spec i (TReady true) s t Ht) as [ts' [-> Hm]]. exists ts'. split; [reflexivity|]. right. eauto.
  - exists (threads s). split; [destruct s; reflexivity|]. left. split; [eapply notified_none; eauto|reflexivity].
Qed.
Lemma notify_idle_spec k s : exists ts', notify_idle k s = set_threads ts' s /\
  ((cnt idle_asleep (threads s) = 0 /\ ts' = threads s) \/
   exists i t, nth_error (threads s) i = Some t /\ tstate t = TIdle false /\ moved (threads s) ts' i t (TIdle true)).
Proof.
  unfold notify_idle. destruct (notified idle_asleep k s) as [i|] eqn:E.
  - apply notified_some in E. destruct E as [t [Ht Hp]]. unfold idle_asleep in Hp.
    destruct (tstate t) as [| | | | | |[]|] eqn:Et; try discriminate.
    destruct (go_spec i (TIdle true) s t Ht) as [ts' [-> Hm]]. exists ts'. split; [reflexivity|]. right. eauto.
  - exists (threads s). split; [destruct s; reflexivity|]. left. split; [eapply notified_none; eauto|reflexivity].
Qed.

Lemma cnt_map p f l : cnt p (map f l) = cnt (fun t => p (f t)) l.
Proof. induction l as [|y l IH]; [reflexivity|]. simpl. rewrite !cnt_cons, IH. reflexivity. Qed.
Lemma cnt_ext p q l : (forall t, p t = q t) -> cnt p l = cnt q l.
Proof. intros H. induction l as [|y l IH]; [reflexivity|]. rewrite !cnt_cons, IH, H. reflexivity. Qed.

(* --- the invariant --- *)

Definition master (t : thread) : bool := negb (is_helper t).
Definition bad_master (t : thread) : bool :=
  negb (is_helper t) && match tstate t with TStart | TIdle _ | TGone => true | _ => false end.

Record Inv (s : sched) : Prop := {
  i_active : active s = cnt running (threads s) + alloc s + js_active s;
  i_idle : idle s = cnt is_idle (threads s);
  i_idle2 : idle s = cnt idle_asleep (threads s) + cnt idle_notified (threads s);
  i_waiting : waiting s = cnt blocked (threads s);
  i_external : external s = cnt blocked_external (threads s);
  i_ready : ready s = cnt in_line (threads s);
  i_ready2 : ready s = cnt ready_asleep (threads s) + cnt in_line_notified (threads s);
  i_starting : starting s = cnt is_starting (threads s);
  i_helpers : helpers s = cnt live_helper (threads s);
  i_master : cnt master (threads s) = 1;
  i_bad : cnt bad_master (threads s) = 0;
  i_max : 1 <= max_active s;
  i_limit : shutdown s = false -> active s <= max_active s;
  i_line : shutdown s = false ->
           cnt ready_asleep (threads s) = 0 \/ max_active s <= cnt in_line_notified (threads s) + active s
}.

Lemma inv_startup m n : 1 <= m -> Inv (startup m n).
Proof. intros H. constructor; simpl; try reflexivity; auto. Qed.

(* Instantiate a [moved] fact for all the predicates of the invariant. *)
Ltac inst H := let M := fresh "M" in destruct H as [M ?];
  pose proof (M running); pose proof (M is_idle); pose proof (M idle_asleep); pose proof (M idle_notified);
  pose proof (M blocked); pose proof (M blocked_external); pose proof (M in_line); pose proof (M ready_asleep);
  pose proof (M in_line_notified); pose proof (M is_starting); pose proof (M live_helper); pose proof (M master);
  pose proof (M bad_master); clear M.

Ltac sm := unfold running, is_idle, idle_asleep, idle_notified, blocked, blocked_external, in_line, ready_asleep,
  in_line_notified, is_starting, live_helper, master, bad_master in *; cbn [tstate is_helper b2n negb andb] in *.

Ltac fields := cbn [threads active idle waiting ready starting helpers external queued max_active max_threads idle_reserve
  shutdown js_active js_debt monitor alloc set_threads set_active set_idle set_waiting set_ready set_starting set_helpers
  set_external set_queued set_max_active set_limits set_shutdown set_js set_monitor set_alloc] in *.

(* Keep the counts opaque: abstract them to numbers. *)
Ltac fin := constructor; fields; sm; try (intros Hsd; repeat match goal with H : _ = false -> _ |- _ => specialize (H Hsd) end); lia.

Lemma inv_set_threads_ready s ts' i t : Inv s -> tstate t = TReady false -> moved (threads s) ts' i t (TReady true) -> Inv (set_threads ts' s).
Proof.
  intros [] Et Hm. destruct t as [h x]. simpl in Et; subst x. inst Hm. destruct h; fin.
Qed.

Lemma inv_notify_ready k s : Inv s -> Inv (notify_ready k s).
Proof.
  intros H. destruct (notify_ready_spec k s) as [ts' [-> [[_ ->]|[i [t [_ [Et Hm]]]]]]].
  - destruct s; exact H.
  - eapply inv_set_threads_ready; eauto.
Qed.

Lemma inv_notify_idle k s : Inv s -> Inv (notify_idle k s).
Proof.
  intros H. destruct (notify_idle_spec k s) as [ts' [-> [[_ ->]|[i [t [_ [Et Hm]]]]]]].
  - destruct s; exact H.
  - destruct H. destruct t as [h x]. simpl in Et; subst x. inst Hm. destruct h; fin.
Qed.

Lemma cnt_snoc p l t : cnt p (l ++ [t]) = cnt p l + b2n (p t).
Proof. rewrite cnt_app, cnt_cons. unfold cnt at 2. simpl. lia. Qed.

Lemma inv_create s : Inv s -> Inv (create_helper s).
Proof. intros []. unfold create_helper. constructor; fields; rewrite ?cnt_snoc; sm;
  try (intros Hsd; repeat match goal with H : _ = false -> _ |- _ => specialize (H Hsd) end); lia. Qed.

Lemma inv_activate_helper k s : Inv s -> Inv (snd (activate_helper k s)).
Proof.
  intros H. unfold activate_helper. destruct (shutdown s); [exact H|].
  destruct (idle_reserve s <? idle s); [apply inv_notify_idle; exact H|].
  destruct ((_ && _) || _); [apply inv_create; exact H|exact H].
Qed.

Lemma state_of_some s i x : state_of s i = Some x -> exists h, nth_error (threads s) i = Some (mkthread h x).
Proof.
  unfold state_of. destruct (nth_error (threads s) i) as [[h y]|]; [|discriminate]. intros H; injection H as <-. eauto.
Qed.

Lemma inv_monitor x s : Inv s -> Inv (set_monitor x s).
Proof. intros []. constructor; fields; assumption. Qed.
Lemma inv_queued x s : Inv s -> Inv (set_queued x s).
Proof. intros []. constructor; fields; assumption. Qed.
Lemma inv_debt x s : Inv s -> Inv (set_js (js_active s) x s).
Proof. intros []. constructor; fields; assumption. Qed.
Lemma inv_limits x y s : Inv s -> Inv (set_limits x y s).
Proof. intros []. constructor; fields; assumption. Qed.

Lemma inv_pay s : Inv s -> (shutdown s = false -> active s < max_active s) -> Inv (pay_debt s).
Proof. intros [] H. unfold pay_debt. fin. Qed.

(* The thread that makes the step is left alone by notifications to others. *)
Lemma notify_ready_other k s i t : nth_error (threads s) i = Some t -> tstate t <> TReady false ->
  nth_error (threads (notify_ready k s)) i = Some t.
Proof.
  intros Hi Ht. destruct (notify_ready_spec k s) as [ts' [-> [[_ ->]|[j [u [Hj [Eu [_ [_ Hm]]]]]]]]]; fields; [exact Hi|].
  destruct (Nat.eq_dec i j) as [->|Hn]; [congruence|]. rewrite Hm; auto.
Qed.
Lemma notify_idle_other k s i t : nth_error (threads s) i = Some t -> tstate t <> TIdle false ->
  nth_error (threads (notify_idle k s)) i = Some t.
Proof.
  intros Hi Ht. destruct (notify_idle_spec k s) as [ts' [-> [[_ ->]|[j [u [Hj [Eu [_ [_ Hm]]]]]]]]]; fields; [exact Hi|].
  destruct (Nat.eq_dec i j) as [->|Hn]; [congruence|]. rewrite Hm; auto.
Qed.

(* Moving a running thread between the running states. *)
Lemma inv_go_running i s t x : Inv s -> nth_error (threads s) i = Some t ->
  running t = true -> running (mkthread (is_helper t) x) = true -> Inv (go i x s).
Proof.
  intros H Ht Hr Hx. destruct (go_spec i x s t Ht) as [ts' [-> Hm]]. destruct H. destruct t as [h y].
  cbn [is_helper] in *. unfold running in Hr, Hx; cbn [tstate] in *. inst Hm.
  destruct y; try discriminate; destruct x; try discriminate; destruct h; fin.
Qed.

(* deactivate_impl () *)
Lemma inv_deactivate i ext k s h : Inv s -> nth_error (threads s) i = Some (mkthread h TRun) -> Inv (deactivate i ext k s).
Proof.
  intros H Ht. unfold deactivate. destruct (go_spec i (TWait ext) s _ Ht) as [ts [-> Hm]].
  set (s1 := if ext then _ else _).
  assert (threads s1 = ts /\ active s1 = active s - 1 /\ waiting s1 = waiting s + 1 /\ external s1 = external s + b2n ext /\
          ready s1 = ready s /\ idle s1 = idle s /\ starting s1 = starting s /\ helpers s1 = helpers s /\
          max_active s1 = max_active s /\ shutdown s1 = shutdown s /\ alloc s1 = alloc s /\ js_active s1 = js_active s) as E.
  { unfold s1. destruct ext; fields; repeat split; simpl; lia. }
  clearbody s1. destruct E as [E1 [E2 [E3 [E4 [E5 [E6 [E7 [E8 [E9 [E10 [E11 E12]]]]]]]]]]].
  destruct H. inst Hm.
  destruct (Nat.eqb_spec (ready s1) 0) as [Er|Er]; cbn [negb].
  - assert (Inv s1) as Hs1.
    { constructor; rewrite ?E1, ?E2, ?E3, ?E4, ?E5, ?E6, ?E7, ?E8, ?E9, ?E10, ?E11, ?E12 in *; destruct ext, h; sm;
        try (intros Hsd; repeat match goal with H : _ = false -> _ |- _ => specialize (H Hsd) end); lia. }
    assert (shutdown s1 = false -> active s1 < max_active s1) as Hlt.
    { rewrite E10, E2, E9. intros Hsd. specialize (i_limit0 Hsd). destruct h; sm; lia. }
    assert (Inv (if js_debt s1 then pay_debt s1 else if (active s1 =? 0) && (external s1 =? 0) then set_monitor true s1 else s1)) as Hrest.
    { destruct (js_debt s1); [apply inv_pay; assumption|]. destruct (_ && _); [apply inv_monitor; exact Hs1|exact Hs1]. }
    destruct (negb (queued s1 =? 0)); [|exact Hrest].
    pose proof (inv_activate_helper k s1 Hs1) as Ha. destruct (activate_helper k s1) as [[[] r] s2]; [exact Ha|exact Hrest].
  - destruct (notify_ready_spec k s1) as [ts' [-> Hn]].
    destruct Hn as [[Hz ->]|[j [[h' u] [Hj [Eu Hm']]]]].
    + constructor; fields; rewrite ?E1, ?E2, ?E3, ?E4, ?E5, ?E6, ?E7, ?E8, ?E9, ?E10, ?E11, ?E12 in *; destruct ext, h; sm;
        try (intros Hsd; repeat match goal with H : _ = false -> _ |- _ => specialize (H Hsd) end); lia.
    + simpl in Eu; subst u. inst Hm'.
      constructor; fields; rewrite ?E1, ?E2, ?E3, ?E4, ?E5, ?E6, ?E7, ?E8, ?E9, ?E10, ?E11, ?E12 in *; destruct ext, h, h'; sm;
        try (intros Hsd; repeat match goal with H : _ = false -> _ |- _ => specialize (H Hsd) end); lia.
Qed.
