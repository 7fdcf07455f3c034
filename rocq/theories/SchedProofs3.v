From Verif Require Import Base SchedModel SchedSpec SchedProofs SchedProofs2.

(* What is known if no thread is active. *)
Definition J (s : sched) : Prop := shutdown s = false -> active s = 0 ->
  0 < cnt in_line_notified (threads s) + cnt idle_notified (threads s) + cnt is_starting (threads s) \/
  (queued s = 0 /\ (external s = 0 -> monitor s = true)).

Lemma cnt_pos p l i t : nth_error l i = Some t -> p t = true -> 1 <= cnt p l.
Proof.
  intros H E. apply nth_error_split in H. destruct H as [l1 [l2 [-> _]]]. rewrite cnt_app, cnt_cons, E. cbn. lia.
Qed.

Lemma run_active s i h x : Inv s -> nth_error (threads s) i = Some (mkthread h x) -> running (mkthread h x) = true -> 1 <= active s.
Proof. intros H Ht Hr. rewrite (i_active _ H). pose proof (cnt_pos _ _ _ _ Ht Hr). lia. Qed.

Lemma dealloc_end_active i n s : active s <= active (dealloc_end i n s).
Proof.
  unfold dealloc_end. match goal with |- context [go i TRun ?x] => destruct (go_proj i TRun x) as [-> _] end.
  destruct (_ && _); unfold pay_debt; fields; lia.
Qed.
Lemma dealloc_loop_active i k : forall n s, active s <= active (dealloc_loop i n k s).
Proof.
  induction n as [|n IH]; intros s; cbn [dealloc_loop]; [apply dealloc_end_active|].
  destruct (negb _); [|apply dealloc_end_active]. pose proof (activate_helper_proj k s) as [E _].
  destruct (activate_helper k s) as [[[] []] s'] eqn:Ea; cbn [snd] in *; try apply dealloc_end_active.
  - destruct (go_proj i (TDeal (S n)) s') as [-> _]. lia.
  - rewrite <- E. apply IH.
Qed.
Lemma notify_ready_active k s : active (notify_ready k s) = active s.
Proof. destruct (notify_ready_spec k s) as [ts [-> _]]. reflexivity. Qed.
Lemma deallocate_active i n k s h : Inv s -> n <= alloc s -> nth_error (threads s) i = Some (mkthread h TRun) -> 1 <= active (deallocate i n k s).
Proof.
  intros H Hn Ht. pose proof (run_active s i h TRun H Ht eq_refl). unfold deallocate. destruct (_ || _); [assumption|].
  assert (1 <= active (set_active (active s - n) (set_alloc (alloc s - n) s))) as Ha.
  { fields. rewrite (i_active _ H). pose proof (cnt_pos running _ _ _ Ht eq_refl). lia. }
  destruct (negb _).
  - eapply Nat.le_trans; [|apply dealloc_end_active]. destruct (_ && _); [exact Ha|rewrite notify_ready_active; exact Ha].
  - eapply Nat.le_trans; [|apply dealloc_loop_active]. exact Ha.
Qed.

Lemma notify_ready_pos k s : cnt ready_asleep (threads s) + cnt in_line_notified (threads s) <> 0 ->
  0 < cnt in_line_notified (threads (notify_ready k s)).
Proof.
  intros Hn. destruct (notify_ready_spec k s) as [ts [-> [[Hz ->]|[j [[h u] [Hj [Eu [M _]]]]]]]]; fields; [lia|].
  cbn in Eu. subst u. specialize (M in_line_notified). cbn in M. lia.
Qed.
Lemma notify_idle_pos k s : cnt idle_asleep (threads s) + cnt idle_notified (threads s) <> 0 ->
  0 < cnt idle_notified (threads (notify_idle k s)).
Proof.
  intros Hn. destruct (notify_idle_spec k s) as [ts [-> [[Hz ->]|[j [[h u] [Hj [Eu [M _]]]]]]]]; fields; [lia|].
  cbn in Eu. subst u. specialize (M idle_notified). cbn in M. lia.
Qed.

Lemma activate_helper_pos k s : idle s = cnt idle_asleep (threads s) + cnt idle_notified (threads s) -> shutdown s = false -> active s = 0 -> queued s <> 0 ->
  exists b s', activate_helper k s = (true, b, s') /\
    0 < cnt in_line_notified (threads s') + cnt idle_notified (threads s') + cnt is_starting (threads s').
Proof.
  intros H Hs Ha Hq. unfold activate_helper. rewrite Hs, Ha. apply Nat.eqb_neq in Hq. rewrite Hq. cbn [Nat.eqb negb andb].
  rewrite orb_true_r. destruct (Nat.ltb_spec (idle_reserve s) (idle s)).
  - exists false, (notify_idle k s). split; [reflexivity|].
    pose proof (notify_idle_pos k s) as Hp. rewrite <- H in Hp. lia.
  - exists true, (create_helper s). split; [reflexivity|]. unfold create_helper. fields. rewrite !cnt_snoc. cbn. lia.
Qed.

Lemma j_active s : 1 <= active s -> J s.
Proof. intros H _ E. lia. Qed.

Lemma j_become i s : shutdown s = true \/ 1 <= max_active s -> J (become_active i s).
Proof.
  intros H. unfold become_active. intros Hs Ha.
  assert (shutdown s = false) as Hs0.
  { destruct (_ && _); [destruct (go_proj i (TReady false) s) as [_ [_ [<- _]]]; exact Hs|]. fields. destruct (go_proj i TRun s) as [_ [_ [<- _]]]. exact Hs. }
  rewrite Hs0 in *. cbn [negb andb] in *. destruct H as [H|H]; [discriminate|]. exfalso.
  destruct (Nat.leb_spec (max_active s) (active s)).
  - destruct (go_proj i (TReady false) s) as [E1 _]. lia.
  - fields. lia.
Qed.

Lemma j_top i s : 1 <= max_active s -> J (helper_top i s).
Proof.
  intros Hm Hs Ha. exfalso. unfold helper_top in *. destruct (shutdown s) eqn:E.
  - fields. destruct (go_proj i TGone s) as [_ [_ [E3 _]]]. congruence.
  - destruct (Nat.ltb_spec (active s) (max_active s)); fields; [lia|]. destruct (go_proj i (TIdle false) s) as [E1 _]. lia.
Qed.

(* The common part of deactivate () and of the jobserver. *)
Lemma j_release (s : sched) (k : nat) (debt : bool) : idle s = cnt idle_asleep (threads s) + cnt idle_notified (threads s) ->
  ready s = cnt ready_asleep (threads s) + cnt in_line_notified (threads s) ->
  let rest := if debt then pay_debt s else if (active s =? 0) && (external s =? 0) then set_monitor true s else s in
  J (if negb (ready s =? 0) then notify_ready k s
     else if negb (queued s =? 0) then match activate_helper k s with (true, _, s') => s' | (false, _, _) => rest end else rest).
Proof.
  intros H Hr2 rest Hs Ha.
  destruct (Nat.eqb_spec (ready s) 0) as [Er|Er]; cbn [negb] in *.
  - assert (shutdown rest = shutdown s) as Es1 by (unfold rest; destruct debt; [|destruct (_ && _)]; reflexivity).
    destruct (Nat.eqb_spec (queued s) 0) as [Eq|Eq]; cbn [negb] in *.
    + right. unfold rest in *. destruct debt; [unfold pay_debt in Ha; fields; lia|].
      destruct (Nat.eqb_spec (active s) 0) as [E0|E0]; cbn [andb] in *; [|fields; lia].
      destruct (Nat.eqb_spec (external s) 0) as [E1|E1]; cbn [andb] in *; fields; [auto|]. split; [exact Eq|]. intros; lia.
    + assert (shutdown s = false /\ (active s = 0 \/ exists r s', activate_helper k s = (false, r, s'))) as [Hs0 Hc].
      { pose proof (activate_helper_proj k s) as [E1 [_ [E3 _]]]. destruct (activate_helper k s) as [[[] b] s'] eqn:Eh; cbn [snd] in *.
        - split; [congruence|left; congruence].
        - split; [congruence|right; eauto]. }
      assert (active s = 0) as Ha0.
      { destruct Hc as [Hc|[r [s' Hc]]]; [exact Hc|]. rewrite Hc in Ha. unfold rest in Ha. destruct debt; [unfold pay_debt in Ha; fields; lia|].
        destruct (_ && _); exact Ha. }
      destruct (activate_helper_pos k s H Hs0 Ha0 Eq) as [b [s' [Ea Hp]]]. rewrite Ea. left. exact Hp.
  - left. pose proof (notify_ready_pos k s) as Hp. rewrite <- Hr2 in Hp. lia.
Qed.

Lemma j_deactivate i ext k s h : Inv s -> nth_error (threads s) i = Some (mkthread h TRun) -> J (deactivate i ext k s).
Proof.
  intros H Ht. unfold deactivate. destruct (go_spec i (TWait ext) s _ Ht) as [ts [-> [M _]]].
  apply (j_release _ k (js_debt _)).
  - destruct H as [I1 I2 I3 I4 I5 I6 I7 I8 I9 I10 I11 I12 I13 I14].
    pose proof (M idle_asleep); pose proof (M idle_notified). cbn [idle_asleep idle_notified tstate b2n] in *. destruct ext; fields; lia.
  - destruct H as [I1 I2 I3 I4 I5 I6 I7 I8 I9 I10 I11 I12 I13 I14].
    pose proof (M ready_asleep); pose proof (M in_line_notified). cbn [ready_asleep in_line_notified tstate b2n] in *. destruct ext; fields; lia.
Qed.

Lemma j_js_deallocate k s : Inv s -> J (js_deallocate k s).
Proof.
  intros H. unfold js_deallocate. apply (j_release _ k false); fields; apply H.
Qed.

Lemma j_helper_done i k s : Inv s -> nth_error (threads s) i = Some (mkthread true TRun) -> queued s = 0 -> J (helper_done i k s).
Proof.
  intros H Ht Hq Hs Ha. unfold helper_done in *.
  pose proof (j_release (set_active (active s - 1) s) k (js_debt s) (i_idle2 _ H) (i_ready2 _ H)) as Hj.
  cbn zeta in Hj. fields. rewrite Hq in Hj. cbn [Nat.eqb negb] in Hj.
  set (s' := if negb (ready s =? 0) then _ else _) in *.
  assert (nth_error (threads s') i = Some (mkthread true TRun)) as Ht'.
  { unfold s'. destruct (negb _); [apply notify_ready_other; [exact Ht|discriminate]|]. destruct (js_debt s); [exact Ht|]. destruct (_ && _); exact Ht. }
  destruct (go_proj i (TIdle false) s') as [E1 [_ [E3 _]]].
  assert (queued (go i (TIdle false) s') = queued s' /\ external (go i (TIdle false) s') = external s' /\ monitor (go i (TIdle false) s') = monitor s') as [E4 [E5 E6]].
  { unfold go. destruct (nth_error (threads s') i); auto. }
  destruct (go_spec i (TIdle false) s' _ Ht') as [ts [Eg [M _]]]. rewrite Eg in *. fields.
  assert (J s') as Hj'.
  { unfold s'. destruct (negb _); [exact Hj|]. destruct (js_debt s); exact Hj. }
  specialize (Hj' Hs Ha).
  pose proof (M in_line_notified); pose proof (M idle_notified); pose proof (M is_starting).
  cbn [in_line_notified idle_notified is_starting tstate b2n] in *. destruct Hj' as [Hj'|Hj']; [left; lia|right; exact Hj'].
Qed.

Lemma step_j s o s' : Inv s -> J s -> (forall i, o <> StartFail i) -> step s o = Some s' -> J s'.
Proof.
  intros H HJ Hn Hs. pose proof (step_inv s o s' H Hs) as H'.
  destruct o; cbn [step] in Hs;
    try (destruct (state_of s i) as [x|] eqn:Ex; [|discriminate]; apply state_of_some in Ex; destruct Ex as [h Ht]).
  - destruct x; try discriminate. destruct (max_active s =? 1); [discriminate|]. injection Hs as <-.
    apply j_active. destruct (go_proj i TPushed (set_queued (queued s + 1) s)) as [-> _]. exact (run_active s i h TRun H Ht eq_refl).
  - destruct x; try discriminate. destruct (queued s =? 0); [|discriminate]. injection Hs as <-.
    apply j_active. destruct (go_proj i TRun s) as [-> _]. exact (run_active s i h _ H Ht eq_refl).
  - destruct x; try discriminate. injection Hs as <-. apply j_active.
    pose proof (run_active s i h _ H Ht eq_refl). destruct (go_proj i TRun s) as [E1 _].
    destruct (_ <? _); [|lia]. destruct (activate_helper_proj k (go i TRun s)) as [-> _]. lia.
  - destruct x; try discriminate. destruct (queued s =? 0); [discriminate|]. injection Hs as <-. apply j_active. exact (run_active s i h _ H Ht eq_refl).
  - destruct x; try discriminate. destruct (max_active s =? 1); [discriminate|]. injection Hs as <-. eapply j_deactivate; eauto.
  - destruct x; try discriminate. injection Hs as <-. unfold activate. apply j_become. right. pose proof (i_max _ H). destruct ext; exact H0.
  - destruct x as [| | | |[]| |[]|]; try discriminate; injection Hs as <-.
    + apply j_become. right. exact (i_max _ H).
    + apply j_top. exact (i_max _ H).
  - destruct x as [| | | |[]| |[]|]; try discriminate; injection Hs as <-.
    + destruct (go_spec i (TReady true) s _ Ht) as [ts [-> [M _]]]. intros H1 H2. fields. specialize (HJ H1 H2).
      pose proof (M in_line_notified); pose proof (M idle_notified); pose proof (M is_starting).
      cbn [in_line_notified idle_notified is_starting tstate b2n] in *. destruct HJ as [HJ|HJ]; [left; lia|right; exact HJ].
    + destruct (go_spec i (TIdle true) s _ Ht) as [ts [-> [M _]]]. intros H1 H2. fields. specialize (HJ H1 H2).
      pose proof (M in_line_notified); pose proof (M idle_notified); pose proof (M is_starting).
      cbn [in_line_notified idle_notified is_starting tstate b2n] in *. destruct HJ as [HJ|HJ]; [left; lia|right; exact HJ].
  - destruct x; try discriminate. injection Hs as <-. apply j_active. pose proof (run_active s i h _ H Ht eq_refl).
    unfold allocate. destruct (_ =? 1); [assumption|]. destruct (_ <? _); cbn [snd]; fields; lia.
  - destruct x; try discriminate. destruct (Nat.leb_spec n (alloc s)); [|discriminate]. injection Hs as <-. apply j_active. eapply deallocate_active; eauto.
  - destruct x; try discriminate. injection Hs as <-. unfold dealloc_relock. apply j_active. eapply Nat.le_trans; [|apply dealloc_loop_active].
    exact (run_active s i h _ H Ht eq_refl).
  - destruct x; try discriminate. destruct ((max_active s =? 1) || negb (active s =? 1)) eqn:E; [discriminate|]. injection Hs as <-.
    apply j_active. fields. exact (i_max _ H).
  - destruct x; try discriminate. injection Hs as <-. apply j_top. exact (i_max _ H).
  - destruct (Hn i eq_refl).
  - destruct x; try discriminate. destruct (helper_of s i && (queued s =? 0)) eqn:E; [|discriminate]. injection Hs as <-.
    apply andb_true_iff in E. destruct E as [E Eq]. unfold helper_of in E. rewrite Ht in E. cbn [is_helper] in E. subst h.
    apply Nat.eqb_eq in Eq. apply j_helper_done; assumption.
  - destruct (shutdown s || (max_active s =? 1)) eqn:E; [discriminate|]. destruct (Nat.ltb_spec (active s) (max_active s)); injection Hs as <-.
    + apply j_active. unfold pay_debt. fields. lia.
    + apply j_active. fields. pose proof (i_max _ H). lia.
  - injection Hs as <-. exact HJ.
  - destruct (shutdown s || (max_active s =? 1) || (js_active s =? 0)) eqn:E; [discriminate|]. injection Hs as <-.
    apply j_js_deallocate; assumption.
  - destruct ((active s =? 0) && (external s =? 0) && negb (shutdown s)) eqn:E; [discriminate|]. injection Hs as <-. intros H1 H2. fields. specialize (HJ H1 H2).
    rewrite H1, H2 in E. cbn in E. destruct (Nat.eqb_spec (external s) 0) as [E1|E1]; [discriminate|]. destruct HJ as [HJ|[HJ _]]; [left; exact HJ|].
    right. split; [exact HJ|]. intros; lia.
  - destruct (_ && _) eqn:E; [|discriminate]. injection Hs as <-.
    repeat rewrite andb_true_iff in E. destruct E as [[[[[E1 E2] E3] E4] E5] E6]. apply Nat.eqb_eq in E1. apply j_active. fields. lia.
  - destruct x; try discriminate. injection Hs as <-. apply j_active. exact (run_active s i h _ H Ht eq_refl).
  - destruct x; try discriminate. injection Hs as <-. apply j_active. exact (run_active s i h _ H Ht eq_refl).
  - injection Hs as <-. intros H1. discriminate.
  - destruct (shutdown s) eqn:E; [|discriminate]. injection Hs as <-. intros H1. unfold notify_all_idle, notify_all_ready in H1. fields. congruence.
Qed.

Lemma run_j l : forall s s', no_start_fail l -> Inv s -> J s -> run s l = Some s' -> J s'.
Proof.
  induction l as [|o l IH]; intros s s' Hn H HJ Hr; simpl in Hr; [injection Hr as <-; exact HJ|].
  destruct (step s o) as [s1|] eqn:E; [|discriminate]. eapply IH; [| | |exact Hr].
  - intros i Hi. apply (Hn i). right; exact Hi.
  - eapply step_inv; eauto.
  - eapply step_j; eauto. intros i ->. apply (Hn i). left; reflexivity.
Qed.

(* Every thread is in exactly one of the states that the counters count. *)
Lemma counts_sum l : cnt bad_master l = 0 ->
  cnt running l + cnt blocked l + cnt in_line l + cnt is_idle l + cnt is_starting l = cnt master l + cnt live_helper l.
Proof.
  induction l as [|[h x] l IH]; intros Hb; [reflexivity|]. rewrite !cnt_cons in *.
  assert (cnt bad_master l = 0) as Hb' by lia. specialize (IH Hb').
  assert (b2n (running (mkthread h x)) + b2n (blocked (mkthread h x)) + b2n (in_line (mkthread h x)) + b2n (is_idle (mkthread h x)) + b2n (is_starting (mkthread h x)) =
          b2n (master (mkthread h x)) + b2n (live_helper (mkthread h x))); [|lia].
  destruct h, x; cbn in *; try reflexivity; lia.
Qed.
