From Verif Require Import Base SchedModel SchedSpec SchedProofs.

Ltac hyps := try (intros Hsd; repeat match goal with H : _ = false -> _ |- _ => specialize (H Hsd) end).

Lemma upd_upd {X} (l : list X) i x y : upd (upd l i x) i y = upd l i y.
Proof. revert i; induction l as [|z l IH]; intros [|i]; simpl; f_equal; auto. Qed.

Lemma go_go i x y s : go i y (go i x s) = go i y s.
Proof.
  unfold go. destruct (nth_error (threads s) i) as [t|] eqn:E.
  - fields. rewrite upd_nth, Nat.eqb_refl, E. cbn [is_helper]. rewrite upd_upd. reflexivity.
  - rewrite E. reflexivity.
Qed.

Lemma go_proj i x s : active (go i x s) = active s /\ max_active (go i x s) = max_active s /\ shutdown (go i x s) = shutdown s /\
  ready (go i x s) = ready s /\ helpers (go i x s) = helpers s /\ idle (go i x s) = idle s.
Proof. unfold go. destruct (nth_error (threads s) i); auto 10. Qed.

Lemma become_go i x s : become_active i (go i x s) = become_active i s.
Proof.
  destruct (go_proj i x s) as [E1 [E2 [E3 [E4 _]]]]. unfold become_active. rewrite E1, E2, E3, E4, !go_go. reflexivity.
Qed.

Lemma top_go i x s : helper_top i (go i x s) = helper_top i s.
Proof.
  destruct (go_proj i x s) as [E1 [E2 [E3 [E4 [E5 E6]]]]]. unfold helper_top. rewrite E1, E2, E3, E5, E6, !go_go. reflexivity.
Qed.

Lemma inv_become i s h : Inv s -> nth_error (threads s) i = Some (mkthread h (TReady true)) -> Inv (become_active i s).
Proof.
  intros H Ht. unfold become_active.
  destruct (negb (shutdown s) && (max_active s <=? active s)) eqn:E.
  - apply andb_true_iff in E. destruct E as [E1 E2]. apply negb_true_iff in E1. apply Nat.leb_le in E2.
    destruct (go_spec i (TReady false) s _ Ht) as [ts [-> Hm]]. destruct H. inst Hm. destruct h; fin.
  - destruct (go_spec i TRun s _ Ht) as [ts [-> Hm]]. destruct H. inst Hm.
    assert (shutdown s = false -> active s < max_active s) as Hlt.
    { intros Hs. rewrite Hs in E. cbn [negb andb] in E. apply Nat.leb_gt in E. exact E. }
    destruct h; fin.
Qed.

Lemma inv_activate i ext s h : Inv s -> nth_error (threads s) i = Some (mkthread h (TWait ext)) -> Inv (activate i ext s).
Proof.
  intros H Ht. unfold activate. rewrite <- (become_go i (TReady true)).
  set (s1 := set_ready _ _).
  assert (nth_error (threads s1) i = Some (mkthread h (TWait ext))) as Ht1 by (unfold s1; destruct ext; exact Ht).
  destruct (go_spec i (TReady true) s1 _ Ht1) as [ts [-> Hm]].
  apply (inv_become i _ h); [|apply Hm].
  assert (threads s1 = threads s) as Eth by (unfold s1; destruct ext; reflexivity). rewrite Eth in Hm.
  destruct H. inst Hm. unfold s1. destruct ext, h; fin.
Qed.

Lemma not_bad l i t : cnt bad_master l = 0 -> nth_error l i = Some t -> bad_master t = false.
Proof.
  revert i; induction l as [|y l IH]; intros [|i] Hc H; simpl in H; try discriminate; rewrite cnt_cons in Hc.
  - injection H as ->. destruct (bad_master t); [simpl in Hc; lia|reflexivity].
  - eapply IH; [lia|exact H].
Qed.

Lemma inv_helper_top i s : Inv s -> nth_error (threads s) i = Some (mkthread true TStart) ->
  Inv (helper_top i (set_starting (starting s - 1) s)).
Proof.
  intros H Ht. unfold helper_top. fields.
  assert (forall x, go i x (set_starting (starting s - 1) s) = set_starting (starting s - 1) (go i x s)) as Eg.
  { intros x. unfold go. fields. destruct (nth_error (threads s) i); reflexivity. }
  rewrite !Eg.
  destruct (shutdown s) eqn:Es; [|destruct (Nat.ltb_spec (active s) (max_active s))].
  - destruct (go_spec i TGone s _ Ht) as [ts [-> Hm]]. destruct H. inst Hm. fin.
  - destruct (go_spec i TRun s _ Ht) as [ts [-> Hm]]. destruct H. inst Hm. fin.
  - destruct (go_spec i (TIdle false) s _ Ht) as [ts [-> Hm]]. destruct H. inst Hm. fin.
Qed.

Lemma inv_wake_idle i s h : Inv s -> nth_error (threads s) i = Some (mkthread h (TIdle true)) ->
  Inv (helper_top i (set_idle (idle s - 1) s)).
Proof.
  intros H Ht. pose proof (not_bad _ _ _ (i_bad _ H) Ht) as Hb. destruct h; [|discriminate].
  rewrite <- (top_go i TStart).
  assert (go i TStart (set_idle (idle s - 1) s) =
          set_starting (starting (go i TStart (set_idle (idle s - 1) (set_starting (starting s + 1) s))) - 1)
            (go i TStart (set_idle (idle s - 1) (set_starting (starting s + 1) s)))) as ->.
  { unfold go. fields. rewrite Ht. cbn [is_helper]. unfold set_starting, set_threads, set_idle. fields.
    rewrite Nat.add_sub. reflexivity. }
  assert (nth_error (threads (set_idle (idle s - 1) (set_starting (starting s + 1) s))) i = Some (mkthread true (TIdle true))) as Ht1 by exact Ht.
  destruct (go_spec i TStart _ _ Ht1) as [ts [-> Hm]]. apply inv_helper_top; [|apply Hm].
  fields. destruct H. inst Hm. fin.
Qed.

Lemma inv_allocate n s : Inv s -> Inv (snd (allocate n s)).
Proof.
  intros H. unfold allocate. destruct (max_active s =? 1); [exact H|].
  destruct (Nat.ltb_spec (active s) (max_active s)); [|exact H]. cbn [snd].
  set (n' := if (n =? 0) || _ then _ else _).
  assert (n' <= max_active s - active s) as Hn.
  { unfold n'. destruct (Nat.eqb_spec n 0); cbn [orb]; [lia|]. destruct (Nat.ltb_spec (max_active s - active s) n); lia. }
  clearbody n'. destruct H. fin.
Qed.

Lemma activate_helper_proj k s : let s' := snd (activate_helper k s) in
  active s' = active s /\ max_active s' = max_active s /\ shutdown s' = shutdown s /\ js_debt s' = js_debt s.
Proof.
  unfold activate_helper. destruct (shutdown s) eqn:Es; [cbn; auto|]. destruct (idle_reserve s <? idle s).
  - cbn [snd]. destruct (notify_idle_spec k s) as [ts' [-> _]]. fields. auto.
  - destruct ((_ && _) || _); cbn; auto.
Qed.

Lemma activate_helper_other k s i t : nth_error (threads s) i = Some t -> tstate t <> TIdle false ->
  nth_error (threads (snd (activate_helper k s))) i = Some t.
Proof.
  intros Hi Ht. unfold activate_helper. destruct (shutdown s); [exact Hi|]. destruct (idle_reserve s <? idle s).
  - cbn [snd]. apply notify_idle_other; assumption.
  - destruct ((_ && _) || _); cbn [snd]; [|exact Hi]. unfold create_helper. fields. rewrite nth_error_app1; [exact Hi|].
    apply nth_error_Some. congruence.
Qed.

Lemma inv_dealloc_end i n s t : Inv s -> nth_error (threads s) i = Some t -> running t = true ->
  (shutdown s = false -> active s + n <= max_active s) -> Inv (dealloc_end i n s).
Proof.
  intros H Ht Hr Hn. unfold dealloc_end.
  set (s1 := if js_debt s && _ then _ else _).
  assert (Inv s1 /\ threads s1 = threads s) as [H1 E1].
  { unfold s1. destruct (js_debt s); cbn [andb]; [|auto]. destruct (Nat.eqb_spec n 0); cbn [negb]; [auto|].
    split; [|reflexivity]. apply inv_pay; [exact H|]. intros Hs. specialize (Hn Hs). lia. }
  eapply inv_go_running; [exact H1|rewrite E1; exact Ht|exact Hr|reflexivity].
Qed.

Lemma inv_dealloc_loop i k : forall n s t, Inv s -> nth_error (threads s) i = Some t -> running t = true ->
  (shutdown s = false -> active s + n <= max_active s) -> Inv (dealloc_loop i n k s).
Proof.
  induction n as [|n IH]; intros s t H Ht Hr Hn; cbn [dealloc_loop].
  - eapply inv_dealloc_end; eauto.
  - destruct (negb (queued s =? 0)); [|eapply inv_dealloc_end; eauto].
    pose proof (inv_activate_helper k s H) as Ha. destruct (activate_helper_proj k s) as [E1 [E2 [E3 _]]].
    assert (tstate t <> TIdle false) as Hti by (intros E; unfold running in Hr; rewrite E in Hr; discriminate).
    pose proof (activate_helper_other k s i t Ht Hti) as Ho.
    destruct (activate_helper k s) as [[[] []] s'] eqn:Ea; cbn [snd] in *.
    + eapply inv_go_running; [exact Ha|exact Ho|exact Hr|reflexivity].
    + eapply IH; [exact Ha|exact Ho|exact Hr|]. rewrite E1, E2, E3. intros Hs; specialize (Hn Hs). lia.
    + eapply inv_dealloc_end; eauto.
    + eapply inv_dealloc_end; eauto.
Qed.

Lemma notify_all_spec s : forall p, (forall h w, p (mkthread h (TReady true)) = p (mkthread h (TReady w))) ->
  cnt p (threads (notify_all_ready s)) = cnt p (threads s).
Proof.
  intros p Hp. unfold notify_all_ready. fields. rewrite cnt_map. apply cnt_ext. intros [h x]. unfold ready_asleep. cbn.
  destruct x as [| | | |[]| | |]; try reflexivity. apply Hp.
Qed.
Lemma notify_all_asleep s : cnt ready_asleep (threads (notify_all_ready s)) = 0.
Proof.
  unfold notify_all_ready. fields. rewrite cnt_map. induction (threads s) as [|[h x] l IH]; [reflexivity|].
  rewrite cnt_cons, IH. destruct x as [| | | |[]| | |]; reflexivity.
Qed.

Lemma inv_notify_all_gen s : Inv s -> Inv (notify_all_ready s).
Proof.
  intros H. 
  pose proof (notify_all_asleep s) as Ha.
  assert (cnt in_line_notified (threads (notify_all_ready s)) = cnt in_line (threads s)) as Hn.
  { unfold notify_all_ready. fields. rewrite cnt_map. apply cnt_ext. intros [h x]. destruct x as [| | | |[]| | |]; reflexivity. }
  destruct H as [I1 I2 I3 I4 I5 I6 I7 I8 I9 I10 I11 I12 I13 I14]. constructor; fields; repeat (rewrite notify_all_spec by reflexivity); try assumption.
  - rewrite Ha, Hn. exact I6.
  - intros _. left. exact Ha.
Qed.

Lemma inv_notify_all_idle s : Inv s -> Inv (notify_all_idle s).
Proof.
  intros H.
  assert (forall p, (forall h w, p (mkthread h (TIdle true)) = p (mkthread h (TIdle w))) ->
    cnt p (threads (notify_all_idle s)) = cnt p (threads s)) as Hp.
  { intros p Hp. unfold notify_all_idle. fields. rewrite cnt_map. apply cnt_ext. intros [h x]. unfold idle_asleep. cbn.
    destruct x as [| | | | | |[]|]; try reflexivity. apply Hp. }
  assert (cnt idle_asleep (threads (notify_all_idle s)) = 0) as Ha.
  { clear Hp H. unfold notify_all_idle. fields. rewrite cnt_map. induction (threads s) as [|[h x] l IH]; [reflexivity|].
    rewrite cnt_cons, IH. destruct x as [| | | | | |[]|]; reflexivity. }
  assert (cnt idle_notified (threads (notify_all_idle s)) = cnt is_idle (threads s)) as Hn.
  { unfold notify_all_idle. fields. rewrite cnt_map. apply cnt_ext. intros [h x]. destruct x as [| | | | | |[]|]; reflexivity. }
  destruct H as [I1 I2 I3 I4 I5 I6 I7 I8 I9 I10 I11 I12 I13 I14]. constructor; fields; repeat (rewrite Hp by reflexivity); try assumption.
  - rewrite Ha, Hn. exact I2.
Qed.

Lemma notify_all_other s i t : nth_error (threads s) i = Some t -> tstate t <> TReady false ->
  nth_error (threads (notify_all_ready s)) i = Some t.
Proof.
  intros Hi Ht. unfold notify_all_ready. fields. rewrite nth_error_map, Hi. cbn [option_map]. unfold ready_asleep.
  destruct (tstate t) as [| | | |[]| | |]; try reflexivity. contradiction.
Qed.

Lemma inv_deallocate i n k s h : Inv s -> n <= alloc s -> nth_error (threads s) i = Some (mkthread h TRun) -> Inv (deallocate i n k s).
Proof.
  intros H Hal Ht. unfold deallocate. destruct ((max_active s =? 1) || (n =? 0)) eqn:E; [exact H|].
  apply orb_false_iff in E. destruct E as [_ En]. apply Nat.eqb_neq in En.
  set (s1 := set_active _ _).
  assert (nth_error (threads s1) i = Some (mkthread h TRun)) as Ht1 by exact Ht.
  destruct (Nat.eqb_spec (ready s1) 0) as [Er|Er]; cbn [negb].
  - eapply inv_dealloc_loop; [|exact Ht1|reflexivity|].
    + unfold s1 in *. destruct H. fin.
    + unfold s1. fields. intros Hs. pose proof (i_limit _ H Hs). pose proof (i_active _ H). lia.
  - assert (Inv (if (1 <? ready s1) && (1 <? n) then notify_all_ready s1 else notify_ready k s1)) as Hi.
    { destruct ((1 <? ready s1) && (1 <? n)) eqn:Ec.
      - pose proof (notify_all_asleep s1) as Ha.
        assert (cnt in_line_notified (threads (notify_all_ready s1)) = cnt in_line (threads s1)) as Hn.
        { unfold notify_all_ready. fields. rewrite cnt_map. apply cnt_ext. intros [h0 x]. destruct x as [| | | |[]| | |]; reflexivity. }
        assert (forall p, (forall h w, p (mkthread h (TReady true)) = p (mkthread h (TReady w))) ->
                  cnt p (threads (notify_all_ready s1)) = cnt p (threads s)) as Hp by (intros p Hp; rewrite notify_all_spec by exact Hp; reflexivity).
        destruct H as [I1 I2 I3 I4 I5 I6 I7 I8 I9 I10 I11 I12 I13 I14].
        constructor; repeat (rewrite Hp by reflexivity); rewrite ?Ha, ?Hn; unfold s1, notify_all_ready; fields; try assumption; try lia.
        intros Hs; specialize (I13 Hs); lia.
      - destruct (notify_ready_spec k s1) as [ts' [-> Hn]].
        apply andb_false_iff in Ec.
        assert (ready s1 = 1 \/ n = 1) as Ec'.
        { destruct Ec as [Ec|Ec]; apply Nat.ltb_ge in Ec; lia. }
        destruct Hn as [[Hz ->]|[j [[h' u] [Hj [Eu Hm']]]]].
        + unfold s1 in *. destruct H. fin.
        + simpl in Eu; subst u. unfold s1 in *. destruct H. inst Hm'. destruct h'; fin. }
    apply (inv_dealloc_end i _ _ (mkthread h TRun)); [exact Hi| |reflexivity|].
    + destruct (_ && _); [apply notify_all_other|apply notify_ready_other]; try exact Ht1; discriminate.
    + intros Hs.
      assert (active (if (1 <? ready s1) && (1 <? n) then notify_all_ready s1 else notify_ready k s1) = active s - n /\
              max_active (if (1 <? ready s1) && (1 <? n) then notify_all_ready s1 else notify_ready k s1) = max_active s /\
              shutdown (if (1 <? ready s1) && (1 <? n) then notify_all_ready s1 else notify_ready k s1) = shutdown s) as [E1 [E2 E3]].
      { destruct (_ && _); [unfold s1; auto|]. destruct (notify_ready_spec k s1) as [ts' [-> _]]. unfold s1; auto. }
      rewrite E1, E2. rewrite E3 in Hs. pose proof (i_limit _ H Hs). pose proof (i_active _ H).
      destruct (Nat.ltb_spec (ready s1) n); lia.
Qed.

Lemma inv_helper_done i k s : Inv s -> nth_error (threads s) i = Some (mkthread true TRun) -> Inv (helper_done i k s).
Proof.
  intros H Ht. unfold helper_done. set (s1 := set_active (active s - 1) s).
  assert (nth_error (threads s1) i = Some (mkthread true TRun)) as Ht1 by exact Ht.
  destruct (Nat.eqb_spec (ready s1) 0) as [Er|Er]; cbn [negb].
  - assert (exists a j d m, (if js_debt s1 then pay_debt s1 else if (active s1 =? 0) && (external s1 =? 0) then set_monitor true s1 else s1)
             = set_active a (set_js j d (set_monitor m s)) /\ a + js_active s + 1 = active s + j /\ a <= active s /\ js_active s <= j) as [a [j [d [m [-> [Ea [Eb Ec]]]]]]].
    { assert (1 <= active s) as Ha.
      { rewrite (i_active _ H). apply nth_error_split in Ht. destruct Ht as [l1 [l2 [Ht _]]]. rewrite Ht, cnt_app, cnt_cons. cbn. lia. }
      destruct (js_debt s1).
      - exists (active s), (js_active s + 1), false, (monitor s). split; [|lia]. unfold pay_debt, s1. fields.
        unfold set_active, set_js, set_monitor. fields. f_equal; lia.
      - destruct (_ && _).
        + exists (active s - 1), (js_active s), (js_debt s), true. split; [reflexivity|lia].
        + exists (active s - 1), (js_active s), (js_debt s), (monitor s). split; [destruct s; reflexivity|lia]. }
    assert (go i (TIdle false) (set_active a (set_js j d (set_monitor m s))) = set_active a (set_js j d (set_monitor m (go i (TIdle false) s)))) as ->.
    { unfold go. fields. destruct (nth_error (threads s) i); reflexivity. }
    destruct (go_spec i (TIdle false) s _ Ht) as [ts [-> Hm]]. unfold s1 in *. fields. destruct H. inst Hm. fin.
  - pose proof (notify_ready_other k s1 i _ Ht1 ltac:(discriminate)) as Ho.
    destruct (notify_ready_spec k s1) as [ts' [E Hn]]. rewrite E in *. fields.
    destruct (go_spec i (TIdle false) (set_threads ts' s1) _ Ho) as [ts [-> Hm]]. unfold s1 in *. fields.
    destruct Hn as [[Hz ->]|[j [[h' u] [Hj [Eu Hm']]]]].
    + destruct H. inst Hm. fin.
    + simpl in Eu; subst u. destruct H. inst Hm. inst Hm'. destruct h'; fin.
Qed.

Lemma inv_js_deallocate k s : Inv s -> js_active s <> 0 -> Inv (js_deallocate k s).
Proof.
  intros H Hj. unfold js_deallocate. set (s1 := set_active _ _).
  destruct (Nat.eqb_spec (ready s1) 0) as [Er|Er]; cbn [negb].
  - assert (Inv s1) as Hs1 by (unfold s1 in *; fields; destruct H; fin).
    assert (Inv (if (active s1 =? 0) && (external s1 =? 0) then set_monitor true s1 else s1)) as Hrest.
    { destruct (_ && _); [apply inv_monitor; exact Hs1|exact Hs1]. }
    destruct (negb (queued s1 =? 0)); [|exact Hrest].
    pose proof (inv_activate_helper k s1 Hs1) as Ha. destruct (activate_helper k s1) as [[[] r] s2]; [exact Ha|exact Hrest].
  - destruct (notify_ready_spec k s1) as [ts' [-> Hn]].
    destruct Hn as [[Hz ->]|[j [[h' u] [Hjj [Eu Hm']]]]].
    + unfold s1 in *. destruct H. fin.
    + simpl in Eu; subst u. unfold s1 in *. destruct H. inst Hm'. destruct h'; fin.
Qed.

Lemma step_inv s o s' : Inv s -> step s o = Some s' -> Inv s'.
Proof.
  intros H Hs. destruct o; cbn [step] in Hs;
    try (destruct (state_of s i) as [x|] eqn:Ex; [|discriminate]; apply state_of_some in Ex; destruct Ex as [h Ht]).
  - destruct x; try discriminate. destruct (max_active s =? 1); [discriminate|]. injection Hs as <-.
    eapply inv_go_running; [apply inv_queued; exact H|exact Ht|reflexivity|reflexivity].
  - destruct x; try discriminate. destruct (queued s =? 0); [|discriminate]. injection Hs as <-.
    eapply inv_go_running; [exact H|exact Ht|reflexivity|reflexivity].
  - destruct x; try discriminate. injection Hs as <-.
    assert (Inv (go i TRun s)) as Hg by (eapply inv_go_running; [exact H|exact Ht|reflexivity|reflexivity]).
    destruct (_ <? _); [apply inv_activate_helper; exact Hg|exact Hg].
  - destruct x; try discriminate. destruct (queued s =? 0); [discriminate|]. injection Hs as <-. apply inv_queued; exact H.
  - destruct x; try discriminate. destruct (max_active s =? 1); [discriminate|]. injection Hs as <-. eapply inv_deactivate; eauto.
  - destruct x; try discriminate. injection Hs as <-. eapply inv_activate; eauto.
  - destruct x as [| | | |[]| |[]|]; try discriminate; injection Hs as <-.
    + eapply inv_become; eauto.
    + eapply inv_wake_idle; eauto.
  - destruct x as [| | | |[]| |[]|]; try discriminate; injection Hs as <-.
    + destruct (go_spec i (TReady true) s _ Ht) as [ts [-> Hm]]. eapply inv_set_threads_ready; [exact H| |exact Hm]; reflexivity.
    + destruct (go_spec i (TIdle true) s _ Ht) as [ts [-> Hm]]. destruct H. inst Hm. destruct h; fin.
  - destruct x; try discriminate. injection Hs as <-. apply inv_allocate; exact H.
  - destruct x; try discriminate. destruct (Nat.leb_spec n (alloc s)); [|discriminate]. injection Hs as <-. eapply inv_deallocate; eauto.
  - destruct x; try discriminate. injection Hs as <-. unfold dealloc_relock.
    eapply inv_dealloc_loop; [exact H|exact Ht|reflexivity|]. intros Hsd. pose proof (i_limit _ H Hsd).
    destruct (Nat.ltb_spec (active s) (max_active s)); repeat match goal with |- context [?a <? ?b] => destruct (Nat.ltb_spec a b) end; lia.
  - destruct x; try discriminate. destruct ((max_active s =? 1) || negb (active s =? 1)) eqn:E; [discriminate|]. injection Hs as <-.
    apply orb_false_iff in E. destruct E as [_ E]. apply negb_false_iff, Nat.eqb_eq in E. destruct H. fin.
  - destruct x; try discriminate. injection Hs as <-. pose proof (not_bad _ _ _ (i_bad _ H) Ht) as Hb. destruct h; [|discriminate].
    apply inv_helper_top; assumption.
  - destruct x; try discriminate. injection Hs as <-. pose proof (not_bad _ _ _ (i_bad _ H) Ht) as Hb. destruct h; [|discriminate].
    destruct (go_spec i TGone s _ Ht) as [ts [-> Hm]]. destruct H. inst Hm. fin.
  - destruct x; try discriminate. destruct (helper_of s i && (queued s =? 0)) eqn:E; [|discriminate]. injection Hs as <-.
    apply andb_true_iff in E. destruct E as [E _]. unfold helper_of in E. rewrite Ht in E. cbn [is_helper] in E. subst h.
    apply inv_helper_done; assumption.
  - destruct (shutdown s || (max_active s =? 1)) eqn:E; [discriminate|]. destruct (Nat.ltb_spec (active s) (max_active s)); injection Hs as <-.
    + apply inv_pay; auto.
    + apply inv_debt; exact H.
  - injection Hs as <-. apply inv_debt; exact H.
  - destruct (shutdown s || (max_active s =? 1) || (js_active s =? 0)) eqn:E; [discriminate|]. injection Hs as <-.
    apply orb_false_iff in E. destruct E as [_ E]. apply Nat.eqb_neq in E. apply inv_js_deallocate; assumption.
  - destruct (_ && _); [discriminate|]. injection Hs as <-. apply inv_monitor; exact H.
  - destruct (_ && _) eqn:E; [|discriminate]. injection Hs as <-.
    repeat rewrite andb_true_iff in E. destruct E as [[[[[E1 E2] E3] E4] E5] E6].
    apply Nat.eqb_eq in E1, E2, E3, E4. apply Nat.leb_le in E5. destruct H. fin.
  - destruct x; try discriminate. injection Hs as <-. apply inv_queued, inv_limits; exact H.
  - destruct x; try discriminate. injection Hs as <-. apply inv_queued, inv_limits; exact H.
  - injection Hs as <-. destruct H. constructor; fields; try assumption; discriminate.
  - destruct (shutdown s) eqn:E; [|discriminate]. injection Hs as <-. apply inv_notify_all_idle, inv_notify_all_gen; exact H.
Qed.

Lemma run_inv l : forall s s', Inv s -> run s l = Some s' -> Inv s'.
Proof.
  induction l as [|o l IH]; intros s s' H Hr; simpl in Hr; [injection Hr as <-; exact H|].
  destruct (step s o) as [s1|] eqn:E; [|discriminate]. eapply IH; [eapply step_inv; eauto|exact Hr].
Qed.
