From Verif Require Import Base Count PhaseModel PhaseSpec.

Lemma phase_eqb_spec x y : reflect (x = y) (phase_eqb x y).
Proof. destruct x, y; simpl; constructor; congruence. Qed.
Lemma phase_eqb_refl x : phase_eqb x x = true.
Proof. destruct x; reflexivity. Qed.
Lemma phase_eqb_eq x y : phase_eqb x y = true <-> x = y.
Proof. destruct (phase_eqb_spec x y); split; congruence. Qed.

Definition counted (n : phase) (t : pst) : bool :=
  match t with PHold m _ | PWait m _ => phase_eqb m n | PLoadMutex | PLeave _ => phase_eqb Load n | POut => false end.
Definition has_lm (t : pst) : bool := match t with PHold Load _ => true | _ => false end.

Record PInv (s : pmutex) : Prop := {
  p_count : forall n, get n s = num (counted n) (threads s);
  p_keep : forall t n, In t (threads s) -> keeps n t = true -> cur s = n;
  p_lm : num has_lm (threads s) = b2n (lm s);
  p_none : get (cur s) s = 0 -> cur s = Load /\ forall n, get n s = 0;
  p_sleep : forall t n, In t (threads s) -> sleeps_for n t = true -> cur s = n -> In n (notifies s);
  p_leave : forall n, In (PLeave (Some n)) (threads s) -> n <> Load
}.

Lemma pinv_start : PInv start.
Proof.
  constructor; try (cbn; intros; contradiction); try reflexivity.
  - intros []; reflexivity.
  - intros _. split; [reflexivity|]. intros []; reflexivity.
Qed.

(* Everything a thread can do is to change its state and the shared state. *)
Lemma pinv_update s i t x s' : PInv s -> nth_error (threads s) i = Some t ->
  threads s' = lupd (threads s) i x ->
  (forall n, get n s' + b2n (counted n t) = get n s + b2n (counted n x)) ->
  (forall n, keeps n x = true -> cur s' = n) ->
  (cur s' = cur s \/ forall j y n, j <> i -> nth_error (threads s) j = Some y -> keeps n y = false) ->
  b2n (lm s') + b2n (has_lm t) = b2n (lm s) + b2n (has_lm x) ->
  (get (cur s') s' = 0 -> cur s' = Load /\ forall n, get n s' = 0) ->
  (forall n, In n (notifies s) -> In n (notifies s')) ->
  (sleeps_for (cur s') x = true -> In (cur s') (notifies s')) ->
  (cur s' = cur s \/ In (cur s') (notifies s') \/ forall j y, j <> i -> nth_error (threads s) j = Some y -> sleeps_for (cur s') y = false) ->
  (forall n, x = PLeave (Some n) -> n <> Load) ->
  PInv s'.
Proof.
  intros [I1 I2 I3 I4 I5 I6] Ht Eth Hc Hk Hk2 Hl Hn Hinc Hs1 Hs2 Hlv. constructor.
  - intros n. rewrite Eth. pose proof (num_lupd (counted n) _ _ _ x Ht). specialize (Hc n). rewrite (I1 n) in Hc. lia.
  - rewrite Eth. intros y n Hy Hkn. apply In_nth_error in Hy. destruct Hy as [j Hy]. apply lupd_nth in Hy.
    destruct Hy as [[-> ->]|[Hj Hy]]; [auto|]. destruct Hk2 as [E|Hk2].
    + rewrite E. eapply I2; [eapply nth_error_In; exact Hy|exact Hkn].
    + rewrite (Hk2 _ _ n Hj Hy) in Hkn. discriminate.
  - rewrite Eth. pose proof (num_lupd has_lm _ _ _ x Ht). lia.
  - exact Hn.
  - rewrite Eth. intros y n Hy Hsn Ec. subst n. apply In_nth_error in Hy. destruct Hy as [j Hy]. apply lupd_nth in Hy.
    destruct Hy as [[-> ->]|[Hj Hy]]; [auto|]. destruct Hs2 as [E|[Hs2|Hs2]].
    + apply Hinc. eapply I5; [eapply nth_error_In; exact Hy|exact Hsn|auto].
    + exact Hs2.
    + rewrite (Hs2 _ _ Hj Hy) in Hsn. discriminate.
  - rewrite Eth. intros n Hy. apply lupd_in in Hy. destruct Hy as [Hy|Hy]; [apply Hlv; auto|auto].
Qed.

Lemma keeps_counted n t : keeps n t = true -> counted n t = true.
Proof. destruct t; simpl; auto; discriminate. Qed.
Lemma sleeps_counted n t : sleeps_for n t = true -> counted n t = true.
Proof. destruct t as [|m []| | |]; simpl; auto; discriminate. Qed.

(* Nobody but thread i is counted. *)
Lemma only_one s i t o : PInv s -> nth_error (threads s) i = Some t -> counted o t = true -> get o s - 1 = 0 ->
  forall j y, j <> i -> nth_error (threads s) j = Some y -> counted o y = false.
Proof.
  intros H Ht Hc Hz j y Hj Hy. destruct (counted o y) eqn:E; [|reflexivity].
  pose proof (num_two (counted o) _ _ _ _ _ Ht Hy Hc E). rewrite (p_count _ H o) in Hz. lia.
Qed.
Lemma counted_zero s n : PInv s -> get n s = 0 -> forall j y, nth_error (threads s) j = Some y -> counted n y = false.
Proof.
  intros H Hz j y Hy. rewrite (p_count _ H) in Hz. eapply num_zero; [exact Hz|]. eapply nth_error_In; exact Hy.
Qed.
Lemma counted_pos s i t o : PInv s -> nth_error (threads s) i = Some t -> counted o t = true -> 1 <= get o s.
Proof. intros H Ht Hc. rewrite (p_count _ H). eapply num_pos; eauto. Qed.

Lemma get_set_count n x s m : get m (set_count n x s) = if phase_eqb m n then x else get m s.
Proof. destruct n, m; reflexivity. Qed.
Lemma set_count_proj n x s : threads (set_count n x s) = threads s /\ cur (set_count n x s) = cur s /\ lm (set_count n x s) = lm s /\
  fail (set_count n x s) = fail s /\ notifies (set_count n x s) = notifies s.
Proof. destruct n; auto 10. Qed.

Lemma get_go i x s m : get m (go i x s) = get m s.
Proof. destruct m; reflexivity. Qed.
Lemma get_cur p s m : get m (set_cur p s) = get m s.
Proof. destruct m; reflexivity. Qed.

(* The state of a thread that has joined phase n. *)
Definition joined (n : phase) (s : pmutex) : pst := match n with Load => PLoadMutex | _ => PHold n (negb (fail s)) end.
Lemma joined_counted n s m : counted m (joined n s) = phase_eqb n m.
Proof. destruct n; reflexivity. Qed.
Lemma joined_keeps n s m : keeps m (joined n s) = phase_eqb n m.
Proof. destruct n; reflexivity. Qed.
Lemma joined_has n s : has_lm (joined n s) = false.
Proof. destruct n; reflexivity. Qed.
Lemma joined_sleeps n s m : sleeps_for m (joined n s) = false.
Proof. destruct n; reflexivity. Qed.

Lemma joined_leave n s m : joined n s = PLeave (Some m) -> m <> Load.
Proof. destruct n; discriminate. Qed.

Lemma pinv_lock s i n : PInv s -> nth_error (threads s) i = Some POut -> PInv (lock i n s).
Proof.
  intros H Ht. unfold lock.
  destruct (set_count_proj n (get n s + 1) s) as [E1 [E2 [E3 [E4 E5]]]].
  set (s1 := set_count n (get n s + 1) s) in *.
  assert (forall m, get m s1 = if phase_eqb m n then get n s + 1 else get m s) as G by (intros; apply get_set_count).
  assert (forall m, get m (set_cur n s1) = get m s1) as G2 by (intros []; reflexivity).
  destruct ((lc s =? 0) && (mc s =? 0) && (ec s =? 0)) eqn:E.
  - repeat rewrite andb_true_iff in E. destruct E as [[El Em] Ee]. apply Nat.eqb_eq in El, Em, Ee.
    assert (forall m, get m s = 0) as Z by (intros []; assumption).
    unfold arrive. change (match n with Load => _ | _ => _ end) with (joined n (set_cur n s1)).
    apply (pinv_update s i POut (joined n (set_cur n s1))); [..|intros ?; apply joined_leave]; auto.
    + cbn [go set_threads threads set_cur]. rewrite E1. reflexivity.
    + intros m. rewrite joined_counted. rewrite get_go, ?get_cur.
      rewrite G. destruct (phase_eqb_spec m n) as [->|Hne]; [rewrite phase_eqb_refl|destruct (phase_eqb_spec n m); [congruence|]]; cbn; lia.
    + intros m Hm. rewrite joined_keeps in Hm. apply phase_eqb_eq in Hm. exact Hm.
    + right. intros j y m Hj Hy. destruct (keeps m y) eqn:K; [|reflexivity]. apply keeps_counted in K.
      rewrite (counted_zero s m H (Z m) j y Hy) in K. discriminate.
    + rewrite joined_has. cbn [go set_threads lm set_cur]. rewrite E3. reflexivity.
    + cbn [go set_threads cur set_cur]. rewrite get_go, ?get_cur.
      rewrite G, phase_eqb_refl. lia.
    + cbn [go set_threads notifies set_cur]. rewrite E5. auto.
    + rewrite joined_sleeps. discriminate.
    + right; right. intros j y Hj Hy. destruct (sleeps_for _ y) eqn:K; [|reflexivity]. apply sleeps_counted in K.
      rewrite (counted_zero s _ H (Z _) j y Hy) in K. discriminate.
  - assert (get (cur s) s <> 0) as Hnz.
    { intros Hz. destruct (p_none _ H Hz) as [_ Z]. pose proof (Z Load); pose proof (Z Match); pose proof (Z Execute). cbn [get] in *.
      rewrite H0, H1, H2 in E. discriminate. }
    assert (get (cur s) s1 <> 0) as Hnz1 by (rewrite G; destruct (phase_eqb_spec (cur s) n); lia).
    rewrite E2. destruct (phase_eqb_spec (cur s) n) as [Ec|Ec]; cbn [negb].
    + unfold arrive. change (match n with Load => _ | _ => _ end) with (joined n s1).
      apply (pinv_update s i POut (joined n s1)); [..|intros ?; apply joined_leave]; auto.
      * cbn [go set_threads threads]. rewrite E1. reflexivity.
      * intros m. rewrite joined_counted. rewrite get_go, ?get_cur.
        rewrite G. destruct (phase_eqb_spec m n) as [->|Hne]; [rewrite phase_eqb_refl|destruct (phase_eqb_spec n m); [congruence|]]; cbn; lia.
      * intros m Hm. rewrite joined_keeps in Hm. apply phase_eqb_eq in Hm. subst m. exact (eq_trans E2 Ec).
      * rewrite joined_has. cbn [go set_threads lm]. rewrite E3. reflexivity.
      * intros Hz. exfalso. apply Hnz1. rewrite <- Hz. change (cur (go i (joined n s1) s1)) with (cur s1). rewrite E2. destruct (cur s); reflexivity.
      * cbn [go set_threads notifies]. rewrite E5. auto.
      * rewrite joined_sleeps. discriminate.
    + apply (pinv_update s i POut (PWait n false)); [..|discriminate]; auto.
      * cbn [go set_threads threads]. rewrite E1. reflexivity.
      * intros m. rewrite get_go, ?get_cur. cbn [counted].
        rewrite G. destruct (phase_eqb_spec m n) as [->|Hne]; [rewrite phase_eqb_refl|destruct (phase_eqb_spec n m); [congruence|]]; cbn; lia.
      * discriminate.
      * cbn [go set_threads lm has_lm]. rewrite E3. reflexivity.
      * intros Hz. exfalso. apply Hnz1. rewrite <- Hz. change (cur (go i (PWait n false) s1)) with (cur s1). rewrite E2. destruct (cur s); reflexivity.
      * cbn [go set_threads notifies]. rewrite E5. auto.
      * change (cur (go i (PWait n false) s1)) with (cur s1). rewrite E2. cbn [sleeps_for]. intros Hc. apply phase_eqb_eq in Hc. congruence.
Qed.

Lemma sub_proj o n s : threads (subphase o n s) = threads s /\ cur (subphase o n s) = cur s /\ lm (subphase o n s) = lm s /\
  fail (subphase o n s) = fail s /\ notifies (subphase o n s) = notifies s /\ forall m, get m (subphase o n s) = get m s.
Proof. destruct o, n; cbn; repeat split; intros []; reflexivity. Qed.

Lemma peq_sym x y : phase_eqb x y = phase_eqb y x.
Proof. destruct x, y; reflexivity. Qed.

(* A thread that keeps phase o and is not counted otherwise gives it up. *)
Lemma pinv_unlock s i t o : PInv s -> nth_error (threads s) i = Some t ->
  (forall m, counted m t = phase_eqb o m) -> keeps o t = true -> has_lm t = false -> PInv (unlock i o s).
Proof.
  intros H Ht Hct Hkt Hlt. unfold unlock.
  pose proof (p_keep _ H t o (nth_error_In _ _ Ht) Hkt) as Ecur.
  assert (counted o t = true) as Hco by (rewrite Hct; apply phase_eqb_refl).
  pose proof (counted_pos s i t o H Ht Hco) as Hpos.
  destruct (set_count_proj o (get o s - 1) s) as [E1 [E2 [E3 [E4 E5]]]].
  set (s1 := go i POut (set_count o (get o s - 1) s)) in *.
  assert (forall m, get m s1 = if phase_eqb m o then get o s - 1 else get m s) as G by (intros; unfold s1; rewrite get_go; apply get_set_count).
  assert (threads s1 = lupd (threads s) i POut) as T1 by (unfold s1; cbn [go set_threads threads]; rewrite E1; reflexivity).
  assert (cur s1 = cur s /\ lm s1 = lm s /\ notifies s1 = notifies s) as [C1 [L1 N1]] by (unfold s1; cbn [go set_threads cur lm notifies]; auto).
  clearbody s1.
  assert (forall m s', (forall m, get m s' = get m s1) -> get m s' + b2n (counted m t) = get m s + b2n (counted m POut)) as Hcnt.
  { intros m s' Hs'. rewrite Hs', G, Hct, (peq_sym o m). destruct (phase_eqb_spec m o) as [->|]; cbn; lia. }
  assert (forall n, get n s1 <> 0 \/ (n = Load /\ forall m, get m s1 = 0) -> get n s1 = 0 -> n = Load /\ forall m, get m s1 = 0) as Hz.
  { intros n [Hn|Hn] E; [contradiction|exact Hn]. }
  destruct (Nat.eqb_spec (get o s1) 0) as [Eu|Eu].
  - assert (forall j y, j <> i -> nth_error (threads s) j = Some y -> counted o y = false) as Hone.
    { eapply only_one; eauto. rewrite G, phase_eqb_refl in Eu. exact Eu. }
    assert (forall j y n, j <> i -> nth_error (threads s) j = Some y -> keeps n y = false) as Hno.
    { intros j y n Hj Hy. destruct (keeps n y) eqn:K; [|reflexivity].
      pose proof (p_keep _ H y n (nth_error_In _ _ Hy) K) as En. rewrite Ecur in En. subst n.
      apply keeps_counted in K. rewrite (Hone j y Hj Hy) in K. discriminate. }
    (* The phase that is picked. *)
    assert (forall n (v : bool), (v = true -> get n s1 <> 0) -> (v = false -> n = Load /\ forall m, get m s1 = 0) ->
            PInv (if v then set_notifies (n :: notifies (subphase o n (set_cur n s1))) (subphase o n (set_cur n s1)) else subphase o n (set_cur n s1))) as Hpick.
    { intros n v Hv1 Hv2. destruct (sub_proj o n (set_cur n s1)) as [P1 [P2 [P3 [P4 [P5 P6]]]]].
      set (s2 := subphase o n (set_cur n s1)) in *. clearbody s2.
      assert (forall m, get m s2 = get m s1) as G2 by (intros m; rewrite P6, get_cur; reflexivity).
      cbn [set_cur threads cur lm notifies] in *.
      apply (pinv_update s i t POut); try discriminate; auto; destruct v; cbn [set_notifies threads cur lm notifies has_lm]; rewrite ?P1, ?P2, ?P3, ?P5; auto; try discriminate.
      - rewrite L1, Hlt. reflexivity.
      - rewrite L1, Hlt. reflexivity.
      - intros E. exfalso. apply (Hv1 eq_refl). rewrite <- (G2 n), <- E. destruct n; reflexivity.
      - intros E. destruct (Hv2 eq_refl) as [Q1 Q2]. split; [exact Q1|]. intros m. rewrite G2. apply Q2.
      - rewrite N1. intros; right; auto.
      - rewrite N1. auto.
      - right; left. left; reflexivity.
      - right; right. intros j y Hj Hy. destruct (sleeps_for n y) eqn:K; [|reflexivity]. apply sleeps_counted in K.
        destruct (Hv2 eq_refl) as [_ Q2]. specialize (Q2 n). rewrite G in Q2. destruct (phase_eqb_spec n o) as [->|Hne].
        + rewrite (Hone j y Hj Hy) in K. discriminate.
        + rewrite (counted_zero s n H Q2 j y Hy) in K. discriminate. }
    destruct (Nat.eqb_spec (lc s1) 0) as [El|El]; cbn [negb]; [|apply (Hpick Load true); [intros _; exact El|discriminate]].
    destruct (Nat.eqb_spec (mc s1) 0) as [Em|Em]; cbn [negb]; [|apply (Hpick Match true); [intros _; exact Em|discriminate]].
    destruct (Nat.eqb_spec (ec s1) 0) as [Ee|Ee]; cbn [negb]; [|apply (Hpick Execute true); [intros _; exact Ee|discriminate]].
    apply (Hpick Load false); [discriminate|]. intros _. split; [reflexivity|]. intros []; assumption.
  - apply (pinv_update s i t POut); auto; try discriminate.
    + rewrite L1, Hlt. reflexivity.
    + rewrite C1, Ecur. intros E. contradiction.
    + rewrite N1. auto.
Qed.

Lemma pinv_relock s i t o n : PInv s -> nth_error (threads s) i = Some t -> o <> n ->
  (forall m, counted m t = phase_eqb o m) -> keeps o t = true -> has_lm t = false -> PInv (relock i o n s).
Proof.
  intros H Ht Hon Hct Hkt Hlt. unfold relock.
  pose proof (p_keep _ H t o (nth_error_In _ _ Ht) Hkt) as Ecur.
  assert (counted o t = true) as Hco by (rewrite Hct; apply phase_eqb_refl).
  pose proof (counted_pos s i t o H Ht Hco) as Hpos.
  set (s1 := set_count o (get o s - 1) s).
  set (s2 := set_count n (get n s1 + 1) s1).
  assert (forall m, get m s1 = if phase_eqb m o then get o s - 1 else get m s) as G1 by (intros; unfold s1; apply get_set_count).
  assert (forall m, get m s2 = if phase_eqb m n then get n s + 1 else if phase_eqb m o then get o s - 1 else get m s) as G2.
  { intros m. unfold s2. rewrite get_set_count. destruct (phase_eqb_spec m n) as [->|]; [|apply G1].
    rewrite G1. destruct (phase_eqb_spec n o); [congruence|reflexivity]. }
  assert (threads s2 = threads s /\ cur s2 = cur s /\ lm s2 = lm s /\ fail s2 = fail s /\ notifies s2 = notifies s) as [E1 [E2 [E3 [E4 E5]]]].
  { unfold s2. destruct (set_count_proj n (get n s1 + 1) s1) as [-> [-> [-> [-> ->]]]]. apply set_count_proj. }
  assert (get o s1 = get o s - 1) as Go by (rewrite G1, phase_eqb_refl; reflexivity).
  assert (get n s1 = get n s) as Gn by (rewrite G1; destruct (phase_eqb_spec n o); [congruence|reflexivity]).
  rewrite Go, Gn. clearbody s2. clear s1 G1 Go Gn.
  assert (forall m x, (forall m, counted m x = phase_eqb n m) -> get m s2 + b2n (counted m t) = get m s + b2n (counted m x)) as Hcnt.
  { intros m x Hx. rewrite G2, Hct, Hx, (peq_sym o m), (peq_sym n m). destruct (phase_eqb_spec m n) as [->|Hmn].
    - destruct (phase_eqb_spec n o); [congruence|]. cbn. lia.
    - destruct (phase_eqb_spec m o) as [->|]; cbn; lia. }
  destruct (Nat.eqb_spec (get o s - 1) 0) as [Eu|Eu].
  - assert (forall j y, j <> i -> nth_error (threads s) j = Some y -> counted o y = false) as Hone by (eapply only_one; eauto).
    assert (forall j y m, j <> i -> nth_error (threads s) j = Some y -> keeps m y = false) as Hno.
    { intros j y m Hj Hy. destruct (keeps m y) eqn:K; [|reflexivity].
      pose proof (p_keep _ H y m (nth_error_In _ _ Hy) K) as En. rewrite Ecur in En. subst m.
      apply keeps_counted in K. rewrite (Hone j y Hj Hy) in K. discriminate. }
    destruct (sub_proj o n (set_cur n s2)) as [P1 [P2 [P3 [P4 [P5 P6]]]]].
    set (s3 := subphase o n (set_cur n s2)) in *. clearbody s3. cbn [set_cur threads cur lm notifies fail] in *.
    assert (forall m, get m s3 = get m s2) as G3 by (intros m; rewrite P6, get_cur; reflexivity).
    cbn [negb]. rewrite orb_false_r.
    set (v := negb (get n s =? 0)).
    set (s4 := if v then set_notifies (n :: notifies s3) s3 else s3).
    assert (threads s4 = threads s /\ cur s4 = n /\ lm s4 = lm s /\ (forall m, get m s4 = get m s2) /\ (forall m, In m (notifies s) -> In m (notifies s4)) /\ (v = true -> In n (notifies s4)))
      as [Q1 [Q2 [Q3 [Q4 [Q5 Q6]]]]].
    { unfold s4. destruct v; cbn [set_notifies threads cur lm notifies]; (split; [congruence|split; [assumption|split; [congruence|split]]]).
      - intros m. rewrite <- G3. destruct m; reflexivity.
      - rewrite P5, E5. split; [intros; right; auto|intros; left; reflexivity].
      - exact G3.
      - rewrite P5, E5. split; [auto|discriminate]. }
    clearbody s4. unfold arrive. change (match n with Load => _ | _ => _ end) with (joined n s4).
    apply (pinv_update s i t (joined n s4)); [..|intros ?; apply joined_leave]; auto; cbn [go set_threads threads cur lm notifies].
    + rewrite Q1. reflexivity.
    + intros m. rewrite get_go, Q4. apply Hcnt. intros; apply joined_counted.
    + intros m Hm. rewrite joined_keeps in Hm. apply phase_eqb_eq in Hm. congruence.
    + rewrite joined_has, Hlt, Q3. reflexivity.
    + rewrite get_go, Q4, Q2, G2, phase_eqb_refl. lia.
    + rewrite joined_sleeps. discriminate.
    + rewrite Q2. destruct v eqn:Ev; [auto|]. right; right. intros j y Hj Hy. destruct (sleeps_for n y) eqn:K; [|reflexivity]. apply sleeps_counted in K.
      unfold v in Ev. apply negb_false_iff, Nat.eqb_eq in Ev. rewrite (counted_zero s n H Ev j y Hy) in K. discriminate.
  - rewrite E2, Ecur. destruct (phase_eqb_spec o n) as [|_]; [contradiction|].
    apply (pinv_update s i t (PWait n false)); [..|discriminate]; auto; cbn [go set_threads threads cur lm notifies].
    + rewrite E1. reflexivity.
    + intros m. rewrite get_go. apply Hcnt. reflexivity.
    + discriminate.
    + rewrite E3, Hlt. reflexivity.
    + rewrite get_go, E2, Ecur, G2, phase_eqb_refl. destruct (phase_eqb_spec o n); [contradiction|]. intros; contradiction.
    + rewrite E5. auto.
    + rewrite E2, Ecur. cbn [sleeps_for]. intros E. apply phase_eqb_eq in E. congruence.
Qed.

Lemma pinv_arrive s i n w : PInv s -> nth_error (threads s) i = Some (PWait n w) -> cur s = n -> PInv (arrive i n s).
Proof.
  intros H Ht Ec. unfold arrive. change (match n with Load => _ | _ => _ end) with (joined n s).
  apply (pinv_update s i (PWait n w) (joined n s)); [..|intros ?; apply joined_leave]; auto; cbn [go set_threads threads cur lm notifies].
  - intros m. rewrite get_go, joined_counted. reflexivity.
  - intros m Hm. rewrite joined_keeps in Hm. apply phase_eqb_eq in Hm. congruence.
  - rewrite joined_has. reflexivity.
  - rewrite get_go. intros E. destruct (p_none _ H E) as [Q1 Q2]. split; [exact Q1|]. intros m; rewrite get_go; apply Q2.
  - rewrite joined_sleeps. discriminate.
Qed.

Lemma wake_in n l t : In t (wake_all n l) -> exists y, In y l /\ (forall m, counted m t = counted m y) /\ (forall m, keeps m t = keeps m y) /\
  (forall m, sleeps_for m t = true -> y = t /\ m <> n).
Proof.
  unfold wake_all. rewrite in_map_iff. intros [y [E Hy]]. exists y. split; [exact Hy|].
  destruct y as [|m w| | |]; subst t; try (repeat split; intros; cbn in *; try reflexivity; discriminate).
  destruct (phase_eqb_spec m n) as [->|Hn]; repeat split; intros; cbn in *; try discriminate.
  destruct w; [discriminate|]. apply phase_eqb_eq in H. congruence.
Qed.
Lemma num_wake p n l : (forall m, p (PWait m true) = p (PWait m false)) -> num p (wake_all n l) = num p l.
Proof.
  intros Hp. unfold wake_all. rewrite num_map. apply num_ext. intros [|m []| | |]; try reflexivity; destruct (phase_eqb m n); auto.
Qed.

Lemma ldel_in {X} (l : list X) : forall k x y, nth_error l k = Some x -> In y l -> y = x \/ In y (ldel l k).
Proof.
  induction l as [|z l IH]; intros [|k] x y H Hy; simpl in *; try discriminate.
  - injection H as ->. destruct Hy as [->|Hy]; auto.
  - destruct Hy as [->|Hy]; [auto|]. destruct (IH _ _ _ H Hy); auto.
Qed.

Lemma step_pinv s o s' : PInv s -> step s o = Some s' -> PInv s'.
Proof.
  intros H Hs. destruct o; cbn [step] in Hs; try (destruct (nth_error (threads s) i) as [t|] eqn:Ht; [|discriminate]).
  - destruct t; try discriminate. injection Hs as <-. apply pinv_lock; assumption.
  - destruct t as [|n []| | |]; try discriminate. injection Hs as <-. destruct (phase_eqb_spec (cur s) n) as [Ec|Ec].
    + eapply pinv_arrive; eauto.
    + apply (pinv_update s i (PWait n true) (PWait n false)); auto; cbn [go set_threads threads cur lm notifies]; try discriminate.
      * rewrite get_go. intros E. destruct (p_none _ H E) as [Q1 Q2]. split; [exact Q1|]. intros m; rewrite get_go; apply Q2.
      * cbn [sleeps_for]. intros E. apply phase_eqb_eq in E. congruence.
  - destruct t as [|n []| | |]; try discriminate. injection Hs as <-.
    apply (pinv_update s i (PWait n false) (PWait n true)); auto; cbn [go set_threads threads cur lm notifies]; try discriminate.
    + rewrite get_go. intros E. destruct (p_none _ H E) as [Q1 Q2]. split; [exact Q1|]. intros m; rewrite get_go; apply Q2.
  - destruct t; try discriminate. destruct (lm s) eqn:El; [discriminate|]. injection Hs as <-.
    assert (forall m, get m (set_lm true (go i (PHold Load (negb (fail s))) s)) = get m s) as G by (intros []; reflexivity).
    apply (pinv_update s i PLoadMutex (PHold Load (negb (fail s)))); auto; cbn [set_lm go set_threads threads cur lm notifies]; try discriminate.
    + intros m E. eapply (p_keep _ H PLoadMutex); [eapply nth_error_In; exact Ht|exact E].
    + rewrite El. reflexivity.
    + intros E. rewrite G in E. destruct (p_none _ H E) as [Q1 Q2]. split; [exact Q1|]. intros m; rewrite G; apply Q2.
  - destruct t as [| | |[] ok|]; try discriminate; injection Hs as <-; try (eapply pinv_unlock; [exact H|exact Ht|reflexivity..]).
    assert (forall m, get m (set_lm false (go i (PLeave None) s)) = get m s) as G by (intros []; reflexivity).
    apply (pinv_update s i (PHold Load ok) (PLeave None)); auto; cbn [set_lm go set_threads threads cur lm notifies]; try discriminate.
    + intros m E. eapply (p_keep _ H (PHold Load ok)); [eapply nth_error_In; exact Ht|exact E].
    + pose proof (num_pos has_lm _ _ _ Ht eq_refl) as Hp. rewrite (p_lm _ H) in Hp. destruct (lm s); cbn in *; lia.
    + intros E. rewrite G in E. destruct (p_none _ H E) as [Q1 Q2]. split; [exact Q1|]. intros m; rewrite G; apply Q2.
  - destruct t as [| | |o ok|]; try discriminate. destruct (phase_eqb_spec o n) as [|Hon]; [discriminate|].
    destruct o; injection Hs as <-; try (eapply pinv_relock; [exact H|exact Ht|exact Hon|reflexivity..]).
    assert (forall m, get m (set_lm false (go i (PLeave (Some n)) s)) = get m s) as G by (intros []; reflexivity).
    apply (pinv_update s i (PHold Load ok) (PLeave (Some n))); auto; cbn [set_lm go set_threads threads cur lm notifies]; try discriminate.
    + intros m E. eapply (p_keep _ H (PHold Load ok)); [eapply nth_error_In; exact Ht|exact E].
    + pose proof (num_pos has_lm _ _ _ Ht eq_refl) as Hp. rewrite (p_lm _ H) in Hp. destruct (lm s); cbn in *; lia.
    + intros E. rewrite G in E. destruct (p_none _ H E) as [Q1 Q2]. split; [exact Q1|]. intros m; rewrite G; apply Q2.
    + intros m E. injection E as <-. congruence.
  - destruct t as [| | | |[n|]]; try discriminate; injection Hs as <-.
    + destruct (phase_eqb_spec Load n) as [<-|Hn]; [|eapply pinv_relock; [exact H|exact Ht|exact Hn|reflexivity..]].
      destruct (p_leave _ H Load (nth_error_In _ _ Ht) eq_refl).
    + eapply pinv_unlock; [exact H|exact Ht|reflexivity..].
  - destruct t as [| | |[] ok|]; try discriminate; injection Hs as <-. destruct H as [I1 I2 I3 I4 I5 I6]. constructor; cbn [set_fail threads cur lm notifies]; auto.
  - destruct (nth_error (notifies s) k) as [n|] eqn:Ek; [|discriminate]. injection Hs as <-. destruct H as [I1 I2 I3 I4 I5 I6].
    constructor; cbn [set_notifies set_threads threads cur lm notifies].
    + intros m. rewrite num_wake by reflexivity. rewrite <- I1. destruct m; reflexivity.
    + intros t m Hin K. apply wake_in in Hin. destruct Hin as [y [Hy [_ [Hk _]]]]. rewrite Hk in K. eauto.
    + rewrite num_wake by reflexivity. exact I3.
    + intros E. assert (get (cur s) s = 0) as E' by (rewrite <- E; destruct (cur s); reflexivity). destruct (I4 E') as [Q1 Q2]. split; [exact Q1|]. intros []; [apply (Q2 Load)|apply (Q2 Match)|apply (Q2 Execute)].
    + intros t m Hin K Ec. apply wake_in in Hin. destruct Hin as [y [Hy [_ [_ Hk]]]]. destruct (Hk m K) as [-> Hm].
      destruct (ldel_in _ _ _ _ Ek (I5 _ _ Hy K Ec)); [contradiction|assumption].
    + intros m Hin. unfold wake_all in Hin. apply in_map_iff in Hin. destruct Hin as [y [E Hy]].
      destruct y; try discriminate; [destruct (phase_eqb _ _); discriminate|]. injection E as ->. apply I6; exact Hy.
  - injection Hs as <-. destruct H as [I1 I2 I3 I4 I5 I6]. constructor; cbn [set_threads threads cur lm notifies].
    + intros m. rewrite num_snoc. cbn. rewrite Nat.add_0_r, <- I1. destruct m; reflexivity.
    + intros t m Hin K. apply in_app_or in Hin. destruct Hin as [Hin|[<-|[]]]; [eauto|discriminate].
    + rewrite num_snoc. cbn. lia.
    + intros E. assert (get (cur s) s = 0) as E' by (rewrite <- E; destruct (cur s); reflexivity). destruct (I4 E') as [Q1 Q2]. split; [exact Q1|]. intros []; [apply (Q2 Load)|apply (Q2 Match)|apply (Q2 Execute)].
    + intros t m Hin K. apply in_app_or in Hin. destruct Hin as [Hin|[<-|[]]]; [eauto|discriminate].
    + intros m Hin. apply in_app_or in Hin. destruct Hin as [Hin|[E|[]]]; [auto|discriminate].
Qed.

Lemma run_pinv l : forall s s', PInv s -> run s l = Some s' -> PInv s'.
Proof.
  induction l as [|o l IH]; intros s s' H Hr; simpl in Hr; [injection Hr as <-; exact H|].
  destruct (step s o) as [s1|] eqn:E; [|discriminate]. eapply IH; [eapply step_pinv; eauto|exact Hr].
Qed.

(* fail_ is never reset. *)
Lemma lock_fail i n s : fail (lock i n s) = fail s.
Proof.
  unfold lock, arrive. destruct (_ && _); [|destruct (negb _)]; cbn [go set_threads fail set_cur]; apply set_count_proj.
Qed.
Lemma unlock_fail i o s : fail (unlock i o s) = fail s.
Proof.
  unfold unlock. set (s1 := go i POut _). assert (fail s1 = fail s) as E by (unfold s1; cbn [go set_threads fail]; apply set_count_proj).
  destruct (get o s1 =? 0); [|exact E].
  assert (forall (n : phase) (v : bool), fail (if v then set_notifies (n :: notifies (subphase o n (set_cur n s1))) (subphase o n (set_cur n s1)) else subphase o n (set_cur n s1)) = fail s) as P.
  { intros n v. destruct (sub_proj o n (set_cur n s1)) as [_ [_ [_ [P _]]]]. destruct v; cbn [set_notifies fail]; rewrite P; exact E. }
  destruct (negb (lc s1 =? 0)); [apply (P Load true)|]. destruct (negb (mc s1 =? 0)); [apply (P Match true)|].
  destruct (negb (ec s1 =? 0)); [apply (P Execute true)|apply (P Load false)].
Qed.
Lemma relock_fail i o n s : fail (relock i o n s) = fail s.
Proof.
  unfold relock. set (s1 := set_count o _ s). set (s2 := set_count n _ s1).
  assert (fail s2 = fail s) as E.
  { unfold s2. destruct (set_count_proj n (get n s1 + 1) s1) as [_ [_ [_ [-> _]]]]. apply set_count_proj. }
  destruct (get o s1 =? 0).
  - destruct (sub_proj o n (set_cur n s2)) as [_ [_ [_ [P _]]]]. unfold arrive. cbn [go set_threads fail].
    destruct (_ || _); cbn [set_notifies fail]; rewrite P; exact E.
  - destruct (phase_eqb _ _); exact E.
Qed.
Lemma step_fail s o s' : step s o = Some s' -> fail s = true -> fail s' = true.
Proof.
  intros Hs Hf. destruct o; cbn [step] in Hs; try (destruct (nth_error (threads s) i) as [t|] eqn:Ht; [|discriminate]).
  - destruct t; try discriminate. injection Hs as <-. rewrite lock_fail. exact Hf.
  - destruct t as [|n []| | |]; try discriminate. injection Hs as <-. destruct (phase_eqb _ _); exact Hf.
  - destruct t as [|n []| | |]; try discriminate. injection Hs as <-. exact Hf.
  - destruct t; try discriminate. destruct (lm s); [discriminate|]. injection Hs as <-. exact Hf.
  - destruct t as [| | |[] ok|]; try discriminate; injection Hs as <-; [exact Hf|rewrite unlock_fail; exact Hf..].
  - destruct t as [| | |o ok|]; try discriminate. destruct (phase_eqb o n); [discriminate|].
    destruct o; injection Hs as <-; [exact Hf|rewrite relock_fail; exact Hf..].
  - destruct t as [| | | |[n|]]; try discriminate; injection Hs as <-; [rewrite relock_fail|rewrite unlock_fail]; exact Hf.
  - destruct t as [| | |[] ok|]; try discriminate; injection Hs as <-. reflexivity.
  - destruct (nth_error (notifies s) k); [|discriminate]. injection Hs as <-. exact Hf.
  - injection Hs as <-. exact Hf.
Qed.
Lemma run_fail l : forall s s', run s l = Some s' -> fail s = true -> fail s' = true.
Proof.
  induction l as [|o l IH]; intros s s' Hr Hf; simpl in Hr; [injection Hr as <-; exact Hf|].
  destruct (step s o) as [s1|] eqn:E; [|discriminate]. eapply IH; [exact Hr|eapply step_fail; eauto].
Qed.

(* Who has just got the lock. *)
Lemma arrive_hold i n s j m ok : nth_error (threads (arrive i n s)) j = Some (PHold m ok) -> nth_error (threads s) j = Some (PHold m ok) \/ ok = negb (fail s).
Proof.
  unfold arrive. cbn [go set_threads threads]. intros H. apply lupd_nth in H. destruct H as [[_ H]|[_ H]]; [|auto].
  right. destruct n; [discriminate|injection H; auto..].
Qed.
Lemma go_hold i x s j m ok : nth_error (threads (go i x s)) j = Some (PHold m ok) -> x <> PHold m ok -> nth_error (threads s) j = Some (PHold m ok).
Proof. cbn [go set_threads threads]. intros H Hx. apply lupd_nth in H. destruct H as [[_ H]|[_ H]]; [congruence|exact H]. Qed.

Lemma unlock_hold i s j m ok : forall o, nth_error (threads (unlock i o s)) j = Some (PHold m ok) -> nth_error (threads s) j = Some (PHold m ok).
Proof.
  intros o. unfold unlock. set (s1 := go i POut _). intros H.
      assert (threads s1 = lupd (threads s) i POut) as T by (unfold s1; cbn [go set_threads threads]; destruct (set_count_proj o (get o s - 1) s) as [-> _]; reflexivity).
      assert (nth_error (threads s1) j = Some (PHold m ok)) as H1.
      { destruct (get o s1 =? 0); [|exact H].
        assert (forall (n : phase) (v : bool), threads (if v then set_notifies (n :: notifies (subphase o n (set_cur n s1))) (subphase o n (set_cur n s1)) else subphase o n (set_cur n s1)) = threads s1) as P.
        { intros n v. destruct (sub_proj o n (set_cur n s1)) as [P _]. destruct v; cbn [set_notifies threads]; rewrite P; reflexivity. }
        destruct (negb (lc s1 =? 0)); [rewrite (P Load true) in H; exact H|]. destruct (negb (mc s1 =? 0)); [rewrite (P Match true) in H; exact H|].
        destruct (negb (ec s1 =? 0)); [rewrite (P Execute true) in H; exact H|rewrite (P Load false) in H; exact H]. }
      rewrite T in H1. apply lupd_nth in H1. destruct H1 as [[_ H1]|[_ H1]]; [discriminate|exact H1].
Qed.
Lemma relock_hold i s n j m ok : forall o, nth_error (threads (relock i o n s)) j = Some (PHold m ok) -> nth_error (threads s) j = Some (PHold m ok) \/ ok = negb (fail s).
Proof.
  intros o. unfold relock. set (s1 := set_count o _ s). set (s2 := set_count n _ s1).
      assert (threads s2 = threads s /\ fail s2 = fail s) as [E1 E4].
      { unfold s2. destruct (set_count_proj n (get n s1 + 1) s1) as [-> [_ [_ [-> _]]]]. split; apply set_count_proj. }
      intros H. destruct (get o s1 =? 0).
      - apply arrive_hold in H. destruct (sub_proj o n (set_cur n s2)) as [P1 [_ [_ [P4 _]]]]. cbn [set_cur threads fail] in *.
        destruct (_ || _); cbn [set_notifies threads fail] in H; rewrite P1, P4, E1, E4 in H; exact H.
      - destruct (phase_eqb _ _).
        + apply arrive_hold in H. rewrite E1, E4 in H. exact H.
        + apply go_hold in H; [|discriminate]. rewrite E1 in H. auto.
Qed.

Lemma hold_step s o s' j m ok : step s o = Some s' -> nth_error (threads s') j = Some (PHold m ok) ->
  nth_error (threads s) j = Some (PHold m ok) \/ ok = negb (fail s).
Proof.
  intros Hs Hj. destruct o; cbn [step] in Hs; try (destruct (nth_error (threads s) i) as [t|] eqn:Ht; [|discriminate]).
  - destruct t; try discriminate. injection Hs as <-. unfold lock in Hj. destruct (set_count_proj n (get n s + 1) s) as [E1 [_ [_ [E4 _]]]].
    destruct (_ && _); [|destruct (negb _)].
    + apply arrive_hold in Hj. cbn [set_cur threads fail] in Hj. rewrite E1, E4 in Hj. exact Hj.
    + apply go_hold in Hj; [|discriminate]. rewrite E1 in Hj. auto.
    + apply arrive_hold in Hj. rewrite E1, E4 in Hj. exact Hj.
  - destruct t as [|n []| | |]; try discriminate. injection Hs as <-. destruct (phase_eqb _ _); [apply arrive_hold in Hj; exact Hj|].
    apply go_hold in Hj; [auto|discriminate].
  - destruct t as [|n []| | |]; try discriminate. injection Hs as <-. apply go_hold in Hj; [auto|discriminate].
  - destruct t; try discriminate. destruct (lm s); [discriminate|]. injection Hs as <-. cbn [set_lm go set_threads threads] in Hj.
    apply lupd_nth in Hj. destruct Hj as [[_ E]|[_ E]]; [injection E; auto|auto].
  - pose proof (unlock_hold i s j m ok) as HU.
    destruct t as [| | |[] ok'|]; try discriminate; injection Hs as <-; try (left; eapply HU; eassumption).
    cbn [set_lm threads] in Hj. apply go_hold in Hj; [auto|discriminate].
  - pose proof (relock_hold i s n j m ok) as HR.
    destruct t as [| | |o ok'|]; try discriminate. destruct (phase_eqb o n); [discriminate|].
    destruct o; injection Hs as <-; try (eapply HR; eassumption).
    cbn [set_lm threads] in Hj. apply go_hold in Hj; [auto|discriminate].
  - destruct t as [| | | |[n|]]; try discriminate; injection Hs as <-.
    + eapply relock_hold; exact Hj.
    + left. eapply unlock_hold; exact Hj.
  - destruct t as [| | |[] ok'|]; try discriminate; injection Hs as <-. auto.
  - destruct (nth_error (notifies s) k) as [n|]; [|discriminate]. injection Hs as <-. cbn [set_notifies set_threads threads] in Hj.
    unfold wake_all in Hj. rewrite nth_error_map in Hj. destruct (nth_error (threads s) j) as [y|]; [|discriminate].
    cbn [option_map] in Hj. injection Hj as E. destruct y; try discriminate; [destruct (phase_eqb _ _); discriminate|]. left. congruence.
  - injection Hs as <-. cbn [set_threads threads] in Hj. left.
    destruct (Nat.lt_ge_cases j (length (threads s))).
    + rewrite nth_error_app1 in Hj by assumption. exact Hj.
    + rewrite nth_error_app2 in Hj by assumption. destruct (j - length (threads s)) as [|q]; cbn in Hj; [discriminate|destruct q; discriminate].
Qed.

(* Scheduler sub-phases. *)
Definition balanced (s : pmutex) : Prop := pushes s = pops s + b2n (phase_eqb (cur s) Execute).
Definition DInv (s : pmutex) : Prop := balanced s /\ forall x, In (PLeave x) (threads s) -> x = Some Match.

Lemma set_count_sub n x s : pushes (set_count n x s) = pushes s /\ pops (set_count n x s) = pops s.
Proof. destruct n; auto. Qed.

Lemma sub_balanced o n s : balanced s -> cur s = o -> ~ (o = Load /\ n = Execute) -> ~ (o = Execute /\ n = Load) -> balanced (subphase o n (set_cur n s)).
Proof.
  unfold balanced. intros H <- H1 H2. destruct (cur s), n; cbn in *; try lia; exfalso; auto.
Qed.

Lemma bal_unlock i s : balanced s -> cur s = Match -> balanced (unlock i Match s).
Proof.
  intros H Ec. unfold unlock. set (s1 := go i POut _).
  assert (balanced s1 /\ cur s1 = Match) as [H1 C1] by (unfold s1, balanced; cbn; auto).
  clearbody s1. destruct (get Match s1 =? 0) eqn:E; [|exact H1].
  assert (forall (n : phase) (v : bool), balanced (if v then set_notifies (n :: notifies (subphase Match n (set_cur n s1))) (subphase Match n (set_cur n s1)) else subphase Match n (set_cur n s1))) as P.
  { intros n v. assert (balanced (subphase Match n (set_cur n s1))) as Q by (apply sub_balanced; auto; intros [? ?]; discriminate). destruct v; exact Q. }
  destruct (negb (lc s1 =? 0)); [apply (P Load true)|]. destruct (negb (mc s1 =? 0)); [apply (P Match true)|].
  destruct (negb (ec s1 =? 0)); [apply (P Execute true)|apply (P Load false)].
Qed.

Lemma bal_relock i o n s : balanced s -> cur s = o -> o = Match \/ n = Match -> balanced (relock i o n s).
Proof.
  intros H Ec Hon. unfold relock. set (s1 := set_count o _ s). set (s2 := set_count n _ s1).
  assert (balanced s2 /\ cur s2 = o) as [H2 C2].
  { unfold balanced, s2, s1. destruct o, n; cbn; auto. }
  clearbody s2. destruct (get o s1 =? 0).
  - assert (balanced (subphase o n (set_cur n s2))) as Q by (apply sub_balanced; auto; destruct Hon; intros [? ?]; congruence).
    unfold arrive, balanced. cbn [go set_threads pushes pops cur]. destruct (_ || _); exact Q.
  - destruct (phase_eqb _ _); exact H2.
Qed.

Lemma unlock_threads i o s : threads (unlock i o s) = lupd (threads s) i POut.
Proof.
  unfold unlock. set (s1 := go i POut _).
  assert (threads s1 = lupd (threads s) i POut) as T by (unfold s1; cbn [go set_threads threads]; destruct (set_count_proj o (get o s - 1) s) as [-> _]; reflexivity).
  destruct (get o s1 =? 0); [|exact T].
  assert (forall (n : phase) (v : bool), threads (if v then set_notifies (n :: notifies (subphase o n (set_cur n s1))) (subphase o n (set_cur n s1)) else subphase o n (set_cur n s1)) = threads s1) as P.
  { intros n v. destruct (sub_proj o n (set_cur n s1)) as [P _]. destruct v; cbn [set_notifies threads]; rewrite P; reflexivity. }
  rewrite <- T. destruct (negb (lc s1 =? 0)); [apply (P Load true)|]. destruct (negb (mc s1 =? 0)); [apply (P Match true)|].
  destruct (negb (ec s1 =? 0)); [apply (P Execute true)|apply (P Load false)].
Qed.
Lemma relock_threads i o n s : exists x, threads (relock i o n s) = lupd (threads s) i x /\ forall y, x <> PLeave y.
Proof.
  unfold relock. set (s1 := set_count o _ s). set (s2 := set_count n _ s1).
  assert (threads s2 = threads s) as E1.
  { unfold s2. destruct (set_count_proj n (get n s1 + 1) s1) as [-> _]. apply set_count_proj. }
  destruct (get o s1 =? 0).
  - destruct (sub_proj o n (set_cur n s2)) as [P1 _]. unfold arrive. cbn [go set_threads threads]. eexists. split.
    + destruct (_ || _); cbn [set_notifies threads]; rewrite P1; cbn [set_cur threads]; rewrite E1; reflexivity.
    + destruct n; discriminate.
  - destruct (phase_eqb _ _); unfold arrive; cbn [go set_threads threads]; rewrite E1; eexists; (split; [reflexivity|]); [destruct n|]; discriminate.
Qed.
Lemma leave_lupd l i x : (forall y, In (PLeave y) l -> y = Some Match) -> (forall y, x = PLeave y -> y = Some Match) ->
  forall y, In (PLeave y) (lupd l i x) -> y = Some Match.
Proof. intros H Hx y Hy. apply lupd_in in Hy. destruct Hy as [Hy|Hy]; auto. Qed.

Lemma step_dinv s o s' : PInv s -> DInv s -> disciplined_op s o -> step s o = Some s' -> DInv s'.
Proof.
  intros HP [HB HL] Hd Hs. pose proof (fun t n => p_keep _ HP t n) as HK.
  destruct o; cbn [step disciplined_op] in *; try (destruct (nth_error (threads s) i) as [t|] eqn:Ht; [|discriminate]).
  - destruct t; try discriminate. injection Hs as <-. subst n. unfold lock.
    destruct ((lc s =? 0) && (mc s =? 0) && (ec s =? 0)) eqn:E.
    + repeat rewrite andb_true_iff in E. destruct E as [[El Em] Ee]. apply Nat.eqb_eq in El, Em, Ee.
      assert (get (cur s) s = 0) as Z by (destruct (cur s); assumption). destruct (p_none _ HP Z) as [Ec _].
      split; [unfold balanced in *; rewrite Ec in HB; exact HB|]. apply leave_lupd; [exact HL|discriminate].
    + destruct (negb _); (split; [exact HB|]); apply leave_lupd; try exact HL; discriminate.
  - destruct t as [|n []| | |]; try discriminate. injection Hs as <-. destruct (phase_eqb _ _); (split; [exact HB|]); apply leave_lupd; try exact HL; try discriminate.
    destruct n; discriminate.
  - destruct t as [|n []| | |]; try discriminate. injection Hs as <-. split; [exact HB|]. apply leave_lupd; [exact HL|discriminate].
  - destruct t; try discriminate. destruct (lm s); [discriminate|]. injection Hs as <-. split; [exact HB|]. apply leave_lupd; [exact HL|discriminate].
  - destruct Hd as [ok Hd]. injection Hd as ->. injection Hs as <-.
    pose proof (HK _ Match (nth_error_In _ _ Ht) eq_refl) as Ec. split; [apply bal_unlock; assumption|].
    rewrite unlock_threads. apply leave_lupd; [exact HL|discriminate].
  - destruct t as [| | |o ok|]; try discriminate. destruct (phase_eqb o n) eqn:Eon; [discriminate|].
    pose proof (HK _ o (nth_error_In _ _ Ht) (phase_eqb_refl o)) as Ec.
    assert (o = Match \/ n = Match) as Hon by (destruct o; auto).
    destruct o; injection Hs as <-.
    + split; [exact HB|]. apply leave_lupd; [exact HL|]. intros y E. injection E as <-. congruence.
    + split; [apply bal_relock; assumption|]. destruct (relock_threads i Match n s) as [x [-> Hx]]. apply leave_lupd; [exact HL|]. intros y E. destruct (Hx y E).
    + split; [apply bal_relock; assumption|]. destruct (relock_threads i Execute n s) as [x [-> Hx]]. apply leave_lupd; [exact HL|]. intros y E. destruct (Hx y E).
  - destruct t as [| | | |next]; try discriminate. pose proof (HL _ (nth_error_In _ _ Ht)) as ->. injection Hs as <-.
    pose proof (HK _ Load (nth_error_In _ _ Ht) eq_refl) as Ec.
    split; [apply bal_relock; auto|]. destruct (relock_threads i Load Match s) as [x [-> Hx]]. apply leave_lupd; [exact HL|]. intros y E. destruct (Hx y E).
  - destruct t as [| | |[] ok|]; try discriminate; injection Hs as <-. split; [exact HB|exact HL].
  - destruct (nth_error (notifies s) k) as [n|]; [|discriminate]. injection Hs as <-. split; [exact HB|]. cbn [set_notifies set_threads threads].
    intros y Hy. unfold wake_all in Hy. apply in_map_iff in Hy. destruct Hy as [z [E Hz]]. apply HL.
    destruct z; try discriminate; [destruct (phase_eqb _ _); discriminate|]. rewrite <- E. exact Hz.
  - injection Hs as <-. split; [exact HB|]. cbn [set_threads threads]. intros y Hy. apply in_app_or in Hy. destruct Hy as [Hy|[E|[]]]; [auto|discriminate].
Qed.

Lemma run_dinv l : forall s s', PInv s -> DInv s -> disciplined s l -> run s l = Some s' -> DInv s'.
Proof.
  induction l as [|o l IH]; intros s s' HP HD Hd Hr; simpl in Hr; [injection Hr as <-; exact HD|].
  destruct Hd as [Hd1 Hd2]. destruct (step s o) as [s1|] eqn:E; [|discriminate]. eapply IH; [eapply step_pinv; eauto|eapply step_dinv; eauto|exact Hd2|exact Hr].
Qed.
