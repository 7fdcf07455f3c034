From Verif Require Import Base WaitModel WaitSpec.

Lemma lset_nth {X} (l : list X) : forall i x j, nth_error (lset l i x) j = if (j =? i) && (j <? length l) then Some x else nth_error l j.
Proof.
  induction l as [|y l IH]; intros [|i] x [|j]; simpl; try reflexivity.
  - destruct (j =? i); reflexivity.
  - rewrite IH. reflexivity.
Qed.

Lemma ldel_in {X} (l : list X) : forall i x y, nth_error l i = Some x -> In y l -> y = x \/ In y (ldel l i).
Proof.
  induction l as [|z l IH]; intros [|i] x y H Hy; simpl in *; try discriminate.
  - injection H as ->. destruct Hy as [->|Hy]; auto.
  - destruct Hy as [->|Hy]; [auto|]. destruct (IH _ _ _ H Hy); auto.
Qed.
Lemma ldel_sub {X} (l : list X) : forall i y, In y (ldel l i) -> In y l.
Proof.
  induction l as [|z l IH]; intros [|i] y H; simpl in *; auto. destruct H as [->|H]; [auto|right; eapply IH; eauto].
Qed.

Lemma lset_in {X} (l : list X) i x y : In y (lset l i x) -> y = x \/ In y l.
Proof.
  intros H. apply In_nth_error in H. destruct H as [j H]. rewrite lset_nth in H.
  destruct (_ && _); [left; congruence|right; eapply nth_error_In; eauto].
Qed.

Section S.
Variable hash : nat -> nat.
Variable size : nat.
Notation slot := (slot hash size).
Notation wstep := (wstep hash size).
Notation wrun := (wrun hash size).

Definition in_slot (j : nat) (w : waiter) : bool :=
  match w_state w with WAsleep | WNotified => slot (w_count w) =? j | _ => false end.
Definition b2n (b : bool) := if b then 1 else 0.
Definition num (j : nat) (l : list waiter) := length (filter (in_slot j) l).

Lemma num_cons j w l : num j (w :: l) = b2n (in_slot j w) + num j l.
Proof. unfold num; simpl. destruct (in_slot j w); reflexivity. Qed.
Lemma num_app j l l' : num j (l ++ l') = num j l + num j l'.
Proof. unfold num. rewrite filter_app, app_length. reflexivity. Qed.
Lemma num_lset j l : forall i w x, nth_error l i = Some w -> num j (lset l i x) + b2n (in_slot j w) = num j l + b2n (in_slot j x).
Proof.
  induction l as [|y l IH]; intros [|i] w x H; simpl in H; try discriminate; simpl; rewrite !num_cons.
  - injection H as ->. lia.
  - specialize (IH _ _ x H). lia.
Qed.
Lemma num_notify j j' l : num j (notify_slot hash size j' l) = num j l.
Proof.
  induction l as [|w l IH]; [reflexivity|]. simpl. rewrite !num_cons, IH. f_equal.
  destruct w as [a st []]; simpl; try reflexivity. destruct (slot a =? j'); reflexivity.
Qed.
Lemma num_pos j l w : In w l -> in_slot j w = true -> num j l <> 0.
Proof.
  intros Hi Hw. unfold num. intros E. apply length_zero_iff_nil in E.
  assert (In w (filter (in_slot j) l)) as H by (apply filter_In; auto). rewrite E in H. destruct H.
Qed.

(* L: all operations of the history. *)
Record WInv (L : list wop) (s : wsys) : Prop := {
  wi_slots : forall j, slot_waiters s j = num j (waiters s);
  wi_sleep : forall w, In w (waiters s) -> asleep w ->
    w_start w < count_of s (w_count w) \/ In (w_count w) (resumes s) \/ slot_shutdown s (slot (w_count w)) = true;
  wi_tasks : forall a st, In (a, st) (unfinished s) -> In (Async a st) L;
  wi_waits : forall w, In w (waiters s) -> In (Wait (w_count w) (w_start w)) L
}.

Lemma fupd_eq {X} (f : nat -> X) a x b : fupd f a x b = if b =? a then x else f b.
Proof. reflexivity. Qed.

Lemma winv_start L c : WInv L (wstart c).
Proof. constructor; simpl; intros; try contradiction; reflexivity. Qed.

(* A thread that has its slot locked and is counted checks its task count. *)
Lemma winv_check L i w s0 s : WInv L s0 -> nth_error (waiters s0) i = Some w ->
  count_of s = count_of s0 -> unfinished s = unfinished s0 -> resumes s = resumes s0 -> waiters s = waiters s0 ->
  slot_shutdown s = slot_shutdown s0 ->
  (forall j, slot_waiters s j = slot_waiters s0 j + b2n (slot (w_count w) =? j) - b2n (in_slot j w)) ->
  WInv L (check hash size i w s).
Proof.
  intros H Ht E1 E2 E3 E4 E5 E6. destruct H as [I1 I2 I3 I4].
  pose proof (nth_error_In _ _ Ht) as Hin.
  assert (forall j x, num j (lset (waiters s0) i x) + b2n (in_slot j w) = num j (waiters s0) + b2n (in_slot j x)) as Hn by (intros; apply num_lset; exact Ht).
  assert (forall x, (forall j, in_slot j (mkwaiter (w_count w) (w_start w) x) = false) -> x <> WAsleep ->
          WInv L (mkwsys (count_of s) (unfinished s) (resumes s) (lset (waiters s) i (mkwaiter (w_count w) (w_start w) x))
                        (fupd (slot_waiters s) (slot (w_count w)) (slot_waiters s (slot (w_count w)) - 1)) (slot_shutdown s))) as Hleave.
  { intros x Hx Hxa. constructor; cbn [slot_waiters waiters count_of resumes slot_shutdown unfinished].
    - intros j. rewrite fupd_eq. specialize (Hn j (mkwaiter (w_count w) (w_start w) x)). rewrite Hx in Hn. rewrite E4.
      destruct (Nat.eqb_spec j (slot (w_count w))) as [->|Hj]; rewrite E6, I1.
      + rewrite Nat.eqb_refl. cbn [b2n]in *. lia.
      + apply Nat.eqb_neq in Hj. rewrite Nat.eqb_sym in Hj. rewrite Hj. cbn [b2n] in *. lia.
    - rewrite E4, E1, E3, E5. intros v Hv Ha. apply lset_in in Hv. destruct Hv as [->|Hv]; [unfold asleep in Ha; simpl in Ha; contradiction|auto].
    - rewrite E2. exact I3.
    - rewrite E4. intros v Hv. apply lset_in in Hv. destruct Hv as [->|Hv]; [apply (I4 _ Hin)|auto]. }
  unfold check. destruct (slot_shutdown s (slot (w_count w))) eqn:Es; [apply Hleave; [reflexivity|discriminate]|].
  destruct (Nat.leb_spec (count_of s (w_count w)) (w_start w)) as [Hc|Hc]; [apply Hleave; [reflexivity|discriminate]|].
  constructor; cbn [slot_waiters waiters count_of resumes slot_shutdown unfinished].
  - intros j. specialize (Hn j (mkwaiter (w_count w) (w_start w) WAsleep)). rewrite E4, E6, I1.
    unfold in_slot in Hn at 2. cbn [w_state w_count] in Hn. lia.
  - rewrite E4, E1, E3, E5. intros v Hv Ha. apply lset_in in Hv. destruct Hv as [->|Hv]; [left; simpl; rewrite <- E1; exact Hc|auto].
  - rewrite E2. exact I3.
  - rewrite E4. intros v Hv. apply lset_in in Hv. destruct Hv as [->|Hv]; [apply (I4 _ Hin)|auto].
Qed.

Lemma notify_in j l w : In w (notify_slot hash size j l) -> exists v, In v l /\ w_count v = w_count w /\ w_start v = w_start w /\
  (asleep w -> v = w /\ slot (w_count w) <> j).
Proof.
  unfold notify_slot. rewrite in_map_iff. intros [v [E Hv]]. exists v. split; [exact Hv|].
  unfold asleep. destruct v as [a st x]. cbn [w_state w_count w_start] in E.
  destruct x; subst w; cbn [w_state w_count w_start]; try (split; [reflexivity|split; [reflexivity|intros; discriminate]]).
  destruct (Nat.eqb_spec (slot a) j); cbn; (split; [reflexivity|split; [reflexivity|intros; try discriminate]]). auto.
Qed.

Lemma winv_step L s o s' : start_counts_agree L -> In o L -> WInv L s -> wstep s o = Some s' -> WInv L s'.
Proof.
  intros HL Ho H Hs. destruct o; cbn [WaitModel.wstep] in Hs.
  - injection Hs as <-. destruct H as [I1 I2 I3 I4]. constructor; cbn [slot_waiters waiters count_of resumes slot_shutdown unfinished]; auto.
    + intros w Hw Ha. rewrite fupd_eq. destruct (I2 w Hw Ha) as [Hl|Hl]; [|auto]. left. destruct (Nat.eqb_spec (w_count w) a) as [E|]; [rewrite <- E|]; lia.
    + intros b st [E|Hin]; [injection E as <- <-; exact Ho|auto].
  - destruct (nth_error (unfinished s) k) as [[a st]|] eqn:Ek; [|discriminate]. injection Hs as <-. destruct H as [I1 I2 I3 I4].
    apply nth_error_In in Ek.
    constructor; cbn [slot_waiters waiters count_of resumes slot_shutdown unfinished]; auto.
    + intros w Hw Ha. rewrite fupd_eq. destruct (Nat.eqb_spec (w_count w) a) as [E|E].
      * assert (w_start w <= st) as Hle by (apply (HL a); [apply I3; exact Ek|rewrite <- E; apply I4; exact Hw]).
        destruct (Nat.leb_spec (count_of s a - 1) st) as [Hc|Hc]; [right; left; left; symmetry; exact E|]. left. lia.
      * destruct (I2 w Hw Ha) as [Hl|[Hl|Hl]]; auto. right; left. destruct (_ <=? _); [right|]; exact Hl.
    + intros b st' Hin. apply I3. eapply ldel_sub; eauto.
  - injection Hs as <-. destruct H as [I1 I2 I3 I4]. constructor; cbn [slot_waiters waiters count_of resumes slot_shutdown unfinished]; auto.
    intros w Hw Ha. rewrite fupd_eq. destruct (Nat.eqb_spec (w_count w) a) as [E|E].
    + right; left; left. symmetry; exact E.
    + destruct (I2 w Hw Ha) as [Hl|[Hl|Hl]]; auto. right; left; right; exact Hl.
  - destruct (nth_error (resumes s) k) as [a|] eqn:Ek; [|discriminate]. injection Hs as <-. destruct H as [I1 I2 I3 I4].
    constructor; cbn [slot_waiters waiters count_of resumes slot_shutdown unfinished]; auto.
    + intros j. destruct (_ =? 0); [apply I1|]. rewrite num_notify. apply I1.
    + intros w Hw Ha.
      assert (In w (waiters s) /\ w_count w <> a) as [Hw0 Hne].
      { destruct (Nat.eqb_spec (slot_waiters s (slot a)) 0) as [Ez|Ez].
        - split; [exact Hw|]. intros E. rewrite I1 in Ez. eapply num_pos; [exact Hw| |exact Ez]. unfold in_slot. rewrite Ha, E. apply Nat.eqb_refl.
        - apply notify_in in Hw. destruct Hw as [v [Hv [E1 [E2 E3]]]]. destruct (E3 Ha) as [-> Hs]. split; [exact Hv|]. intros E. apply Hs. rewrite E. reflexivity. }
      destruct (I2 w Hw0 Ha) as [Hl|[Hl|Hl]]; auto. destruct (ldel_in _ _ _ _ Ek Hl); [contradiction|auto].
    + destruct (_ =? 0); [exact I4|]. intros w Hw. apply notify_in in Hw. destruct Hw as [v [Hv [E1 [E2 _]]]]. rewrite <- E1, <- E2. apply I4; exact Hv.
  - injection Hs as <-. destruct H as [I1 I2 I3 I4]. constructor; cbn [slot_waiters waiters count_of resumes slot_shutdown unfinished]; auto.
    + intros j. rewrite num_app, I1. destruct (_ <=? _); cbn; lia.
    + intros w Hw Ha. apply in_app_or in Hw. destruct Hw as [Hw|[<-|[]]]; [auto|]. unfold asleep in Ha. destruct (_ <=? _); discriminate.
    + intros w Hw. apply in_app_or in Hw. destruct Hw as [Hw|[<-|[]]]; [auto|]. exact Ho.
  - destruct (nth_error (waiters s) i) as [w|] eqn:Ei; [|discriminate]. destruct (w_state w) eqn:Ew; try discriminate; injection Hs as <-.
    + eapply winv_check; [exact H|exact Ei|reflexivity..|]. intros j. cbn [slot_waiters]. rewrite fupd_eq. unfold in_slot. rewrite Ew. rewrite (Nat.eqb_sym (slot (w_count w)) j).
      destruct (Nat.eqb_spec j (slot (w_count w))) as [->|]; cbn [b2n]; lia.
    + eapply winv_check; [exact H|exact Ei|reflexivity..|]. intros j. unfold in_slot. rewrite Ew. lia.
  - destruct (nth_error (waiters s) i) as [w|] eqn:Ei; [|discriminate]. destruct (w_state w) eqn:Ew; try discriminate; injection Hs as <-.
    destruct H as [I1 I2 I3 I4]. constructor; cbn [slot_waiters waiters count_of resumes slot_shutdown unfinished]; auto.
    + intros j. rewrite I1. pose proof (num_lset j _ _ _ (mkwaiter (w_count w) (w_start w) WNotified) Ei) as Hn.
      unfold in_slot in Hn. rewrite Ew in Hn. cbn [w_state w_count] in Hn. lia.
    + intros v Hv Ha. apply lset_in in Hv. destruct Hv as [->|Hv]; [discriminate|auto].
    + intros v Hv. apply lset_in in Hv. destruct Hv as [->|Hv]; [apply (I4 _ (nth_error_In _ _ Ei))|auto].
  - injection Hs as <-. destruct H as [I1 I2 I3 I4]. constructor; cbn [slot_waiters waiters count_of resumes slot_shutdown unfinished]; auto.
    intros w Hw Ha. rewrite fupd_eq. destruct (I2 w Hw Ha) as [Hl|[Hl|Hl]]; auto. right; right. destruct (_ =? _); auto.
  - destruct (slot_shutdown s j) eqn:Ej; [|discriminate]. injection Hs as <-. destruct H as [I1 I2 I3 I4].
    constructor; cbn [slot_waiters waiters count_of resumes slot_shutdown unfinished]; auto.
    + intros j'. rewrite num_notify. apply I1.
    + intros w Hw Ha. apply notify_in in Hw. destruct Hw as [v [Hv [E1 [E2 E3]]]]. destruct (E3 Ha) as [-> _]. auto.
    + intros w Hw. apply notify_in in Hw. destruct Hw as [v [Hv [E1 [E2 _]]]]. rewrite <- E1, <- E2. apply I4; exact Hv.
Qed.

Lemma winv_run L l : forall s s', start_counts_agree L -> incl l L -> WInv L s -> wrun s l = Some s' -> WInv L s'.
Proof.
  induction l as [|o l IH]; intros s s' HL Hi H Hr; cbn [WaitModel.wrun] in Hr; [injection Hr as <-; exact H|].
  destruct (wstep s o) as [s1|] eqn:E; [|discriminate]. eapply IH; [exact HL| | |exact Hr].
  - intros x Hx. apply Hi. right; exact Hx.
  - eapply winv_step; eauto. apply Hi. left; reflexivity.
Qed.

(* Without stores the value of a count is the initial value plus the number of
   unfinished tasks. *)
Lemma tasks_ldel l : forall k a st, nth_error l k = Some (a, st) -> forall b,
  length (filter (fun t : nat * nat => fst t =? b) l) = length (filter (fun t => fst t =? b) (ldel l k)) + (if b =? a then 1 else 0).
Proof.
  induction l as [|[c sc] l IH]; intros [|k] a st H b; simpl in H; try discriminate; cbn [ldel filter fst].
  - injection H as -> ->. rewrite (Nat.eqb_sym a b). destruct (b =? a); simpl; lia.
  - specialize (IH _ _ _ H b). destruct (c =? b); simpl; lia.
Qed.

Lemma count_step c s o s' : (forall a v, o <> Store a v) -> (forall a, count_of s a = c a + tasks_of a s) -> wstep s o = Some s' ->
  forall a, count_of s' a = c a + tasks_of a s'.
Proof.
  unfold tasks_of. intros Hn H Hs b. destruct o; cbn [WaitModel.wstep] in Hs.
  - injection Hs as <-. cbn [count_of unfinished filter fst]. rewrite fupd_eq, (Nat.eqb_sym a b). pose proof (H a). pose proof (H b). destruct (Nat.eqb_spec b a) as [E|E]; simpl; [rewrite E in *|]; lia.
  - destruct (nth_error (unfinished s) k) as [[a st]|] eqn:Ek; [|discriminate]. injection Hs as <-. cbn [count_of unfinished].
    pose proof (tasks_ldel _ _ _ _ Ek b) as Hd. rewrite fupd_eq. pose proof (H a). pose proof (H b). destruct (Nat.eqb_spec b a) as [E|E]; [rewrite E in *|]; lia.
  - destruct (Hn a v eq_refl).
  - destruct (nth_error (resumes s) k); [|discriminate]. injection Hs as <-. apply H.
  - injection Hs as <-. apply H.
  - destruct (nth_error (waiters s) i) as [w|]; [|discriminate]. destruct (w_state w); try discriminate; injection Hs as <-;
      unfold check; cbn [slot_shutdown]; destruct (slot_shutdown s _); try apply H; cbn [count_of]; destruct (_ <=? _); apply H.
  - destruct (nth_error (waiters s) i) as [w|]; [|discriminate]. destruct (w_state w); try discriminate; injection Hs as <-; apply H.
  - injection Hs as <-. apply H.
  - destruct (slot_shutdown s j); [|discriminate]. injection Hs as <-. apply H.
Qed.

Lemma count_run c l : forall s s', no_store l -> (forall a, count_of s a = c a + tasks_of a s) -> wrun s l = Some s' ->
  forall a, count_of s' a = c a + tasks_of a s'.
Proof.
  induction l as [|o l IH]; intros s s' Hn H Hr; cbn [WaitModel.wrun] in Hr; [injection Hr as <-; exact H|].
  destruct (wstep s o) as [s1|] eqn:E; [|discriminate]. eapply IH; [| |exact Hr].
  - intros a v Hi. apply (Hn a v). right; exact Hi.
  - eapply count_step; [|exact H|exact E]. intros a v ->. apply (Hn a v). left; reflexivity.
Qed.

(* Who has just returned. *)
Lemma done_step s o s' i w tc : wstep s o = Some s' -> nth_error (waiters s') i = Some w -> w_state w = WDone tc ->
  nth_error (waiters s) i = Some w \/ (tc = count_of s' (w_count w) /\ tc <= w_start w).
Proof.
  intros Hs Hi Hw. destruct o; cbn [WaitModel.wstep] in Hs.
  - injection Hs as <-. auto.
  - destruct (nth_error (unfinished s) k) as [[a st]|]; [|discriminate]. injection Hs as <-. auto.
  - injection Hs as <-. auto.
  - destruct (nth_error (resumes s) k) as [a|]; [|discriminate]. injection Hs as <-. cbn [waiters] in Hi. destruct (_ =? 0); [auto|].
    left. unfold notify_slot in Hi. rewrite nth_error_map in Hi. destruct (nth_error (waiters s) i) as [[b st x]|]; [|discriminate].
    cbn [option_map w_state w_count w_start] in Hi. injection Hi as <-. destruct x; try reflexivity; cbn in Hw; try discriminate. destruct (_ =? _); discriminate.
  - injection Hs as <-. cbn [waiters count_of] in *.
    destruct (Nat.lt_ge_cases i (length (waiters s))).
    + rewrite nth_error_app1 in Hi by assumption. auto.
    + rewrite nth_error_app2 in Hi by assumption. destruct (i - length (waiters s)) as [|n]; cbn in Hi; [|destruct n; discriminate].
      injection Hi as <-. cbn [w_state w_count w_start] in *. destruct (Nat.leb_spec (count_of s a) start); [|discriminate]. injection Hw as <-. auto.
  - destruct (nth_error (waiters s) i0) as [v|] eqn:Ev; [|discriminate].
    assert (exists x, waiters s' = lset (waiters s) i0 (mkwaiter (w_count v) (w_start v) x) /\ count_of s' = count_of s /\
             (forall n, x = WDone n -> n = count_of s (w_count v) /\ n <= w_start v)) as [x [E1 [E2 E3]]].
    { destruct (w_state v); try discriminate; injection Hs as <-; unfold check; cbn [slot_shutdown];
      (destruct (slot_shutdown s _); [eexists; split; [reflexivity|split; [reflexivity|intros; discriminate]]|]); cbn [count_of];
      (destruct (Nat.leb_spec (count_of s (w_count v)) (w_start v)); eexists; split; [reflexivity|split; [reflexivity|intros n En; try discriminate; injection En as <-; auto]
        |reflexivity|split; [reflexivity|intros n En; try discriminate]]). }
    rewrite E1, lset_nth in Hi. destruct (Nat.eqb_spec i i0) as [->|]; cbn [andb] in Hi; [|auto].
    destruct (_ <? _); [|auto]. injection Hi as <-. right. cbn [w_count w_start w_state] in *. rewrite E2. auto.
  - destruct (nth_error (waiters s) i0) as [v|] eqn:Ev; [|discriminate]. destruct (w_state v); try discriminate; injection Hs as <-.
    cbn [waiters] in Hi. rewrite lset_nth in Hi. destruct (_ && _); [|auto]. injection Hi as <-. discriminate.
  - injection Hs as <-. auto.
  - destruct (slot_shutdown s j); [|discriminate]. injection Hs as <-. cbn [waiters] in Hi.
    left. unfold notify_slot in Hi. rewrite nth_error_map in Hi. destruct (nth_error (waiters s) i) as [[b st x]|]; [|discriminate].
    cbn [option_map w_state w_count w_start] in Hi. injection Hi as <-. destruct x; try reflexivity; cbn in Hw; try discriminate. destruct (_ =? _); discriminate.
Qed.

Lemma shutdown_run l : forall s s', no_shutdown l -> (forall j, slot_shutdown s j = false) -> wrun s l = Some s' -> forall j, slot_shutdown s' j = false.
Proof.
  induction l as [|o l IH]; intros s s' Hn H Hr; cbn [WaitModel.wrun] in Hr; [injection Hr as <-; exact H|].
  destruct (wstep s o) as [s1|] eqn:E; [|discriminate]. eapply IH; [| |exact Hr].
  - intros j Hi. apply (Hn j). right; exact Hi.
  - intros j. destruct o; cbn [WaitModel.wstep] in E.
    + injection E as <-. apply H.
    + destruct (nth_error (unfinished s) k) as [[]|]; [|discriminate]. injection E as <-. apply H.
    + injection E as <-. apply H.
    + destruct (nth_error (resumes s) k); [|discriminate]. injection E as <-. apply H.
    + injection E as <-. apply H.
    + destruct (nth_error (waiters s) i) as [w|]; [|discriminate]. destruct (w_state w); try discriminate; injection E as <-; unfold check; cbn [slot_shutdown]; rewrite H; cbn [count_of]; destruct (_ <=? _); apply H.
    + destruct (nth_error (waiters s) i) as [w|]; [|discriminate]. destruct (w_state w); try discriminate; injection E as <-. apply H.
    + destruct (Hn j0). left; reflexivity.
    + rewrite H in E. discriminate.
Qed.
End S.
