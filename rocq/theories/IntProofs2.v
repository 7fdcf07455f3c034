From Verif Require Import Base IntModel IntSpec IntProofs.
Local Open Scope Z_scope.

Lemma hex_digit_10 d : 0 <= d < 10 -> digit_value 10 (hex_digit d) = Some d.
Proof.
  intro H. assert (E : exists n, d = Z.of_nat n /\ (n < 10)%nat) by (exists (Z.to_nat d); lia). destruct E as (n & -> & L).
  do 10 (destruct n as [|n]; [reflexivity|]). lia.
Qed.
Lemma hex_digit_16 d : 0 <= d < 16 -> digit_value 16 (hex_digit d) = Some d.
Proof.
  intro H. assert (E : exists n, d = Z.of_nat n /\ (n < 16)%nat) by (exists (Z.to_nat d); lia). destruct E as (n & -> & L).
  do 16 (destruct n as [|n]; [reflexivity|]). lia.
Qed.
Lemma hex_digit_0 d : 0 <= d < 16 -> hex_digit d = "0"%char -> d = 0.
Proof.
  intros H. assert (E : exists n, d = Z.of_nat n /\ (n < 16)%nat) by (exists (Z.to_nat d); lia). destruct E as (n & -> & L).
  do 16 (destruct n as [|n]; [first [reflexivity | discriminate]|]). lia.
Qed.

(* No leading zeros. *)
Definition canonical (ds : bytes) : Prop := exists c ds', ds = c :: ds' /\ (c = "0"%char -> ds' = []).

Lemma show_ok fuel i r : 0 <= i < 10 ^ Z.of_nat fuel -> (0 < fuel)%nat -> exists ds, show fuel i r = ds ++ r /\ value 10 ds 0 = Some i /\ canonical ds /\ (hd NUL ds = "0"%char -> i = 0).
Proof.
  revert i r. induction fuel as [|fuel IH]; intros i r H F; [lia|]. cbn [show].
  assert (D : 0 <= i mod 10 < 10) by (apply Z.mod_pos_bound; lia).
  destruct (i <? 10) eqn:L; [apply Z.ltb_lt in L | apply Z.ltb_ge in L].
  - rewrite Z.mod_small in * by lia. exists [hex_digit i]. split; [reflexivity|]. split; [cbn [value]; rewrite hex_digit_10 by lia; reflexivity|].
    split; [exists (hex_digit i), []; auto|]. cbn. apply hex_digit_0. lia.
  - rewrite Nat2Z.inj_succ, Z.pow_succ_r in H by lia.
    assert (Hf : (0 < fuel)%nat). { destruct fuel; [cbn in H; lia | lia]. }
    assert (Hd : 0 <= i / 10 < 10 ^ Z.of_nat fuel) by (split; [apply Z.div_pos; lia | apply Z.div_lt_upper_bound; lia]).
    destruct (IH (i / 10) (hex_digit (i mod 10) :: r) Hd Hf) as (ds & E & V & (c & ds' & C1 & C2) & N).
    exists (ds ++ [hex_digit (i mod 10)]). rewrite E, <- app_assoc. split; [reflexivity|]. split; [|split].
    + rewrite value_app, V. cbn [value]. rewrite hex_digit_10 by exact D. f_equal. rewrite (Z.div_mod i 10) at 3 by lia. lia.
    + subst ds. exists c, (ds' ++ [hex_digit (i mod 10)]). split; [reflexivity|]. intros ->. exfalso.
      specialize (N eq_refl). assert (i / 10 <> 0) by (intro Q; apply Z.div_small_iff in Q; lia). contradiction.
    + subst ds. cbn. intros ->. specialize (N eq_refl). assert (i / 10 <> 0) by (intro Q; apply Z.div_small_iff in Q; lia). contradiction.
Qed.
Lemma std_ok i : 0 <= i <= uint64_max -> exists ds, std_to_string i = ds /\ value 10 ds 0 = Some i /\ canonical ds.
Proof.
  intro H. unfold std_to_string. replace (i <? 0) with false by (symmetry; apply Z.ltb_ge; lia).
  destruct (show_ok 20 i []) as (ds & E & V & C & _); [|lia|].
  - unfold uint64_max in H. split; [lia|]. apply Z.le_lt_trans with (2 ^ 64 - 1); [lia | reflexivity].
  - exists ds. rewrite app_nil_r in E. auto.
Qed.

Lemma zeros_value base w n ds : base = 10 \/ base = 16 -> value base (zeros w n ++ ds) 0 = value base ds 0.
Proof. intro B. unfold zeros. induction (w - n)%nat as [|k IH]; [reflexivity|]. destruct B; subst base; cbn; exact IH. Qed.

Arguments hex_loop : simpl never.
Definition hex_inv (i : Z) (k : nat) (r : bytes) : Prop :=
  (r = [] /\ i / 16 ^ Z.of_nat k = 0) \/ (value 16 r 0 = Some (i / 16 ^ Z.of_nat k) /\ canonical r /\ (hd NUL r = "0"%char -> k = 0%nat)).
Lemma hex_step_ok i k r : 0 <= i -> hex_inv i (S k) r -> hex_inv i k (hex_step i r k).
Proof.
  intros Hi H. unfold hex_step.
  set (q := i / 16 ^ Z.of_nat k).
  assert (Hd : Z.land (Z.shiftr i (Z.of_nat (4 * k))) 15 = q mod 16).
  { rewrite Z.shiftr_div_pow2 by lia. replace (2 ^ Z.of_nat (4 * k)) with (16 ^ Z.of_nat k).
    2: { change 16 with (2 ^ 4). rewrite <- Z.pow_mul_r by lia. f_equal. lia. }
    change 15 with (Z.ones 4). rewrite Z.land_ones by lia. reflexivity. }
  rewrite Hd. set (d := q mod 16).
  assert (D : 0 <= d < 16) by (apply Z.mod_pos_bound; lia).
  assert (Q : i / 16 ^ Z.of_nat (S k) = q / 16).
  { unfold q. rewrite Nat2Z.inj_succ, Z.pow_succ_r, Z.mul_comm, Z.div_div by lia. reflexivity. }
  unfold hex_inv in H. rewrite Q in H.
  assert (S16 : q = q / 16 * 16 + d) by (unfold d; rewrite (Z.div_mod q 16) at 1 by lia; lia).
  destruct H as [[-> H] | (V & (c & r' & C1 & C2) & N)].
  - cbn [length Nat.eqb negb orb app]. rewrite H in S16. cbn in S16. destruct (d =? 0) eqn:Z0; cbn [negb orb].
    + apply Z.eqb_eq in Z0. destruct (k =? 0)%nat eqn:K.
      * right. cbn [value]. rewrite hex_digit_16 by exact D. split; [|split].
        -- fold q. cbn. rewrite Z0 in *. f_equal. lia.
        -- exists (hex_digit d), []. auto.
        -- intros _. apply Nat.eqb_eq. exact K.
      * left. split; [reflexivity|]. fold q. lia.
    + apply Z.eqb_neq in Z0. right. cbn [value]. rewrite hex_digit_16 by exact D. split; [|split].
      * fold q. f_equal. lia.
      * exists (hex_digit d), []. auto.
      * cbn. intro X. apply hex_digit_0 in X; [congruence | exact D].
  - assert (L : (length r =? 0)%nat = false) by (subst r; reflexivity). rewrite L. cbn [negb]. rewrite Bool.orb_true_r. cbn [orb].
    assert (NZ : c <> "0"%char) by (intros ->; subst r; specialize (N eq_refl); discriminate).
    right. split; [|split].
    + rewrite value_app, V. cbn [value]. rewrite hex_digit_16 by exact D. fold q. f_equal. lia.
    + subst r. exists c, (r' ++ [hex_digit d]). split; [reflexivity | congruence].
    + subst r. cbn. congruence.
Qed.
Lemma hex_fold i k r : 0 <= i -> hex_inv i k r -> hex_inv i 0 (fold_left (hex_step i) (rev (seq 0 k)) r).
Proof.
  intro Hi. revert r. induction k as [|k IH]; intros r H; [exact H|].
  rewrite seq_S, rev_app_distr. cbn [rev app fold_left plus]. apply IH. apply hex_step_ok; assumption.
Qed.
Lemma hex_ok i : 0 <= i <= uint64_max -> value 16 (hex_loop i) 0 = Some i /\ canonical (hex_loop i).
Proof.
  intro H. assert (I : hex_inv i 16 []).
  { left. split; [reflexivity|]. apply Z.div_small. split; [lia|]. unfold uint64_max in H. change (16 ^ Z.of_nat 16) with (2 ^ 64). lia. }
  assert (I' : hex_inv i 0 (hex_loop i)) by (unfold hex_loop; apply (hex_fold i 16 []); [lia | exact I]).
  clear I. rename I' into I.
  destruct I as [[E Z0] | (V & C & _)].
  - exfalso. rewrite Z.div_1_r in Z0. subst i. vm_compute in E. discriminate E.
  - rewrite Z.div_1_r in V. auto.
Qed.

Lemma canonical_ne ds : canonical ds -> ds <> [].
Proof. intros (c & r & -> & _). discriminate. Qed.

Opaque hex_loop std_to_string.
(* What to_string () is made of. *)
Lemma pad_eq w ds : pad w ds = repeat "0"%char (w - length ds) ++ ds.
Proof. unfold pad, zeros. destruct (length ds <? w)%nat eqn:L; [reflexivity|]. apply Nat.ltb_ge in L. replace (w - length ds)%nat with O by lia. reflexivity. Qed.
Lemma pad_ne w ds : canonical ds -> pad w ds <> [].
Proof. intros C X. rewrite pad_eq in X. apply app_eq_nil in X. destruct X as [_ X]. exact (canonical_ne _ C X). Qed.
Lemma pad_value base w ds : base = 10 \/ base = 16 -> value base (pad w ds) 0 = value base ds 0.
Proof. intro B. rewrite pad_eq. fold (zeros w (length ds)). apply zeros_value. exact B. Qed.
Lemma pad_0 ds : pad 0 ds = ds.
Proof. rewrite pad_eq. reflexivity. Qed.
Lemma to_string_10 i w : to_string_u i 10 w = Some (pad w (std_to_string i)).
Proof. reflexivity. Qed.
Lemma to_string_16 i w : to_string_u i 16 w = Some (b "0x" ++ pad w (hex_loop i)).
Proof. reflexivity. Qed.
Lemma to_string_u_ok i base w s : 0 <= i <= uint64_max -> to_string_u i base w = Some s ->
  exists pre ds, to_string_u i base 0 = Some (pre ++ ds) /\ s = pre ++ repeat "0"%char (w - length ds) ++ ds /\ canonical ds /\
    ((base = 10 /\ pre = []) \/ (base = 16 /\ pre = b "0x")) /\ denotes_unsigned (pre ++ ds) i /\ denotes_unsigned s i.
Proof.
  intros H E. assert (B : base = 10 \/ base = 16).
  { unfold to_string_u in E. destruct (base =? 10) eqn:B; [apply Z.eqb_eq in B; auto|]. destruct (base =? 16) eqn:B'; [apply Z.eqb_eq in B'; auto | discriminate]. }
  destruct B; subst base.
  - rewrite to_string_10 in *. destruct (std_ok i H) as (ds & Es & V & C). rewrite Es in *. injection E as <-.
    exists [], ds. cbn [app]. rewrite pad_0, <- pad_eq. repeat split; auto.
    + apply den_dec, dec_iff. split; [apply canonical_ne; exact C | exact V].
    + apply den_dec, dec_iff. split; [apply pad_ne; exact C | rewrite pad_value by auto; exact V].
  - rewrite to_string_16 in *. destruct (hex_ok i H) as [V C]. injection E as <-. generalize dependent (hex_loop i). intros ds V C.
    exists (b "0x"), ds. rewrite pad_0, <- pad_eq. repeat split; auto.
    + apply (den_hex "x" ds); [auto|]. apply hex_iff. split; [apply canonical_ne; exact C | exact V].
    + apply (den_hex "x" (pad w ds)); [auto|]. apply hex_iff. split; [apply pad_ne; exact C | rewrite pad_value by auto; exact V].
Qed.

(* The sequence. *)
Definition arithmetic (x s : Z) (n : nat) : list Z := map (fun k => x + Z.of_nat k * s) (seq 0 n).
Lemma arithmetic_S x s n : arithmetic x s (S n) = x :: arithmetic (x + s) s n.
Proof.
  unfold arithmetic. cbn [seq map]. f_equal; [lia|]. rewrite <- seq_shift, map_map. apply map_ext. intro k. lia.
Qed.
Lemma sequence_det e s x r : sequence e s x r -> forall r', sequence e s x r' -> r = r'.
Proof.
  induction 1 as [x L | x r L H IH]; intros r' H'; inversion H'; subst; try lia; [reflexivity|]. f_equal. auto.
Qed.
Lemma sequence_ok e s n x : 0 <= x -> 0 < s -> e <= x + Z.of_nat n * s -> (forall k, (k < n)%nat -> x + Z.of_nat k * s < e) -> x + Z.of_nat n * s < 2 ^ 64 ->
  sequence e s x (arithmetic x s n).
Proof.
  revert x. induction n as [|n IH]; intros x Hx Hs He Hk Hw.
  - cbn. apply seq_end. lia.
  - rewrite arithmetic_S. apply seq_next; [specialize (Hk O); lia|]. rewrite Z.mod_small by nia. apply IH; try lia; try nia.
    intros k Lk. specialize (Hk (S k)). lia.
Qed.
