From Verif Require Import Base IntModel IntSpec.
Local Open Scope Z_scope.

(* The value of a string all of which are digits. *)
Fixpoint value (base : Z) (s : bytes) (v : Z) : option Z :=
  match s with
  | [] => Some v
  | c :: s' => match digit_value base c with Some d => value base s' (v * base + d) | None => None end
  end.
Lemma value_app base s t v : value base (s ++ t) v = match value base s v with Some x => value base t x | None => None end.
Proof. revert v. induction s as [|c s IH]; intro v; [reflexivity|]. cbn. destruct (digit_value base c); auto. Qed.
Lemma digits_le base s v n : (snd (digits base s v n) <= n + length s)%nat.
Proof. revert v n. induction s as [|c s IH]; intros v n; cbn; [lia|]. destruct (digit_value base c); cbn; [|lia]. specialize (IH (v * base + z) (S n)). lia. Qed.
Lemma digits_all base s v n x : digits base s v n = (x, (n + length s)%nat) <-> value base s v = Some x.
Proof.
  revert v n. induction s as [|c s IH]; intros v n; cbn.
  - rewrite Nat.add_0_r. split; [intros [= ->]; reflexivity | intros [= ->]; reflexivity].
  - destruct (digit_value base c) as [d|].
    + rewrite <- (IH _ (S n)). replace (n + S (length s))%nat with (S n + length s)%nat by lia. reflexivity.
    + split; [intros [= _ H]; lia | discriminate].
Qed.

Lemma dec_table c : match digit_value 10 c with Some d => decimal_digit c d | None => ~ In c (b "0123456789") end.
Proof.
  destruct c as [[] [] [] [] [] [] [] []]; vm_compute;
    try (intros H; repeat (destruct H as [H|H]; [discriminate|]); exact H);
    match goal with |- ex (fun i => ?z = _ /\ _) => exists (Z.to_nat z) end; split; reflexivity.
Qed.
Lemma hex_table c : match digit_value 16 c with Some d => hexadecimal_digit c d | None => ~ In c (b "0123456789abcdefABCDEF") end.
Proof.
  destruct c as [[] [] [] [] [] [] [] []]; vm_compute;
    try (intros H; repeat (destruct H as [H|H]; [discriminate|]); exact H);
    match goal with |- ex (fun i => ?z = _ /\ _) => exists (Z.to_nat z) end; (split; [reflexivity|]); first [left; reflexivity | right; reflexivity].
Qed.
Lemma decimal_iff c d : digit_value 10 c = Some d <-> decimal_digit c d.
Proof.
  split.
  - intro H. pose proof (dec_table c) as T. rewrite H in T. exact T.
  - intros (i & -> & E). do 10 (destruct i as [|i]; [injection E as <-; reflexivity|]). destruct i; discriminate.
Qed.
Lemma hexadecimal_iff c d : digit_value 16 c = Some d <-> hexadecimal_digit c d.
Proof.
  split.
  - intro H. pose proof (hex_table c) as T. rewrite H in T. exact T.
  - intros (i & -> & [E|E]); do 16 (destruct i as [|i]; [injection E as <-; reflexivity|]); destruct i; discriminate.
Qed.
Lemma numeral_iff base (digit : ascii -> Z -> Prop) : (forall c d, digit_value base c = Some d <-> digit c d) ->
  forall s v, numeral digit base s v <-> s <> [] /\ value base s 0 = Some v.
Proof.
  intros D s v. split.
  - induction 1 as [c d H | s v c d H [IH1 IH2] Hd].
    + split; [discriminate|]. cbn. apply D in H. rewrite H. reflexivity.
    + split; [destruct s; discriminate|]. rewrite value_app, IH2. cbn. apply D in Hd. rewrite Hd. reflexivity.
  - revert v. induction s as [|c s IH] using rev_ind; intros v [N E]; [congruence|].
    rewrite value_app in E. destruct (value base s 0) as [x|] eqn:X; [|discriminate]. cbn in E.
    destruct (digit_value base c) as [d|] eqn:Dc; [|discriminate]. injection E as <-. apply D in Dc.
    destruct s as [|c' s']; [cbn in X; injection X as <-; cbn; apply num_one; exact Dc|].
    apply num_more; [apply IH; split; [discriminate | exact eq_refl] | exact Dc].
Qed.
Lemma dec_iff s v : numeral decimal_digit 10 s v <-> s <> [] /\ value 10 s 0 = Some v.
Proof. apply numeral_iff. exact decimal_iff. Qed.
Lemma hex_iff s v : numeral hexadecimal_digit 16 s v <-> s <> [] /\ value 16 s 0 = Some v.
Proof. apply numeral_iff. exact hexadecimal_iff. Qed.
Lemma is_x_iff x : is_x x = true <-> x = "x"%char \/ x = "X"%char.
Proof. unfold is_x. rewrite Bool.orb_true_iff, !ceqb_eq. reflexivity. Qed.

Lemma strto_unsigned_iff s v : strto_unsigned (base_at s 0) s = Some (v, length s) <-> denotes_unsigned s v.
Proof.
  unfold strto_unsigned, base_at, at_. destruct (ceqb (nth 0 s NUL) "0" && is_x (nth (0 + 1) s NUL))%bool eqn:B.
  - apply Bool.andb_true_iff in B. destruct B as [Z X]. apply ceqb_eq in Z. destruct s as [|z [|x ds]]; [discriminate| |]; cbn in Z, X.
    { discriminate. }
    subst z. assert (Hx : x = "x"%char \/ x = "X"%char) by (apply is_x_iff; exact X).
    assert (Dx : digit_value 16 x = None /\ digit_value 10 x = None) by (destruct Hx; subst x; split; reflexivity).
    assert (ND : forall v, denotes_unsigned ("0"%char :: x :: ds) v <-> ds <> [] /\ value 16 ds 0 = Some v).
    { intro u. rewrite <- hex_iff. split.
      - intro H. inversion H as [? ? N | ? ? ? _ N]; subst; [|exact N]. apply dec_iff in N. destruct N as [_ N]. cbn [value] in N.
        rewrite (proj2 Dx) in N. destruct (digit_value 10 "0"); discriminate.
      - intro H. apply den_hex; assumption. }
    rewrite ND. destruct ds as [|c ds].
    + change (digits 16 ["0"%char; x] 0 0) with (digits 16 [x] 0 1). cbn [digits]. rewrite (proj1 Dx). cbn. split; [discriminate | intros [H _]; congruence].
    + change (16 =? 16) with true. change (ceqb "0" "0") with true. rewrite X. cbn [andb]. destruct (digit_value 16 c) as [d|] eqn:Dc.
      * cbn [skipn]. rewrite <- (digits_all 16 (c :: ds) 0 0). destruct (digits 16 (c :: ds) 0 0) as [u n] eqn:E.
        assert (n <> 0%nat). { intro; subst n. cbn in E. rewrite Dc in E. apply (f_equal snd) in E. pose proof (digits_le 16 ds (0 * 16 + d) 1). cbn in E.
          assert (G : forall s v n, (n <= snd (digits 16 s v n))%nat) by (clear; induction s as [|c s IH]; intros v n; cbn; [lia|]; destruct (digit_value 16 c); cbn; [specialize (IH (v * 16 + z) (S n)); lia | lia]).
          specialize (G ds (0 * 16 + d) 1%nat). cbn in G. lia. }
        replace (n =? 0)%nat with false by (symmetry; apply Nat.eqb_neq; assumption).
        cbn [length]. split; [intros [= -> ->]; split; [discriminate | reflexivity] | intros [_ [= -> ->]]; reflexivity].
      * replace (digits 16 ("0"%char :: x :: c :: ds) 0 0) with (0, 1%nat) by (cbn [digits]; rewrite (proj1 Dx); reflexivity). cbn.
        rewrite Dc. split; [discriminate | intros [_ H]; discriminate].
  - assert (ND : forall v, denotes_unsigned s v <-> s <> [] /\ value 10 s 0 = Some v).
    { intro u. rewrite <- dec_iff. split.
      - intro H. inversion H as [? ? N | ? ? ? Hx N]; subst; [exact N|]. exfalso. cbn in B. rewrite (proj2 (is_x_iff x) Hx) in B. discriminate.
      - intro H. apply den_dec. exact H. }
    rewrite ND. change (10 =? 16) with false. cbn [andb].
    replace (match s with | z :: x :: c :: _ => false | _ => false end) with false by (destruct s as [|? [|? [|? ?]]]; reflexivity).
    rewrite <- (digits_all 10 s 0 0). destruct (digits 10 s 0 0) as [u n]. cbn [plus]. destruct (n =? 0)%nat eqn:N.
    + apply Nat.eqb_eq in N. subst n. split; [discriminate|]. intros [H [= _ L]]. destruct s; [congruence | discriminate].
    + apply Nat.eqb_neq in N. split; [intros [= -> ->] | intros [_ [= -> ->]]; reflexivity]. split; [|reflexivity]. intros ->. cbn in N. congruence.
Qed.

Lemma denotes_first s v : denotes_unsigned s v -> exists c s', s = c :: s' /\ ceqb c "-" = false /\ ceqb c "+" = false /\ isspace c = false.
Proof.
  intro H. inversion H as [? ? N | x s' ? _ N]; subst.
  - apply dec_iff in N. destruct N as [N E]. destruct s as [|c s]; [congruence|]. exists c, s. split; [reflexivity|].
    cbn in E. destruct (digit_value 10 c) as [d|] eqn:D; [|discriminate]. apply decimal_iff in D. destruct D as (i & _ & D).
    do 10 (destruct i as [|i]; [injection D as <-; repeat split|]). destruct i; discriminate.
  - exists "0"%char, (x :: s'). repeat split.
Qed.
Lemma denotes_nonneg s v : denotes_unsigned s v -> 0 <= v.
Proof.
  assert (G : forall base s v u, 0 < base -> 0 <= v -> value base s v = Some u -> 0 <= u).
  { intros base s0. induction s0 as [|c s0 IH]; intros v0 u Hb Hv E; cbn in E; [congruence|].
    destruct (digit_value base c) as [d|] eqn:D; [|discriminate]. apply IH in E; [exact E | exact Hb|].
    assert (0 <= d). { unfold digit_value in D. destruct (_ <? base); [|discriminate]. injection D as <-. 
      repeat match goal with |- context [if ?x then _ else _] => destruct x eqn:? end; lia. }
    nia. }
  intro H. inversion H as [? ? N | x s' ? _ N]; subst.
  - apply dec_iff in N. destruct N as [_ E]. apply G in E; lia.
  - apply hex_iff in N. destruct N as [_ E]. apply G in E; lia.
Qed.
Lemma base_at_tl c s : base_at (c :: s) 1 = base_at s 0.
Proof. reflexivity. Qed.

(* Used up to the end. *)
Lemma strto_iff base c s neg v : isspace c = false ->
  (strto base (c :: s) = Some (neg, v, length (c :: s)) <->
   if ceqb c "-" then neg = true /\ strto_unsigned base s = Some (v, length s)
   else if ceqb c "+" then neg = false /\ strto_unsigned base s = Some (v, length s)
   else neg = false /\ strto_unsigned base (c :: s) = Some (v, length (c :: s))).
Proof.
  intro Hc. unfold strto. cbn [spaces]. rewrite Hc. cbn [skipn].
  destruct (ceqb c "-"), (ceqb c "+"); cbn [plus];
    match goal with |- context [strto_unsigned base ?x] => destruct (strto_unsigned base x) as [[u n]|] end; cbn [length];
    (split; [intros [= <- <- E]; subst; split; try reflexivity; congruence | intros [-> E]; try discriminate; injection E as -> ->; reflexivity]).
Qed.

Lemma int64_iff s z : convert_int64 s = Some z <-> denotes s z /\ int64_min <= z <= int64_max.
Proof.
  unfold convert_int64, stoll. destruct s as [|c s].
  { cbn. split; [discriminate|]. intros [H _]. inversion H as [? ? P |]; subst. inversion P as [? ? U |]; subst. apply denotes_first in U. destruct U as (? & ? & ? & _). discriminate. }
  change (at_ (c :: s) 0) with c. destruct (isspace c) eqn:Sp.
  { split; [discriminate|]. intros [H _]. exfalso. inversion H as [? ? P |]; subst; [|discriminate]. inversion P as [? ? U |]; subst; [|discriminate].
    apply denotes_first in U. destruct U as (? & ? & [= <- <-] & _ & _ & X). congruence. }
  set (p := if (ceqb c "-" || ceqb c "+")%bool then 1%nat else 0%nat). set (base := base_at (c :: s) p).
  assert (Main : (exists neg v, strto base (c :: s) = Some (neg, v, length (c :: s)) /\ z = if neg : bool then - v else v) <-> denotes (c :: s) z).
  { split.
    - intros (neg & v & E & ->). apply strto_iff in E; [|exact Sp]. unfold base, p in E. destruct (ceqb c "-") eqn:M; [|destruct (ceqb c "+") eqn:P]; cbn [orb] in E; destruct E as [-> E].
      + rewrite base_at_tl in E. apply strto_unsigned_iff in E. apply ceqb_eq in M. subst c. apply den_minus. exact E.
      + rewrite base_at_tl in E. apply strto_unsigned_iff in E. apply ceqb_eq in P. subst c. apply den_positive, den_plus. exact E.
      + apply strto_unsigned_iff in E. apply den_positive, den_none. exact E.
    - intro H. inversion H as [? ? P | s' v U]; subst; [inversion P as [? ? U | s' v U]; subst|].
      + exists false, z. split; [|reflexivity]. apply strto_iff; [exact Sp|]. destruct (denotes_first _ _ U) as (? & ? & [= <- <-] & C1 & C2 & _).
        unfold base, p. rewrite C1, C2. split; [reflexivity|]. apply strto_unsigned_iff. exact U.
      + exists false, z. split; [|reflexivity]. apply strto_iff; [exact Sp|]. split; [reflexivity|]. apply (strto_unsigned_iff s z). exact U.
      + exists true, v. split; [|reflexivity]. apply strto_iff; [exact Sp|]. split; [reflexivity|]. apply (strto_unsigned_iff s v). exact U. }
  rewrite <- Main. clear Main. destruct (strto base (c :: s)) as [[[neg v] n]|].
  - set (r := if neg then - v else v). destruct ((int64_min <=? r) && (r <=? int64_max))%bool eqn:R.
    + apply Bool.andb_true_iff in R. destruct R as [R1 R2]. apply Z.leb_le in R1, R2. destruct (n =? length (c :: s))%nat eqn:N.
      * apply Nat.eqb_eq in N. subst n. split; [intros [= <-]; split; [exists neg, v; split; reflexivity | lia]|]. intros [(ng & u & [= <- <-] & ->) _]. reflexivity.
      * apply Nat.eqb_neq in N. split; [discriminate|]. intros [(ng & u & X & _) _]. exfalso. apply N. injection X as _ _ X. exact X.
    + split; [discriminate|]. intros [(ng & u & [= <- <- _] & ->) [R1 R2]]. fold r in R1, R2. apply Bool.andb_false_iff in R. destruct R as [R|R]; apply Z.leb_gt in R; lia.
  - split; [discriminate|]. intros [(? & ? & ? & _) _]. discriminate.
Qed.
Lemma uint64_iff s z : convert_uint64 s = Some z <-> denotes_positive s z /\ z <= uint64_max.
Proof.
  unfold convert_uint64, stoull. destruct s as [|c s].
  { cbn. split; [discriminate|]. intros [H _]. inversion H as [? ? U |]; subst. apply denotes_first in U. destruct U as (? & ? & ? & _). discriminate. }
  change (at_ (c :: s) 0) with c. destruct (isspace c || ceqb c "-")%bool eqn:Sp.
  { split; [discriminate|]. intros [H _]. exfalso. inversion H as [? ? U |]; subst; [|discriminate].
    apply denotes_first in U. destruct U as (? & ? & [= <- <-] & X1 & _ & X). rewrite X, X1 in Sp. discriminate. }
  apply Bool.orb_false_iff in Sp. destruct Sp as [Sp Mi].
  set (p := if (ceqb c "+")%bool then 1%nat else 0%nat). set (base := base_at (c :: s) p).
  assert (Main : forall neg v, strto base (c :: s) = Some (neg, v, length (c :: s)) <-> neg = false /\ denotes_positive (c :: s) v).
  { intros neg v. rewrite strto_iff by exact Sp. rewrite Mi. unfold base, p. destruct (ceqb c "+") eqn:P.
    - rewrite base_at_tl, strto_unsigned_iff. apply ceqb_eq in P. subst c. split; (intros [-> H]; split; [reflexivity|]); [apply den_plus; exact H|].
      inversion H as [? ? U |]; subst; [|assumption]. apply denotes_first in U. destruct U as (? & ? & [= <- <-] & _ & X & _). discriminate.
    - rewrite strto_unsigned_iff. split; (intros [-> H]; split; [reflexivity|]); [apply den_none; exact H|].
      inversion H as [? ? U |]; subst; [assumption | discriminate]. }
  destruct (strto base (c :: s)) as [[[neg v] n]|].
  - destruct (n =? length (c :: s))%nat eqn:N.
    + apply Nat.eqb_eq in N. subst n. destruct (proj1 (Main neg v) eq_refl) as [-> D].
      destruct (v <=? uint64_max) eqn:R; [apply Z.leb_le in R | apply Z.leb_gt in R].
      * rewrite Nat.eqb_refl. split; [intros [= <-]; auto|]. intros [H _]. pose proof (proj2 (Main false z) (conj eq_refl H)) as [= ->]. reflexivity.
      * split; [discriminate|]. intros [H L]. pose proof (proj2 (Main false z) (conj eq_refl H)) as [= ->]. lia.
    + split; [destruct (v <=? uint64_max); [rewrite N|]; discriminate|]. apply Nat.eqb_neq in N. intros [H _]. exfalso. apply N. pose proof (proj2 (Main false z) (conj eq_refl H)) as X. injection X as _ _ X. exact X.
  - split; [discriminate|]. intros [H _]. pose proof (proj2 (Main false z) (conj eq_refl H)). discriminate.
Qed.
