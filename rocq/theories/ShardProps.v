(* C40: the number of shards. *)
From Verif Require Import Base ShardModel.
From Coq Require Import Znumtheory Factorial Zdiv.
Local Open Scope Z_scope.

Lemma prime_loop_spec steps : forall i n, 1 < i -> (forall d, 1 < d < i -> ~ (d | n)) -> n < i * i + Z.of_nat steps ->
  prime_loop steps i n = true <-> 1 < n /\ forall d, 1 < d -> d * d <= n -> ~ (d | n).
Proof.
  induction steps as [|steps IH]; intros i n Hi Hd Hs; cbn [prime_loop].
  - rewrite Z.ltb_lt. split; [|tauto]. intro H. split; [exact H|]. intros d H1 H2 H3. apply (Hd d); [nia | exact H3].
  - destruct (i * i <=? n) eqn:E.
    + apply Z.leb_le in E. destruct (n mod i =? 0) eqn:M.
      * apply Z.eqb_eq in M. split; [discriminate|]. intros [_ H]. exfalso. apply (H i); [lia | exact E | apply Z.mod_divide; [lia | exact M]].
      * apply Z.eqb_neq in M. apply IH; [lia | | nia]. intros d Hd'. assert (d = i \/ d < i) as [-> | L] by lia; [|apply Hd; lia].
        intro X. apply M. apply Z.mod_divide; [lia | exact X].
    + apply Z.leb_gt in E. rewrite Z.ltb_lt. split; [|tauto]. intro H. split; [exact H|]. intros d H1 H2 H3. apply (Hd d); [nia | exact H3].
Qed.
Lemma is_prime_iff n : is_prime n = true <-> prime n.
Proof.
  unfold is_prime. rewrite prime_loop_spec by (try lia; intros; lia). split.
  - intros [H1 H2]. apply prime_alt. split; [exact H1|]. intros d Hd [q Hq].
    assert (Q : 1 < q) by nia. destruct (Z.le_gt_cases d q).
    + apply (H2 d); [lia | nia | exists q; exact Hq].
    + apply (H2 q); [lia | nia | exists d; lia].
  - intro P. apply prime_alt in P. destruct P as [H1 H2]. split; [exact H1|]. intros d Hd Hn X. apply (H2 d); [nia | exact X].
Qed.
Lemma prime_divisor : forall n : nat, forall z, 1 < z -> z <= Z.of_nat n -> exists p, prime p /\ (p | z).
Proof.
  induction n as [|n IH]; intros z H1 H2; [lia|]. destruct (prime_dec z) as [P | P]; [exists z; split; [exact P | apply Z.divide_refl]|].
  destruct (not_prime_divide z H1 P) as (d & Hd & D). destruct (IH d) as (p & Pp & Dp); [lia | lia|]. exists p. split; [exact Pp | exact (Z.divide_trans _ _ _ Dp D)].
Qed.
Lemma divides_fact n : forall d, (0 < d <= n)%nat -> (Z.of_nat d | Z.of_nat (fact n)).
Proof.
  induction n as [|n IH]; intros d H; [lia|]. change (fact (S n)) with (S n * fact n)%nat. rewrite Nat2Z.inj_mul.
  assert (d = S n \/ d <= n)%nat as [-> | L] by lia; [apply Z.divide_factor_l|]. apply Z.divide_mul_r. apply IH. lia.
Qed.
(* There is always a greater prime. *)
Lemma primes_infinite n : exists p, n <= p /\ prime p.
Proof.
  set (k := Z.to_nat n). destruct (prime_divisor (S (fact k)) (Z.of_nat (fact k) + 1)) as (p & P & D); [pose proof (lt_O_fact k); lia | lia|].
  exists p. split; [|exact P]. apply Z.nlt_ge. intro L. pose proof (prime_ge_2 p P) as G.
  assert (X : (p | Z.of_nat (fact k))). { rewrite <- (Z2Nat.id p) by lia. apply divides_fact. unfold k. lia. }
  assert (Y : (p | 1)). { replace 1 with (Z.of_nat (fact k) + 1 - Z.of_nat (fact k)) by lia. apply Z.divide_sub_r; assumption. }
  apply Z.divide_1_r in Y. lia.
Qed.
Lemma next_prime_spec : forall (k : nat) n, (exists p, n <= p < n + Z.of_nat k /\ prime p) -> exists p, prime p /\ n <= p /\ (forall q, n <= q < p -> ~ prime q) /\ forall steps, (k <= steps)%nat -> next_prime steps n = Some p.
Proof.
  induction k as [|k IH]; intros n (p & H & P); [lia|]. destruct (is_prime n) eqn:E.
  - exists n. split; [apply is_prime_iff; exact E|]. split; [lia|]. split; [intros; lia|]. intros [|steps] L; [lia|]. cbn. rewrite E. reflexivity.
  - assert (Nn : ~ prime n) by (intro X; apply is_prime_iff in X; congruence).
    assert (Np : n <> p) by (intros ->; contradiction).
    destruct (IH (n + 1)) as (q & Q1 & Q2 & Q3 & Q4); [exists p; split; [lia | exact P]|].
    exists q. split; [exact Q1|]. split; [lia|]. split.
    + intros r Hr. assert (r = n \/ n + 1 <= r) as [-> | L] by lia; [exact Nn | apply Q3; lia].
    + intros [|steps] L; [lia|]. cbn. rewrite E. apply Q4. lia.
Qed.
Lemma next_prime_total n : exists p k, prime p /\ n <= p /\ (forall q, n <= q < p -> ~ prime q) /\ forall steps, (k <= steps)%nat -> next_prime steps n = Some p.
Proof.
  destruct (primes_infinite n) as (p & L & P). set (k := Z.to_nat (p - n + 1)).
  destruct (next_prime_spec k n) as (q & H); [exists p; split; [unfold k; lia | exact P]|]. exists q, k. exact H.
Qed.
Lemma prime_odd p : prime p -> 2 < p -> Z.Odd p.
Proof.
  intros P L. destruct (Z.Even_or_Odd p) as [[q ->] | O]; [|exact O]. exfalso. apply prime_alt in P. destruct P as [_ P]. apply (P 2); [lia | exists q; lia].
Qed.

(* What is aimed at: twice the number for small ones, then one and a half of it and then as
   is. *)
Definition aimed_at (n a : Z) : Prop := (n <= 16 -> a = 2 * n) /\ (16 < n <= 80 -> a = n + n / 2) /\ (80 < n -> a = n).

(* The search ends (after some number of steps, more do not matter). The result is 1 if the
   build is serial or the scaled number of threads is 0. Otherwise it is the first odd prime
   number not less than what is aimed at. *)
Theorem C40_shards : forall max_threads mul div, 0 < max_threads -> 0 <= mul -> 0 < div ->
  let n := max_threads * mul / div / 4 in
  exists r k, (forall steps, (k <= steps)%nat -> shard_size steps max_threads mul div = Some r) /\
    ((max_threads = 1 \/ n = 0) /\ r = 1 \/
     max_threads <> 1 /\ 0 < n /\ prime r /\ Z.Odd r /\
     exists aim, aimed_at n aim /\ aim <= r /\ forall q, aim <= q < r -> ~ (prime q /\ Z.Odd q)).
Proof.
  intros t mul div Ht Hm Hd n. unfold shard_size. fold n.
  assert (Hn : 0 <= n) by (unfold n; apply Z.div_pos; [apply Z.div_pos; nia | lia]).
  destruct (t =? 1) eqn:T.
  { apply Z.eqb_eq in T. exists 1, O. split; [intros; reflexivity | left; auto]. }
  apply Z.eqb_neq in T. destruct (n =? 0) eqn:N0.
  { apply Z.eqb_eq in N0. exists 1, O. split; [intros; reflexivity | left; auto]. }
  apply Z.eqb_neq in N0. destruct (n =? 1) eqn:N1.
  { apply Z.eqb_eq in N1. exists 3, O. split; [intros; reflexivity|]. right. split; [exact T|]. split; [lia|]. split; [exact prime_3|]. split; [exists 1; reflexivity|].
    exists 2. split; [unfold aimed_at; lia|]. split; [lia|]. intros q Hq [_ [z Hz]]. lia. }
  apply Z.eqb_neq in N1.
  assert (G : forall aim, aimed_at n aim -> 2 < aim -> exists r k, (forall steps, (k <= steps)%nat -> next_prime steps aim = Some r) /\
    ((t = 1 \/ n = 0) /\ r = 1 \/ t <> 1 /\ 0 < n /\ prime r /\ Z.Odd r /\ exists aim, aimed_at n aim /\ aim <= r /\ forall q, aim <= q < r -> ~ (prime q /\ Z.Odd q))).
  { intros aim Ha Hl. destruct (next_prime_total aim) as (p & k & P & L & M & S). exists p, k. split; [exact S|]. right.
    split; [exact T|]. split; [lia|]. split; [exact P|]. split; [apply prime_odd; [exact P | lia]|]. exists aim. split; [exact Ha|]. split; [exact L|]. intros q Hq [X _]. exact (M q Hq X). }
  destruct (n <=? 16) eqn:E1; [apply Z.leb_le in E1; apply G; [unfold aimed_at|]; lia|]. apply Z.leb_gt in E1.
  destruct (n <=? 80) eqn:E2; [apply Z.leb_le in E2 | apply Z.leb_gt in E2; apply G; [unfold aimed_at|]; lia].
  replace (n * 3 / 2) with (n + n / 2) by (replace (n * 3) with (n + n * 2) by lia; rewrite Z.div_add by lia; lia).
  apply G; [unfold aimed_at; lia|]. pose proof (Z.div_pos n 2). lia.
Qed.
Print Assumptions C40_shards.
Example C40_ex : shard_size 100 8 8 1 = Some 37 /\ shard_size 100 1 8 1 = Some 1 /\ shard_size 100 64 8 1 = Some 131 /\ shard_size 100 32 1 4 = Some 5 /\ shard_size 100 160 1 1 = Some 61.
Proof. repeat split. Qed.
