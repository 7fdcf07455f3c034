(* C37: integers survive conversion. C47: $integer_sequence(). *)
From Verif Require Import Base IntModel IntSpec IntProofs IntProofs2.
Local Open Scope Z_scope.

(* A string is converted exactly if it denotes a number in range, and to this number. *)
Theorem C37_int64 : forall s z, convert_int64 s = Some z <-> denotes s z /\ int64_min <= z <= int64_max.
Proof. exact int64_iff. Qed.
Print Assumptions C37_int64.
Theorem C37_uint64 : forall s z, convert_uint64 s = Some z <-> denotes_positive s z /\ z <= uint64_max.
Proof. exact uint64_iff. Qed.
Print Assumptions C37_uint64.
Example ex_denotes : denotes (b "-0x1F") (-31).
Proof. apply (den_minus (b "0x1F") 31), (den_hex "x" (b "1F") 31); [auto|]. apply hex_iff. split; [discriminate | reflexivity]. Qed.
Example ex_convert : map convert_int64 [b "-0x1F"; b "+10"; b "010"; b " 1"; b "1 "; b ""; b "-"; b "0x"; b "1x"; b "9223372036854775808"; b "-9223372036854775808"] =
  [Some (-31); Some 10; Some 10; None; None; None; None; None; None; None; Some int64_min].
Proof. reflexivity. Qed.
Example ex_convert_u : map convert_uint64 [b "0xffffffffffffffff"; b "18446744073709551616"; b "-0"; b "+7"] = [Some uint64_max; None; None; Some 7].
Proof. reflexivity. Qed.

(* An integer is recovered from its name. *)
Theorem C37_int64_survives : forall z, int64_min <= z <= int64_max -> convert_int64 (reverse_int z) = Some z.
Proof.
  intros z H. apply int64_iff. split; [|exact H]. unfold reverse_int, std_to_string.
  assert (M : 0 <= Z.abs z < 10 ^ Z.of_nat 20).
  { unfold int64_min, int64_max in H. split; [lia|]. apply Z.le_lt_trans with (2 ^ 63); [lia | reflexivity]. }
  destruct (z <? 0) eqn:L; [apply Z.ltb_lt in L | apply Z.ltb_ge in L].
  - rewrite Z.abs_neq in M by lia. destruct (show_ok 20 (- z) []) as (ds & E & V & C & _); [exact M | lia|]. rewrite E, app_nil_r.
    replace z with (- - z) by lia. apply den_minus. apply den_dec, dec_iff. split; [apply canonical_ne; exact C | exact V].
  - rewrite Z.abs_eq in M by lia. destruct (show_ok 20 z []) as (ds & E & V & C & _); [exact M | lia|]. rewrite E, app_nil_r.
    apply den_positive, den_none, den_dec, dec_iff. split; [apply canonical_ne; exact C | exact V].
Qed.
Print Assumptions C37_int64_survives.
Theorem C37_uint64_survives : forall z, 0 <= z <= uint64_max -> convert_uint64 (reverse_int z) = Some z.
Proof.
  intros z H. apply uint64_iff. split; [|lia]. destruct (std_ok z H) as (ds & E & V & C). unfold reverse_int. rewrite E.
  apply den_none, den_dec, dec_iff. split; [apply canonical_ne; exact C | exact V].
Qed.
Print Assumptions C37_uint64_survives.
Example ex_survives : reverse_int int64_min = b "-9223372036854775808" /\ reverse_int 0 = b "0".
Proof. split; reflexivity. Qed.

(* $string(): the integer is also recovered, with any width. *)
Theorem C37_string_uint64 : forall z base w, 0 <= z <= uint64_max -> base = 10 \/ base = 16 ->
  exists s, to_string_u z base w = Some s /\ convert_uint64 s = Some z.
Proof.
  intros z base w H B. assert (exists s, to_string_u z base w = Some s) as [s E] by (destruct B; subst; [rewrite to_string_10 | rewrite to_string_16]; eauto).
  exists s. split; [exact E|]. destruct (to_string_u_ok z base w s H E) as (_ & _ & _ & _ & _ & _ & _ & D). apply uint64_iff. split; [apply den_none; exact D | lia].
Qed.
Print Assumptions C37_string_uint64.
Theorem C37_string_int64 : forall z base w, int64_min <= z <= int64_max -> base = 10 \/ base = 16 ->
  exists s, to_string_i z base w = Some s /\ convert_int64 s = Some z.
Proof.
  intros z base w H B. unfold to_string_i.
  assert (Eu : (if z =? int64_min then int64_max + 1 else Z.abs z) = Z.abs z).
  { destruct (z =? int64_min) eqn:E; [|reflexivity]. apply Z.eqb_eq in E. subst z. reflexivity. }
  rewrite Eu. assert (Hu : 0 <= Z.abs z <= uint64_max) by (unfold int64_min, int64_max, uint64_max in *; lia).
  assert (exists s, to_string_u (Z.abs z) base w = Some s) as [s E] by (destruct B; subst; [rewrite to_string_10 | rewrite to_string_16]; eauto). rewrite E.
  destruct (to_string_u_ok _ base w s Hu E) as (_ & _ & _ & _ & _ & _ & _ & D). eexists. split; [reflexivity|]. apply int64_iff. split; [|exact H].
  destruct (z <? 0) eqn:L; [apply Z.ltb_lt in L | apply Z.ltb_ge in L].
  - rewrite Z.abs_neq in D by lia. apply den_minus in D. replace (- - z) with z in D by lia. exact D.
  - rewrite Z.abs_eq in D by lia. apply den_positive, den_none. exact D.
Qed.
Print Assumptions C37_string_int64.
(* It is the shortest numeral, padded with zeros to the width. The prefix is not counted. *)
Theorem C37_string_width : forall z base w s, 0 <= z <= uint64_max -> to_string_u z base w = Some s ->
  exists pre ds, to_string_u z base 0 = Some (pre ++ ds) /\ s = pre ++ repeat "0"%char (w - length ds) ++ ds /\
    ((base = 10 /\ pre = []) \/ (base = 16 /\ pre = b "0x")) /\ (exists c ds', ds = c :: ds' /\ (c = "0"%char -> ds' = [])).
Proof. intros z base w s H E. destruct (to_string_u_ok z base w s H E) as (pre & ds & A & C & D & F & _). exists pre, ds. auto. Qed.
Print Assumptions C37_string_width.
(* Other bases are rejected. *)
Theorem C37_string_base : forall z base w, base <> 10 -> base <> 16 -> to_string_u z base w = None.
Proof. intros z base w A C. unfold to_string_u. apply Z.eqb_neq in A, C. rewrite A, C. reflexivity. Qed.
Print Assumptions C37_string_base.
Example ex_string : to_string_u 65535 16 8 = Some (b "0x0000ffff") /\ to_string_i (-10) 10 4 = Some (b "-0010") /\ to_string_i int64_min 16 0 = Some (b "-0x8000000000000000").
Proof. repeat split. Qed.

(* C47: the sequence is what is expected if the last step does not overflow. *)
Theorem C47_sequence : forall x e s n, 0 <= x -> 0 < s -> (forall k, (k < n)%nat -> x + Z.of_nat k * s < e) -> e <= x + Z.of_nat n * s -> x + Z.of_nat n * s < 2 ^ 64 ->
  forall r, sequence e s x r <-> r = map (fun k => x + Z.of_nat k * s) (seq 0 n).
Proof.
  intros x e s n Hx Hs Hk He Hw r. pose proof (sequence_ok e s n x Hx Hs He Hk Hw) as H. split.
  - intro R. exact (sequence_det _ _ _ _ R _ H).
  - intros ->. exact H.
Qed.
Print Assumptions C47_sequence.
Example ex_sequence : sequence 10 4 1 [1; 5; 9].
Proof. apply (C47_sequence 1 10 4 3); try lia; try reflexivity. Qed.
(* If it does, then it can go on forever. *)
Theorem C47_sequence_refuted : ~ exists r, sequence uint64_max (2 ^ 63) 0 r.
Proof.
  intros [r H]. assert (G : forall x r, sequence uint64_max (2 ^ 63) x r -> x = 0 \/ x = 2 ^ 63 -> False).
  { clear. intros x r H. induction H as [x L | x r L H IH]; intros [-> | ->].
    - unfold uint64_max in L. lia.
    - unfold uint64_max in L. lia.
    - apply IH. right. reflexivity.
    - apply IH. left. reflexivity. }
  exact (G 0 r H (or_introl eq_refl)).
Qed.
Print Assumptions C47_sequence_refuted.
(* And with the zero step there is a division by zero. *)
Theorem C47_zero_step_refuted : sequence_defined 0 1 0 = false.
Proof. reflexivity. Qed.
