From Coq Require Import Permutation NArith ZArith.
From Verif Require Import Base ExecModel ExecSpec ExecProofs.

(* C09. Executing the members of a slice fails if and only if some member
   fails, and otherwise reports the worst of the individual states; only the
   slots of the slice are modified. *)
Theorem C09_members_report_the_worst_state : forall kg ts p n, p + n <= length ts ->
  match straight_execute_members kg ts n p with
  | None => exists m, In (Some m) (slice ts p n) /\ fails kg m
  | Some (r, ts') =>
      (forall m, In (Some m) (slice ts p n) -> ~ fails kg m) /\
      worst r (unchanged :: map contribution (present (slice ts p n))) /\
      length ts' = length ts /\
      forall i, nth i ts' None =
                if (p <=? i) && (i <? p + n) then blanked (nth i ts None) else nth i ts None
  end.
Proof. exact straight_members. Qed.
Print Assumptions C09_members_report_the_worst_state.

Definition mem (impl fin : tstate) := Some (mkmember false impl fin false None true).

Example C09_members_ex :
  straight_execute_members false [mem unknown unchanged; mem postponed postponed; mem unknown changed; None] 3 0
  = Some (changed, [mem unknown unchanged; None; mem unknown changed; None]).
Proof. reflexivity. Qed.

Example C09_members_fail_ex :
  straight_execute_members true [mem unknown unchanged; mem unknown failed] 2 0 = None.
Proof. reflexivity. Qed.

(* Going through the members backwards makes no difference. *)
Theorem C09_direction_does_not_matter : forall kg ts p n, p + n <= length ts ->
  straight_execute_members kg ts n p = reverse_execute_members kg ts n (p + n).
Proof. exact straight_reverse. Qed.
Print Assumptions C09_direction_does_not_matter.

(* Nor does any other reordering. *)
Theorem C09_order_does_not_matter : forall kg ts ts', Permutation ts ts' ->
  option_map fst (straight_execute_members kg ts (length ts) 0) =
  option_map fst (straight_execute_members kg ts' (length ts') 0).
Proof. exact members_perm. Qed.
Print Assumptions C09_order_does_not_matter.

Example C09_order_ex :
  Permutation [mem unknown changed; None; mem postponed postponed] [None; mem postponed postponed; mem unknown changed].
Proof. apply (Permutation_cons_append [None; mem postponed postponed] (mem unknown changed)). Qed.

(* The merge itself. *)
Theorem C09_merge : forall l r, worst (fold_left merge l r) (r :: l).
Proof. exact fold_merge_worst. Qed.
Print Assumptions C09_merge.

(* A multi-step recipe (pre-operations, recipe, post-operations): failed if some
   step failed, the group's state if some step says so, and otherwise the
   target's state is the worst of the steps' states and the caller is told
   "changed" or "unchanged" (never "postponed"). *)
Theorem C09_recipe : forall pre recipe post gs,
  let steps := pre ++ (match recipe with Some x => [x] | None => [] end) ++ post in
  (In None steps -> execute_recipe pre recipe post gs = Some (failed, failed)) /\
  ((forall s, In s steps -> s = Some unchanged \/ s = Some changed \/ s = Some postponed) ->
     exists ret st, execute_recipe pre recipe post gs = Some (ret, st) /\
     worst st (unchanged :: flat_map (fun s => match s with Some x => [x] | None => [] end) steps) /\
     (In (Some changed) steps -> ret = changed) /\ (~ In (Some changed) steps -> ret = unchanged)) /\
  (In (Some group) steps -> ~ In None steps -> execute_recipe pre recipe post gs = Some (gs, group)).
Proof. exact recipe_spec. Qed.
Print Assumptions C09_recipe.

Example C09_recipe_ex :
  execute_recipe [Some unchanged] (Some (Some changed)) [Some postponed] unknown = Some (changed, changed).
Proof. reflexivity. Qed.

(* C39. The up-to-date decision. None for the state means "must be updated". *)
Theorem C39_up_to_date_decision : forall kg ts mt tt ef n0, n0 <= length ts ->
  let n := if n0 =? 0 then length ts else n0 in
  match execute_prerequisites kg ts mt tt ef n0 with
  | None => exists m, In (Some m) (slice ts 0 n) /\ fails kg m
  | Some ((o, rt), ts') =>
      (forall m, In (Some m) (slice ts 0 n) -> ~ fails kg m) /\
      (o = None <-> mt = timestamp_nonexistent \/
                    exists m, In (Some m) (slice ts 0 n) /\ m_impl m <> postponed /\ considered ef m /\ outdates mt m) /\
      (forall r, o = Some r -> worst r (unchanged :: map contribution (present (slice ts 0 n)))) /\
      (forall k, rt = Some k <-> tt = true /\ is_first_of_type ts n k) /\
      length ts' = length ts /\
      forall i, nth i ts' None = if i <? n then blanked (nth i ts None) else nth i ts None
  end.
Proof. exact (prereqs_gen false). Qed.
Print Assumptions C39_up_to_date_decision.

Definition src (mt : Z) (s : tstate) := Some (mkmember false unknown s true (Some mt) true).

Example C39_ex_up_to_date :
  execute_prerequisites false [src 5 unchanged; src 7 unchanged] 7 true false 0
  = Some ((Some unchanged, Some 0), [src 5 unchanged; src 7 unchanged]).
Proof. reflexivity. Qed.

Example C39_ex_out_of_date :
  execute_prerequisites false [src 5 unchanged; src 7 changed] 7 true false 0
  = Some ((None, Some 0), [src 5 unchanged; src 7 changed]).
Proof. reflexivity. Qed.

Theorem C39_direction_does_not_matter : forall kg ts mt tt ef n0, n0 <= length ts ->
  execute_prerequisites kg ts mt tt ef n0 = reverse_execute_prerequisites kg ts mt tt ef n0.
Proof. exact prereqs_straight_reverse. Qed.
Print Assumptions C39_direction_does_not_matter.

(* C10. Packing and unpacking. *)
Theorem C10_outer_action_unpacks : forall m i o, (m < 16)%N -> (i < 16)%N -> (o < 16)%N -> (0 < o)%N ->
  let a := act m i o in
  meta_operation a = m /\ operation a = i /\ outer_operation a = o /\ is_inner a = false /\
  inner_action a = act m i 0 /\ (outer_id a < 256)%N /\ (inner_id a < 256)%N.
Proof. exact action_roundtrip. Qed.
Print Assumptions C10_outer_action_unpacks.

Theorem C10_inner_action_unpacks : forall m i, (m < 16)%N -> (i < 16)%N ->
  let a := act m i 0 in
  meta_operation a = m /\ operation a = i /\ outer_operation a = 0%N /\ is_inner a = true /\ inner_action a = a /\
  act_of_id (to_id a) = a.
Proof. exact action_roundtrip_inner. Qed.
Print Assumptions C10_inner_action_unpacks.

Theorem C10_equality_is_identity : forall m i o m' i' o',
  (m < 16 -> i < 16 -> o < 16 -> m' < 16 -> i' < 16 -> o' < 16 ->
   (act_eq (act m i o) (act m' i' o') = true <-> (m = m' /\ i = i' /\ o = o')) /\
   act_ne (act m i o) (act m' i' o') = negb (act_eq (act m i o) (act m' i' o')))%N.
Proof. exact act_eq_identity. Qed.
Print Assumptions C10_equality_is_identity.

(* Mixed comparison: the forms with the id on the right are complementary... *)
Theorem C10_mixed_right : forall a x, act_ne_id a x = negb (act_eq_id a x).
Proof. exact (fun a x => eq_refl). Qed.
Print Assumptions C10_mixed_right.

(* ...but the != with the id on the left is not: it answers equality. *)
Theorem C10_mixed_left_refuted : exists x a,
  (x < 256)%N /\ id_eq_act x a = true /\ id_ne_act x a = true.
Proof. exact (ex_intro _ 17%N (ex_intro _ (act 1 1 0) (conj eq_refl (conj eq_refl eq_refl)))). Qed.
Print Assumptions C10_mixed_left_refuted.
