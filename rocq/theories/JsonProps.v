(* C30-C32: comparing, appending and prepending of JSON values. *)
From Verif Require Import Base NameModel NameSpec NameProofs JsonModel JsonSpec JsonProofs JsonProofs2.
Notation compare := JsonModel.compare.

(* C30: comparing is antisymmetric and transitive. *)
Theorem C30_order :
  (forall x y, wf x -> wf y -> compare y x = CompOpp (compare x y)) /\
  (forall x y z, wf x -> wf y -> wf z -> compare x y <> Gt -> compare y z <> Gt -> compare x z <> Gt).
Proof.
  split.
  - intros x y Wx Wy. rewrite !compare_norm by assumption. apply ncompare_anti.
  - intros x y z Wx Wy Wz. rewrite !compare_norm by assumption. intros H1 H2.
    destruct (ncompare (norm x) (norm y)) eqn:E1; [apply ncompare_eq in E1; rewrite E1; exact H2| |contradiction].
    destruct (ncompare (norm y) (norm z)) eqn:E2; [apply ncompare_eq in E2; rewrite <- E2, E1; discriminate| |contradiction].
    rewrite (ncompare_lt _ _ _ E1 E2). discriminate.
Qed.
Print Assumptions C30_order.

(* C30: and values are equal if they are the same value. *)
Theorem C30_equal x y : wf x -> wf y -> compare x y = Eq <-> same x y.
Proof. intros Wx Wy. rewrite compare_norm, ncompare_eq, same_norm by assumption. reflexivity. Qed.
Print Assumptions C30_equal.

(* C30: values that are the same are not told apart. *)
Theorem C30_same x x' y : wf x -> wf x' -> wf y -> same x x' -> compare x y = compare x' y /\ compare y x = compare y x'.
Proof. intros Wx Wx' Wy H. apply same_norm in H; [|assumption|assumption]. rewrite !compare_norm by assumption. rewrite H. split; reflexivity. Qed.
Print Assumptions C30_same.

(* C30: values of different kinds are ordered by the kind with null being the
   smallest; numbers are compared by value. *)
Theorem C30_kinds x y : kind x <> kind y -> compare x y = Nat.compare (kind x) (kind y).
Proof. intros H. destruct x, y; try reflexivity; contradiction H; reflexivity. Qed.
Print Assumptions C30_kinds.
Theorem C30_numbers x y u v : wf x -> wf y -> num x = Some u -> num y = Some v -> compare x y = Z.compare u v.
Proof.
  intros Wx Wy Hu Hv. rewrite compare_norm by assumption. destruct x; try discriminate; destruct y; try discriminate; injection Hu as ->; injection Hv as ->; reflexivity.
Qed.
Print Assumptions C30_numbers.
Theorem C30_null x : x <> JNull -> compare JNull x = Lt.
Proof. destruct x; [congruence|reflexivity..]. Qed.
Print Assumptions C30_null.

(* C30: arrays are compared lexicographically and so are objects, with their members
   in the order of the names. *)
Theorem C30_arrays u v : compare (JArray u) (JArray v) = lex compare u v.
Proof. reflexivity. Qed.
Print Assumptions C30_arrays.
Theorem C30_objects o p o' p' : NoDup (names o) -> NoDup (names p) -> in_order o o' -> in_order p p' ->
  compare (JObject o) (JObject p) = lex (member_compare compare) o' p'.
Proof. apply compare_objects. Qed.
Print Assumptions C30_objects.
Theorem C30_member_order o p y : wf (JObject o) -> wf y -> Permutation o p -> compare (JObject o) y = compare (JObject p) y.
Proof.
  intros Wo Wy P. apply wf_object in Wo. destruct Wo as [No Wo].
  assert (wf (JObject p)) as Wp. { apply wf_object. split; [apply (Permutation_NoDup (Permutation_map fst P) No)|apply (Permutation_Forall P Wo)]. }
  apply (proj1 (C30_same (JObject o) (JObject p) y ltac:(apply wf_object; auto) Wp Wy ltac:(
    apply (same_object o p o); [apply Permutation_sym; exact P|];
    assert (forall x, wf x -> same x x) as R by (intros x Wx; apply same_norm; auto);
    clear - Wo R; induction Wo as [|m o Hm Ho IH]; constructor; [split; [reflexivity|apply R; exact Hm]|exact IH]))).
Qed.
Print Assumptions C30_member_order.

(* C30: contrary to the documentation, an object without a member can be greater
   than the one with it: {"b":1} is greater than {"a":null} although a is the first
   member in which they differ and the first object does not have it. *)
Theorem C30_absent_member_refuted :
  exists o p k, wf (JObject o) /\ wf (JObject p) /\ In k (names p) /\ ~ In k (names o) /\
    (forall l, In l (names o ++ names p) -> scompare l k <> Lt) /\ (* The first one in which they differ. *)
    compare (JObject o) (JObject p) = Gt.
Proof.
  exists [(b "b", JSigned false 1)], [(b "a", JNull)], (b "a"). split; [apply wf_object; split; [repeat constructor; intros []|repeat constructor; discriminate]|].
  split; [apply wf_object; split; [repeat constructor; intros []|repeat constructor]|]. split; [left; reflexivity|]. split; [intros [K|[]]; discriminate|].
  split; [|vm_compute; reflexivity]. intros l [<-|[<-|[]]]; vm_compute; discriminate.
Qed.
Print Assumptions C30_absent_member_refuted.
(* But it is true if the other object only lacks members at the end. *)
Theorem C30_absent_member o p k v : wf (JObject o) -> wf (JObject ((k, v) :: o)) -> Permutation p ((k, v) :: o) -> (forall l, In l (names o) -> scompare l k = Lt) ->
  compare (JObject o) (JObject p) = Lt.
Proof.
  intros Wo Wp P H. apply wf_object in Wo, Wp. destruct Wo as [No Wo], Wp as [Np Wp].
  assert (NoDup (names p)) as Np' by (apply (Permutation_NoDup (Permutation_map fst (Permutation_sym P)) Np)).
  assert (in_order p (isort o ++ [(k, v)])) as I.
  { split; [rewrite P; rewrite (isort_perm o) at 1; apply Permutation_cons_append|].
    pose proof (isort_sorted o No) as S. assert (Forall (fun m => scompare (fst m) k = Lt) (isort o)) as F by (apply (Permutation_Forall (isort_perm o)); apply Forall_forall; intros m Hm; apply H; apply (in_map fst); exact Hm).
    clear - S F. induction S as [|m s S IH Hm]; cbn; [repeat constructor|]. inversion F; subst. constructor; [apply IH; assumption|]. apply Forall_app. split; [assumption|]. constructor; [assumption|constructor]. }
  rewrite (compare_objects o p _ _ No Np' (conj (isort_perm o) (isort_sorted o No)) I).
  assert (Forall (fun m => wf (snd m)) (isort o)) as W by (apply (Permutation_Forall (isort_perm o) Wo)).
  clear - W. induction W as [|m s Hm W IH]; [reflexivity|]. cbn. unfold member_compare at 1. rewrite (wo_refl _ wo_string). cbn [then_].
  rewrite compare_norm by assumption. rewrite (proj2 (ncompare_eq _ _) eq_refl). exact IH.
Qed.
Print Assumptions C30_absent_member.

Definition ex1 : json := JObject [(b "b", JArray [JSigned true 1; JNull]); (b "a", JUnsigned false 5)].
Definition ex2 : json := JObject [(b "a", JSigned false 5); (b "b", JArray [JUnsigned false 1; JString (b "x")])].
Example C30_ex : wf ex1 /\ wf ex2 /\ compare ex1 ex2 = Lt /\ compare ex2 ex1 = Gt /\ ex1 <> ex2 /\ kind ex1 = 5.
Proof.
  split; [|split; [|repeat split; try (vm_compute; reflexivity); discriminate]].
  - cbn; repeat split; try lia; repeat constructor; cbn; intuition discriminate.
  - cbn; repeat split; try lia; repeat constructor; cbn; intuition discriminate.
Qed.
Example C30_absent_ex : compare (JObject [(b "a", JNull)]) (JObject [(b "b", JNull); (b "a", JNull)]) = Lt.
Proof. vm_compute. reflexivity. Qed.

(* C31: the sum, if it can be represented. What is missing from the full property
   (the sum or an error, for all numbers) is refuted below. *)
Theorem C31_sum_partial l r u v : wf l -> wf r -> num l = Some u -> num r = Some v ->
  (- 2 ^ 63 < u + v < 2 ^ 64)%Z -> (forall w, r = JSigned true w -> (0 <= w)%Z) ->
  exists x, append l r = Value x /\ prepend l r = Value x /\ num x = Some (u + v)%Z /\ wf x.
Proof.
  intros Wl Wr Nl Nr H Hh. destruct (append_numbers_sum l r u v Wl Wr Nl Nr Hh H) as [x [E1 E2]]. exists x.
  assert (number r = true) as Nr' by (destruct r; try discriminate; reflexivity).
  assert (forall f ov, add f ov l r = Value x) as K. { intros f ov. destruct l; try discriminate; destruct r; try discriminate; unfold add; cbn [number]; rewrite E1; reflexivity. }
  split; [apply K|]. split; [apply K|]. split; [exact E2|]. exact (append_numbers_wf _ _ _ Wl Wr Nr' E1).
Qed.
Print Assumptions C31_sum_partial.

(* C31: what is not the sum or an error: a sum that is out of range wraps around and
   a negative hexadecimal number is taken for a big positive one. *)
Theorem C31_sum_or_rejected_refuted :
  exists l r x, wf l /\ wf r /\ num l = Some (2 ^ 64 - 1)%Z /\ num r = Some 1%Z /\ append l r = Value x /\ num x = Some 0%Z.
Proof.
  exists (JUnsigned false (2 ^ 64 - 1)), (JUnsigned false 1), (JUnsigned false 0). split; [cbn; lia|]. split; [cbn; lia|]. repeat split; vm_compute; reflexivity.
Qed.
Print Assumptions C31_sum_or_rejected_refuted.
Theorem C31_hexadecimal_refuted :
  exists l r x, wf l /\ wf r /\ num l = Some (-5)%Z /\ num r = Some (-1)%Z /\ append l r = Value x /\ num x = Some (2 ^ 64 - 6)%Z.
Proof.
  exists (JSigned false (-5)), (JSigned true (-1)), (JUnsigned false (2 ^ 64 - 6)). split; [cbn; lia|]. split; [cbn; lia|]. repeat split; vm_compute; reflexivity.
Qed.
Print Assumptions C31_hexadecimal_refuted.
Example C31_ex : wf (JUnsigned true 5) /\ append (JUnsigned true 5) (JSigned false (-7)) = Value (JSigned true (-2)) /\ append (JSigned false (-2)) (JUnsigned true 7) = Value (JUnsigned false 5).
Proof. split; [cbn; lia|]. split; vm_compute; reflexivity. Qed.

(* C32: appending an object. *)
Theorem C32_append_object o p : NoDup (names o) -> NoDup (names p) ->
  exists r, append (JObject o) (JObject p) = Value (JObject r) /\
    names r = names o ++ filter (absent o) (names p) /\ NoDup (names r) /\
    forall k v, member k r v <-> member k p v \/ (~ In k (names p) /\ member k o v).
Proof.
  intros No Np. exists (merge false true o p). split; [reflexivity|].
  assert (forall q, names (added o q) = filter (absent o) (names q)) as E. { intros q. unfold added, names. induction q as [|m q IH]; [reflexivity|]. cbn. destruct (absent o (fst m)); cbn; rewrite IH; reflexivity. }
  destruct (fold_append p false true o No Np) as [K1 [K2 K3]]. rewrite E in K1.
  destruct o as [|m o]; [|split; [exact K1|split; [exact K2|exact K3]]]. cbn [merge]. split; [cbn; clear; induction (names p) as [|k q IH]; [reflexivity|]; cbn; f_equal; exact IH|].
  split; [exact Np|]. intros k v. unfold member. cbn. tauto.
Qed.
Print Assumptions C32_append_object.
(* C32: prepending an object. *)
Theorem C32_prepend_object o p : NoDup (names o) -> NoDup (names p) ->
  exists r added, prepend (JObject o) (JObject p) = Value (JObject r) /\
    names r = added ++ names o /\ Permutation added (filter (absent o) (names p)) /\ NoDup (names r) /\
    forall k v, member k r v <-> member k o v \/ (~ In k (names o) /\ member k p v).
Proof.
  intros No Np. exists (merge true false o p).
  assert (forall q, names (added o q) = filter (absent o) (names q)) as E. { intros q. unfold added, names. induction q as [|m q IH]; [reflexivity|]. cbn. destruct (absent o (fst m)); cbn; rewrite IH; reflexivity. }
  destruct (fold_append p true false o No Np) as [K1 [K2 K3]]. rewrite E in K1.
  destruct o as [|m o].
  - exists (names p). split; [reflexivity|]. cbn [merge]. split; [cbn; rewrite app_nil_r; reflexivity|]. split; [clear; induction (names p) as [|k q IH]; [reflexivity|]; cbn; constructor; exact IH|].
    split; [exact Np|]. intros k v. unfold member. cbn. tauto.
  - exists (rev (filter (absent (m :: o)) (names p))). split; [reflexivity|]. split; [exact K1|]. split; [symmetry; apply Permutation_rev|]. split; [exact K2|exact K3].
Qed.
Print Assumptions C32_prepend_object.
(* C32: but unlike those of an array, the order of the new members is reversed (and
   only if the object is not empty). *)
Theorem C32_prepend_order_refuted :
  exists o p r, NoDup (names o) /\ NoDup (names p) /\ (forall k, In k (names p) -> ~ In k (names o)) /\
    prepend (JObject o) (JObject p) = Value (JObject r) /\ names r <> names p ++ names o.
Proof.
  exists [(b "c", JNull)], [(b "a", JNull); (b "b", JNull)]. eexists. split; [repeat constructor; intros []|]. split; [repeat constructor; cbn; intuition discriminate|].
  split; [intros k [<-|[<-|[]]] [K|[]]; discriminate|]. split; [vm_compute; reflexivity|]. discriminate.
Qed.
Print Assumptions C32_prepend_order_refuted.

(* C32: the other types. *)
Theorem C32_others :
  (forall v, append JNull v = Value v /\ prepend JNull v = Value v) /\
  (forall l, (forall a, l <> JArray a) -> append l JNull = Value l /\ prepend l JNull = Value l) /\
  (forall u v, append (JBool u) (JBool v) = Value (JBool (u || v)) /\ prepend (JBool u) (JBool v) = Value (JBool (u || v))) /\
  (forall u v, append (JString u) (JString v) = Value (JString (u ++ v)) /\ prepend (JString u) (JString v) = Value (JString (v ++ u))) /\
  (forall u v, append (JArray u) (JArray v) = Value (JArray (u ++ v)) /\ prepend (JArray u) (JArray v) = Value (JArray (v ++ u))) /\
  (forall u v, kind v <> 4 -> append (JArray u) v = Value (JArray (u ++ [v])) /\ prepend (JArray u) v = Value (JArray ([v] ++ u))).
Proof.
  split; [intros v; split; reflexivity|]. split; [intros l H; destruct l; try (split; reflexivity); contradiction (H v); reflexivity|].
  split; [intros u v; split; reflexivity|]. split; [intros u v; split; reflexivity|]. split; [intros u v; split; reflexivity|].
  intros u v H. destruct v; try (split; reflexivity). contradiction H. reflexivity.
Qed.
Print Assumptions C32_others.

(* C32: the values are incompatible if they are of different kinds, except that
   anything can be added to an array or null and null can be added to anything. *)
Theorem C32_incompatible l v :
  (append l v = Incompatible <-> kind l <> 0 /\ kind l <> 4 /\ kind v <> 0 /\ kind l <> kind v) /\
  (prepend l v = Incompatible <-> kind l <> 0 /\ kind l <> 4 /\ kind v <> 0 /\ kind l <> kind v).
Proof.
  assert (forall f ov, add f ov l v = Incompatible <-> kind l <> 0 /\ kind l <> 4 /\ kind v <> 0 /\ kind l <> kind v) as K; [|split; apply K].
  intros f ov. destruct l as [|x|h x|h x|x|x|x], v as [|y|h' y|h' y|y|y|y]; unfold add; cbn [number kind];
    try (destruct (append_numbers _ _)); (split; [intros K; first [discriminate K|repeat split; discriminate]|intros [K1 [K2 [K3 K4]]]; first [reflexivity|exfalso; congruence]]).
Qed.
Print Assumptions C32_incompatible.

(* C32: and the result is well-formed: in particular, there are never any duplicate
   members, at any depth, and no number is out of range. *)
Theorem C32_well_formed l v r : wf l -> wf v -> append l v = Value r \/ prepend l v = Value r -> wf r.
Proof. intros Wl Wv [H|H]; exact (add_wf _ _ _ _ _ Wl Wv H). Qed.
Print Assumptions C32_well_formed.
Example C32_ex : append ex1 (JObject [(b "c", JNull); (b "a", JBool true)]) = Value (JObject [(b "b", JArray [JSigned true 1; JNull]); (b "a", JBool true); (b "c", JNull)]) /\
  prepend ex1 (JObject [(b "c", JNull); (b "a", JBool true)]) = Value (JObject [(b "c", JNull); (b "b", JArray [JSigned true 1; JNull]); (b "a", JUnsigned false 5)]).
Proof. split; vm_compute; reflexivity. Qed.
