(* Proofs about comparing names. *)
From Verif Require Import Base LexModel NameModel NameSpec.

Section Weak.
Context {A : Type} (f : A -> A -> comparison) (H : weak_order f).
Lemma wo_refl x : f x x = Eq.
Proof. pose proof (proj1 H x x) as K. destruct (f x x); try discriminate. reflexivity. Qed.
Lemma wo_eq_sym x y : f x y = Eq -> f y x = Eq.
Proof. intros K. rewrite (proj1 H x y), K. reflexivity. Qed.
Lemma wo_flip x y : f x y = Gt <-> f y x = Lt.
Proof. rewrite (proj1 H x y). destruct (f x y); split; intros K; try discriminate; reflexivity. Qed.
Lemma wo_eq_l x y z : f x y = Eq -> f x z = f y z.
Proof.
  intros E. destruct (f x z) eqn:E1, (f y z) eqn:E2; try reflexivity; exfalso.
  - (* Eq, Lt *) assert (f z x <> Gt) as K1 by (rewrite (wo_eq_sym _ _ E1); discriminate). assert (f x y <> Gt) as K2 by (rewrite E; discriminate).
    pose proof (proj2 H z x y K1 K2) as K. apply K. apply wo_flip. exact E2.
  - assert (f y x <> Gt) as K1 by (rewrite (wo_eq_sym _ _ E); discriminate). assert (f x z <> Gt) as K2 by (rewrite E1; discriminate).
    pose proof (proj2 H y x z K1 K2). contradiction.
  - assert (f z y <> Gt) as K1 by (rewrite (wo_eq_sym _ _ E2); discriminate). assert (f y x <> Gt) as K2 by (rewrite (wo_eq_sym _ _ E); discriminate).
    pose proof (proj2 H z y x K1 K2) as K. apply K. apply wo_flip. exact E1.
  - assert (f y x <> Gt) as K1 by (rewrite (wo_eq_sym _ _ E); discriminate). assert (f x z <> Gt) as K2 by (rewrite E1; discriminate).
    pose proof (proj2 H y x z K1 K2). contradiction.
  - assert (f x y <> Gt) as K1 by (rewrite E; discriminate). assert (f y z <> Gt) as K2 by (rewrite E2; discriminate).
    pose proof (proj2 H x y z K1 K2). contradiction.
  - assert (f x y <> Gt) as K1 by (rewrite E; discriminate). assert (f y z <> Gt) as K2 by (rewrite E2; discriminate).
    pose proof (proj2 H x y z K1 K2). contradiction.
Qed.
Lemma wo_lt x y z : f x y = Lt -> f y z <> Gt -> f x z = Lt.
Proof.
  intros E1 E2. assert (f x z <> Gt) as K by (apply (proj2 H x y z); [rewrite E1; discriminate|exact E2]).
  destruct (f x z) eqn:E; [|reflexivity|contradiction]. exfalso. pose proof (wo_eq_l x z y E) as K2. rewrite E1 in K2. symmetry in K2. apply wo_flip in K2. contradiction.
Qed.
Lemma wo_lt2 x y z : f x y <> Gt -> f y z = Lt -> f x z = Lt.
Proof.
  intros E1 E2. assert (f x z <> Gt) as K by (apply (proj2 H x y z); [exact E1|rewrite E2; discriminate]).
  destruct (f x z) eqn:E; [|reflexivity|contradiction]. exfalso.
  assert (f z y <> Gt) as K2 by (rewrite <- (wo_eq_l x z y E); exact E1). apply K2. apply wo_flip. exact E2.
Qed.
End Weak.

Lemma wo_then {A} (f g : A -> A -> comparison) : weak_order f -> weak_order g -> weak_order (fun x y => then_ (f x y) (g x y)).
Proof.
  intros Hf Hg. split.
  - intros x y. rewrite (proj1 Hf x y), (proj1 Hg x y). destruct (f x y); reflexivity.
  - intros x y z Hxy Hyz. destruct (f x y) eqn:E1; cbn [then_] in *; [| |contradiction].
    + rewrite (wo_eq_l f Hf x y z E1). destruct (f y z) eqn:E2; cbn [then_] in *; [|discriminate|contradiction]. eapply (proj2 Hg); eassumption.
    + rewrite (wo_lt f Hf x y z E1); [discriminate|]. destruct (f y z); [discriminate|discriminate|exact Hyz].
Qed.
Lemma wo_pull {A B} (h : A -> B) (f : B -> B -> comparison) : weak_order f -> weak_order (fun x y => f (h x) (h y)).
Proof. intros [H1 H2]. split; [intros x y; apply H1|intros x y z; apply H2]. Qed.
Lemma wo_option {A} (f : A -> A -> comparison) : weak_order f -> weak_order (ocompare f).
Proof.
  intros [H1 H2]. split; [intros [x|] [y|]; try reflexivity; apply H1|].
  intros [x|] [y|] [z|]; cbn [ocompare]; try congruence. apply H2.
Qed.
Lemma wo_nat : weak_order Nat.compare.
Proof.
  split; [intros x y; apply Nat.compare_antisym|]. intros x y z. rewrite !Nat.compare_gt_iff. lia.
Qed.
Lemma wo_z : weak_order Z.compare.
Proof.
  split; [intros x y; apply Z.compare_antisym|]. intros x y z. rewrite !Z.compare_gt_iff. lia.
Qed.
Lemma wo_string : weak_order scompare.
Proof.
  split.
  - intros x. induction x as [|a x IH]; intros [|c y]; try reflexivity. cbn [scompare]. rewrite (Nat.compare_antisym (code a) (code c)).
    destruct (Nat.compare (code a) (code c)); cbn [CompOpp]; [apply IH|reflexivity|reflexivity].
  - intros x. induction x as [|a x IH]; intros [|c y] [|d z]; cbn [scompare]; try congruence.
    destruct (Nat.compare (code a) (code c)) eqn:E1, (Nat.compare (code c) (code d)) eqn:E2; try congruence;
      rewrite ?Nat.compare_eq_iff, ?Nat.compare_lt_iff, ?Nat.compare_gt_iff in *; intros K1 K2.
    + assert (Nat.compare (code a) (code d) = Eq) as -> by (apply Nat.compare_eq_iff; lia). eapply IH; eassumption.
    + assert (Nat.compare (code a) (code d) = Lt) as -> by (apply Nat.compare_lt_iff; lia). discriminate.
    + assert (Nat.compare (code a) (code d) = Lt) as -> by (apply Nat.compare_lt_iff; lia). discriminate.
    + assert (Nat.compare (code a) (code d) = Lt) as -> by (apply Nat.compare_lt_iff; lia). discriminate.
Qed.
Lemma code_inj a c : code a = code c -> a = c.
Proof. unfold code. intros H. rewrite <- (ascii_nat_embedding a), <- (ascii_nat_embedding c), H. reflexivity. Qed.
Lemma scompare_eq x y : scompare x y = Eq <-> x = y.
Proof.
  split; [|intros ->; apply (wo_refl _ wo_string)]. revert y. induction x as [|a x IH]; intros [|c y]; cbn [scompare]; try discriminate; [reflexivity|].
  destruct (Nat.compare (code a) (code c)) eqn:E; try discriminate. intros H. apply Nat.compare_eq_iff, code_inj in E. subst. f_equal. apply IH. exact H.
Qed.
Lemma schar_inj a c : schar a = schar c -> a = c.
Proof.
  unfold schar. cbv zeta. intros H. apply code_inj. pose proof (nat_ascii_bounded a). pose proof (nat_ascii_bounded c). fold (code a) in *. fold (code c) in *.
  destruct (Z.ltb_spec (Z.of_nat (code a)) 128), (Z.ltb_spec (Z.of_nat (code c)) 128); lia.
Qed.

Section Names.
Context (cp cd : bytes -> bytes -> comparison) (Hp : weak_order cp) (Hd : weak_order cd).
Lemma compare_weak : weak_order (compare cp cd).
Proof.
  unfold compare. repeat apply wo_then.
  - apply (wo_pull proj (ocompare cp)), wo_option, Hp.
  - apply (wo_pull dir cd), Hd.
  - apply (wo_pull type scompare), wo_string.
  - apply (wo_pull value scompare), wo_string.
  - apply (wo_pull (fun n => schar (pair n)) Z.compare), wo_z.
  - apply (wo_pull pattern (ocompare (fun p r => Nat.compare (pcode p) (pcode r)))), wo_option, (wo_pull pcode Nat.compare), wo_nat.
Qed.
Lemma then_eq r f : then_ r f = Eq <-> r = Eq /\ f = Eq.
Proof. destruct r; cbn; split; try tauto; try discriminate; intros [K _]; discriminate. Qed.
Lemma compare_eq x y : compare cp cd x y = Eq <->
  ocompare cp (proj x) (proj y) = Eq /\ cd (dir x) (dir y) = Eq /\ type x = type y /\ value x = value y /\ pair x = pair y /\ pattern x = pattern y.
Proof.
  unfold compare. rewrite !then_eq, !scompare_eq, Z.compare_eq_iff.
  assert (ocompare (fun p r => Nat.compare (pcode p) (pcode r)) (pattern x) (pattern y) = Eq <-> pattern x = pattern y) as ->.
  { destruct (pattern x) as [[]|], (pattern y) as [[]|]; cbn; split; intros K; try discriminate; reflexivity. }
  split; intros [H1 [H2 [H3 [H4 [H5 H6]]]]]; repeat split; auto; [apply schar_inj; exact H5|congruence].
Qed.
End Names.

Lemma ocompare_eq {A} (f : A -> A -> comparison) : (forall x y, f x y = Eq <-> x = y) -> forall x y, ocompare f x y = Eq <-> x = y.
Proof.
  intros H [x|] [y|]; cbn; split; intros K; try discriminate; try reflexivity; [f_equal; apply H; exact K|injection K as ->; apply H; reflexivity].
Qed.
