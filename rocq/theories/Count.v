(* Lists of things with positions: updating one and counting. Nothing here is
   specific to build2. *)
From Verif Require Import Base.

Fixpoint lupd {X} (l : list X) (i : nat) (x : X) : list X :=
  match l, i with
  | [], _ => []
  | _ :: l', 0 => x :: l'
  | y :: l', S i' => y :: lupd l' i' x
  end.

Definition num {X} (p : X -> bool) (l : list X) : nat := length (filter p l).
Definition b2n (x : bool) : nat := if x then 1 else 0.

Lemma num_cons {X} (p : X -> bool) x l : num p (x :: l) = b2n (p x) + num p l.
Proof. unfold num. simpl. destruct (p x); reflexivity. Qed.
Lemma num_app {X} (p : X -> bool) l l' : num p (l ++ l') = num p l + num p l'.
Proof. unfold num. rewrite filter_app, app_length. reflexivity. Qed.
Lemma num_snoc {X} (p : X -> bool) l x : num p (l ++ [x]) = num p l + b2n (p x).
Proof. rewrite num_app, num_cons. unfold num at 2. simpl. lia. Qed.
Lemma num_map {X Y} (p : Y -> bool) (f : X -> Y) l : num p (map f l) = num (fun x => p (f x)) l.
Proof. induction l as [|x l IH]; [reflexivity|]. simpl map. rewrite !num_cons, IH. reflexivity. Qed.
Lemma num_ext {X} (p q : X -> bool) l : (forall x, p x = q x) -> num p l = num q l.
Proof. intros H. induction l as [|x l IH]; [reflexivity|]. rewrite !num_cons, IH, H. reflexivity. Qed.
Lemma num_zero {X} (p : X -> bool) l x : num p l = 0 -> In x l -> p x = false.
Proof.
  intros H Hi. destruct (p x) eqn:E; [|reflexivity]. unfold num in H. apply length_zero_iff_nil in H.
  assert (In x (filter p l)) as K by (apply filter_In; auto). rewrite H in K. destruct K.
Qed.
Lemma num_zero_iff {X} (p : X -> bool) l : num p l = 0 <-> forall x, In x l -> p x = false.
Proof.
  split; [intros; eapply num_zero; eauto|]. intros H. induction l as [|x l IH]; [reflexivity|].
  rewrite num_cons, IH by (intros; apply H; right; assumption). rewrite H by (left; reflexivity). reflexivity.
Qed.
Lemma num_pos {X} (p : X -> bool) l i x : nth_error l i = Some x -> p x = true -> 1 <= num p l.
Proof.
  intros H E. apply nth_error_split in H. destruct H as [l1 [l2 [-> _]]]. rewrite num_app, num_cons, E. cbn. lia.
Qed.
Lemma num_pos_ex {X} (p : X -> bool) l : num p l <> 0 -> exists i x, nth_error l i = Some x /\ p x = true.
Proof.
  induction l as [|y l IH]; intros H; [destruct (H eq_refl)|]. rewrite num_cons in H. destruct (p y) eqn:E.
  - exists 0, y. auto.
  - destruct IH as [i [x [H1 H2]]]; [cbn in H; lia|]. exists (S i), x. auto.
Qed.
Lemma num_two {X} (p : X -> bool) l i j x y : nth_error l i = Some x -> nth_error l j = Some y -> p x = true -> p y = true -> i <> j -> 2 <= num p l.
Proof.
  revert i j; induction l as [|z l IH]; intros [|i] [|j] Hi Hj Hx Hy Hn; simpl in *; try discriminate; try contradiction; rewrite num_cons.
  - injection Hi as ->. rewrite Hx. pose proof (num_pos p l j y Hj Hy). cbn. lia.
  - injection Hj as ->. rewrite Hy. pose proof (num_pos p l i x Hi Hx). cbn. lia.
  - specialize (IH i j Hi Hj Hx Hy). assert (i <> j) as Hij by lia. specialize (IH Hij). lia.
Qed.

Lemma lupd_length {X} (l : list X) : forall i x, length (lupd l i x) = length l.
Proof. induction l as [|y l IH]; intros [|i] x; simpl; auto. Qed.
Lemma lupd_same {X} (l : list X) : forall i x t, nth_error l i = Some t -> nth_error (lupd l i x) i = Some x.
Proof. induction l as [|y l IH]; intros [|i] x t H; simpl in *; try discriminate; eauto. Qed.
Lemma lupd_other {X} (l : list X) : forall i j x, i <> j -> nth_error (lupd l i x) j = nth_error l j.
Proof. induction l as [|y l IH]; intros [|i] [|j] x H; simpl in *; try reflexivity; try contradiction. apply IH. lia. Qed.
Lemma lupd_nth {X} (l : list X) i x j y : nth_error (lupd l i x) j = Some y -> (j = i /\ y = x) \/ (j <> i /\ nth_error l j = Some y).
Proof.
  intros H. destruct (Nat.eq_dec i j) as [->|Hn].
  - left. split; [reflexivity|]. assert (j < length (lupd l j x)) as Hl by (apply nth_error_Some; congruence). rewrite lupd_length in Hl.
    apply nth_error_Some in Hl. destruct (nth_error l j) as [t|] eqn:E; [|contradiction]. rewrite (lupd_same _ _ _ _ E) in H. congruence.
  - rewrite lupd_other in H by assumption. right. split; [lia|exact H].
Qed.
Lemma lupd_in {X} (l : list X) i x y : In y (lupd l i x) -> y = x \/ In y l.
Proof.
  intros H. apply In_nth_error in H. destruct H as [j H]. apply lupd_nth in H. destruct H as [[_ H]|[_ H]]; [auto|]. right. eapply nth_error_In; eauto.
Qed.
Lemma num_lupd {X} (p : X -> bool) (l : list X) : forall i t x, nth_error l i = Some t -> num p (lupd l i x) + b2n (p t) = num p l + b2n (p x).
Proof.
  induction l as [|y l IH]; intros [|i] t x H; simpl in H; try discriminate; simpl; rewrite !num_cons.
  - injection H as ->. lia.
  - specialize (IH _ _ x H). lia.
Qed.
