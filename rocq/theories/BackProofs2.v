(* More proofs about backlinks: when an update succeeds, and which links there are. *)
From Verif Require Import Base ImpModel BackModel BackSpec BackProofs.

Lemma firstn_below k (d : list bytes) : below d (firstn k d).
Proof. exists (skipn k d). now rewrite firstn_skipn. Qed.
Lemma mkdir_ok n f d : n <= length d -> (forall q, q <> [] -> below d q -> match ent f q with None | Some Dir => True | _ => False end) -> exists f', mkdir_p n f d = (true, f').
Proof.
  intros L H. enough (exists f', mkdir_p n f d = (true, f') /\ forall q, q <> [] -> below d q -> match ent f' q with None | Some Dir => True | _ => False end) by (destruct H0 as (g & ? & _); eauto).
  induction n as [|n IH]; [exists f; auto|]. destruct IH as (f1 & M & IH); [lia|]. cbn [mkdir_p]. rewrite M. cbn [andthen].
  assert (NE : firstn (S n) d <> []) by (destruct d; [cbn in L; lia | discriminate]). pose proof (IH _ NE (firstn_below (S n) d)) as Q.
  destruct (ent f1 (firstn (S n) d)) as [[|i|t]|]; try contradiction; [eauto|]. eexists. split; [reflexivity|].
  intros q N B. destruct (dir_eqb q (firstn (S n) d)) eqn:X.
  - apply dir_eqb_iff in X. subst q. now rewrite put_same.
  - rewrite put_other by (intros ->; rewrite dir_eqb_refl in X; discriminate). now apply IH.
Qed.
Lemma make_ok f l e : is_dir f (removelast l) = true -> ent f l = None -> make f l e = (true, put f l (Some e)).
Proof. unfold make. intros -> ->. reflexivity. Qed.

Section Env.
Context (sym_ok : bool).
Definition ready (f : fs) (x : backlink) : Prop := is_dir f (removelast (b_link x)) = true /\ ent f (b_link x) <> Some Dir /\ (b_mode x = Symbolic -> sym_ok = true).
Lemma step_ok f x xs : sane xs -> regular f xs -> In x xs -> ready f x -> exists f', update_backlink sym_ok f x = (true, f').
Proof.
  intros S (R1 & _ & R3) I (D & ND & SY). unfold update_backlink. specialize (R1 x I). specialize (R3 x I).
  assert (A : exists f1, rmbacklink f x = (true, f1) /\ is_dir f1 (removelast (b_link x)) = true /\ ent f1 (b_target x) = ent f (b_target x) /\ (is_over (b_mode x) = false -> ent f1 (b_link x) = None) /\ (is_over (b_mode x) = true -> f1 = f)).
  { unfold rmbacklink. destruct (is_over (b_mode x)) eqn:O; [exists f; repeat split; auto; discriminate|].
    assert (RL : removelast (b_link x) <> b_link x).
    { intros E. apply (proj1 (proj2 (proj2 (proj2 S))) x x I I). exists []. now rewrite app_nil_r. }
    assert (LT : b_link x <> b_target x) by (now apply S).
    unfold rm. destruct (ent f (b_link x)) as [[|i|t]|] eqn:E; [contradiction| | |exists f; repeat split; auto; discriminate].
    all: eexists; split; [reflexivity|]; split; [|split; [apply put_other; congruence | split; [intros _; apply put_same | discriminate]]].
    all: unfold is_dir in *; destruct (removelast (b_link x)) as [|n r] eqn:RR; [reflexivity|]; rewrite put_other; auto. }
  destruct A as (f1 & -> & D1 & T1 & N1 & O1). cbn [andthen]. unfold read. rewrite T1. destruct (ent f (b_target x)) as [[|i|t]|] eqn:ET; try contradiction; [|eauto].
  assert (SYM : b_mode x <> Overwrite -> sym_ok = true -> exists f', mksym sym_ok f1 (b_target x) (b_link x) = (true, f')).
  { intros NO ->. unfold mksym. rewrite make_ok; eauto. apply N1. now destruct (b_mode x). }
  assert (HARD : b_mode x <> Overwrite -> exists f', mkhard f1 (b_target x) (b_link x) = (true, f')).
  { intros NO. unfold mkhard. rewrite T1. rewrite make_ok; eauto. apply N1. now destruct (b_mode x). }
  assert (CP : exists f', cpfile f1 (b_target x) (b_link x) = (true, f')).
  { unfold cpfile, read. rewrite T1. destruct (is_over (b_mode x)) eqn:O.
    - rewrite O1 in * by auto. assert (MO : b_mode x = Overwrite) by (now destruct (b_mode x)). specialize (R3 MO). destruct (ent f (b_link x)) as [[|j|t]|]; try contradiction; [eauto|]. rewrite D. eauto.
    - rewrite N1, D1 by auto. eauto. }
  destruct (b_mode x) eqn:MO; auto; try (apply HARD; discriminate); try (apply SYM; auto; discriminate).
  destruct sym_ok; [apply SYM; auto; discriminate | apply HARD; discriminate].
Qed.
Lemma update_all_succeeds xs0 xs f : sane xs0 -> regular f xs0 -> (forall x, In x xs -> In x xs0) -> NoDup (map b_link xs) -> (forall x, In x xs -> ready f x) -> exists f', update_all sym_ok f xs = (true, f').
Proof.
  intros S. revert f. induction xs as [|x xs IH]; intros f R I D RD; cbn [update_all]; [eauto|].
  assert (IX : In x xs0) by (apply I; now left). destruct (step_ok f x xs0 S R IX (RD x (or_introl eq_refl))) as (f1 & E). rewrite E. cbn [andthen].
  destruct (step _ _ _ _ _ _ S R IX E) as ((A & _ & _) & _). cbn in D. inversion D as [|? ? N D']; subst. apply IH; auto.
  - eapply regular_step; eauto.
  - intros y Y. apply I. now right.
  - intros y Y. destruct (RD y (or_intror Y)) as (K1 & K2 & K3).
    assert (LY : b_link y <> b_link x) by (intros Q; apply N; rewrite <- Q; now apply in_map).
    split; [|split; [rewrite A; auto | exact K3]]. unfold is_dir in *. destruct (removelast (b_link y)) as [|n r] eqn:RL; [reflexivity|]. rewrite A; [exact K1|].
    intros Q. apply (proj1 (proj2 (proj2 (proj2 S))) x y IX (I y (or_intror Y))). exists []. rewrite app_nil_r. congruence.
Qed.
End Env.

(* Values. *)
Lemma parse_says v gm m : parse_mode v gm = Some m <-> says v gm m.
Proof.
  unfold parse_mode. split.
  - destruct (beqb v (b "true")) eqn:E1; [apply beqb_eq in E1; subst; intros E; injection E as <-; constructor|].
    destruct (beqb v (b "symbolic")) eqn:E2; [apply beqb_eq in E2; subst; intros E; injection E as <-; constructor|].
    destruct (beqb v (b "hard")) eqn:E3; [apply beqb_eq in E3; subst; intros E; injection E as <-; constructor|].
    destruct (beqb v (b "copy")) eqn:E4; [apply beqb_eq in E4; subst; intros E; injection E as <-; constructor|].
    destruct (beqb v (b "overwrite")) eqn:E5; [apply beqb_eq in E5; subst; intros E; injection E as <-; constructor|].
    destruct (beqb v (b "false")) eqn:E6; [apply beqb_eq in E6; subst; intros E; injection E as <-; constructor|].
    destruct (beqb v (b "group")) eqn:E7; [apply beqb_eq in E7; subst|discriminate]. destruct gm as [g|]; [intros E; injection E as <-; constructor | discriminate].
  - intros []; reflexivity.
Qed.
Lemma test_value_iff ns gm r : test_value ns gm = Some r <-> value ns gm r.
Proof.
  split.
  - unfold test_value. destruct ns as [|[v|] [|[w|] [|z ns]]]; try discriminate.
    + destruct (parse_mode v gm) as [m|] eqn:P; [|discriminate]. apply parse_says in P. intros E.
      replace r with (match m with Some m => Some (m, true) | None => None end) by (destruct m; congruence). now constructor.
    + destruct (parse_mode v gm) as [m|] eqn:P; [|discriminate]. apply parse_says in P.
      destruct (beqb w (b "true")) eqn:T; [apply beqb_eq in T; subst w; intros E; assert (r = match m with Some m => Some (m, true) | None => None end) as -> by congruence; exact (value_two v gm m true P)|].
      destruct (beqb w (b "false")) eqn:F; [apply beqb_eq in F; subst w; intros E; assert (r = match m with Some m => Some (m, false) | None => None end) as -> by congruence; exact (value_two v gm m false P) | discriminate].
  - intros [v g m P|v g m p P]; unfold test_value; apply parse_says in P; rewrite P; [now destruct m | now destruct p].
Qed.
