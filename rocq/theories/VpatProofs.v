From Verif Require Import Base VarModel VpatModel VpatSpec.
From Coq Require Import Lia.

Lemma existsb_dot n : existsb (ceqb DOT) n = true <-> In DOT n.
Proof.
  rewrite existsb_exists. split.
  - intros (x & I & E). apply Ascii.eqb_eq in E. subst. exact I.
  - intro I. exists DOT. split; [exact I | apply Ascii.eqb_refl].
Qed.
Lemma existsb_ndot n : existsb (ceqb DOT) n = false <-> ~ In DOT n.
Proof. rewrite <- existsb_dot. destruct (existsb _ n); split; intuition congruence. Qed.

Lemma skip_skip {A} x y (l : list A) : skipn x (skipn y l) = skipn (y + x) l.
Proof. revert l. induction y as [|y IH]; intro l; [reflexivity|]. destruct l; [destruct x; reflexivity|]. cbn. apply IH. Qed.

Section P.
Context {T : Type}.
Notation vpat := (vpat T).
Notation M n := (fun p : vpat => match_pattern n (pfx p) (sfx p) (multi p)).

Lemma match_pattern_iff n p s m : match_pattern n p s m = true <-> exists stem, n = p ++ stem ++ s /\ stem <> [] /\ (m = false -> ~ In DOT stem).
Proof.
  unfold match_pattern. split.
  - destruct (length n <? length p + length s + 1) eqn:E1; [discriminate|]. apply Nat.ltb_ge in E1.
    destruct (negb (length p =? 0) && negb (beqb (firstn (length p) n) p)) eqn:E2; [discriminate|].
    destruct (negb (length s =? 0) && _) eqn:E3; [discriminate|]. intro E4.
    assert (P : firstn (length p) n = p).
    { destruct (length p =? 0) eqn:Z; [apply Nat.eqb_eq in Z; destruct p; [reflexivity | discriminate]|].
      cbn in E2. apply negb_false_iff in E2. apply beqb_eq in E2. exact E2. }
    assert (S' : skipn (length n - length s) n = s).
    { destruct (length s =? 0) eqn:Z.
      - apply Nat.eqb_eq in Z; destruct s; [|discriminate]. cbn. rewrite Nat.sub_0_r. apply skipn_all.
      - cbn in E3. apply negb_false_iff in E3. apply beqb_eq in E3.
        rewrite firstn_all2 in E3; [exact E3|]. rewrite skipn_length. lia. }
    exists (firstn (length n - length p - length s) (skipn (length p) n)). split; [|split].
    + rewrite <- (firstn_skipn (length p) n) at 1. rewrite P. f_equal.
      rewrite <- (firstn_skipn (length n - length p - length s) (skipn (length p) n)) at 1. f_equal.
      rewrite skip_skip. etransitivity; [|exact S']; f_equal; lia.
    + intro E. apply (f_equal (@length ascii)) in E. rewrite firstn_length_le in E by (rewrite skipn_length; lia). cbn in E. lia.
    + intro Hm. subst m. cbn in E4. apply negb_true_iff in E4. apply existsb_ndot in E4. exact E4.
  - intros (st & E & Hs & Hd). subst n. rewrite !app_length.
    assert (length st <> 0) by (destruct st; [congruence | cbn; lia]).
    replace (_ <? _) with false by (symmetry; apply Nat.ltb_ge; lia).
    rewrite firstn_app, Nat.sub_diag, firstn_all, firstn_O, app_nil_r, beqb_refl. rewrite Bool.andb_false_r.
    replace (length p + (length st + length s) - length s) with (length p + length st) by lia.
    rewrite app_assoc, skipn_app, (skipn_all2 (p ++ st)) by (rewrite app_length; lia).
    rewrite app_length, Nat.sub_diag. cbn [skipn app]. rewrite firstn_all, beqb_refl, Bool.andb_false_r.
    replace (length p + (length st + length s) - length p - length s) with (length st) by lia.
    rewrite <- app_assoc, skipn_app, skipn_all, Nat.sub_diag. cbn [skipn app]. rewrite firstn_app, Nat.sub_diag, firstn_all, firstn_O, app_nil_r.
    destruct m; [reflexivity|]. cbn. apply negb_true_iff. apply existsb_ndot. apply Hd. reflexivity.
Qed.
Lemma matches_iff n (p : vpat) : match_pattern n (pfx p) (sfx p) (multi p) = true <-> matches n p.
Proof. apply match_pattern_iff. Qed.

Lemma less_iff (x y : vpat) : less x y = true <-> more_specific y x.
Proof.
  unfold less, more_specific, narrower, weight.
  destruct (_ <? _) eqn:E; [apply Nat.ltb_lt in E; intuition lia|]. apply Nat.ltb_ge in E.
  destruct (beqb (pfx x) (pfx y)) eqn:E1; [apply beqb_eq in E1 | assert (pfx x <> pfx y) by (intro F; apply beqb_eq in F; congruence)].
  - destruct (beqb (sfx x) (sfx y)) eqn:E2; [apply beqb_eq in E2 | assert (sfx x <> sfx y) by (intro F; apply beqb_eq in F; congruence)].
    + cbn. rewrite Bool.andb_true_iff, negb_true_iff. intuition (try congruence; try lia).
    + cbn. intuition (try congruence; try lia).
  - cbn. intuition (try congruence; try lia).
Qed.
Lemma more_specific_asym (x y : vpat) : more_specific x y -> more_specific y x -> False.
Proof. unfold more_specific, narrower, weight. intros [A | (A1 & A2 & A3 & A4)] [C | (C1 & C2 & C3 & C4)]; try lia; try congruence; rewrite ?A1, ?A2, ?C1, ?C2 in *; lia. Qed.

Lemma place_elements (p : vpat) t : elements t = fst (tree_place p t) ++ snd (tree_place p t) /\ elements (tree_insert p t) = fst (tree_place p t) ++ p :: snd (tree_place p t).
Proof.
  induction t as [|l [IL1 IL2] x r [IR1 IR2]]; [split; reflexivity|]. cbn.
  destruct (less p x).
  - destruct (tree_place p l) as [u v]. cbn in *. rewrite IL1, IL2, <- !app_assoc. split; reflexivity.
  - destruct (tree_place p r) as [u v]. cbn in *. rewrite IR1, IR2, <- !app_assoc. split; reflexivity.
Qed.

(* An upward closed set P in the order of elements. *)
Definition upward (P : vpat -> Prop) (l : list vpat) : Prop := forall a x c y d, l = a ++ x :: c ++ y :: d -> P x -> P y.
Lemma upward_sub P a l c : upward P (a ++ l ++ c) -> upward P l.
Proof. intros H u x v y w E. apply (H (a ++ u) x v y (w ++ c)). rewrite E. repeat (rewrite <- app_assoc; cbn). reflexivity. Qed.
Lemma place_up (P : vpat -> Prop) p t :
  upward P (elements t) -> (forall x, In x (elements t) -> (less p x = true -> P x)) -> forall x, In x (snd (tree_place p t)) -> P x.
Proof.
  induction t as [|l IL x r IR]; intros U C z I; [destruct I|]. cbn in *.
  assert (Ul : upward P (elements l)) by (apply (upward_sub P [] _ (x :: elements r)); exact U).
  assert (Ur : upward P (elements r)) by (apply (upward_sub P (elements l ++ [x]) _ []); rewrite app_nil_r, <- app_assoc; exact U).
  destruct (less p x) eqn:L.
  - destruct (tree_place p l) as [u v] eqn:E. cbn in *. apply in_app_iff in I. destruct I as [I | [I | I]].
    + apply IL; auto. intros y Hy. apply C. apply in_or_app. auto.
    + subst z. apply C; [apply in_or_app; right; left; reflexivity | exact L].
    + apply in_split in I. destruct I as (r1 & r2 & Er). apply (U (elements l) x r1 z r2); [rewrite Er; reflexivity|]. apply C; [apply in_or_app; right; left; reflexivity | exact L].
  - destruct (tree_place p r) as [u v] eqn:E. cbn in *. apply IR; auto. intros y Hy. apply C. apply in_or_app. cbn. auto.
Qed.
Lemma place_down (P : vpat -> Prop) p t :
  upward P (elements t) -> (forall x, In x (elements t) -> (less p x = false -> ~ P x)) -> forall x, In x (fst (tree_place p t)) -> ~ P x.
Proof.
  induction t as [|l IL x r IR]; intros U C z I; [destruct I|]. cbn in *.
  assert (Ul : upward P (elements l)) by (apply (upward_sub P [] _ (x :: elements r)); exact U).
  assert (Ur : upward P (elements r)) by (apply (upward_sub P (elements l ++ [x]) _ []); rewrite app_nil_r, <- app_assoc; exact U).
  destruct (less p x) eqn:L.
  - destruct (tree_place p l) as [u v] eqn:E. cbn in *. apply IL; auto. intros y Hy. apply C. apply in_or_app. auto.
  - destruct (tree_place p r) as [u v] eqn:E. cbn in *.
    assert (X : ~ P x) by (apply C; [apply in_or_app; right; left; reflexivity | exact L]).
    apply in_app_iff in I. destruct I as [I | [I | I]].
    + intro Pz. apply X. apply in_split in I. destruct I as (l1 & l2 & El). apply (U l1 z l2 x (elements r)); [rewrite El, <- app_assoc; reflexivity | exact Pz].
    + subst z. exact X.
    + apply IR; auto. intros y Hy. apply C. apply in_or_app. cbn. auto.
Qed.

(* Pairs in the order of elements. *)
Definition pairs (R : vpat -> vpat -> Prop) (l : list vpat) : Prop := forall a x c y d, l = a ++ x :: c ++ y :: d -> R x y.
Lemma pairs_cons R x l : pairs R (x :: l) <-> (forall y, In y l -> R x y) /\ pairs R l.
Proof.
  split.
  - intro H. split.
    + intros y I. apply in_split in I. destruct I as (c & d & E). apply (H [] x c y d). rewrite E. reflexivity.
    + intros a u c y d E. apply (H (x :: a) u c y d). rewrite E. reflexivity.
  - intros [H1 H2] a u c y d E. destruct a as [|z a]; cbn in E; injection E as -> E.
    + apply H1. rewrite E. apply in_or_app. right. left. reflexivity.
    + exact (H2 a u c y d E).
Qed.
Lemma pairs_app R a c : pairs R (a ++ c) <-> pairs R a /\ pairs R c /\ (forall x y, In x a -> In y c -> R x y).
Proof.
  induction a as [|x a IH]; cbn.
  - split; [intro H; split; [|split; [exact H | contradiction]] | intros (_ & H & _); exact H].
    intros u v w y z E. destruct u; discriminate.
  - rewrite !pairs_cons, IH. split.
    + intros [H1 (H2 & H3 & H4)]. repeat split; auto.
      * intros y I. apply H1. apply in_or_app. auto.
      * intros u y [<- | I] J; [apply H1; apply in_or_app; auto | auto].
    + intros [[H1 H2] [H3 H4]]. repeat split; auto. intros y I. apply in_app_iff in I. destruct I as [I|I]; [auto | apply H4; auto].
Qed.
Lemma pairs_insert R a p c : pairs R (a ++ c) -> (forall x, In x a -> R x p) -> (forall x, In x c -> R p x) -> pairs R (a ++ p :: c).
Proof. rewrite !pairs_app, pairs_cons. intros (H1 & H2 & H3) A C. repeat split; auto. intros x y I [<- | J]; auto. Qed.

Lemma inserted_In (ps l : list vpat) : inserted ps l -> forall x, In x l <-> In x ps.
Proof.
  induction 1 as [|ps p t H IH]; [tauto|]. intro x. destruct (place_elements p t) as [E1 E2]. rewrite E2. rewrite in_app_iff. cbn.
  rewrite in_app_iff. cbn. rewrite <- IH, E1, in_app_iff. tauto.
Qed.

(* Sorted by weight, whatever the tree. *)
Lemma up_weight (p : vpat) l : pairs (fun x y => weight x <= weight y) l -> upward (fun x => weight p < weight x) l.
Proof. intros H a x c y d E L. specialize (H a x c y d E). cbn in H. lia. Qed.
Lemma up_weight' (p : vpat) l : pairs (fun x y => weight x <= weight y) l -> upward (fun x => weight p <= weight x) l.
Proof. intros H a x c y d E L. specialize (H a x c y d E). cbn in H. lia. Qed.
Lemma place_weight p t : pairs (fun x y => weight x <= weight y) (elements t) ->
  (forall x, In x (fst (tree_place p t)) -> weight x <= weight p) /\ (forall x, In x (snd (tree_place p t)) -> weight p <= weight x).
Proof.
  intro H. split; intros x I.
  - enough (~ weight p < weight x) by lia. apply (place_down (fun x => weight p < weight x) p t (up_weight p _ H)); [|exact I].
    intros y _ L W. assert (less p y = true) by (apply less_iff; left; exact W). congruence.
  - apply (place_up (fun x => weight p <= weight x) p t (up_weight' p _ H)); [|exact I].
    intros y _ L. apply less_iff in L. destruct L as [L | (L1 & L2 & _)]; [lia|]. unfold weight. rewrite L1, L2. lia.
Qed.
Lemma inserted_sorted (ps l : list vpat) : inserted ps l -> pairs (fun x y : vpat => weight x <= weight y) l.
Proof.
  induction 1 as [|ps p t H IH]; [intros a x c y d E; destruct a; discriminate|].
  destruct (place_elements p t) as [E1 E2]. destruct (place_weight p t IH) as [W1 W2].
  rewrite E2. apply pairs_insert; [rewrite <- E1; exact IH | exact W1 | exact W2].
Qed.

Lemma orderly_init ps (p : vpat) : orderly (ps ++ [p]) -> orderly ps.
Proof. intros H a q c E. apply (H a q (c ++ [p])). rewrite E, <- app_assoc. reflexivity. Qed.
Lemma orderly_last ps (p : vpat) : orderly (ps ++ [p]) -> forall x y, In x ps -> In y ps -> narrower x p -> weight y = weight p -> pfx y = pfx p /\ sfx y = sfx p.
Proof. intros H. apply (H ps p []). reflexivity. Qed.

Definition starred (l : list vpat) : Prop := pairs (fun x y => ~ narrower x y) l.
Lemma place_best (ps : list vpat) p t : inserted ps (elements t) -> orderly (ps ++ [p]) -> starred (elements t) ->
  (forall x, In x (fst (tree_place p t)) -> ~ more_specific x p) /\ (forall x, In x (snd (tree_place p t)) -> more_specific x p).
Proof.
  intros H O S. pose proof (inserted_sorted _ _ H) as W. pose proof (orderly_last _ _ O) as OL.
  assert (U : upward (fun x => more_specific x p) (elements t)).
  { intros a x c y d E M. pose proof (W a x c y d E) as Wxy. pose proof (S a x c y d E) as Sxy. cbn in Wxy.
    destruct M as [M | M]; [left; lia|].
    assert (Wx : weight x = weight p) by (destruct M as (M1 & M2 & _); unfold weight; rewrite M1, M2; reflexivity).
    destruct (Nat.eq_dec (weight y) (weight p)) as [Wy | Wy]; [|left; lia]. right.
    assert (Ix : In x ps) by (apply (inserted_In _ _ H); rewrite E; apply in_or_app; right; left; reflexivity).
    assert (Iy : In y ps) by (apply (inserted_In _ _ H); rewrite E; apply in_or_app; right; right; apply in_or_app; right; left; reflexivity).
    destruct (OL x y Ix Iy M Wy) as [Y1 Y2]. destruct M as (M1 & M2 & M3 & M4). repeat split; auto.
    destruct (multi y) eqn:My; [|reflexivity]. exfalso. apply Sxy. repeat split; congruence. }
  split.
  - apply place_down; [exact U|]. intros x _ L M. apply less_iff in M. congruence.
  - apply place_up; [exact U|]. intros x _ L. apply less_iff. exact L.
Qed.
Lemma inserted_starred (ps l : list vpat) : inserted ps l -> orderly ps -> starred l.
Proof.
  induction 1 as [|ps p t H IH]; intro O; [intros a x c y d E; destruct a; discriminate|].
  specialize (IH (orderly_init _ _ O)). destruct (place_elements p t) as [E1 E2]. destruct (place_best ps p t H O IH) as [B1 B2].
  rewrite E2. apply pairs_insert; [rewrite <- E1; exact IH | |].
  - intros x I N. apply (B1 x I). right. exact N.
  - intros x I N. apply (more_specific_asym x p (B2 x I)). right. exact N.
Qed.

Lemma find_app {A} (f : A -> bool) l k : List.find f (l ++ k) = match List.find f l with Some x => Some x | None => List.find f k end.
Proof. induction l as [|x l IH]; [reflexivity|]. cbn. destruct (f x); auto. Qed.
Lemma find_none_iff {A} (f : A -> bool) l : List.find f l = None <-> forall x, In x l -> f x = false.
Proof. split; [apply find_none|]. intro H. destruct (List.find f l) eqn:E; [|reflexivity]. apply find_some in E. destruct E as [I F]. rewrite (H _ I) in F. discriminate. Qed.

Lemma find_best n (ps l : list vpat) : inserted ps l -> orderly ps -> forall p, List.find (M n) (rev l) = Some p -> best ps n p.
Proof.
  induction 1 as [|ps q t H IH]; intros O p F; [discriminate|].
  specialize (IH (orderly_init _ _ O)). pose proof (inserted_starred _ _ H (orderly_init _ _ O)) as S.
  destruct (place_elements q t) as [E1 E2]. destruct (place_best ps q t H O S) as [B1 B2].
  set (u := fst (tree_place q t)) in *. set (v := snd (tree_place q t)) in *.
  rewrite E2, rev_app_distr in F. cbn in F. rewrite <- app_assoc in F. rewrite E1, rev_app_distr in IH.
  rewrite find_app in F. cbn in F. setoid_rewrite find_app in IH.
  destruct (List.find (M n) (rev v)) as [p'|] eqn:Fv.
  - injection F as ->. destruct (IH p eq_refl) as (a & c & E & M1 & M2 & M3).
    apply find_some in Fv. destruct Fv as [Iv _]. apply in_rev in Iv. specialize (B2 p Iv).
    exists a, (c ++ [q]). split; [rewrite E, <- app_assoc; reflexivity|]. split; [exact M1|]. split.
    + intros x [I | I] Mx; [auto|]. apply in_app_iff in I. destruct I as [I | [<- | []]]; [auto|].
      intro X. exact (more_specific_asym _ _ X B2).
    + intros x I Mx. apply in_app_iff in I. destruct I as [I | [<- | []]]; auto.
  - destruct (match_pattern n (pfx q) (sfx q) (multi q)) eqn:Mq.
    + injection F as <-. exists ps, []. split; [reflexivity|]. split; [apply matches_iff; exact Mq|]. split; [|contradiction].
      intros x [I | []] Mx. apply B1. apply (inserted_In _ _ H) in I. rewrite E1 in I. apply in_app_iff in I. destruct I as [I|I]; [exact I|].
      apply find_none_iff with (x := x) in Fv; [|apply in_rev; rewrite rev_involutive; exact I]. apply matches_iff in Mx. congruence.
    + destruct (IH p F) as (a & c & E & M1 & M2 & M3). exists a, (c ++ [q]).
      assert (Nq : ~ matches n q) by (intro X; apply matches_iff in X; congruence).
      split; [rewrite E, <- app_assoc; reflexivity|]. split; [exact M1|]. split.
      * intros x [I | I] Mx; [auto|]. apply in_app_iff in I. destruct I as [I | [<- | []]]; [auto | contradiction].
      * intros x I Mx. apply in_app_iff in I. destruct I as [I | [<- | []]]; [auto | contradiction].
Qed.
Lemma find_weight n (ps l : list vpat) p : inserted ps l -> List.find (M n) (rev l) = Some p -> In p ps /\ matches n p /\ forall q, In q ps -> matches n q -> weight q <= weight p.
Proof.
  intros H F. pose proof (inserted_sorted _ _ H) as S. pose proof (find_some _ _ F) as [I Mp].
  apply in_rev in I. split; [apply (inserted_In _ _ H); exact I|]. split; [apply matches_iff; exact Mp|].
  intros q Iq Mq. apply (inserted_In _ _ H) in Iq.
  revert F S Iq. clear -Mq. intros F S Iq. rewrite <- (rev_involutive l) in S. apply -> in_rev in Iq.
  induction (rev l) as [|x k IH]; [destruct Iq|]. cbn in F, S. apply pairs_app in S. destruct S as (S1 & _ & S3).
  destruct (match_pattern n (pfx x) (sfx x) (multi x)) eqn:Mx.
  - injection F as ->. destruct Iq as [<- | Iq]; [lia|]. apply (S3 q p); [apply in_rev; rewrite rev_involutive; exact Iq | left; reflexivity].
  - destruct Iq as [<- | Iq]; [apply matches_iff in Mq; congruence | auto].
Qed.

Lemma find_star_some p i w : find_star p i = Some w -> exists a c, p = a ++ STAR :: c /\ ~ In STAR a /\ w = i + length a.
Proof.
  revert i. induction p as [|c p IH]; intros i H; [discriminate|]. cbn in H. destruct (ceqb c STAR) eqn:E.
  - injection H as <-. apply Ascii.eqb_eq in E. subst c. exists [], p. cbn. repeat split; [auto | lia].
  - apply IH in H. destruct H as (a & d & -> & N & ->). exists (c :: a), d. split; [reflexivity|]. split; [|cbn; lia].
    intros [X | X]; [subst c; apply Ascii.eqb_neq in E; congruence | auto].
Qed.
Lemma find_star_app a c i : ~ In STAR a -> find_star (a ++ STAR :: c) i = Some (i + length a).
Proof.
  revert i. induction a as [|x a IH]; intros i N; cbn.
  - f_equal. lia.
  - destruct (ceqb x STAR) eqn:E; [apply Ascii.eqb_eq in E; subst; exfalso; apply N; left; reflexivity|].
    rewrite IH by (intro; apply N; right; assumption). f_equal. lia.
Qed.
Lemma good_prefix_iff a c : (negb (length a =? 0) && negb (ceqb (nth (length a - 1) (a ++ c) NUL) DOT && negb (length a =? 1))) = false <-> good_prefix a.
Proof.
  unfold good_prefix. destruct a as [|x a'] using rev_ind; [cbn; tauto|]. clear IHa'. rewrite app_length, Nat.add_1_r. cbn [length].
  replace (S (length a') - 1) with (length a') by lia.
  rewrite <- app_assoc, app_nth2, Nat.sub_diag by lia. cbn [nth app]. cbn [Nat.eqb negb andb].
  rewrite negb_false_iff, Bool.andb_true_iff, negb_true_iff.
  split.
  - intros [D L]. right. exists a'. apply Ascii.eqb_eq in D. subst. split; [|reflexivity]. intros ->. discriminate.
  - intros [E | (y & N & E)]; [destruct a'; discriminate|]. apply app_inj_tail in E. destruct E as [-> ->]. split; [apply Ascii.eqb_refl|].
    destruct y; [congruence | reflexivity].
Qed.
Lemma good_suffix_iff z : (negb (length z =? 0) && negb (ceqb (nth 0 z NUL) DOT && negb (length z =? 1))) = false <-> good_suffix z.
Proof.
  unfold good_suffix. destruct z as [|x z]; [cbn; tauto|]. cbn. rewrite negb_false_iff, Bool.andb_true_iff, negb_true_iff. split.
  - intros [D L]. right. exists z. apply Ascii.eqb_eq in D. subst. split; [|reflexivity]. intros ->. discriminate.
  - intros [E | (y & N & E)]; [discriminate|]. injection E as -> ->. split; [apply Ascii.eqb_refl|]. destruct y; [congruence | reflexivity].
Qed.
Lemma nth_skip {A} k (l : list A) (d : A) : nth k l d = nth 0 (skipn k l) d.
Proof. revert l. induction k; intros [|x l]; cbn; auto. Qed.
Lemma parse_iff p a z m : parse_pattern p = Some (a, z, m) <-> p = a ++ stars m ++ z /\ ~ In STAR a /\ good_prefix a /\ good_suffix z.
Proof.
  assert (Main : forall a c, ~ In STAR a -> p = a ++ STAR :: c ->
    parse_pattern p =
      let m := match c with x :: _ => ceqb x STAR | [] => false end in
      let z := if m then tl c else c in
      if negb (length a =? 0) && negb (ceqb (nth (length a - 1) (a ++ STAR :: c) NUL) DOT && negb (length a =? 1)) then None
      else if negb (length z =? 0) && negb (ceqb (nth 0 z NUL) DOT && negb (length z =? 1)) then None
      else Some (a, z, m)).
  { clear. intros a c N ->. unfold parse_pattern. rewrite find_star_app by exact N. cbn [plus].
    assert (Em : (negb (length a + 1 =? length (a ++ STAR :: c)) && ceqb (nth (length a + 1) (a ++ STAR :: c) NUL) STAR)%bool = match c with x :: _ => ceqb x STAR | [] => false end).
    { rewrite app_length, app_nth2, Nat.add_comm, Nat.add_sub by lia. cbn [length nth]. destruct c as [|x c].
      - cbn. replace (length a + 1) with (S (length a)) by lia. rewrite Nat.eqb_refl. reflexivity.
      - cbn [length nth]. replace (1 + length a =? _) with false by (symmetry; apply Nat.eqb_neq; lia). reflexivity. }
    rewrite Em. clear Em. set (m := match c with x :: _ => ceqb x STAR | [] => false end). cbv zeta.
    assert (Ez : skipn (length a + (if m then 2 else 1)) (a ++ STAR :: c) = if m then tl c else c).
    { rewrite skipn_app, skipn_all2 by (destruct m; lia). replace (length a + (if m then 2 else 1) - length a) with (if m then 2 else 1) by lia.
      destruct m; [|reflexivity]. destruct c; reflexivity. }
    rewrite nth_skip with (k := length a + (if m then 2 else 1)), Ez.
    replace (length (a ++ STAR :: c) - _) with (length (if m then tl c else c)).
    2: { rewrite <- Ez, skipn_length. reflexivity. }
    rewrite firstn_app, Nat.sub_diag, firstn_all, firstn_O, app_nil_r. reflexivity. }
  split.
  - intro H. assert (exists w, find_star p 0 = Some w) as [w F] by (unfold parse_pattern in H; destruct (find_star p 0); [eauto | discriminate]).
    apply find_star_some in F. destruct F as (a' & c & E & N & _). rewrite (Main a' c N E) in H. cbv zeta in H.
    set (m' := match c with x :: _ => ceqb x STAR | [] => false end) in *.
    destruct (negb (length a' =? 0) && _) eqn:G1; [discriminate|]. apply good_prefix_iff in G1.
    destruct (negb (length (if m' then tl c else c) =? 0) && _) eqn:G2; [discriminate|]. apply good_suffix_iff in G2.
    injection H as <- <- <-. split; [|auto]. rewrite E. f_equal. unfold m' in *. destruct c as [|x c]; [reflexivity|]. destruct (ceqb x STAR) eqn:X; [|reflexivity].
    apply Ascii.eqb_eq in X. subst. reflexivity.
  - intros (E & N & G1 & G2). rewrite (Main a ((if m then [STAR] else []) ++ z) N) by (rewrite E; destruct m; reflexivity). cbv zeta.
    replace (match (if m then [STAR] else []) ++ z with x :: _ => ceqb x STAR | [] => false end) with m.
    2: { destruct m; [reflexivity|]. destruct G2 as [-> | (y & _ & ->)]; reflexivity. }
    replace (if m then tl _ else _) with z by (destruct m; reflexivity).
    rewrite (proj2 (good_prefix_iff a _) G1), (proj2 (good_suffix_iff z) G2). reflexivity.
Qed.
End P.
