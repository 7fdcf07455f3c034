(* Names of files that contain dots: they are combined into names that denote them. *)
From Verif Require Import Base SplitModel SplitSpec SplitProofs SplitProofs2 SplitProofs3.

Lemma run_same n n' k rs : length rs + k < n -> length rs + k < n' -> escape_run true n k rs = escape_run true n' k rs.
Proof.
  intros H H'. unfold escape_run. destruct (Nat.eqb_spec k 0); [reflexivity|].
  replace (length rs =? n - 1) with false by (symmetry; apply Nat.eqb_neq; lia). replace (length rs =? n' - 1) with false by (symmetry; apply Nat.eqb_neq; lia). reflexivity.
Qed.
Lemma loop_same r : forall n n' k, length r + k < n -> length r + k < n' -> escape_loop true n k r = escape_loop true n' k r.
Proof.
  induction r as [|c r IH]; intros n n' k H H'; cbn [escape_loop].
  - rewrite (run_same n n' k [] H H'). reflexivity.
  - destruct (is_dot c); [apply IH; cbn [length] in *; lia|]. rewrite (run_same n n' k (c :: r) H H'). destruct (escape_run true n' k (c :: r)) as [d x].
    rewrite (IH n n' 0) by (cbn [length] in *; lia). reflexivity.
Qed.
Lemma run_inside n m k c l : length (c :: l) + k < n -> is_sep c = false -> k <> 0 -> escape_run true n k (c :: l) = escape_run false m k (c :: l).
Proof.
  intros H S K. unfold escape_run. destruct (Nat.eqb_spec k 0); [reflexivity|]. replace (length (c :: l) =? n - 1) with false by (symmetry; apply Nat.eqb_neq; lia).
  rewrite S. reflexivity.
Qed.
Lemma run_false_any m k r r' : escape_run false m k r = escape_run false m k r'.
Proof. reflexivity. Qed.
(* What is after a lone dot, as a part of the name and as an extension. *)
Lemma loop_inside m t ry : sep_free ry -> forall n k, length (ry ++ DOT :: t) + k < n -> (ry = [] -> k = 0) -> (forall z, ry <> z ++ [DOT]) ->
  escape_loop true n k (ry ++ DOT :: t) =
  match escape_loop false m k ry with
  | Some (oy, f) => match escape_loop true n 1 t with Some (o, g) => Some (oy ++ o, f || g) | None => None end
  | None => None
  end.
Proof.
  intros S. induction S as [|c ry Hc Hr IH]; intros n k Hn Hk Hl; cbn [app].
  - rewrite (Hk eq_refl). cbn. destruct (escape_loop true n 1 t) as [[o g]|]; reflexivity.
  - cbn [escape_loop]. destruct (is_dot c) eqn:D.
    + apply IH; [cbn [length app] in *; lia| |].
      * intros ->. exfalso. apply is_dot_eq in D. subst c. exact (Hl [] eq_refl).
      * intros z ->. exact (Hl (c :: z) eq_refl).
    + assert (escape_run true n k (c :: ry ++ DOT :: t) = escape_run false m k (c :: ry)) as ->.
      { destruct (Nat.eq_dec k 0) as [-> | K]; [reflexivity|]. rewrite (run_inside n m k c (ry ++ DOT :: t) Hn Hc K). apply run_false_any. }
      destruct (escape_run false m k (c :: ry)) as [dd x]. rewrite Hc.
      rewrite (IH n 0); [|cbn [length app] in *; lia|reflexivity|intros z ->; exact (Hl (c :: z) eq_refl)].
      destruct (escape_loop false m 0 ry) as [[oy f]|]; [|reflexivity]. destruct (escape_loop true n 1 t) as [[o g]|]; [|reflexivity].
      rewrite <- app_assoc. cbn [app]. rewrite orb_assoc. reflexivity.
Qed.

Lemma not_ends_rev x : x <> [] -> ~ ends_with_dot x -> exists a r, rev x = a :: r /\ is_dot a = false.
Proof.
  intros H1 H2. destruct (exists_last H1) as [r [a ->]]. exists a, (rev r). split; [rewrite rev_app_distr; reflexivity|]. apply is_dot_neq. intros ->. apply H2. exists r. reflexivity.
Qed.
Lemma combine_lone d x y : directory_part d -> no_slash (x ++ DOT :: y) -> x <> [] -> ~ ends_with_dot x -> y <> [] -> ~ starts_with_dot y -> ~ ends_with_dot y ->
  (forall y' f, escape false y = Some (y', f) -> f = false) -> combine_name (d ++ x ++ DOT :: y) None false = combine_name (d ++ x) (Some y) false.
Proof.
  intros Hd Hs Hx Ex Hy Sy Ey Hf.
  destruct (not_ends_rev x Hx Ex) as [a [rx [Rx Da]]]. destruct (not_ends_rev y Hy Ey) as [c [ry [Ry Dc]]].
  assert (sep_free (rev (x ++ DOT :: y))) as SF by (apply sep_free_rev, sep_free_iff; exact Hs).
  rewrite rev_app_distr in SF. cbn [rev] in SF. rewrite Rx, Ry in SF. unfold sep_free in SF. rewrite !Forall_app in SF. destruct SF as [[SFy _] SFx].
  inversion SFy as [|? ? Sc Sry]. inversion SFx as [|? ? Sa Srx]. subst.
  unfold combine_name. unfold escape at 1.
  assert (rev (d ++ x ++ DOT :: y) = c :: ry ++ DOT :: a :: rx ++ rev d) as ->.
  { rewrite !rev_app_distr. cbn [rev]. rewrite Rx, Ry. rewrite <- !app_assoc. reflexivity. }
  set (n := length (d ++ x ++ DOT :: y)).
  assert (n = length (c :: ry ++ DOT :: a :: rx ++ rev d)) as Hn.
  { subst n. rewrite <- (rev_length (d ++ _)). f_equal. rewrite !rev_app_distr. cbn [rev]. rewrite Rx, Ry. rewrite <- !app_assoc. reflexivity. }
  cbn [escape_loop]. rewrite Dc. cbn [escape_run Nat.eqb]. rewrite Sc.
  rewrite (loop_inside (length y) (a :: rx ++ rev d) ry Sry n 0).
  2:{ rewrite Hn. cbn [length]. lia. }
  2:{ reflexivity. }
  2:{ intros z K. apply Sy. exists (rev z ++ [c]). rewrite <- (rev_involutive y), Ry. cbn [rev]. rewrite K, rev_app_distr. reflexivity. }
  unfold escape. rewrite rev_app_distr, Rx. rewrite Ry. cbn [app].
  assert (escape_loop false (length y) 0 (c :: ry) = match escape_loop false (length y) 0 ry with Some (o, f) => Some (c :: o, f) | None => None end) as Ey1.
  { cbn [escape_loop]. rewrite Dc. cbn [escape_run Nat.eqb]. rewrite Sc. destruct (escape_loop false (length y) 0 ry) as [[? ?]|]; reflexivity. }
  rewrite Ey1. assert (escape false y = match escape_loop false (length y) 0 ry with Some (o, f) => Some (rev (c :: o), f) | None => None end) as Ey2.
  { unfold escape. rewrite Ry, Ey1. destruct (escape_loop false (length y) 0 ry) as [[? ?]|]; reflexivity. }
  destruct (shape_exists true (length (d ++ x)) (rev d) rx Srx (dir_stop d Hd) ltac:(discriminate) 0) as [o [g [Eo _]]].
  assert (escape_loop true (length (d ++ x)) 0 (a :: rx ++ rev d) = Some (a :: o ++ rev d, g)) as ->.
  { cbn [escape_loop]. rewrite Da. cbn [escape_run Nat.eqb]. rewrite Sa, Eo. reflexivity. }
  assert (escape_loop true n 1 (a :: rx ++ rev d) = Some (DOT :: a :: o ++ rev d, true)) as ->.
  { cbn [escape_loop]. rewrite Da. unfold escape_run. cbn [Nat.eqb]. assert ((length (a :: rx ++ rev d) =? n - 1) = false) as ->.
    { apply Nat.eqb_neq. rewrite Hn. cbn [length]. rewrite (app_length ry). cbn [length]. lia. }
    cbn [andb negb orb]. rewrite Sa. cbn [negb dots repeat app andb]. rewrite (loop_same _ n (length (d ++ x)) 0), Eo.
    - reflexivity.
    - rewrite Hn. cbn [length app]. rewrite !app_length. cbn [length]. rewrite ?app_length. lia.
    - rewrite !app_length, rev_length, <- (rev_length x), Rx. cbn [length]. lia. }
  destruct (escape_loop false (length y) 0 ry) as [[oy f]|] eqn:El.
  2:{ destruct (shape_exists false (length y) [] ry Sry I ltac:(reflexivity) 0) as [? [? [E _]]]. rewrite app_nil_r in E. congruence. }
  rewrite (Hf _ _ Ey2). unfold last_is. rewrite !rev_involutive. cbn [app]. rewrite Dc, Da. cbn [dots repeat app andb]. f_equal.
  change (c :: oy ++ DOT :: a :: o ++ rev d) with ((c :: oy) ++ DOT :: a :: o ++ rev d). rewrite rev_app_distr. cbn [rev]. rewrite <- !app_assoc. reflexivity.
Qed.

(* A lone dot in an extension. *)
Lemma shape_lone_ext n k l o f : Shape false n [] k l o f -> f = true ->
  exists x y, rev l ++ dots k = x ++ DOT :: y /\ ~ ends_with_dot x /\ ~ starts_with_dot y.
Proof.
  intros H. induction H as [k m x E|k l o f H IH|k c l o m x f D S E H IH]; intros Hf.
  - subst x. unfold escape_run in E. destruct (Nat.eqb_spec k 0); [discriminate|]. injection E as _ E. apply andb_true_iff in E. destruct E as [E _]. apply andb_true_iff in E. destruct E as [E _].
    apply Nat.eqb_eq in E. subst k. exists [], []. split; [reflexivity|]. split; [intros [w K]; destruct w; discriminate|intros [w K]; discriminate].
  - destruct (IH Hf) as [x [y [K1 K2]]]. exists x, y. split; [|exact K2]. rewrite <- K1. cbn [rev]. rewrite <- app_assoc. reflexivity.
  - apply orb_true_iff in Hf. destruct Hf as [-> | Hf].
    + unfold escape_run in E. destruct (Nat.eqb_spec k 0); [discriminate|]. injection E as _ E. apply andb_true_iff in E. destruct E as [E _]. apply andb_true_iff in E. destruct E as [E _].
      apply Nat.eqb_eq in E. subst k. exists (rev l ++ [c]), []. split; [reflexivity|]. split.
      * intros [w K]. apply app_inj_tail in K. destruct K as [_ ->]. discriminate.
      * intros [? ?]; discriminate.
    + destruct (IH Hf) as [x' [y [K1 [K3 K4]]]]. cbn [dots repeat app] in K1. rewrite app_nil_r in K1.
      exists x', (y ++ c :: dots k). split; [cbn [rev]; rewrite K1, <- !app_assoc; reflexivity|]. split; [exact K3|].
      intros [w K]. destruct y as [|a y]; cbn in K; [injection K as -> _; discriminate|]. injection K as -> _. apply K4. eexists. reflexivity.
Qed.

Lemma ends_cons x c y : y <> [] -> ends_with_dot (x ++ c :: y) <-> ends_with_dot y.
Proof. intros H. change (c :: y) with ([c] ++ y). rewrite app_assoc. apply ends_app. exact H. Qed.
Lemma starts_app x y : x <> [] -> starts_with_dot (x ++ y) <-> starts_with_dot x.
Proof. intros H. destruct x as [|a x]; [contradiction|]. split; intros [s K]; cbn in K; injection K as -> _; eexists; reflexivity. Qed.

Lemma combine_dotted d l : directory_part d -> no_slash l -> lone_dot_inside l -> ~ ends_with_dot l ->
  exists s x y, combine_name (d ++ l) None false = Some s /\ l = x ++ DOT :: y /\ y <> [] /\ split_name s = Split (d ++ x) (Some y).
Proof.
  intros Hd Hs [x [y [-> [Hx [Hy [Ex Sy]]]]]] He.
  remember (length y) as m eqn:Em. assert (length y <= m) as Lm by lia. clear Em. revert x y Hs Hx Hy Ex Sy He Lm.
  induction m as [|m IH]; intros x y Hs Hx Hy Ex Sy He Lm; [destruct y; [contradiction|cbn in Lm; lia]|].
  pose proof (ends_cons x DOT y Hy) as Eiff. assert (~ ends_with_dot y) as Ey by (rewrite <- Eiff; exact He).
  assert (no_slash x /\ no_slash y) as [Nx Ny]. { unfold no_slash in *. split; intros K; apply Hs; rewrite in_app_iff; cbn; auto. }
  destruct (escaped_ext y Ny) as [y' [f [E S]]]. destruct f.
  - destruct (shape_lone_ext _ _ _ _ _ S eq_refl) as [x1 [y1 [K1 [K2 K3]]]]. rewrite rev_involutive in K1. cbn [dots repeat] in K1. rewrite app_nil_r in K1. subst y.
    assert (x1 <> []) as Hx1. { intros ->. apply Sy. eexists. reflexivity. }
    assert (y1 <> []) as Hy1. { intros ->. apply Ey. exists x1. reflexivity. }
    assert (x ++ DOT :: x1 ++ DOT :: y1 = (x ++ DOT :: x1) ++ DOT :: y1) as Q by (rewrite <- app_assoc; reflexivity).
    change (x ++ "."%char :: x1 ++ DOT :: y1) with (x ++ DOT :: x1 ++ DOT :: y1) in *. rewrite Q in *.
    apply IH; try assumption.
    + destruct x; discriminate.
    + rewrite (ends_cons x DOT x1 Hx1). exact K2.
    + rewrite app_length in Lm. cbn in Lm. lia.
  - destruct (combine_split d x (Some y) false Hd) as [s [C1 C2]].
    { split; [exact Nx|]. split; [|split; [exact Ny|split; [exact Sy|intros K; contradiction]]]. intros K. apply Ex. destruct (exists_last Hx) as [x0 [c ->]]. exists x0. f_equal. f_equal.
      unfold only_dots in K. rewrite Forall_forall in K. apply K. rewrite in_app_iff. right. left. reflexivity. }
    exists s, x, y. split; [|split; [reflexivity|split; [exact Hy|exact C2]]]. rewrite <- C1. change "."%char with DOT in *.
    apply combine_lone; try assumption. intros y2 f2 E2. rewrite E in E2. injection E2 as _ <-. reflexivity.
Qed.
Lemma combine_trailing d l de : directory_part d -> no_slash l -> ~ only_dots l -> ends_with_dot l -> combine_name (d ++ l) None de = combine_name (d ++ l) (Some []) false.
Proof.
  intros Hd Hl Ho He. assert (l <> []) as Hne. { intros ->. apply Ho. constructor. }
  destruct (escaped_name d l Hd Hl) as [l' [f [E S]]]. unfold combine_name. rewrite E.
  assert (last_is is_dot (d ++ l') = true) as ->; [|reflexivity].
  apply last_is_iff. rewrite (ends_app _ _ (shape_nonempty _ _ _ _ _ _ S Hne)), (shape_last _ _ _ _ _ _ S). exact He.
Qed.
