(* Lemmas about splitting and combining target names. *)
From Verif Require Import Base SplitModel SplitSpec.

Lemma is_dot_eq c : is_dot c = true <-> c = "."%char.
Proof. apply ceqb_eq. Qed.
Lemma is_dot_neq c : is_dot c = false <-> c <> "."%char.
Proof. apply ceqb_neq. Qed.
Lemma is_sep_eq c : is_sep c = true <-> c = "/"%char.
Proof. apply ceqb_eq. Qed.
Lemma dots_app m n : dots m ++ dots n = dots (m + n).
Proof. unfold dots. symmetry. apply repeat_app. Qed.
Lemma dots_len n : length (dots n) = n.
Proof. apply repeat_length. Qed.
Lemma dots_rev n : rev (dots n) = dots n.
Proof.
  induction n as [|n IH]; [reflexivity|]. change (dots (S n)) with (DOT :: dots n). cbn [rev]. rewrite IH. change [DOT] with (dots 1). rewrite dots_app. replace (n + 1) with (S n) by lia. reflexivity.
Qed.
Lemma dots_snoc n x : dots (S n) ++ x = dots n ++ DOT :: x.
Proof. replace (S n) with (n + 1) by lia. rewrite <- dots_app, <- app_assoc. reflexivity. Qed.

Definition stop (t : bytes) : Prop := match t with [] => True | c :: _ => is_sep c = true end.
Definition sep_free (l : bytes) : Prop := Forall (fun c => is_sep c = false) l.
Lemma sep_free_iff l : sep_free l <-> no_slash l.
Proof.
  unfold sep_free, no_slash. rewrite Forall_forall. split.
  - intros H Hi. specialize (H _ Hi). discriminate.
  - intros H c Hi. destruct (is_sep c) eqn:E; [|reflexivity]. apply is_sep_eq in E. subst. contradiction.
Qed.

(* The form of an escaped (reversed) string. *)
Section Shape.
Context (nm : bool) (n : nat) (t : bytes).
Inductive Shape : nat -> bytes -> bytes -> bool -> Prop :=
| Sh_end k m x : escape_run nm n k t = (dots m, x) -> Shape k [] (dots m) x
| Sh_dot k l o f : Shape (S k) l o f -> Shape k (DOT :: l) o f
| Sh_chr k c l o m x f : is_dot c = false -> is_sep c = false -> escape_run nm n k (c :: l ++ t) = (dots m, x) ->
    Shape 0 l o f -> Shape k (c :: l) (dots m ++ c :: o) (x || f).

Lemma run_form k rs : exists m x, escape_run nm n k rs = (dots m, x) /\ ((m = k /\ k <= 1) \/ (m = k + k /\ k <> 0)) /\
  (m = 1 -> k = 1 /\ (x = true \/ nm = true /\ stop rs)) /\ (x = true -> k = 1).
Proof.
  unfold escape_run. destruct (Nat.eqb_spec k 0).
  - exists 0, false. split; [reflexivity|]. split; [lia|]. split; [lia|discriminate].
  - eexists _, _. split; [reflexivity|]. destruct (Nat.eqb_spec k 1) as [->|Hk]; cbn [negb orb andb].
    + destruct nm; cbn [andb negb]; [|split; [lia|]; split; auto].
      destruct (length rs =? n - 1); cbn [negb andb]; [split; [lia|]; split; [lia|discriminate]|].
      split; [lia|]. split; [|reflexivity]. intros _. split; [reflexivity|]. destruct rs as [|c rs]; [right; split; [reflexivity|exact I]|].
      destruct (is_sep c) eqn:E; [right; split; [reflexivity|exact E]|left; reflexivity].
    + split; [lia|]. split; [lia|]. discriminate.
Qed.
End Shape.

Lemma shape_exists nm n t l : sep_free l -> stop t -> (nm = false -> t = []) ->
  forall k, exists o f, escape_loop nm n k (l ++ t) = Some (o ++ t, f) /\ Shape nm n t k l o f.
Proof.
  intros Hl Ht Hn. induction Hl as [|c l Hc Hl IH]; intros k.
  - destruct (run_form nm n k t) as [m [x [E _]]]. exists (dots m), x. split; [|constructor; exact E].
    destruct t as [|c t]; [cbn; rewrite E, app_nil_r; reflexivity|]. cbn [app escape_loop]. cbn in Ht.
    assert (is_dot c = false) as D by (apply is_sep_eq in Ht; subst; reflexivity).
    rewrite D, E, Ht. destruct nm; [reflexivity|]. discriminate (Hn eq_refl).
  - cbn [app escape_loop]. destruct (is_dot c) eqn:D.
    + destruct (IH (S k)) as [o [f [E S]]]. exists o, f. split; [exact E|]. apply is_dot_eq in D. subst c. constructor. exact S.
    + destruct (run_form nm n k (c :: l ++ t)) as [m [x [E _]]]. rewrite E, Hc.
      destruct (IH 0) as [o [f [E' S]]]. rewrite E'. exists (dots m ++ c :: o), (x || f). split; [rewrite <- app_assoc; reflexivity|].
      constructor; assumption.
Qed.

(* Unescaping. *)
Lemma unescape_dots m s : forall k, unescape k (dots m ++ s) = unescape (k + m) s.
Proof. induction m as [|m IH]; intros k; cbn; [rewrite Nat.add_0_r; reflexivity|]. rewrite IH. f_equal. lia. Qed.
Lemma unescape_run_ok k m : ((m = k /\ k <= 1) \/ (m = k + k /\ k <> 0)) -> unescape_run m = Some (dots k).
Proof.
  unfold unescape_run. intros [[-> H]|[-> H]].
  - destruct k as [|[|k]]; [reflexivity|reflexivity|lia].
  - destruct (Nat.eqb_spec (k + k) 0); [lia|]. destruct (Nat.eqb_spec (k + k) 1); [lia|].
    assert (Nat.even (k + k) = true) as E by (replace (k + k) with (2 * k) by lia; apply Nat.even_spec; exists k; lia). rewrite E.
    replace ((k + k) / 2) with k; [f_equal; f_equal; lia|]. symmetry. replace (k + k) with (k * 2) by lia. apply Nat.div_mul. lia.
Qed.
(* The end of a string: after a character that is not a dot. *)
Lemma unescape_app s c x y : is_dot c = false -> forall k, unescape k (s ++ [c]) = Some x -> unescape 0 y = unescape 0 y ->
  unescape k (s ++ c :: y) = match unescape 0 y with Some z => Some (x ++ z) | None => None end.
Proof.
  intros Hc k H _. revert k x H. induction s as [|a s IH]; intros k x H; cbn [app unescape] in *.
  - rewrite Hc in *. cbn [unescape] in H. destruct (unescape_run k) as [u|]; [|discriminate]. cbn in H. injection H as <-.
    destruct (unescape 0 y); [|reflexivity]. rewrite <- app_assoc. reflexivity.
  - destruct (is_dot a); [apply IH; exact H|]. destruct (unescape_run k) as [u|]; [|discriminate].
    destruct (unescape 0 (s ++ [c])) as [v|] eqn:E; [|discriminate]. injection H as <-. rewrite (IH 0 v E).
    destruct (unescape 0 y); [|reflexivity]. rewrite <- app_assoc. reflexivity.
Qed.
Lemma unescape_snoc s c : is_dot c = false -> forall k x, unescape k s = Some x -> unescape k (s ++ [c]) = Some (x ++ [c]).
Proof.
  intros Hc. induction s as [|a s IH]; intros k x H; cbn [app unescape] in *.
  - rewrite Hc, H. reflexivity.
  - destruct (is_dot a); [apply IH; exact H|]. destruct (unescape_run k); [|discriminate]. destruct (unescape 0 s) as [y|] eqn:E; [|discriminate].
    injection H as <-. rewrite (IH 0 y E), <- app_assoc. reflexivity.
Qed.

Lemma shape_unescape nm n t k l o f : Shape nm n t k l o f -> unescape 0 (rev o) = Some (rev l ++ dots k).
Proof.
  induction 1 as [k m x E|k l o f H IH|k c l o m x f D S E H IH].
  - destruct (run_form nm n k t) as [m' [x' [E' [Hm _]]]]. rewrite E in E'. injection E' as E1 E2. assert (m = m') by (rewrite <- (dots_len m), E1, dots_len; reflexivity). subst m'.
    rewrite dots_rev. rewrite <- (app_nil_r (dots m)), unescape_dots. cbn. exact (unescape_run_ok k m Hm).
  - rewrite IH. cbn [rev]. rewrite <- app_assoc. reflexivity.
  - destruct (run_form nm n k (c :: l ++ t)) as [m' [x' [E' [Hm _]]]]. rewrite E in E'. injection E' as E1 E2. assert (m = m') by (rewrite <- (dots_len m), E1, dots_len; reflexivity). subst m'.
    rewrite rev_app_distr. cbn [rev]. rewrite dots_rev, <- app_assoc. cbn [app]. cbn [dots repeat app] in IH. rewrite app_nil_r in IH.
    rewrite (unescape_app (rev o) c (rev l ++ [c]) (dots m) D 0 (unescape_snoc _ _ D _ _ IH) eq_refl).
    rewrite <- (app_nil_r (dots m)), unescape_dots. cbn [unescape Nat.add]. rewrite (unescape_run_ok k m Hm). reflexivity.
Qed.

(* If nothing was escaped. *)
Lemma dots_inj m n : dots m = dots n -> m = n.
Proof. intros H. rewrite <- (dots_len m), H. apply dots_len. Qed.

(* Scanning. *)
Lemma scan_dots m rs s : forall k, scan k (dots m ++ rs) s = scan (k + m) rs s.
Proof. induction m as [|m IH]; intros k; cbn; [rewrite Nat.add_0_r; reflexivity|]. rewrite IH. f_equal. lia. Qed.
Lemma even_double k : Nat.even (k + k) = true.
Proof. replace (k + k) with (2 * k) by lia. apply Nat.even_spec. exists k. lia. Qed.
Lemma run_even k i s : k <> 0 -> run (k + k) i s = Some (mkscan (edp s) true (dot_only s)).
Proof.
  intros H. unfold run. destruct (Nat.eqb_spec (k + k) 0); [lia|]. destruct (Nat.eqb_spec (k + k) 3); [lia|]. destruct (Nat.eqb_spec (k + k) 1); [lia|].
  rewrite even_double. reflexivity.
Qed.

(* What escaping promises to scanning: the extension dot, if already found, stays. *)
Definition all_dots (l : bytes) : bool := forallb is_dot l.
Lemma run_set k m i s p : edp s = Some p -> ((m = k /\ k <= 1) \/ (m = k + k /\ k <> 0)) ->
  exists s', run m i s = Some s' /\ edp s' = Some p /\ dot_only s' = dot_only s /\ (escaped s' = false -> escaped s = false /\ m = k) /\ (escaped s = true -> escaped s' = true).
Proof.
  intros Hp [[-> H]|[-> H]].
  - exists s. split; [|tauto]. destruct k as [|[|k]]; [reflexivity| |lia]. cbn. rewrite Hp. reflexivity.
  - rewrite run_even by exact H. eexists. split; [reflexivity|]. cbn. split; [exact Hp|]. split; [reflexivity|]. split; [discriminate|reflexivity].
Qed.
Lemma run_free k m i s : edp s = None -> ((m = k /\ k <= 1) \/ (m = k + k /\ k <> 0)) ->
  exists s', run m i s = Some s' /\ edp s' = (if m =? 1 then Some (i, 1) else None) /\ dot_only s' = dot_only s /\ (escaped s' = false -> escaped s = false /\ m = k) /\ (escaped s = true -> escaped s' = true).
Proof.
  intros Hp [[-> H]|[-> H]].
  - destruct k as [|[|k]]; [exists s; cbn; rewrite Hp; tauto| |lia]. cbn. rewrite Hp. eexists. split; [reflexivity|]. cbn. tauto.
  - rewrite run_even by exact H. eexists. split; [reflexivity|]. cbn. destruct (Nat.eqb_spec (k + k) 1); [lia|]. rewrite Hp. split; [reflexivity|]. split; [reflexivity|]. split; [discriminate|reflexivity].
Qed.

Lemma scan_stop m t s : stop t -> scan m t s = match run m (length t) s with Some s' => Some (s', length t) | None => None end.
Proof.
  intros H. destruct t as [|c t]; [reflexivity|]. cbn in H. cbn [scan]. assert (is_dot c = false) as D by (apply is_sep_eq in H; subst; reflexivity).
  rewrite D, H. reflexivity.
Qed.

Lemma shape_scan_set nm n t k l o f : Shape nm n t k l o f -> stop t -> forall s p, edp s = Some p ->
  exists s', scan 0 (o ++ t) s = Some (s', length t) /\ edp s' = Some p /\ dot_only s' = dot_only s && all_dots l /\
    (escaped s' = false -> escaped s = false /\ o = dots k ++ l) .
Proof.
  intros H Ht. induction H as [k m x E|k l o f H IH|k c l o m x f D S E H IH]; intros s p Hp.
  - destruct (run_form nm n k t) as [m' [x' [E' [Hm _]]]]. rewrite E in E'. injection E' as E1 E2. apply dots_inj in E1. subst m'.
    rewrite scan_dots, scan_stop by exact Ht. cbn [Nat.add]. destruct (run_set k m (length t) s p Hp Hm) as [s' [R [R1 [R2 [R3 R4]]]]]. rewrite R.
    exists s'. split; [reflexivity|]. split; [exact R1|]. split; [cbn; rewrite andb_true_r; exact R2|]. intros K. destruct (R3 K) as [K1 ->]. rewrite app_nil_r. auto.
  - destruct (IH s p Hp) as [s' [R [R1 [R2 R3]]]]. exists s'. split; [exact R|]. split; [exact R1|]. split; [exact R2|].
    intros K. destruct (R3 K) as [K1 ->]. split; [exact K1|]. apply dots_snoc.
  - destruct (run_form nm n k (c :: l ++ t)) as [m' [x' [E' [Hm _]]]]. rewrite E in E'. injection E' as E1 E2. apply dots_inj in E1. subst m'.
    rewrite <- app_assoc, scan_dots. cbn [app Nat.add scan]. rewrite D, S.
    destruct (run_set k m (length (c :: o ++ t)) s p Hp Hm) as [s' [R [R1 [R2 [R3 R4]]]]]. rewrite R.
    destruct (IH (mkscan (edp s') (escaped s') false) p R1) as [s2 [Q [Q1 [Q2 Q3]]]]. exists s2. split; [exact Q|]. split; [exact Q1|].
    split; [rewrite Q2; cbn; rewrite D; cbn; rewrite andb_false_r; reflexivity|].
    intros K. destruct (Q3 K) as [K1 ->]. cbn in K1. destruct (R3 K1) as [K2 ->]. auto.
Qed.

(* If it has not been found: then it is not, unless the leading one. *)
Lemma shape_scan_free nm n t k l o f : Shape nm n t k l o f -> stop t -> forall s, edp s = None -> f = false ->
  exists s', scan 0 (o ++ t) s = Some (s', length t) /\ (edp s' = None \/ edp s' = Some (length t, 1)) /\ dot_only s' = dot_only s && all_dots l /\
    (escaped s' = false -> escaped s = false /\ o = dots k ++ l).
Proof.
  intros H Ht. induction H as [k m x E|k l o f H IH|k c l o m x f D S E H IH]; intros s Hp Hf.
  - destruct (run_form nm n k t) as [m' [x' [E' [Hm _]]]]. rewrite E in E'. injection E' as E1 E2. apply dots_inj in E1. subst m'.
    rewrite scan_dots, scan_stop by exact Ht. cbn [Nat.add]. destruct (run_free k m (length t) s Hp Hm) as [s' [R [R1 [R2 [R3 R4]]]]]. rewrite R.
    exists s'. split; [reflexivity|]. split; [rewrite R1; destruct (m =? 1); auto|]. split; [cbn; rewrite andb_true_r; exact R2|]. intros K. destruct (R3 K) as [K1 ->]. rewrite app_nil_r. auto.
  - destruct (IH s Hp Hf) as [s' [R [R1 [R2 R3]]]]. exists s'. split; [exact R|]. split; [exact R1|]. split; [exact R2|].
    intros K. destruct (R3 K) as [K1 ->]. split; [exact K1|]. apply dots_snoc.
  - destruct (run_form nm n k (c :: l ++ t)) as [m' [x' [E' [Hm [H1 _]]]]]. rewrite E in E'. injection E' as E1 E2. apply dots_inj in E1. subst m' x'.
    apply orb_false_iff in Hf. destruct Hf as [Hx Hf].
    assert (m =? 1 = false) as M1. { apply Nat.eqb_neq. intros K. destruct (H1 K) as [_ [K1|[_ K1]]]; [congruence|]. cbn in K1. congruence. }
    rewrite <- app_assoc, scan_dots. cbn [app Nat.add scan]. rewrite D, S.
    destruct (run_free k m (length (c :: o ++ t)) s Hp Hm) as [s' [R [R1 [R2 [R3 R4]]]]]. rewrite R. rewrite M1 in R1.
    destruct (IH (mkscan (edp s') (escaped s') false) R1 Hf) as [s2 [Q [Q1 [Q2 Q3]]]]. exists s2. split; [exact Q|]. split; [exact Q1|].
    split; [rewrite Q2; cbn; rewrite D; cbn; rewrite andb_false_r; reflexivity|].
    intros K. destruct (Q3 K) as [K1 ->]. cbn in K1. destruct (R3 K1) as [K2 ->]. auto.
Qed.

(* An extension: what is to the right of the separating dots. *)
Definition not_found (f : bool) (s : scan_st) : Prop := match edp s with None => f = false | Some (_, w) => w = 1 end.
Lemma shape_scan_ext n k l o f : Shape false n [] k l o f -> (l = [] -> k = 0) -> (forall l', l <> l' ++ [DOT]) -> forall s w rest, (match edp s with None => True | Some (_, v) => v = 1 end) ->
  exists s', scan 0 (o ++ dots w ++ rest) s = scan w rest s' /\ (match edp s' with None => edp s = None /\ f = false | Some (_, v) => v = 1 /\ (f = true \/ edp s <> None) end) /\ (dot_only s' = true -> dot_only s = true) /\
    (escaped s' = false -> escaped s = false /\ o = dots k ++ l).
Proof.
  intros H. induction H as [k m x E|k l o f H IH|k c l o m x f D S E H IH]; intros Hk Hl s w rest Hs.
  - specialize (Hk eq_refl). subst k. injection E as E1 E2. apply (dots_inj 0) in E1. subst m x. exists s. cbn [dots repeat app]. rewrite (scan_dots w rest s 0). split; [reflexivity|].
    split; [|auto]. destruct (edp s) as [[i v]|]; [split; [exact Hs|right; discriminate]|auto].
  - assert (l <> []) as Hne. { intros ->. exact (Hl [] eq_refl). }
    destruct (IH ltac:(intros; contradiction) ltac:(intros l' ->; exact (Hl (DOT :: l') eq_refl)) s w rest Hs) as [s' [R [R1 [R2 R3]]]].
    exists s'. split; [exact R|]. split; [exact R1|]. split; [exact R2|]. intros K. destruct (R3 K) as [K1 ->]. split; [exact K1|]. apply dots_snoc.
  - destruct (run_form false n k (c :: l ++ [])) as [m' [x' [E' [Hm [H1 H2]]]]]. rewrite E in E'. injection E' as E1 E2. apply dots_inj in E1. subst m' x'.
    rewrite <- app_assoc, scan_dots. cbn [app Nat.add scan]. rewrite D, S.
    assert (exists s', run m (length (c :: o ++ dots w ++ rest)) s = Some s' /\ (match edp s' with None => edp s = None /\ x = false | Some (_, v) => v = 1 /\ (x = true \/ edp s <> None) end) /\ (escaped s' = false -> escaped s = false /\ m = k)) as [s1 [R [R1 R3]]].
    { destruct (edp s) as [[i v]|] eqn:Es.
      - destruct (run_set k m (length (c :: o ++ dots w ++ rest)) s _ Es Hm) as [s1 [R [R1 [R2 [R3 R4]]]]]. exists s1. rewrite R1. split; [exact R|]. split; [split; [exact Hs|right; discriminate]|exact R3].
      - destruct (run_free k m (length (c :: o ++ dots w ++ rest)) s Es Hm) as [s1 [R [R1 [R2 [R3 R4]]]]]. exists s1. rewrite R1. split; [exact R|]. split; [|exact R3].
        destruct (Nat.eqb_spec m 1) as [M|M]; [split; [reflexivity|left]; destruct (H1 M) as [_ [K|[K _]]]; [exact K|discriminate]|]. split; [reflexivity|].
        destruct x; [|reflexivity]. specialize (H2 eq_refl). subst k. unfold escape_run in E. cbn in E. injection E as E1. apply (dots_inj 1) in E1. lia. }
    rewrite R. assert (l <> [DOT] /\ forall l', l <> l' ++ [DOT]) as [_ Hl'] by (split; [intros ->; exact (Hl [c] eq_refl)|intros l' ->; exact (Hl (c :: l') eq_refl)]).
    destruct (IH ltac:(reflexivity) Hl' (mkscan (edp s1) (escaped s1) false) w rest ltac:(cbn; destruct (edp s1) as [[? ?]|]; [apply R1|exact I])) as [s2 [Q [Q1 [Q2 Q3]]]].
    exists s2. split; [exact Q|]. split; [|split].
    + cbn [edp] in Q1. destruct (edp s2) as [[i v]|].
      * destruct Q1 as [-> Q1]. split; [reflexivity|]. destruct Q1 as [->|Q1]; [left; apply orb_true_r|]. destruct (edp s1) as [[? ?]|]; [|contradiction Q1; reflexivity].
        destruct R1 as [_ [-> |R1]]; [left; reflexivity|right; exact R1].
      * destruct Q1 as [Q1 ->]. rewrite Q1 in R1. destruct R1 as [R1 ->]. auto.
    + intros K. specialize (Q2 K). discriminate.
    + intros K. destruct (Q3 K) as [K1 ->]. cbn in K1. destruct (R3 K1) as [K2 ->]. auto.
Qed.

(* Whether there is a potential extension dot. *)
Lemma shape_lone nm n t k l o f : Shape nm n t k l o f -> nm = true -> stop t -> f = true ->
  exists x y, rev l ++ dots k = x ++ DOT :: y /\ x <> [] /\ ~ ends_with_dot x /\ ~ starts_with_dot y /\ (y = [] -> length (dots k ++ l ++ t) <> n).
Proof.
  intros H Hn Ht. induction H as [k m x E|k l o f H IH|k c l o m x f D S E H IH]; intros Hf.
  - subst x. exfalso. unfold escape_run in E. destruct (k =? 0); [discriminate|]. injection E as _ E. rewrite Hn in E. cbn [andb] in E.
    apply andb_true_iff in E. destruct E as [_ E]. destruct t as [|c t]; [discriminate|]. cbn in Ht. rewrite Ht in E. discriminate.
  - destruct (IH Hf) as [x [y [K1 [K2 [K3 [K4 K5]]]]]]. exists x, y. split; [rewrite <- K1; cbn [rev]; rewrite <- app_assoc; reflexivity|]. split; [exact K2|]. split; [exact K3|]. split; [exact K4|].
    intros Hy. specialize (K5 Hy). rewrite dots_snoc in K5. exact K5.
  - apply orb_true_iff in Hf. destruct Hf as [->|Hf].
    + clear IH H. unfold escape_run in E. destruct (Nat.eqb_spec k 0); [discriminate|]. injection E as _ E. apply andb_true_iff in E. destruct E as [E _]. apply andb_true_iff in E. destruct E as [E1 E2].
      apply Nat.eqb_eq in E1. subst k. rewrite Hn in E2. cbn [andb] in E2. exists (rev l ++ [c]), []. split; [reflexivity|]. split; [destruct (rev l); discriminate|]. split.
      * intros [w K]. apply app_inj_tail in K. destruct K as [_ ->]. discriminate.
      * split; [intros [? ?]; discriminate|]. intros _ K. apply negb_true_iff in E2. change ((length (c :: l ++ t) =? n - 1) = false) in E2. apply Nat.eqb_neq in E2. cbn in E2, K. lia.
    + destruct (IH Hf) as [x' [y [K1 [K2 [K3 [K4 K5]]]]]]. cbn [dots repeat app] in K1. rewrite app_nil_r in K1.
      exists x', (y ++ c :: dots k). split; [cbn [rev]; rewrite K1, <- !app_assoc; reflexivity|]. split; [exact K2|]. split; [exact K3|]. split.
      * intros [w K]. destruct y as [|a y]; cbn in K; [injection K as -> _; discriminate|]. injection K as -> _. apply K4. eexists. reflexivity.
      * intros K. destruct y; discriminate.
Qed.

Lemma shape_head nm n t k l o f : Shape nm n t k l o f -> (exists o', o = DOT :: o') <-> (exists l', dots k ++ l = DOT :: l').
Proof.
  induction 1 as [k m x E|k l o f H IH|k c l o m x f D S E H IH].
  - destruct (run_form nm n k t) as [m' [x' [E' [Hm _]]]]. rewrite E in E'. injection E' as E1 E2. apply dots_inj in E1. subst m'. rewrite app_nil_r.
    destruct k as [|k], m as [|m]; cbn; split; intros [? K]; try discriminate; try (eexists; reflexivity); exfalso; lia.
  - rewrite IH, dots_snoc. tauto.
  - destruct (run_form nm n k (c :: l ++ t)) as [m' [x' [E' [Hm _]]]]. rewrite E in E'. injection E' as E1 E2. apply dots_inj in E1. subst m'.
    apply is_dot_neq in D. change (c <> DOT) in D. destruct k as [|k], m as [|m]; cbn; split; intros [? K]; try (injection K as K _; congruence); try (eexists; reflexivity); exfalso; lia.
Qed.
