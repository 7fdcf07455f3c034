(* What splitting any string results in. *)
From Verif Require Import Base SplitModel SplitSpec SplitProofs SplitProofs2.

(* y is x unescaped, and the same if nothing is escaped. *)
Definition plain (esc : bool) (x y : bytes) : Prop := unescape 0 x = Some y /\ (esc = false -> y = x).

Lemma unescape_more x y c k u : is_dot c = false -> unescape 0 x = Some y -> unescape_run k = Some u -> unescape 0 (x ++ c :: dots k) = Some (y ++ c :: u).
Proof.
  intros D H1 H2. rewrite (unescape_app x c (y ++ [c]) (dots k) D 0 (unescape_snoc _ _ D _ _ H1) eq_refl).
  rewrite <- (app_nil_r (dots k)), unescape_dots. cbn [unescape Nat.add]. rewrite H2, <- app_assoc. reflexivity.
Qed.
Lemma unescape_dots_only k : unescape 0 (dots k) = unescape_run k.
Proof. rewrite <- (app_nil_r (dots k)), unescape_dots. reflexivity. Qed.

(* A sequence of dots that is not (or is not any more) the extension. *)
Lemma run_cases k i s s' : run k i s = Some s' ->
  (exists u, edp s' = edp s /\ unescape_run k = Some u /\ (escaped s' = false -> u = dots k /\ escaped s = false)) \/
  (exists w, k = w /\ (w = 1 \/ w = 3) /\ edp s' = Some (i, w) /\ escaped s' = escaped s /\ (edp s = None \/ w = 3 /\ exists j v, edp s = Some (j, v) /\ v <> 3)).
Proof.
  unfold run, unescape_run. destruct (Nat.eqb_spec k 0) as [->|K0]; [intros [= <-]; left; exists []; auto|].
  destruct (Nat.eqb_spec k 3) as [->|K3].
  - intros H. right. exists 3. split; [reflexivity|]. split; [auto|]. destruct (edp s) as [[j v]|].
    + destruct (Nat.eq_dec v 3) as [->|V]; [discriminate|]. assert (s' = mkscan (Some (i, 3)) (escaped s) (dot_only s)) as ->.
      { destruct v as [|[|[|[|v]]]]; try (injection H as <-; reflexivity). contradiction V. reflexivity. }
      cbn. split; [reflexivity|]. split; [reflexivity|]. right. split; [reflexivity|]. exists j, v. auto.
    + injection H as <-. cbn. auto.
  - destruct (Nat.eqb_spec k 1) as [->|K1].
    + destruct (edp s) as [p|] eqn:E; intros [= <-].
      * left. exists (dots 1). auto.
      * right. exists 1. split; [reflexivity|]. split; [auto|]. split; [reflexivity|]. split; [reflexivity|]. left. reflexivity || exact E.
    + destruct (Nat.even k) eqn:E; [|discriminate]. intros [= <-]. left. eexists. cbn. split; [reflexivity|]. split; [reflexivity|discriminate].
Qed.

Lemma run_dot_only k i s s' : run k i s = Some s' -> dot_only s' = dot_only s.
Proof.
  unfold run. intros H. destruct (k =? 0); [injection H as <-; reflexivity|]. destruct (k =? 3); [destruct (edp s) as [[j [|[|[|[|v]]]]]|]; try discriminate; injection H as <-; reflexivity|].
  destruct (k =? 1); [destruct (edp s); injection H as <-; reflexivity|]. destruct (Nat.even k); [injection H as <-; reflexivity|discriminate].
Qed.

(* Scanning a (reversed) string. *)
Lemma scan_form rs : forall k s s' p, scan k rs s = Some (s', p) ->
  exists l t, rs = l ++ t /\ stop t /\ sep_free l /\ p = length t /\ dot_only s' = dot_only s && all_dots l /\ (escaped s' = false -> escaped s = false) /\
    ((edp s' = edp s /\ exists y, plain (escaped s') (rev l ++ dots k) y) \/
     (exists l1 w x y z, rev l ++ dots k = l1 ++ dots w ++ x /\ (w = 1 \/ w = 3) /\ edp s' = Some (length t + length l1, w) /\
        plain (escaped s') l1 y /\ plain (escaped s') x z /\ ~ ends_with_dot l1 /\ ~ starts_with_dot x /\
        (edp s = None \/ w = 3 /\ exists j v, edp s = Some (j, v) /\ v <> 3))).
Proof.
  induction rs as [|c r IH]; intros k s s' p H; cbn [scan] in H.
  - destruct (run k 0 s) as [s1|] eqn:R; [|discriminate]. injection H as <- <-. exists [], []. split; [reflexivity|]. split; [exact I|]. split; [constructor|]. split; [reflexivity|].
    split; [cbn; rewrite andb_true_r; exact (run_dot_only _ _ _ _ R)|]. destruct (run_cases _ _ _ _ R) as [[u [E1 [E2 E3]]]|[w [-> [W [E1 [E2 E3]]]]]].
    + split; [intros K; apply E3; exact K|]. left. split; [exact E1|]. exists u. split; [cbn [rev app]; rewrite unescape_dots_only; exact E2|]. intros K. apply E3 in K. cbn. apply K.
    + split; [congruence|]. right. exists [], w, [], [], []. split; [rewrite app_nil_r; reflexivity|]. split; [exact W|]. split; [exact E1|].
      split; [split; reflexivity|]. split; [split; reflexivity|]. split; [intros [z K]; destruct z; discriminate|]. split; [intros [z K]; discriminate|]. exact E3.
  - destruct (is_dot c) eqn:D.
    + destruct (IH _ _ _ _ H) as [l [t [-> [Ht [Hl [Hp [Hd [He Hc]]]]]]]]. apply is_dot_eq in D. subst c. exists (DOT :: l), t.
      split; [reflexivity|]. split; [exact Ht|]. split; [constructor; [reflexivity|exact Hl]|]. split; [exact Hp|]. split; [exact Hd|]. split; [exact He|].
      replace (rev (DOT :: l) ++ dots k) with (rev l ++ dots (S k)); [exact Hc|]. cbn [rev]. rewrite <- app_assoc. reflexivity.
    + destruct (run k (length (c :: r)) s) as [s1|] eqn:R; [|discriminate]. destruct (is_sep c) eqn:S.
      * injection H as <- <-. exists [], (c :: r). split; [reflexivity|]. split; [exact S|]. split; [constructor|]. split; [reflexivity|].
        split; [cbn; rewrite andb_true_r; exact (run_dot_only _ _ _ _ R)|]. destruct (run_cases _ _ _ _ R) as [[u [E1 [E2 E3]]]|[w [-> [W [E1 [E2 E3]]]]]].
        -- split; [intros K; apply E3; exact K|]. left. split; [exact E1|]. exists u. split; [cbn [rev app]; rewrite unescape_dots_only; exact E2|]. intros K. apply E3 in K. cbn. apply K.
        -- split; [congruence|]. right. exists [], w, [], [], []. split; [rewrite app_nil_r; reflexivity|]. split; [exact W|]. split; [rewrite E1; cbn [length]; rewrite Nat.add_0_r; reflexivity|].
           split; [split; reflexivity|]. split; [split; reflexivity|]. split; [intros [z K]; destruct z; discriminate|]. split; [intros [z K]; discriminate|]. exact E3.
      * destruct (IH _ _ _ _ H) as [l [t [-> [Ht [Hl [Hp [Hd [He Hc]]]]]]]]. cbn [edp escaped dot_only] in *. exists (c :: l), t.
        split; [reflexivity|]. split; [exact Ht|]. split; [constructor; assumption|]. split; [exact Hp|].
        split; [rewrite Hd; cbn; rewrite D; cbn; rewrite andb_false_r; reflexivity|].
        cbn [dots repeat] in Hc. rewrite app_nil_r in Hc. assert (rev (c :: l) ++ dots k = rev l ++ c :: dots k) as Efull by (cbn [rev]; rewrite <- app_assoc; reflexivity). rewrite Efull.
        assert (~ ends_with_dot (rev l ++ [c])) as Hend. { intros [z K]. apply app_inj_tail in K. destruct K as [_ ->]. discriminate. }
        destruct (run_cases _ _ _ _ R) as [[u [E1 [E2 E3]]]|[w [-> [W [E1 [E2 E3]]]]]].
        -- split; [intros K; apply E3, He, K|]. destruct Hc as [[C1 [y [C2 C3]]]|[l1 [w [x [y [z [C1 [C2 [C3 [C4 [C5 [C6 [C7 C8]]]]]]]]]]]]].
           ++ left. split; [congruence|]. exists (y ++ c :: u). split; [apply unescape_more; assumption|]. intros K. rewrite (C3 K). destruct (E3 (He K)) as [-> _]. reflexivity.
           ++ right. exists l1, w, (x ++ c :: dots k), y, (z ++ c :: u). split; [rewrite C1, <- !app_assoc; reflexivity|]. split; [exact C2|]. split; [exact C3|]. split; [exact C4|].
              split; [split; [apply unescape_more; [exact D|apply C5|exact E2]|intros K; rewrite (proj2 C5 K); destruct (E3 (He K)) as [-> _]; reflexivity]|]. split; [exact C6|].
              split; [intros [q K]; destruct x as [|a x]; cbn in K; injection K as -> _; [discriminate|apply C7; eexists; reflexivity]|]. rewrite <- E1. exact C8.
        -- split; [intros K; specialize (He K); congruence|]. destruct Hc as [[C1 [y [C2 C3]]]|[l1 [w' [x [y [z [C1 [C2 [C3 [C4 [C5 [C6 [C7 C8]]]]]]]]]]]]].
           ++ right. exists (rev l ++ [c]), w, [], (y ++ [c]), []. split; [rewrite app_nil_r, <- app_assoc; reflexivity|]. split; [exact W|].
              split; [rewrite C1, E1; f_equal; f_equal; cbn [length]; rewrite !app_length, rev_length; cbn; lia|].
              split; [split; [apply unescape_snoc; assumption|intros K; rewrite (C3 K); reflexivity]|]. split; [split; reflexivity|]. split; [exact Hend|]. split; [intros [q K]; discriminate|exact E3].
           ++ rewrite E1 in C8. destruct C8 as [C8|[-> [j [v [C8 V]]]]]; [discriminate|]. injection C8 as _ <-. destruct W as [->|W]; [|contradiction].
              right. exists l1, 3, (x ++ c :: dots 1), y, (z ++ c :: dots 1). split; [rewrite C1, <- !app_assoc; reflexivity|]. split; [auto|]. split; [exact C3|]. split; [exact C4|].
              split; [split; [apply unescape_more; [exact D|apply C5|reflexivity]|intros K; rewrite (proj2 C5 K); reflexivity]|]. split; [exact C6|].
              split; [intros [q K]; destruct x as [|a x]; cbn in K; injection K as -> _; [discriminate|apply C7; eexists; reflexivity]|].
              destruct E3 as [E3|[E3 _]]; [left; exact E3|discriminate].
Qed.

(* What unescaping keeps. *)
Lemma unescape_run_dots k u : unescape_run k = Some u -> exists m, u = dots m /\ (k <> 0 -> m <> 0).
Proof.
  unfold unescape_run. destruct (Nat.eqb_spec k 0); [intros [= <-]; exists 0; split; [reflexivity|lia]|]. destruct (k =? 1); [intros [= <-]; exists 1; split; [reflexivity|lia]|].
  destruct (Nat.even k); [|discriminate]. intros H. injection H as H. exists (k - k / 2). split; [symmetry; exact H|]. pose proof (Nat.div_lt k 2 ltac:(lia) ltac:(lia)). lia.
Qed.
Lemma unescape_in s c : is_dot c = false -> forall k y, unescape k s = Some y -> In c s <-> In c y.
Proof.
  intros D. assert (forall m, ~ In c (dots m)) as Hd. { intros m K. apply repeat_spec in K. subst c. discriminate. }
  induction s as [|a s IH]; intros k y H; cbn [unescape] in H.
  - destruct (unescape_run_dots _ _ H) as [m [-> _]]. split; [intros []|intros K; contradiction (Hd m K)].
  - destruct (is_dot a) eqn:E.
    + rewrite <- (IH _ _ H). split; [intros [K|K]; [congruence|exact K]|intros K; right; exact K].
    + destruct (unescape_run k) as [u|] eqn:U; [|discriminate]. destruct (unescape 0 s) as [z|] eqn:Z; [|discriminate]. injection H as <-. destruct (unescape_run_dots _ _ U) as [m [-> _]].
      rewrite in_app_iff. cbn. rewrite (IH _ _ Z). specialize (Hd m). tauto.
Qed.
Lemma unescape_starts s : forall k y, unescape k s = Some y -> starts_with_dot y <-> starts_with_dot (dots k ++ s).
Proof.
  induction s as [|a s IH]; intros k y H; cbn [unescape] in H.
  - destruct (unescape_run_dots _ _ H) as [m [-> Hm]]. rewrite app_nil_r. destruct k as [|k]; [cbn in H; injection H as H; destruct m; [tauto|discriminate]|]. destruct m; [lia|]. split; intros _; eexists; reflexivity.
  - destruct (is_dot a) eqn:E.
    + rewrite (IH _ _ H). apply is_dot_eq in E. subst a. rewrite dots_snoc. tauto.
    + destruct (unescape_run k) as [u|] eqn:U; [|discriminate]. destruct (unescape 0 s) as [z|]; [|discriminate]. injection H as <-. destruct (unescape_run_dots _ _ U) as [m [-> Hm]].
      apply is_dot_neq in E. destruct k as [|k].
      * cbn in U. injection U as U. destruct m; [|discriminate]. cbn. split; intros [q K]; injection K as K _; contradiction.
      * destruct m; [lia|]. split; intros _; eexists; reflexivity.
Qed.
Lemma unescape_ends s : forall k y, unescape k s = Some y -> ends_with_dot y <-> ends_with_dot (dots k ++ s).
Proof.
  assert (forall x c z, z <> [] -> ends_with_dot (x ++ c :: z) <-> ends_with_dot z) as HC.
  { intros x c z Hz. change (c :: z) with ([c] ++ z). rewrite app_assoc. apply ends_app. exact Hz. }
  assert (forall x c, is_dot c = false -> ends_with_dot (x ++ [c]) -> False) as HN.
  { intros x c D [q K]. apply app_inj_tail in K. destruct K as [_ ->]. discriminate. }
  induction s as [|a s IH]; intros k y H; cbn [unescape] in H.
  - destruct (unescape_run_dots _ _ H) as [m [-> Hm]]. rewrite app_nil_r. destruct k as [|k]; [cbn in H; injection H as H; destruct m; [tauto|discriminate]|]. destruct m; [lia|].
    split; intros _; [exists (dots k)|exists (dots m)]; change ["."%char] with (dots 1); rewrite dots_app; f_equal; lia.
  - destruct (is_dot a) eqn:E.
    + rewrite (IH _ _ H). apply is_dot_eq in E. subst a. rewrite dots_snoc. tauto.
    + destruct (unescape_run k) as [u|] eqn:U; [|discriminate]. destruct (unescape 0 s) as [z|] eqn:Z; [|discriminate]. injection H as <-. specialize (IH 0 z Z). cbn [dots repeat app] in IH.
      destruct s as [|a' s].
      * cbn in Z. injection Z as <-. split; intros K; exfalso; exact (HN _ _ E K).
      * assert (z <> []) as Hz.
        { intros ->. pose proof (unescape_starts (a' :: s) 0 [] Z) as K1. cbn in K1. destruct (is_dot a') eqn:E'; [apply is_dot_eq in E'; subst a'; destruct (proj2 K1 ltac:(eexists; reflexivity)); discriminate|].
          pose proof (unescape_in (a' :: s) a' E' 0 [] Z) as K2. cbn in K2. tauto. }
        rewrite !HC; [exact IH|discriminate|exact Hz].
Qed.

Lemma plain_facts esc x y : plain esc x y -> (no_slash x -> no_slash y) /\ (starts_with_dot y <-> starts_with_dot x) /\ (ends_with_dot y <-> ends_with_dot x) /\ (only_dots y <-> only_dots x).
Proof.
  intros [H _]. split; [|split; [exact (unescape_starts x 0 y H)|split; [exact (unescape_ends x 0 y H)|]]].
  - intros K1 K2. apply K1. apply (unescape_in x "/"%char eq_refl 0 y H). exact K2.
  - unfold only_dots. rewrite !Forall_forall. split; intros K c Hc; (destruct (is_dot c) eqn:E; [apply is_dot_eq; exact E|]); apply K; apply (unescape_in x c E 0 y H); exact Hc.
Qed.

Lemma rev_stop t : stop t -> directory_part (rev t).
Proof. destruct t as [|c t]; [left; reflexivity|]. cbn. intros H. apply is_sep_eq in H. subst c. right. exists (rev t). reflexivity. Qed.

(* The result of splitting. *)
Lemma split_form s : match split_name s with
  | Failed => True
  | Asserted => s = []
  | Split v e => exists d l, v = d ++ l /\ directory_part d /\ no_slash l /\ ~ only_dots l /\
      match e with
      | Some x => no_slash x /\ ~ starts_with_dot x /\ (ends_with_dot l -> x = [])
      | None => ~ ends_with_dot l
      end
  end.
Proof.
  unfold split_name. destruct s as [|c0 s0]; [reflexivity|]. set (s := c0 :: s0).
  destruct (scan 0 (rev s) (mkscan None false true)) as [[s1 p]|] eqn:E; [|exact I].
  destruct (scan_form _ _ _ _ _ E) as [l [t [Hs [Ht [Hl [Hp [Hd [He Hc]]]]]]]]. cbn [dot_only andb edp escaped dots repeat] in *.
  assert (s = rev t ++ rev l) as Es by (rewrite <- (rev_involutive s), Hs, rev_app_distr; reflexivity). rewrite app_nil_r in Hc.
  destruct (dot_only s1) eqn:Edo; [exact I|]. symmetry in Hd.
  assert (no_slash (rev l)) as Hns by (apply sep_free_iff; apply sep_free_rev; exact Hl).
  assert (~ only_dots (rev l)) as Hod.
  { intros K. assert (all_dots l = true) as K2; [|congruence]. unfold all_dots. apply forallb_forall. intros c Hc'. apply is_dot_eq. unfold only_dots in K. rewrite Forall_forall in K. apply K. rewrite <- in_rev. exact Hc'. }
  subst p.
  (* Not found or leading. *)
  assert (forall x, plain (escaped s1) (rev l) x ->
    match (if negb (escaped s1) then Split s (if last_is is_dot s then Some [] else None)
           else match unescape 0 (skipn (length t) s), match (if last_is is_dot s then Some [] else None) with Some x => match unescape 0 x with Some y => Some (Some y) | None => None end | None => Some None end with
                | Some x, Some r' => Split (firstn (length t) s ++ x) r' | _, _ => Asserted end) with
    | Failed => True | Asserted => s = []
    | Split v e => exists d l, v = d ++ l /\ directory_part d /\ no_slash l /\ ~ only_dots l /\ match e with Some x => no_slash x /\ ~ starts_with_dot x /\ (ends_with_dot l -> x = []) | None => ~ ends_with_dot l end
    end) as HN.
  { intros x [X1 X2]. destruct (plain_facts _ _ _ (conj X1 X2)) as [F1 [F2 [F3 F4]]].
    assert (rev l <> []) as Hne. { intros K. apply Hod. rewrite K. constructor. }
    assert (last_is is_dot s = true <-> ends_with_dot x) as HL by (rewrite last_is_iff, Es, (ends_app _ _ Hne); symmetry; exact F3).
    assert (firstn (length t) s = rev t /\ skipn (length t) s = rev l) as [-> ->].
    { rewrite Es, <- (rev_length t). split; [apply firstn_len|apply skipn_len]. }
    assert ((match (if last_is is_dot s then Some [] else None) with Some x => match unescape 0 x with Some y => Some (Some y) | None => None end | None => Some None end) = Some (if last_is is_dot s then Some [] else None)) as -> by (destruct (last_is is_dot s); reflexivity).
    rewrite X1. assert ((if negb (escaped s1) then Split s (if last_is is_dot s then Some [] else None) else Split (rev t ++ x) (if last_is is_dot s then Some [] else None)) = Split (rev t ++ x) (if last_is is_dot s then Some [] else None)) as ->.
    { destruct (escaped s1); [reflexivity|]. cbn [negb]. rewrite (X2 eq_refl), <- Es. reflexivity. }
    exists (rev t), x. split; [reflexivity|]. split; [exact (rev_stop t Ht)|]. split; [exact (F1 Hns)|]. split; [rewrite F4; exact Hod|].
    destruct (last_is is_dot s).
    - split; [intros []|]. split; [intros [? ?]; discriminate|reflexivity].
    - intros K. apply HL in K. discriminate. }
  destruct Hc as [[C1 [y C2]]|[l1 [w [x [y [z [C1 [W [C3 [C4 [C5 [C6 [C7 _]]]]]]]]]]]]].
  - rewrite C1. cbn [andb]. exact (HN y C2).
  - rewrite C3. destruct (Nat.eqb_spec (length t + length l1) (length t)) as [K|K].
    + destruct l1; [|cbn in K; lia]. cbn [andb]. destruct W as [-> | ->]; [|exact I]. cbn [app length] in C1.
      apply (HN (DOT :: z)). rewrite C1. split.
      * cbn. pose proof (proj1 C5) as C5a. destruct x as [|a x]; [cbn in *; injection C5a as <-; reflexivity|]. cbn [unescape] in *. destruct (is_dot a) eqn:D; [apply is_dot_eq in D; subst a; contradiction C7; eexists; reflexivity|].
        cbn [unescape_run Nat.eqb] in *. destruct (unescape 0 x); [|discriminate]. injection C5a as <-. reflexivity.
      * intros Q. rewrite (proj2 C5 Q). reflexivity.
    + cbn [andb]. assert (l1 <> []) as Hl1 by (intros ->; cbn in K; lia).
      assert (s = (rev t ++ l1) ++ dots w ++ x) as Es2 by (rewrite Es, C1, <- app_assoc; reflexivity).
      assert (length t + length l1 = length (rev t ++ l1)) as El by (rewrite app_length, rev_length; reflexivity). rewrite El.
      assert (firstn (length (rev t ++ l1)) s = rev t ++ l1) as -> by (rewrite Es2; apply firstn_len).
      assert (skipn (length (rev t ++ l1) + w) s = x) as ->.
      { rewrite Es2, app_assoc. replace (length (rev t ++ l1) + w) with (length ((rev t ++ l1) ++ dots w)) by (rewrite (app_length (rev t ++ l1)), dots_len; reflexivity). apply skipn_len. }
      assert ((length (rev t ++ l1) =? length s - w) = match x with [] => true | _ => false end) as ->.
      { rewrite Es2, (app_length (rev t ++ l1)), (app_length (dots w)), dots_len. destruct x; cbn [length]; [apply Nat.eqb_eq|apply Nat.eqb_neq]; lia. }
      assert (firstn (length t) (rev t ++ l1) = rev t /\ skipn (length t) (rev t ++ l1) = l1) as [F1 F2].
      { rewrite <- (rev_length t). split; [apply firstn_len|apply skipn_len]. }
      rewrite F1, F2, (proj1 C4).
      assert (no_slash l1 /\ no_slash x) as [N1 N2]. { unfold no_slash in *. rewrite C1 in Hns. split; intros Q; apply Hns; rewrite !in_app_iff; auto. }
      destruct (plain_facts _ _ _ C4) as [P1 [P2 [P3 P4]]]. destruct (plain_facts _ _ _ C5) as [R1 [R2 [R3 R4]]].
      set (r := if negb match x with [] => true | _ => false end then Some x else if w =? 1 then Some [] else None).
      assert (match match r with Some x => match unescape 0 x with Some y => Some (Some y) | None => None end | None => Some None end with Some r' => True | None => False end) as HR.
      { subst r. destruct x as [|a x]; [cbn; destruct (w =? 1); exact I|]. cbn [negb]. rewrite (proj1 C5). exact I. }
      destruct (match r with Some x => match unescape 0 x with Some y => Some (Some y) | None => None end | None => Some None end) as [r'|] eqn:Er; [|contradiction].
      assert (match r' with Some q => q = z \/ q = [] | None => True end) as Hr'.
      { subst r. destruct x as [|a x]; [cbn in Er; destruct (w =? 1); injection Er as <-; auto|]. cbn [negb] in Er. rewrite (proj1 C5) in Er. injection Er as <-. auto. }
      assert ((if negb (escaped s1) then Split (rev t ++ l1) r else Split (rev t ++ y) r') = Split (rev t ++ y) r') as ->.
      { destruct (escaped s1) eqn:Q; [reflexivity|]. cbn [negb]. rewrite (proj2 C4 eq_refl). f_equal. subst r. destruct x as [|a x]; [cbn in *; destruct (w =? 1); injection Er as <-; reflexivity|].
        cbn [negb] in *. rewrite (proj1 C5) in Er. injection Er as <-. rewrite (proj2 C5 eq_refl). reflexivity. }
      exists (rev t), y. split; [reflexivity|]. split; [exact (rev_stop t Ht)|]. split; [exact (P1 N1)|].
      split. { rewrite P4. intros Q. apply C6. destruct (exists_last Hl1) as [l0 [c ->]]. exists l0. f_equal. f_equal. unfold only_dots in Q. rewrite Forall_forall in Q. apply Q. rewrite in_app_iff. right. left. reflexivity. }
      destruct r' as [q|]; [|rewrite P3; exact C6]. split; [destruct Hr' as [-> | ->]; [exact (R1 N2)|intros []]|]. split; [destruct Hr' as [-> | ->]; [rewrite R2; exact C7|intros [? ?]; discriminate]|].
      intros Q. exfalso. apply C6, P3, Q.
Qed.

Lemma lone_dec l : lone_dot_inside l \/ ~ lone_dot_inside l.
Proof.
  set (ck i := match skipn i l with
               | c :: y => is_dot c && negb (last_is is_dot (firstn i l)) && negb (i =? 0) && match y with [] => false | a :: _ => negb (is_dot a) end
               | [] => false end).
  destruct (existsb ck (seq 0 (length l))) eqn:E.
  - left. apply existsb_exists in E. destruct E as [i [Hi E]]. apply in_seq in Hi. unfold ck in E. destruct (skipn i l) as [|c y] eqn:S; [discriminate|].
    apply andb_true_iff in E. destruct E as [E E4]. apply andb_true_iff in E. destruct E as [E E3]. apply andb_true_iff in E. destruct E as [E1 E2].
    apply is_dot_eq in E1. subst c. exists (firstn i l), y. split; [rewrite <- S; symmetry; apply firstn_skipn|].
    split; [intros K; assert (length (firstn i l) = 0) as K2 by (rewrite K; reflexivity); rewrite firstn_length_le in K2 by lia; subst i; discriminate|].
    split; [intros ->; discriminate|]. split; [rewrite <- last_is_iff; destruct (last_is is_dot (firstn i l)); [discriminate|discriminate]|].
    intros [q ->]. discriminate.
  - right. intros [x [y [-> [Hx [Hy [H1 H2]]]]]]. assert (existsb ck (seq 0 (length (x ++ "."%char :: y))) = true) as K; [|congruence].
    apply existsb_exists. exists (length x). split; [apply in_seq; rewrite app_length; cbn; lia|]. unfold ck. rewrite skipn_len, firstn_len. cbn [is_dot].
    rewrite <- last_is_iff in H1. destruct (last_is is_dot x); [contradiction H1; reflexivity|]. destruct x as [|a x]; [contradiction Hx; reflexivity|]. destruct y as [|c y]; [contradiction Hy; reflexivity|].
    destruct (is_dot c) eqn:D; [apply is_dot_eq in D; subst c; contradiction H2; eexists; reflexivity|reflexivity].
Qed.
