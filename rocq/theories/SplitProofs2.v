(* Splitting what has been combined. *)
From Verif Require Import Base SplitModel SplitSpec SplitProofs.

Lemma dir_stop d : directory_part d -> stop (rev d).
Proof. intros [->|[d' ->]]; [exact I|]. rewrite rev_app_distr. reflexivity. Qed.
Lemma sep_free_rev l : sep_free l -> sep_free (rev l).
Proof. unfold sep_free. intros H. apply Forall_rev. exact H. Qed.

Lemma not_only_dots l : ~ only_dots l -> all_dots (rev l) = false.
Proof.
  intros H. destruct (all_dots (rev l)) eqn:E; [|reflexivity]. contradiction H. unfold only_dots. apply Forall_forall. intros c Hc.
  unfold all_dots in E. rewrite forallb_forall in E. apply is_dot_eq, E. rewrite <- in_rev. exact Hc.
Qed.

(* The escaped name. *)
Lemma escaped_name d l : directory_part d -> no_slash l -> exists l' f, escape true (d ++ l) = Some (d ++ l', f) /\
  Shape true (length (d ++ l)) (rev d) 0 (rev l) (rev l') f.
Proof.
  intros Hd Hl. destruct (shape_exists true (length (d ++ l)) (rev d) (rev l) (sep_free_rev _ (proj2 (sep_free_iff l) Hl)) (dir_stop d Hd) ltac:(discriminate) 0) as [o [f [E S]]].
  exists (rev o), f. unfold escape. rewrite rev_app_distr, E. split; [rewrite rev_app_distr, rev_involutive; reflexivity|]. rewrite rev_involutive. exact S.
Qed.
Lemma escaped_ext x : no_slash x -> exists x' f, escape false x = Some (x', f) /\ Shape false (length x) [] 0 (rev x) (rev x') f.
Proof.
  intros Hl. destruct (shape_exists false (length x) [] (rev x) (sep_free_rev _ (proj2 (sep_free_iff x) Hl)) I ltac:(reflexivity) 0) as [o [f [E S]]].
  exists (rev o), f. unfold escape. rewrite app_nil_r in E. rewrite E, app_nil_r. split; [reflexivity|]. rewrite rev_involutive. exact S.
Qed.
Lemma shape_back nm n t l l' f : Shape nm n t 0 (rev l) (rev l') f -> unescape 0 l' = Some l.
Proof. intros S. apply shape_unescape in S. rewrite !rev_involutive in S. cbn [dots repeat] in S. rewrite app_nil_r in S. exact S. Qed.
Lemma shape_same nm n t l l' f : Shape nm n t 0 (rev l) (rev l') f -> rev l' = dots 0 ++ rev l -> l' = l.
Proof. intros _ H. cbn in H. rewrite <- (rev_involutive l'), H. apply rev_involutive. Qed.
Lemma shape_last nm n t l l' f : Shape nm n t 0 (rev l) (rev l') f -> ends_with_dot l' <-> ends_with_dot l.
Proof.
  intros S. apply shape_head in S. cbn [dots repeat app] in S. unfold ends_with_dot. split; intros [w ->].
  - destruct (proj1 S) as [z E]; [rewrite rev_app_distr; eexists; reflexivity|]. exists (rev z). rewrite <- (rev_involutive l), E. reflexivity.
  - destruct (proj2 S) as [z E]; [rewrite rev_app_distr; eexists; reflexivity|]. exists (rev z). rewrite <- (rev_involutive l'), E. reflexivity.
Qed.
Lemma last_is_iff l : last_is is_dot l = true <-> ends_with_dot l.
Proof.
  unfold last_is, ends_with_dot. split.
  - destruct (rev l) as [|c r] eqn:E; [discriminate|]. intros H. apply is_dot_eq in H. subst c. exists (rev r). rewrite <- (rev_involutive l), E. reflexivity.
  - intros [w ->]. rewrite rev_app_distr. reflexivity.
Qed.
Lemma ends_app d l : l <> [] -> ends_with_dot (d ++ l) <-> ends_with_dot l.
Proof.
  intros Hl. destruct (exists_last Hl) as [l0 [c ->]]. unfold ends_with_dot. split; intros [w E].
  - rewrite app_assoc in E. apply app_inj_tail in E. destruct E as [_ ->]. exists l0. reflexivity.
  - apply app_inj_tail in E. destruct E as [_ ->]. exists (d ++ l0). rewrite app_assoc. reflexivity.
Qed.
Lemma shape_nonempty nm n t l l' f : Shape nm n t 0 (rev l) (rev l') f -> l <> [] -> l' <> [].
Proof. intros S H ->. apply shape_back in S. cbn in S. congruence. Qed.
Lemma shape_nil nm n t l' f : Shape nm n t 0 [] (rev l') f -> l' = [] /\ f = false.
Proof. intros S. remember (rev l') as o eqn:Eo. inversion S as [k m x E E1 E2 E3 E4| |]; subst x k. unfold escape_run in E. cbn [Nat.eqb] in E. injection E as E K. split; [|auto].
  rewrite <- (rev_involutive l'), <- Eo, <- E3, <- E. reflexivity. Qed.

Lemma shape_no_lone d l l' f : Shape true (length (d ++ l)) (rev d) 0 (rev l) (rev l') f -> directory_part d -> ~ lone_dot_inside l -> f = false.
Proof.
  intros S Hd H. destruct f; [|reflexivity]. contradiction H. destruct (shape_lone _ _ _ _ _ _ _ S eq_refl (dir_stop d Hd) eq_refl) as [x [y [E [K1 [K2 [K3 K4]]]]]].
  rewrite rev_involutive in E. cbn [dots repeat] in E. rewrite app_nil_r in E. exists x, y. split; [exact E|]. split; [exact K1|]. split; [|auto].
  intros Hy. apply (K4 Hy). cbn [dots repeat app]. rewrite !app_length, !rev_length. lia.
Qed.

(* After the name: the separating dots have been seen. *)
Lemma scan_first w rs s : (match rs with c :: _ => is_dot c = false | [] => False end) ->
  scan w rs s = match run w (length rs) s with Some s' => scan 0 rs s' | None => None end.
Proof.
  destruct rs as [|c r]; [contradiction|]. intros H. cbn [scan]. rewrite H. destruct (run w (length (c :: r)) s) as [s'|]; reflexivity.
Qed.

Lemma firstn_len {A} (x y : list A) : firstn (length x) (x ++ y) = x.
Proof. rewrite firstn_app, Nat.sub_diag, firstn_all, app_nil_r. reflexivity. Qed.
Lemma skipn_len {A} (x y : list A) : skipn (length x) (x ++ y) = y.
Proof. rewrite skipn_app, Nat.sub_diag, skipn_all. reflexivity. Qed.

(* Splitting, when the extension dot has been found. *)
Lemma split_found d l l' f w x x' s3 : l <> [] ->
  Shape true (length (d ++ l)) (rev d) 0 (rev l) (rev l') f -> (w = 1 \/ w = 3) -> unescape 0 x' = Some x -> (x' = [] -> w = 1 -> x = []) ->
  scan 0 (rev ((d ++ l') ++ dots w ++ x')) (mkscan None false true) = Some (s3, length (rev d)) ->
  edp s3 = Some (length (rev l' ++ rev d), w) -> dot_only s3 = false -> (escaped s3 = false -> l' = l /\ x' = x) ->
  split_name ((d ++ l') ++ dots w ++ x') = Split (d ++ l) (if (match x' with [] => true | _ => false end) then if w =? 1 then Some [] else None else Some x).
Proof.
  intros Hl S Hw Hx Hx0 Hscan He Hd Hs. pose proof (shape_nonempty _ _ _ _ _ _ S Hl) as Hl'.
  unfold split_name. destruct ((d ++ l') ++ dots w ++ x') as [|c0 v0] eqn:Ev; [destruct d; destruct l'; try discriminate; contradiction Hl'; reflexivity|].
  rewrite <- Ev in *. clear Ev c0 v0. rewrite Hscan, Hd, He.
  assert (length (rev l' ++ rev d) = length (d ++ l')) as Hi by (rewrite !app_length, !rev_length; lia). rewrite Hi, rev_length.
  destruct (Nat.eqb_spec (length (d ++ l')) (length d)) as [K|_]; [rewrite app_length in K; destruct l'; [contradiction Hl'; reflexivity|cbn in K; lia]|].
  cbn [andb]. rewrite firstn_len.
  replace (skipn (length (d ++ l') + w) ((d ++ l') ++ dots w ++ x')) with x'.
  2: { rewrite app_assoc. replace (length (d ++ l') + w) with (length ((d ++ l') ++ dots w)) by (rewrite (app_length (d ++ l')), dots_len; reflexivity). rewrite skipn_len. reflexivity. }
  replace (length (d ++ l') =? length ((d ++ l') ++ dots w ++ x') - w) with (match x' with [] => true | _ => false end).
  2: { rewrite (app_length (d ++ l')), (app_length (dots w)), dots_len. destruct x'; cbn [length]; symmetry; [apply Nat.eqb_eq|apply Nat.eqb_neq]; lia. }
  destruct (escaped s3) eqn:Es; cbn [negb].
  - rewrite firstn_len, skipn_len, (shape_back _ _ _ _ _ _ S). destruct x' as [|c x']; cbn [negb].
    + destruct Hw as [-> | ->]; cbn [Nat.eqb]; reflexivity.
    + rewrite Hx. reflexivity.
  - destruct (Hs eq_refl) as [-> ->]. destruct x as [|c x]; cbn [negb]; reflexivity.
Qed.

(* Splitting, when it has not. *)
Lemma split_not_found d l l' f s3 : l <> [] ->
  Shape true (length (d ++ l)) (rev d) 0 (rev l) (rev l') f ->
  scan 0 (rev (d ++ l')) (mkscan None false true) = Some (s3, length (rev d)) ->
  (edp s3 = None \/ edp s3 = Some (length (rev d), 1)) -> dot_only s3 = false -> (escaped s3 = false -> l' = l) ->
  split_name (d ++ l') = Split (d ++ l) (if last_is is_dot l then Some [] else None).
Proof.
  intros Hl S Hscan He Hd Hs. pose proof (shape_nonempty _ _ _ _ _ _ S Hl) as Hl'.
  assert (last_is is_dot (d ++ l') = last_is is_dot l) as HL.
  { apply eq_true_iff_eq. rewrite !last_is_iff, (ends_app d l' Hl'). apply (shape_last _ _ _ _ _ _ S). }
  unfold split_name. destruct (d ++ l') as [|c0 v0] eqn:Ev; [destruct d; destruct l'; try discriminate; contradiction Hl'; reflexivity|].
  rewrite <- Ev in *. clear Ev c0 v0. rewrite Hscan, Hd.
  assert ((if match edp s3 with Some (i, _) => i =? length (rev d) | None => false end then None else edp s3) = None /\
          match edp s3 with Some (i, _) => i =? length (rev d) | None => false end && match edp s3 with Some (_, 3) => true | _ => false end = false) as [-> ->].
  { destruct He as [-> | ->]; [split; reflexivity|]. rewrite Nat.eqb_refl. split; reflexivity. }
  rewrite HL. destruct (escaped s3); cbn [negb].
  - rewrite rev_length, firstn_len, skipn_len, (shape_back _ _ _ _ _ _ S). destruct (last_is is_dot l); reflexivity.
  - rewrite (Hs eq_refl). reflexivity.
Qed.

Lemma head_not_dot l' d : l' <> [] -> ~ ends_with_dot l' -> match rev l' ++ rev d with c :: _ => is_dot c = false | [] => False end.
Proof.
  intros H1 H2. destruct (exists_last H1) as [l0 [c ->]]. rewrite rev_app_distr. cbn. apply is_dot_neq. intros ->. apply H2. exists l0. reflexivity.
Qed.

Lemma combine_split d l e de : directory_part d -> separable l e de -> exists s, combine_name (d ++ l) e de = Some s /\ split_name s = Split (d ++ l) e.
Proof.
  intros Hd [Hl [Hod He]]. assert (l <> []) as Hne. { intros ->. apply Hod. constructor. }
  destruct (escaped_name d l Hd Hl) as [l' [f [E S]]]. unfold combine_name. rewrite E.
  pose proof (shape_nonempty _ _ _ _ _ _ S Hne) as Hne'. pose proof (shape_last _ _ _ _ _ _ S) as HL.
  assert (last_is is_dot (d ++ l') = last_is is_dot l) as HLb.
  { apply eq_true_iff_eq. rewrite !last_is_iff, (ends_app d l' Hne'). exact HL. }
  rewrite HLb. pose proof (dir_stop d Hd) as Ht.
  assert (f = false -> exists s3, scan 0 (rev (d ++ l')) (mkscan None false true) = Some (s3, length (rev d)) /\
            (edp s3 = None \/ edp s3 = Some (length (rev d), 1)) /\ dot_only s3 = false /\ (escaped s3 = false -> l' = l)) as HF.
  { intros Hf. destruct (shape_scan_free _ _ _ _ _ _ _ S Ht (mkscan None false true) eq_refl Hf) as [s3 [Q [Q1 [Q2 Q3]]]].
    exists s3. rewrite rev_app_distr. split; [exact Q|]. split; [exact Q1|]. split; [rewrite Q2; apply not_only_dots; exact Hod|].
    intros K. apply Q3 in K. destruct K as [_ K]. exact (shape_same _ _ _ _ _ _ S K). }
  destruct (last_is is_dot l) eqn:Elast.
  - assert (ends_with_dot l) as K by (apply last_is_iff; exact Elast). destruct e as [x|]; [|destruct He as [He _]; contradiction].
    destruct He as [_ [_ He]]. destruct (He K) as [-> Hlone]. exists (d ++ l'). split; [reflexivity|].
    destruct (HF (shape_no_lone _ _ _ _ S Hd Hlone)) as [s3 [Q [Q1 [Q2 Q3]]]]. rewrite (split_not_found d l l' f s3 Hne S Q Q1 Q2 Q3), Elast. reflexivity.
  - assert (~ ends_with_dot l) as K by (rewrite <- last_is_iff, Elast; discriminate).
    assert (~ ends_with_dot l') as K' by (rewrite HL; exact K). pose proof (head_not_dot l' d Hne' K') as Hh.
    assert (forall w s1 (P : Prop), (w = 1 /\ edp s1 = None \/ w = 3 /\ match edp s1 with Some (_, v) => v = 1 | None => True end) -> (escaped s1 = false -> P) ->
      exists s3, scan w (rev l' ++ rev d) s1 = Some (s3, length (rev d)) /\ edp s3 = Some (length (rev l' ++ rev d), w) /\ dot_only s3 = false /\ (escaped s3 = false -> l' = l /\ P)) as HW.
    { intros w s1 P H1 HP. rewrite (scan_first w _ s1 Hh).
      assert (run w (length (rev l' ++ rev d)) s1 = Some (mkscan (Some (length (rev l' ++ rev d), w)) (escaped s1) (dot_only s1))) as HR.
      { destruct H1 as [[-> H1]|[-> H1]]; unfold run; cbn [Nat.eqb]; [rewrite H1; reflexivity|]. destruct (edp s1) as [[i v]|]; [subst v|]; reflexivity. }
      rewrite HR. destruct (shape_scan_set _ _ _ _ _ _ _ S Ht (mkscan (Some (length (rev l' ++ rev d), w)) (escaped s1) (dot_only s1)) _ eq_refl) as [s3 [Q [Q1 [Q2 Q3]]]].
      exists s3. split; [exact Q|]. split; [exact Q1|]. split; [rewrite Q2, (not_only_dots l Hod); apply andb_false_r|].
      intros K1. apply Q3 in K1. cbn in K1. destruct K1 as [K1 K2]. split; [exact (shape_same _ _ _ _ _ _ S K2)|apply HP; exact K1]. }
    destruct e as [x|].
    + destruct He as [Hx [Hxd _]]. destruct (escaped_ext x Hx) as [x' [fx [Ex Sx]]]. rewrite Ex. eexists. split; [reflexivity|].
      set (w := if fx then 3 else 1).
      destruct (shape_scan_ext _ _ _ _ _ Sx ltac:(reflexivity) ltac:(intros z Hz; apply Hxd; exists (rev z); rewrite <- (rev_involutive x), Hz, rev_app_distr; reflexivity)
                  (mkscan None false true) w (rev l' ++ rev d) I) as [s1 [Q [Q1 [_ Q3]]]].
      destruct (HW w s1 (x' = x)) as [s3 [R [R1 [R2 R3]]]].
      { unfold w. destruct (edp s1) as [[i v]|].
        - destruct Q1 as [-> [->|Q1]]; [right; auto|contradiction Q1; reflexivity].
        - destruct Q1 as [_ ->]. left. auto. }
      { intros K1. apply Q3 in K1. destruct K1 as [_ K1]. exact (shape_same _ _ _ _ _ _ Sx K1). }
      rewrite (split_found d l l' f w x x' s3 Hne S).
      * f_equal. destruct x' as [|c x'].
        -- assert (x = []) as -> by (apply shape_back in Sx; cbn in Sx; congruence). destruct (shape_nil _ _ _ _ _ Sx) as [_ ->]. reflexivity.
        -- reflexivity.
      * unfold w. destruct fx; auto.
      * exact (shape_back _ _ _ _ _ _ Sx).
      * intros -> _. apply shape_back in Sx. cbn in Sx. congruence.
      * rewrite !rev_app_distr, dots_rev, <- app_assoc. rewrite Q. exact R.
      * exact R1.
      * exact R2.
      * exact R3.
    + destruct He as [_ He]. destruct (de && f) eqn:Ede.
      * eexists. split; [reflexivity|]. destruct (HW 3 (mkscan None false true) True) as [s3 [R [R1 [R2 R3]]]]; [right; split; [reflexivity|exact I]|auto|].
        pose proof (split_found d l l' f 3 [] [] s3 Hne S ltac:(auto) eq_refl ltac:(reflexivity)) as F. rewrite app_nil_r in F. rewrite F; [reflexivity| |exact R1|exact R2|intros K1; destruct (R3 K1); auto].
        rewrite rev_app_distr, dots_rev, rev_app_distr, (scan_dots 3). exact R.
      * exists (d ++ l'). split; [reflexivity|].
        assert (f = false) as Hf. { destruct de; [exact Ede|]. apply (shape_no_lone _ _ _ _ S Hd). auto. }
        destruct (HF Hf) as [s3 [Q [Q1 [Q2 Q3]]]]. rewrite (split_not_found d l l' f s3 Hne S Q Q1 Q2 Q3), Elast. reflexivity.
Qed.
