From Verif Require Import Base MakeModel MakeSpec.

Lemma special_escapable c : special c <-> escapable c = true.
Proof.
  unfold special, escapable. rewrite !orb_true_iff, !ceqb_eq. simpl.
  unfold BS, SP, COLON, HASH, NUL. intuition congruence.
Qed.

(* What can follow a word. *)
Definition follows (t : bytes) : Prop :=
  t = [] \/ t = [BS] \/ hd_error t = Some SP \/ hd_error t = Some COLON.

Lemma follows_stop t : follows t -> scan t = ([], t).
Proof.
  intros [->|[->|[H|H]]]; try reflexivity; destruct t as [|c t]; try discriminate; inversion H; subst; reflexivity.
Qed.

Lemma scan_cons_plain c s :
  c <> SP -> c <> COLON ->
  (c = BS -> exists d s', s = d :: s' /\ ~ special d) ->
  (c = DOLLAR -> hd_error s <> Some DOLLAR) ->
  scan (c :: s) = cons1 c (scan s).
Proof.
  intros H1 H2 H3 H4. cbn [scan]. apply ceqb_neq in H1, H2. rewrite H1, H2. cbn [orb].
  destruct s as [|d s].
  - destruct (ceqb c BS) eqn:E; [|reflexivity]. apply ceqb_eq in E. destruct (H3 E) as [d [s' [E' _]]]. discriminate.
  - destruct (ceqb c BS) eqn:E.
    + apply ceqb_eq in E. destruct (H3 E) as [d' [s' [E' Hd]]]. inversion E'; subst d' s'.
      destruct (escapable d) eqn:Ed; [|reflexivity]. exfalso. apply Hd. apply special_escapable. exact Ed.
    + destruct (ceqb c DOLLAR) eqn:Ed; [|reflexivity]. apply ceqb_eq in Ed.
      destruct (ceqb d DOLLAR) eqn:Ed'; [|reflexivity]. apply ceqb_eq in Ed'. subst d.
      exfalso. apply (H4 Ed). reflexivity.
Qed.

Lemma scan_word w r t : renders w r -> follows t -> scan (r ++ t) = (w, t).
Proof.
  intros Hr Ht. induction Hr as [|c w s Hc Hr IH|w s Hr IH|c w s H1 H2 H3 H4 Hr IH].
  - apply follows_stop; exact Ht.
  - change ((("\"%char :: c :: s) ++ t)) with (BS :: c :: (s ++ t)). cbn [scan].
    change (ceqb BS SP || ceqb BS COLON) with false. cbn iota. change (ceqb BS BS) with true. cbn iota.
    apply special_escapable in Hc. rewrite Hc, IH. reflexivity.
  - change ((("$"%char :: "$"%char :: s) ++ t)) with (DOLLAR :: DOLLAR :: (s ++ t)). cbn [scan].
    change (ceqb DOLLAR SP || ceqb DOLLAR COLON) with false. cbn iota. change (ceqb DOLLAR BS) with false. cbn iota.
    change (ceqb DOLLAR DOLLAR && ceqb DOLLAR DOLLAR) with true. cbn iota. rewrite IH. reflexivity.
  - cbn [app]. rewrite scan_cons_plain; auto.
    + rewrite IH. reflexivity.
    + intros E. destruct (H3 E) as [d [s' [-> Hd]]]. exists d, (s' ++ t). auto.
    + intros E. specialize (H4 E). destruct s as [|d s]; [|exact H4]. cbn [app].
      destruct Ht as [->|[->|[Ht|Ht]]]; try rewrite Ht; discriminate.
Qed.

Lemma scan_sound s : forall w t, scan s = (w, t) -> exists r, s = r ++ t /\ renders w r /\ follows t.
Proof.
  remember (length s) as n eqn:E. assert (length s <= n) as Hle by lia. clear E.
  revert s Hle; induction n as [|n IH]; intros s Hle w t H.
  - destruct s; [|simpl in Hle; lia]. inversion H; subst. exists []. split; [reflexivity|]. split; [constructor|left; reflexivity].
  - destruct s as [|c s]; [inversion H; subst; exists []; split; [reflexivity|]; split; [constructor|left; reflexivity]|].
    simpl in Hle. cbn [scan] in H.
    destruct (ceqb c SP || ceqb c COLON) eqn:E1.
    { inversion H; subst. exists []. split; [reflexivity|]. split; [constructor|]. right. right.
      apply orb_true_iff in E1. rewrite !ceqb_eq in E1. destruct E1; subst; auto. }
    apply orb_false_iff in E1. rewrite !ceqb_neq in E1. destruct E1 as [Es Ec].
    destruct s as [|d s].
    + destruct (ceqb c BS) eqn:E2; inversion H; subst.
      * apply ceqb_eq in E2. subst c. exists []. split; [reflexivity|]. split; [constructor|right; left; reflexivity].
      * apply ceqb_neq in E2. exists [c]. split; [reflexivity|]. split; [|left; reflexivity].
        apply r_plain; [exact Es|exact Ec|intros X; contradiction|discriminate|constructor].
    + assert (forall w' t', scan (d :: s) = (w', t') ->
                (c = BS -> ~ special d) -> (c = DOLLAR -> d <> DOLLAR) ->
                exists r, c :: d :: s = r ++ t' /\ renders (c :: w') r /\ follows t') as Hplain.
      { intros w' t' Hs Hb Hd. destruct (IH (d :: s)) with (w := w') (t := t') as [r [Er [Hr Ht]]]; [simpl in *; lia|exact Hs|].
        exists (c :: r). split; [rewrite Er; reflexivity|]. split; [|exact Ht].
        destruct r as [|x r].
        - apply r_plain; [exact Es|exact Ec| | |exact Hr].
          + intros Ebs. exfalso. specialize (Hb Ebs). clear Ebs. simpl in Er. subst t'.
            destruct Ht as [Ht|[Ht|[Ht|Ht]]]; inversion Ht; subst; apply Hb; unfold special; simpl; auto.
          + discriminate.
        - inversion Er; subst x. apply r_plain; [exact Es|exact Ec| | |exact Hr].
          + intros Ebs. exists d, r. split; [reflexivity|auto].
          + intros Ed. specialize (Hd Ed). simpl. intros Hx. apply Hd. inversion Hx. reflexivity. }
      destruct (ceqb c BS) eqn:E2.
      * apply ceqb_eq in E2. subst c. destruct (escapable d) eqn:Ed.
        -- destruct (scan s) as [w' t'] eqn:Es'. unfold cons1 in H; simpl in H. inversion H; subst.
           destruct (IH s) with (w := w') (t := t) as [r [Er [Hr Ht]]]; [simpl in *; lia|exact Es'|].
           exists (BS :: d :: r). split; [rewrite Er; reflexivity|]. split; [|exact Ht].
           apply r_escape; [apply special_escapable; exact Ed|exact Hr].
        -- destruct (scan (d :: s)) as [w' t'] eqn:Es'. unfold cons1 in H; simpl in H. inversion H; subst.
           apply Hplain; auto.
           ++ intros _ Hx. apply special_escapable in Hx. congruence.
           ++ discriminate.
      * apply ceqb_neq in E2. destruct (ceqb c DOLLAR && ceqb d DOLLAR) eqn:Ed.
        -- apply andb_true_iff in Ed. rewrite !ceqb_eq in Ed. destruct Ed; subst.
           destruct (scan s) as [w' t'] eqn:Es'. unfold cons1 in H; simpl in H. inversion H; subst.
           destruct (IH s) with (w := w') (t := t) as [r [Er [Hr Ht]]]; [simpl in *; lia|exact Es'|].
           exists (DOLLAR :: DOLLAR :: r). split; [rewrite Er; reflexivity|]. split; [|exact Ht].
           apply r_dollar; exact Hr.
        -- destruct (scan (d :: s)) as [w' t'] eqn:Es'. unfold cons1 in H; simpl in H. inversion H; subst.
           apply Hplain; [reflexivity|intros X; contradiction|].
           intros Edc Hdd. subst. rewrite !(proj2 (ceqb_eq _ _) eq_refl) in Ed. discriminate.
Qed.

Lemma escape_renders w : ~ In NUL w -> renders w (escape w).
Proof.
  induction w as [|c w IH]; intros Hn; [constructor|]. simpl in Hn.
  assert (renders w (escape w)) as Hw by (apply IH; tauto). cbn [escape].
  destruct (existsb (Ascii.eqb c) ["\"; " "; ":"; "#"]%char) eqn:E.
  - apply r_escape; [|exact Hw]. apply existsb_exists in E. destruct E as [x [Hx Ex]].
    apply Ascii.eqb_eq in Ex. subst x. unfold special. simpl in *. tauto.
  - assert (~ In c ["\"; " "; ":"; "#"]%char) as Hni.
    { intros Hi. assert (existsb (Ascii.eqb c) ["\"; " "; ":"; "#"]%char = true) as Hx.
      { apply existsb_exists. exists c. split; [exact Hi|apply Ascii.eqb_refl]. }
      congruence. }
    destruct (Ascii.eqb c "$") eqn:Ed.
    + apply Ascii.eqb_eq in Ed. subst c. apply r_dollar; exact Hw.
    + apply Ascii.eqb_neq in Ed. apply r_plain; auto; simpl in Hni; try tauto.
      * intros ->; tauto.
      * intros ->; tauto.
      * intros ->; exfalso; tauto.
Qed.

(* --- spaces --- *)

Lemma skip_sp_spaces n s : skip_sp (spaces n ++ s) = skip_sp s.
Proof. induction n as [|n IH]; [reflexivity|]. exact IH. Qed.

Lemma skip_sp_non s : hd_error s <> Some SP -> skip_sp s = s.
Proof.
  destruct s as [|c s]; [reflexivity|]. simpl. intros H. destruct (ceqb c SP) eqn:E; [|reflexivity].
  apply ceqb_eq in E. subst. congruence.
Qed.

Lemma skip_sp_split s : exists n, s = spaces n ++ skip_sp s /\ hd_error (skip_sp s) <> Some SP.
Proof.
  induction s as [|c s [n [E H]]].
  - exists 0. split; [reflexivity|discriminate].
  - simpl. destruct (ceqb c SP) eqn:Ec.
    + apply ceqb_eq in Ec. subst c. exists (S n). split; [|exact H].
      change (spaces (S n) ++ skip_sp s) with (SP :: spaces n ++ skip_sp s). f_equal. exact E.
    + exists 0. split; [reflexivity|]. simpl. apply ceqb_neq in Ec. congruence.
Qed.

Lemma skip_sp_idem s : skip_sp (skip_sp s) = skip_sp s.
Proof. destruct (skip_sp_split s) as [n [_ H]]. apply skip_sp_non; exact H. Qed.

Lemma renders_hd w r t : w <> [] -> renders w r ->
  hd_error (r ++ t) <> Some SP /\ hd_error (r ++ t) <> Some COLON /\ r <> [].
Proof.
  intros Hw Hr. destruct Hr; [congruence|repeat split; discriminate|repeat split; discriminate|].
  unfold SP, COLON in *. simpl. repeat split; congruence.
Qed.

(* --- one word --- *)

(* Unread suffix after next_word given what follows the word. *)
Definition after (t : bytes) : bool * bytes :=
  match skip_sp t with
  | [] => (true, [])
  | [c] => (false, if ceqb c BS then [] else [c])
  | r => (false, r)
  end.

Lemma next_word_spec n w r t : w <> [] -> renders w r -> follows t ->
  next_word (spaces n ++ r ++ t) = (w, fst (after t), snd (after t)).
Proof.
  intros Hw Hr Ht. unfold next_word. rewrite skip_sp_spaces.
  destruct (renders_hd w r t Hw Hr) as [H1 _]. rewrite (skip_sp_non _ H1).
  rewrite (scan_word _ _ _ Hr Ht). unfold after.
  destruct (skip_sp t) as [|c [|c2 r']]; reflexivity.
Qed.

Lemma next_word_blank n t : follows t -> hd_error t <> Some SP ->
  next_word (spaces n ++ t) = ([], fst (after t), snd (after t)).
Proof.
  intros Ht Hs. unfold next_word. rewrite skip_sp_spaces, (skip_sp_non _ Hs), (follows_stop _ Ht).
  unfold after. destruct (skip_sp t) as [|c [|c2 r']]; reflexivity.
Qed.

(* --- the line loop --- *)

(* Shape of the unread suffix between iterations. *)
Inductive lstop : bytes -> Prop :=
| ls_nil : lstop []
| ls_cont : lstop [BS].

Lemma follows_words ws t z : words ws t -> (t = [] \/ hd_error t = Some SP) ->
  (z = [] \/ z = [BS] \/ hd_error z = Some COLON) -> follows (t ++ z).
Proof.
  intros _ [->|H] Hz; simpl.
  - destruct Hz as [->|[->|Hz]]; unfold follows; auto.
  - destruct t as [|c t]; [discriminate|]. simpl in *. unfold follows. right. right. left. exact H.
Qed.

Definition tag (st : state) : type := match st with Prereqs => Prereq | _ => Target end.

(* The state after the words of a line have been consumed, before what ends
   them is looked at. *)
Definition seen (st : state) (ws : list bytes) : state :=
  match st, ws with Begin, _ :: _ => Targets | _, _ => st end.

Lemma words_sp ws s : words ws s -> forall n, words ws (spaces n ++ s).
Proof.
  intros H n. destruct H as [m|m w ws r t Hw Hr Ht Hs].
  - unfold spaces. rewrite <- repeat_app. apply w_nil.
  - rewrite app_assoc. unfold spaces. rewrite <- repeat_app. apply w_cons; auto.
Qed.

Lemma words_skip ws s : words ws s -> words ws (skip_sp s).
Proof.
  intros H. destruct H as [m|m w ws r t Hw Hr Ht Hs].
  - replace (skip_sp (spaces m)) with (spaces 0); [apply w_nil|].
    rewrite <- (app_nil_r (spaces m)), skip_sp_spaces. reflexivity.
  - rewrite skip_sp_spaces. destruct (renders_hd w r t Hw Hr) as [H1 _]. rewrite (skip_sp_non _ H1).
    apply (w_cons 0); auto.
Qed.

Lemma skip_sp_app s z : hd_error z <> Some SP ->
  skip_sp (s ++ z) = match skip_sp s with [] => z | s' => s' ++ z end.
Proof.
  intros Hz. destruct (skip_sp_split s) as [n [E H]]. rewrite E at 1. rewrite <- app_assoc, skip_sp_spaces.
  destruct (skip_sp s) as [|c s'] eqn:Es.
  - simpl. apply skip_sp_non; exact Hz.
  - apply skip_sp_non. exact H.
Qed.

Lemma next_noend st s w r : st <> End -> next_word s = (w, false, r) -> hd_error r <> Some COLON ->
  next st s = Some (match st, w with Begin, _ :: _ => Targets | _, _ => st end, (tag st, w), r).
Proof.
  intros Hst Hn Hr. unfold next. rewrite Hn.
  destruct st; try congruence; destruct w; destruct r as [|c r]; try reflexivity; simpl;
    (destruct (ceqb c COLON) eqn:E; [apply ceqb_eq in E; subst; simpl in Hr; congruence|reflexivity]).
Qed.

(* The unread suffix r of a line, with words ws left followed by z (nothing, a
   continuation or a colon). *)
Lemma loop_words ws : forall st s z fuel,
  words ws s -> st <> End ->
  (z = [] \/ z = [BS] \/ hd_error z = Some COLON) ->
  length (s ++ z) < fuel ->
  exists w z' e fuel',
    (* the last call: sees the last word (or none) and the terminator *)
    length z' < fuel' /\ next_word z' = (w, e, if ceqb (hd SP z) COLON then z else []) /\
    e = (match z with [] => true | _ => false end) /\
    (ws = [] -> w = []) /\
    line_loop fuel st (s ++ z) =
      match line_loop fuel' (seen st (removelast ws)) z' with
      | None => None
      | Some (st', xs) => Some (st', map (pair (tag st)) (removelast ws) ++ xs)
      end /\
    (ws <> [] -> w = last ws []).
Proof.
  induction ws as [|w0 ws IH]; intros st s z fuel Hw Hst Hz Hf.
  - inversion Hw; subst.
    assert (hd_error z <> Some SP) as Hzs by (destruct Hz as [->|[->|Hz]]; try rewrite Hz; discriminate).
    assert (follows z) as Hfz by (destruct Hz as [->|[->|Hz]]; unfold follows; auto).
    exists [], (spaces n ++ z). exists (match z with [] => true | _ => false end), fuel. split; [exact Hf|].
    split. { rewrite next_word_blank by auto. unfold after. rewrite (skip_sp_non _ Hzs).
             destruct Hz as [->|[->|Hz]]; [reflexivity|reflexivity|].
             destruct z as [|c z]; [discriminate|]. inversion Hz; subst. destruct z; reflexivity. }
    split; [reflexivity|].
    split; [reflexivity|]. split; [|congruence].
    simpl removelast. replace (seen st []) with st by (destruct st; reflexivity).
    destruct (line_loop fuel st (spaces n ++ z)) as [[? ?]|]; reflexivity.
  - inversion Hw as [|n w ws' r t Hw0 Hr Ht Hts]; subst.
    assert (hd_error z <> Some SP) as Hzs by (destruct Hz as [->|[->|Hz]]; try rewrite Hz; discriminate).
    assert (follows (t ++ z)) as Hfz by (eapply follows_words; eauto).
    destruct ws as [|w1 ws].
    + (* last word *)
      inversion Ht; subst. exists w0, ((spaces n ++ r ++ spaces n0) ++ z). exists (match z with [] => true | _ => false end), fuel.
      split; [exact Hf|].
      assert (after (spaces n0 ++ z) = (match z with [] => true | _ => false end, if ceqb (hd SP z) COLON then z else [])) as Ea.
      { unfold after. rewrite skip_sp_spaces, (skip_sp_non _ Hzs).
        destruct Hz as [->|[->|Hz]]; [reflexivity|reflexivity|].
        destruct z as [|c z]; [discriminate|]. inversion Hz; subst. destruct z; reflexivity. }
      split. { rewrite <- !app_assoc, (next_word_spec n w0 r (spaces n0 ++ z)) by auto. rewrite Ea. reflexivity. }
      split; [reflexivity|]. split; [congruence|]. split; [|reflexivity].
      simpl removelast. replace (seen st []) with st by (destruct st; reflexivity).
      match goal with |- ?x = _ => destruct x as [[? ?]|]; reflexivity end.
    + (* more words follow *)
      destruct fuel as [|fuel]; [lia|].
      assert (exists c u, skip_sp t = c :: u /\ c <> COLON /\ c <> SP /\ words (w1 :: ws) (c :: u) /\
                (c = BS -> u <> [])) as [c [u [Et [Hc1 [Hc2 [Hwu Hbs]]]]]].
      { pose proof (words_skip _ _ Ht) as Hsk. inversion Ht as [|n1 w1' ws1 r1 t1 Hw1 Hr1 Ht1 Hts1]; subst.
        rewrite skip_sp_spaces in *. destruct (renders_hd w1 r1 t1 Hw1 Hr1) as [Hs1 [Hs2 Hs3]].
        rewrite (skip_sp_non _ Hs1) in *. destruct r1 as [|c r1]; [congruence|]. simpl in *.
        exists c, (r1 ++ t1). repeat split; auto; try congruence.
        intros ->. inversion Hr1 as [|c0 w2 s2 Hc0 Hr2|w2 s2 Hr2|c0 w2 s2 Q1 Q2 Q3 Q4 Hr2]; subst; simpl; try discriminate.
        destruct (Q3 eq_refl) as [d [s' [-> _]]]. discriminate. }
      assert (next_word ((spaces n ++ r ++ t) ++ z) = (w0, false, (c :: u) ++ z)) as En.
      { rewrite <- !app_assoc, (next_word_spec n w0 r (t ++ z)) by auto. unfold after.
        rewrite skip_sp_app by exact Hzs. rewrite Et. cbn [app].
        destruct (u ++ z) as [|c2 u2] eqn:Eu; [|reflexivity].
        apply app_eq_nil in Eu. destruct Eu as [-> ->]. cbn [fst snd].
        destruct (ceqb c BS) eqn:Ecb; [apply ceqb_eq in Ecb; exfalso; apply Hbs; auto|reflexivity]. }
      assert (length ((c :: u) ++ z) < fuel) as Hlen.
      { assert (length (c :: u) <= length t) as Hl1.
        { destruct (skip_sp_split t) as [m [Em _]]. rewrite Em, Et, app_length. lia. }
        destruct (renders_hd w0 r [] Hw0 Hr) as [_ [_ Hrne]].
        assert (length r > 0) by (destruct r; [congruence|simpl; lia]).
        rewrite !app_length in *. lia. }
      destruct (IH (seen st [w0]) (c :: u) z fuel Hwu) as [w [z' [e [fuel' [H1 [H2 [H3 [H4 [H5 H6]]]]]]]]]; auto.
      { destruct st; simpl; congruence. }
      exists w, z', e, fuel'. split; [exact H1|]. split; [exact H2|]. split; [exact H3|]. split; [congruence|].
      split.
      * cbn [line_loop]. rewrite (next_noend st _ _ _ Hst En); [|simpl; congruence].
        destruct w0 as [|x0 w0]; [congruence|].
        assert (match st, x0 :: w0 with Begin, _ :: _ => Targets | _, _ => st end = seen st [x0 :: w0]) as Em
          by (destruct st; reflexivity).
        rewrite Em.
        cbn [app] in *. rewrite H5.
        replace (seen (seen st [x0 :: w0]) (removelast (w1 :: ws))) with (seen st (removelast ((x0 :: w0) :: w1 :: ws)))
          by (destruct st; reflexivity || (simpl; destruct ws; reflexivity)).
        replace (tag (seen st [x0 :: w0])) with (tag st) by (destruct st; reflexivity).
        change (removelast ((x0 :: w0) :: w1 :: ws)) with ((x0 :: w0) :: removelast (w1 :: ws)).
        destruct (line_loop fuel' (seen st ((x0 :: w0) :: removelast (w1 :: ws))) z') as [[? ?]|]; reflexivity.
      * intros _. rewrite H6 by discriminate. reflexivity.
Qed.

(* The three ways a line can end. *)

Lemma map_snoc_words t (ws : list bytes) w :
  ws <> [] -> w = last ws [] -> Forall (fun w => w <> []) ws ->
  map (pair t) (removelast ws) ++ (match w return list (type * bytes) with [] => [] | _ => [(t, w)] end) = map (pair t) ws.
Proof.
  intros Hne -> Hall. assert (last ws [] <> []) as Hl.
  { rewrite (app_removelast_last [] Hne) in Hall. apply Forall_app in Hall. destruct Hall as [_ Hall].
    inversion Hall; assumption. }
  rewrite (app_removelast_last [] Hne) at 3. rewrite map_app. simpl.
  destruct (last ws []); [congruence|reflexivity].
Qed.

Lemma words_nonempty ws s : words ws s -> Forall (fun w => w <> []) ws.
Proof. intros H; induction H; constructor; auto. Qed.

Lemma words_empty ws s : words ws s -> s = [] -> ws = [].
Proof.
  intros H E. destruct H as [|n w ws r t Hwn Hr Ht Hs]; [reflexivity|]. exfalso.
  destruct (renders_hd w r [] Hwn Hr) as [_ [_ Hx]]. apply Hx.
  destruct n; [|discriminate]. simpl in E. apply app_eq_nil in E. tauto.
Qed.

Lemma seen_last st ws w : ws <> [] -> w = last ws [] -> Forall (fun w => w <> []) ws ->
  match seen st (removelast ws), w with Begin, _ :: _ => Targets | s, _ => s end = seen st ws.
Proof.
  intros Hne -> Hall. assert (last ws [] <> []) as Hl.
  { rewrite (app_removelast_last [] Hne) in Hall. apply Forall_app in Hall. destruct Hall as [_ Hall].
    inversion Hall; assumption. }
  destruct (last ws []) eqn:El; [congruence|].
  destruct st, ws as [|w1 ws]; try congruence; simpl; try reflexivity. destruct ws; reflexivity.
Qed.

Lemma seen_End st ws : st <> End -> seen st ws <> End.
Proof. destruct st, ws; simpl; congruence. Qed.

Lemma tag_seen st ws : tag (seen st ws) = tag st.
Proof. destruct st, ws; reflexivity. Qed.

Lemma line_cont ws st s fuel : words ws s -> st <> End -> length (s ++ [BS]) < fuel ->
  line_loop fuel st (s ++ [BS]) = Some (seen st ws, map (pair (tag st)) ws).
Proof.
  intros Hw Hst Hf. pose proof (words_nonempty _ _ Hw) as Hall.
  destruct (loop_words ws st s [BS] fuel Hw Hst) as [w [z' [e [fuel' [H1 [H2 [H3 [H4 [H5 H6]]]]]]]]]; auto.
  rewrite H5. destruct fuel' as [|fuel']; [lia|]. cbn [line_loop]. simpl in H2. subst e.
  rewrite (next_noend _ _ _ _ (seen_End st (removelast ws) Hst) H2) by discriminate.
  rewrite tag_seen. destruct ws as [|w1 ws].
  - rewrite H4 by reflexivity. simpl. destruct st; reflexivity.
  - rewrite (map_snoc_words (tag st) (w1 :: ws) w) by (discriminate || (try apply H6; try discriminate; auto)).
    f_equal. f_equal. rewrite <- (seen_last st (w1 :: ws) w) by (discriminate || (try apply H6; try discriminate; auto)).
    destruct (seen st (removelast (w1 :: ws))), w; reflexivity.
Qed.

Lemma line_end ws s fuel : words ws s -> length s < fuel ->
  line_loop fuel Prereqs s = Some (End, map (pair Prereq) ws).
Proof.
  intros Hw Hf. pose proof (words_nonempty _ _ Hw) as Hall.
  destruct (loop_words ws Prereqs s [] fuel Hw) as [w [z' [e [fuel' [H1 [H2 [H3 [H4 [H5 H6]]]]]]]]];
    [discriminate|auto|rewrite app_nil_r; exact Hf|].
  rewrite app_nil_r in H5. rewrite H5. destruct fuel' as [|fuel']; [lia|]. cbn [line_loop]. simpl in H2. subst e.
  unfold next. rewrite H2. change (seen Prereqs (removelast ws)) with Prereqs. cbn iota.
  destruct ws as [|w1 ws].
  - rewrite H4 by reflexivity. reflexivity.
  - rewrite <- (map_snoc_words Prereq (w1 :: ws) w) by (discriminate || (try apply H6; try discriminate; auto)). reflexivity.
Qed.

Lemma line_blank n fuel : n < fuel -> line_loop fuel Begin (spaces n) = Some (Begin, []).
Proof.
  intros Hf. destruct (loop_words [] Begin (spaces n) [] fuel (w_nil n)) as [w [z' [e [fuel' [H1 [H2 [H3 [H4 [H5 H6]]]]]]]]];
    [discriminate|auto|rewrite app_nil_r; unfold spaces; rewrite repeat_length; exact Hf|].
  rewrite app_nil_r in H5. rewrite H5. destruct fuel' as [|fuel']; [lia|]. cbn [line_loop]. simpl in H2. subst e.
  unfold next. rewrite H2, H4 by reflexivity. reflexivity.
Qed.

(* More fuel does not change a result. *)
Lemma line_loop_more fuel : forall st s r, line_loop fuel st s = Some r ->
  forall fuel', fuel <= fuel' -> line_loop fuel' st s = Some r.
Proof.
  induction fuel as [|fuel IH]; intros st s r H fuel' Hle; [discriminate|].
  destruct fuel' as [|fuel']; [lia|]. cbn [line_loop] in *.
  destruct (next st s) as [[[st' [t w]] u]|]; [|discriminate]. destruct u as [|c u]; [exact H|].
  destruct (line_loop fuel st' (c :: u)) as [[st'' xs]|] eqn:E; [|discriminate].
  rewrite (IH _ _ _ E fuel') by lia. exact H.
Qed.

Lemma line_colon ws st s p fuel :
  words ws s -> st <> End -> seen st ws = Targets -> length (s ++ COLON :: p) < fuel ->
  forall r, line_loop (S (length p)) Prereqs p = Some r ->
  line_loop fuel st (s ++ COLON :: p) =
    Some (match p with [] => End | _ => fst r end,
          map (pair Target) ws ++ match p with [] => [] | _ => snd r end).
Proof.
  intros Hw Hst Hseen Hf r Hr. pose proof (words_nonempty _ _ Hw) as Hall.
  assert (tag st = Target) as Htag by (destruct st, ws; simpl in Hseen; try discriminate; reflexivity).
  assert (length p < fuel - length s) as Hp by (rewrite app_length in Hf; simpl in Hf; lia).
  destruct (loop_words ws st s (COLON :: p) fuel Hw Hst) as [w [z' [e [fuel' [H1 [H2 [H3 [H4 [H5 H6]]]]]]]]]; auto.
  rewrite H5. destruct fuel' as [|fuel']; [lia|]. cbn [line_loop]. simpl in H2. subst e.
  assert (length p < length z') as Hpz.
  { assert (forall s, length (skip_sp s) <= length s) as Hsk.
    { intros x. destruct (skip_sp_split x) as [m [Em _]]. rewrite Em at 2. rewrite app_length. lia. }
    unfold next_word in H2. destruct (scan (skip_sp z')) as [w' r'] eqn:Esc.
    destruct (scan_sound _ _ _ Esc) as [r0 [Er0 _]].
    pose proof (Hsk z') as L1. rewrite Er0, app_length in L1. pose proof (Hsk r') as L2.
    destruct (skip_sp r') as [|c [|c2 r'']] eqn:Esk; [inversion H2| |inversion H2; subst; simpl in *; lia].
    destruct (ceqb c BS); inversion H2; subst; simpl in *; lia. }
  assert (next (seen st (removelast ws)) z' =
          Some (match p with [] => End | _ => Prereqs end, (Target, w), p)) as En.
  { unfold next. rewrite H2. destruct ws as [|w1 ws].
    - rewrite H4 by reflexivity. simpl. destruct st; simpl in *; try discriminate. reflexivity.
    - pose proof (seen_last st (w1 :: ws) w) as Hs. rewrite Hseen in Hs.
      specialize (Hs ltac:(discriminate) (H6 ltac:(discriminate)) Hall).
      destruct (seen st (removelast (w1 :: ws))), w; try discriminate; reflexivity. }
  rewrite En. rewrite Htag.
  assert (map (pair Target) (removelast ws) ++ (match w return list (type * bytes) with [] => [] | _ => [(Target, w)] end) = map (pair Target) ws) as Em.
  { destruct ws as [|w1 ws]; [rewrite H4 by reflexivity; reflexivity|].
    apply map_snoc_words; [discriminate|apply H6; discriminate|exact Hall]. }
  destruct p as [|c p].
  - rewrite Em, app_nil_r. reflexivity.
  - rewrite (line_loop_more _ _ _ _ Hr fuel') by lia. destruct r as [st' xs]. simpl fst. simpl snd.
    rewrite app_assoc, Em. reflexivity.
Qed.

(* --- whole declarations --- *)

Lemma prereqs_parse ps ls : prereqs ps ls -> forall more,
  parse_lines Prereqs (ls ++ more) = Some (map (pair Prereq) ps, more).
Proof.
  intros H; induction H as [ps s Hw|ps s ps' ls Hw Hp IH]; intros more; cbn [app parse_lines].
  - unfold parse_line. rewrite (line_end _ _ _ Hw) by lia. reflexivity.
  - unfold parse_line. change "\"%char with BS. rewrite (line_cont _ Prereqs _ _ Hw) by (discriminate || lia).
    simpl seen. simpl tag. rewrite IH, map_app. destruct ps; reflexivity.
Qed.

Lemma decl_parse ts ps ls : decl ts ps ls -> forall st more,
  (st = Targets \/ st = Begin /\ ts <> []) ->
  parse_lines st (ls ++ more) = Some (map (pair Target) ts ++ map (pair Prereq) ps, more).
Proof.
  intros H; induction H as [ts s ps p ls Hw Hp|ts s ts' ps ls Hw Hd IH]; intros st more Hst; cbn [app parse_lines].
  - assert (st <> End) as Hne by (destruct Hst as [->|[-> _]]; discriminate).
    assert (seen st ts = Targets) as Hseen.
    { destruct Hst as [->|[-> Ht]]; [destruct ts; reflexivity|destruct ts; [congruence|reflexivity]]. }
    assert (exists r, line_loop (S (length p)) Prereqs p = Some r /\
              match p with [] => ps = [] /\ ls = [] | _ =>
                match fst r with End => Some (snd r, ls ++ more) | _ =>
                  match parse_lines (fst r) (ls ++ more) with
                  | Some (ys, z) => Some (snd r ++ ys, z) | None => None end end =
                Some (map (pair Prereq) ps, more) end) as [r [Hr Hrest]].
    { pose proof (prereqs_parse _ _ Hp more) as Hpp. cbn [app parse_lines] in Hpp. unfold parse_line in Hpp.
      destruct (line_loop (S (length p)) Prereqs p) as [[st' xs]|] eqn:El; [|discriminate].
      exists (st', xs). split; [reflexivity|]. destruct p as [|c p]; [|exact Hpp].
      inversion Hp as [ps0 s0 Hw0|ps0 s0 ps' ls' Hw0 Hp0 E1 E2]; subst.
      - split; [|reflexivity]. apply (words_empty _ _ Hw0). reflexivity.
      - destruct s0; discriminate. }
    unfold parse_line. change ":"%char with COLON.
    rewrite (line_colon ts st s p _ Hw Hne Hseen (Nat.lt_succ_diag_r _) r Hr).
    destruct p as [|c p].
    + destruct Hrest as [-> ->]. simpl. rewrite !app_nil_r. reflexivity.
    + destruct (fst r); [| | |injection Hrest as E1 E2; rewrite E1, E2; reflexivity];
        (match type of Hrest with match ?x with _ => _ end = _ => destruct x as [[ys z]|]; [|discriminate] end;
         injection Hrest as E1 E2; subst z; rewrite <- app_assoc, E1; reflexivity).
  - assert (st <> End) as Hne by (destruct Hst as [->|[-> _]]; discriminate).
    unfold parse_line. change "\"%char with BS. rewrite (line_cont _ st _ _ Hw Hne) by lia.
    assert (tag st = Target) as -> by (destruct Hst as [->|[-> _]]; reflexivity).
    assert (seen st ts = Targets \/ seen st ts = Begin /\ ts' <> []) as Hst'.
    { destruct Hst as [->|[-> Ht]]; [left; destruct ts; reflexivity|].
      destruct ts; [right; split; [reflexivity|exact Ht]|left; reflexivity]. }
    rewrite (IH (seen st ts) more Hst'), map_app, app_assoc.
    destruct Hst' as [->|[-> _]]; reflexivity.
Qed.

Lemma blanks_parse bl : Forall blank bl -> forall ls, parse (bl ++ ls) = parse ls.
Proof.
  unfold parse. intros H; induction H as [|l bl [n [->| ->]] H IH]; intros ls; [reflexivity| |]; cbn [app parse_lines];
    unfold parse_line.
  - rewrite line_blank by (unfold spaces; rewrite repeat_length; lia). rewrite IH.
    destruct (parse_lines Begin ls) as [[? ?]|]; reflexivity.
  - change "\"%char with BS. rewrite (line_cont [] Begin (spaces n)) by (try discriminate; try lia; apply w_nil). simpl. rewrite IH.
  destruct (parse_lines Begin ls) as [[? ?]|]; reflexivity.
Qed.

Lemma decl_parses bl ts ps ls more :
  Forall blank bl -> decl ts ps ls -> ts <> [] ->
  parse (bl ++ ls ++ more) = Some (map (pair Target) ts ++ map (pair Prereq) ps, more).
Proof. intros Hb Hd Ht. rewrite blanks_parse by exact Hb. apply decl_parse; auto. Qed.

(* --- soundness: whatever is accepted is a rendering of what is returned --- *)

Inductive lres : state -> bytes -> state -> list (type * bytes) -> Prop :=
| lr_end ws s : words ws s -> lres Prereqs s End (map (pair Prereq) ws)
| lr_blank n : lres Begin (spaces n) Begin []
| lr_cont st ws s : words ws s -> st <> End ->
    lres st (s ++ [BS]) (seen st ws) (map (pair (tag st)) ws)
| lr_colon0 st ts s : words ts s -> seen st ts = Targets ->
    lres st (s ++ [COLON]) End (map (pair Target) ts)
| lr_colon st ts s p st' xs : words ts s -> seen st ts = Targets -> p <> [] ->
    lres Prereqs p st' xs -> lres st (s ++ COLON :: p) st' (map (pair Target) ts ++ xs).

Lemma words_more n m w rr ws s : w <> [] -> renders w rr -> words ws s ->
  words (w :: ws) (spaces n ++ rr ++ spaces (S m) ++ s).
Proof. intros Hw Hr Hs. apply w_cons; auto. apply words_sp; exact Hs. Qed.

Lemma seen_seen st w ws : seen (seen st [w]) ws = seen st (w :: ws).
Proof. destruct st, ws; reflexivity. Qed.

Lemma lres_more st st1 n m w rr r st' xs :
  w <> [] -> renders w rr -> st1 = seen st [w] -> lres st1 r st' xs ->
  lres st (spaces n ++ rr ++ spaces (S m) ++ r) st' ((tag st, w) :: xs).
Proof.
  intros Hw Hr E Hl. destruct Hl as [ws s Hws|k|st1 ws s Hws Hne|st1 ts s Hts Hs|st1 ts s p st' xs Hts Hs Hp Hl].
  - assert (st = Prereqs) as -> by (destruct st; discriminate || reflexivity).
    apply (lr_end (w :: ws)). apply words_more; auto.
  - destruct st; discriminate.
  - subst st1. rewrite tag_seen, seen_seen.
    replace (spaces n ++ rr ++ spaces (S m) ++ s ++ [BS]) with ((spaces n ++ rr ++ spaces (S m) ++ s) ++ [BS])
      by (rewrite <- !app_assoc; reflexivity).
    apply (lr_cont st (w :: ws)); [apply words_more; auto|]. intros ->. apply Hne. reflexivity.
  - subst st1. rewrite seen_seen in Hs.
    replace (spaces n ++ rr ++ spaces (S m) ++ s ++ [COLON]) with ((spaces n ++ rr ++ spaces (S m) ++ s) ++ [COLON])
      by (rewrite <- !app_assoc; reflexivity).
    replace (tag st) with Target by (destruct st; simpl in Hs; reflexivity || discriminate).
    apply (lr_colon0 st (w :: ts)); [apply words_more; auto|exact Hs].
  - subst st1. rewrite seen_seen in Hs.
    replace (spaces n ++ rr ++ spaces (S m) ++ s ++ COLON :: p) with ((spaces n ++ rr ++ spaces (S m) ++ s) ++ COLON :: p)
      by (rewrite <- !app_assoc; reflexivity).
    replace (tag st) with Target by (destruct st; simpl in Hs; reflexivity || discriminate).
    apply (lr_colon st (w :: ts)); [apply words_more; auto|exact Hs|exact Hp|exact Hl].
Qed.

(* What next_word did. *)
Inductive nw : bytes -> bytes -> bool -> bytes -> Prop :=
| nw_end w ws s : words ws s -> (w = [] /\ ws = [] \/ w <> [] /\ ws = [w]) -> nw s w true []
| nw_cont w ws s : words ws s -> (w = [] /\ ws = [] \/ w <> [] /\ ws = [w]) -> nw (s ++ [BS]) w false []
| nw_colon w ws s p : words ws s -> (w = [] /\ ws = [] \/ w <> [] /\ ws = [w]) ->
    nw (s ++ COLON :: p) w false (COLON :: p)
| nw_more n m w rr r : w <> [] -> renders w rr -> r <> [] -> hd_error r <> Some COLON ->
    nw (spaces n ++ rr ++ spaces (S m) ++ r) w false r.

Lemma spaces_add n m s : spaces n ++ spaces m ++ s = spaces (n + m) ++ s.
Proof. unfold spaces. rewrite repeat_app, app_assoc. reflexivity. Qed.

Lemma next_word_sound s w e r : next_word s = (w, e, r) -> nw s w e r.
Proof.
  unfold next_word. intros H. destruct (skip_sp_split s) as [n [Es Hs]].
  destruct (scan (skip_sp s)) as [w' t] eqn:Esc. destruct (scan_sound _ _ _ Esc) as [rr [Er [Hr Ht]]].
  destruct (skip_sp_split t) as [m [Et Hst]].
  assert (forall m, exists ws, words ws (spaces n ++ rr ++ spaces m) /\ (w' = [] /\ ws = [] \/ w' <> [] /\ ws = [w'])) as Hws.
  { intros k. destruct w' as [|x w'].
    - exists []. split; [|left; auto]. inversion Hr; subst. simpl. unfold spaces. rewrite <- repeat_app. apply w_nil.
    - exists [x :: w']. split; [|right; split; [discriminate|reflexivity]].
      apply w_cons; [discriminate|exact Hr|apply w_nil|]. destruct k; [left; reflexivity|right; reflexivity]. }
  destruct (Hws m) as [ws [Hw1 Hw2]].
  assert (s = (spaces n ++ rr ++ spaces m) ++ skip_sp t) as Ess.
  { rewrite Es, Er. rewrite <- !app_assoc. f_equal. f_equal. exact Et. }
  assert (forall c u, skip_sp t = c :: u -> (c <> BS \/ u <> []) -> nw s w' false (c :: u)) as Hbig.
  { intros c u E Hne. rewrite E in Ess. destruct (ceqb c COLON) eqn:Ec.
    - apply ceqb_eq in Ec. subst c. rewrite Ess. eapply nw_colon; eauto.
    - apply ceqb_neq in Ec.
      assert (m <> 0) as Hm.
      { intros ->. simpl in Et. rewrite E in Et. rewrite Et in Ht. rewrite E in Hst. simpl in Hst.
        destruct Ht as [Ht|[Ht|[Ht|Ht]]]; inversion Ht; subst; try congruence. destruct Hne; congruence. }
      assert (w' <> []) as Hwn.
      { intros ->. assert (rr = []) as Err by (inversion Hr; reflexivity). rewrite Err in Er. simpl in Er. rewrite Er, Et in Hs. destruct m; [congruence|]. simpl in Hs. congruence. }
      destruct m as [|m]; [congruence|]. rewrite Ess, <- !app_assoc. apply nw_more; auto; simpl; congruence. }
  destruct (skip_sp t) as [|c [|c2 u]] eqn:Esk.
  - inversion H; subst w e r. rewrite Ess, app_nil_r. eapply nw_end; eauto.
  - destruct (ceqb c BS) eqn:Ec; inversion H; subst w e r.
    + apply ceqb_eq in Ec. subst c. rewrite Ess. eapply nw_cont; eauto.
    + apply ceqb_neq in Ec. apply Hbig; auto.
  - inversion H; subst w e r. apply Hbig; auto. right; discriminate.
Qed.

Lemma line_sound fuel : forall st s st' xs, line_loop fuel st s = Some (st', xs) -> lres st s st' xs.
Proof.
  induction fuel as [|fuel IH]; intros st s st' xs H; [discriminate|]. cbn [line_loop] in H.
  unfold next in H. destruct st eqn:Est; try discriminate;
  destruct (next_word s) as [[w e] r] eqn:En; apply next_word_sound in En;
  destruct En as [w ws s Hws Hc|w ws s Hws Hc|w ws s p Hws Hc|n m w rr r Hw Hr Hrn Hrc].
  (* Begin *)
  - destruct Hc as [[-> ->]|[Hw ->]]; [|destruct w; [congruence|discriminate]].
    inversion H; subst. inversion Hws; subst. apply lr_blank.
  - destruct Hc as [[-> ->]|[Hw ->]].
    + inversion H; subst. apply (lr_cont Begin []); [exact Hws|discriminate].
    + destruct w as [|x w]; [congruence|]. inversion H; subst. apply (lr_cont Begin [x :: w]); [exact Hws|discriminate].
  - change (ceqb COLON COLON) with true in H. destruct Hc as [[-> ->]|[Hw ->]]; [discriminate|].
    destruct w as [|x w]; [congruence|]. destruct p as [|c p].
    + inversion H; subst. apply (lr_colon0 Begin [x :: w]); [exact Hws|reflexivity].
    + destruct (line_loop fuel Prereqs (c :: p)) as [[st1 ys]|] eqn:El; [|discriminate]. inversion H; subst.
      apply (lr_colon Begin [x :: w] s (c :: p) st' ys); auto; discriminate.
  - destruct w as [|x w]; [congruence|]. destruct r as [|c r]; [congruence|].
    assert (ceqb c COLON = false) as Ec by (apply ceqb_neq; simpl in Hrc; congruence). rewrite Ec in H.
    destruct (line_loop fuel Targets (c :: r)) as [[st1 ys]|] eqn:El; [|discriminate]. inversion H; subst.
    apply (lres_more Begin Targets); auto.
  (* Targets *)
  - discriminate.
  - destruct w as [|x w].
    + destruct Hc as [[_ ->]|[Hw _]]; [|congruence]. inversion H; subst. apply (lr_cont Targets []); [exact Hws|discriminate].
    + destruct Hc as [[Hw _]|[_ ->]]; [discriminate|]. inversion H; subst. apply (lr_cont Targets [x :: w]); [exact Hws|discriminate].
  - change (ceqb COLON COLON) with true in H.
    assert (map (pair Target) ws = match w with [] => [] | _ => [(Target, w)] end) as Ew.
    { destruct Hc as [[-> ->]|[Hw ->]]; [reflexivity|]. destruct w; [congruence|reflexivity]. }
    destruct p as [|c p].
    + destruct w; inversion H; subst; rewrite <- Ew; apply (lr_colon0 Targets); auto; destruct ws; reflexivity.
    + assert (match line_loop fuel Prereqs (c :: p) with
              | Some (st1, ys) => Some (st1, map (pair Target) ws ++ ys) | None => None end = Some (st', xs)) as H'
        by (rewrite Ew; destruct w; exact H).
      destruct (line_loop fuel Prereqs (c :: p)) as [[st1 ys]|] eqn:El; [|discriminate]. inversion H'; subst.
      apply (lr_colon Targets ws s (c :: p) st' ys); try discriminate; auto; destruct ws; reflexivity.
  - destruct w as [|x w]; [congruence|]. destruct r as [|c r]; [congruence|].
    assert (ceqb c COLON = false) as Ec by (apply ceqb_neq; simpl in Hrc; congruence). rewrite Ec in H.
    destruct (line_loop fuel Targets (c :: r)) as [[st1 ys]|] eqn:El; [|discriminate]. inversion H; subst.
    apply (lres_more Targets Targets); auto.
  (* Prereqs *)
  - destruct w as [|x w].
    + destruct Hc as [[_ ->]|[Hw _]]; [|congruence]. inversion H; subst. apply (lr_end []); exact Hws.
    + destruct Hc as [[Hw _]|[_ ->]]; [discriminate|]. inversion H; subst. apply (lr_end [x :: w]); exact Hws.
  - destruct w as [|x w].
    + destruct Hc as [[_ ->]|[Hw _]]; [|congruence]. inversion H; subst. apply (lr_cont Prereqs []); [exact Hws|discriminate].
    + destruct Hc as [[Hw _]|[_ ->]]; [discriminate|]. inversion H; subst. apply (lr_cont Prereqs [x :: w]); [exact Hws|discriminate].
  - destruct w; discriminate.
  - destruct w as [|x w]; [congruence|]. destruct r as [|c r]; [congruence|].
    assert (ceqb c COLON = false) as Ec by (apply ceqb_neq; simpl in Hrc; congruence). rewrite Ec in H.
    destruct (line_loop fuel Prereqs (c :: r)) as [[st1 ys]|] eqn:El; [|discriminate]. inversion H; subst.
    apply (lres_more Prereqs Prereqs); auto.
Qed.

Lemma prereqs_sound ls : forall xs more, parse_lines Prereqs ls = Some (xs, more) ->
  exists ps dl, xs = map (pair Prereq) ps /\ ls = dl ++ more /\ prereqs ps dl.
Proof.
  induction ls as [|l ls IH]; intros xs more H; [discriminate|]. cbn [parse_lines] in H.
  destruct (parse_line Prereqs l) as [[st' ys]|] eqn:E; [|discriminate].
  unfold parse_line in E. apply line_sound in E.
  inversion E as [ws s Hws| |st ws s Hws Hne|st ts s Hts Hs|st ts s p st'' zs Hts Hs Hp Hl]; subst; try discriminate.
  - inversion H; subst. exists ws, [l]. split; [reflexivity|]. split; [reflexivity|]. constructor; exact Hws.
  - replace (seen Prereqs ws) with Prereqs in H by (destruct ws; reflexivity).
    destruct (parse_lines Prereqs ls) as [[zs r]|] eqn:E2; [|discriminate]. inversion H; subst.
    destruct (IH _ _ eq_refl) as [ps [dl [-> [-> Hd]]]]. exists (ws ++ ps), ((s ++ [BS]) :: dl).
    split; [rewrite map_app; reflexivity|]. split; [reflexivity|]. apply p_cont; auto.
Qed.

Lemma colon_sound p st' xs ls ys more :
  lres Prereqs p st' xs ->
  (match st' with End => Some (xs, ls) | _ =>
     match parse_lines st' ls with Some (zs, r) => Some (xs ++ zs, r) | None => None end end) = Some (ys, more) ->
  exists ps dl, ys = map (pair Prereq) ps /\ ls = dl ++ more /\ prereqs ps (p :: dl).
Proof.
  intros E H.
  inversion E as [ws s Hws| |st ws s Hws Hne|st ts s Hts Hs|st ts s p' st'' zs Hts Hs Hp Hl]; subst; try discriminate.
  - inversion H; subst. exists ws, []. split; [reflexivity|]. split; [reflexivity|]. constructor; exact Hws.
  - replace (seen Prereqs ws) with Prereqs in H by (destruct ws; reflexivity).
    destruct (parse_lines Prereqs ls) as [[zs r]|] eqn:E2; [|discriminate]. inversion H; subst.
    destruct (prereqs_sound _ _ _ E2) as [ps [dl [-> [-> Hd]]]]. exists (ws ++ ps), dl.
    split; [rewrite map_app; reflexivity|]. split; [reflexivity|]. apply p_cont; auto.
Qed.

Lemma decl_sound ls : forall st xs more, (st = Begin \/ st = Targets) -> parse_lines st ls = Some (xs, more) ->
  exists bl ts ps dl,
    xs = map (pair Target) ts ++ map (pair Prereq) ps /\ ls = bl ++ dl ++ more /\ decl ts ps dl /\
    Forall blank bl /\ (st = Begin -> ts <> []) /\ (st = Targets -> bl = []).
Proof.
  induction ls as [|l ls IH]; intros st xs more Hst H; [discriminate|]. cbn [parse_lines] in H.
  destruct (parse_line st l) as [[st' ys]|] eqn:E; [|discriminate].
  unfold parse_line in E. apply line_sound in E.
  inversion E as [ws s Hws|k|st0 ws s Hws Hne|st0 ts s Hts Hs|st0 ts s p st'' zs Hts Hs Hp Hl]; subst.
  - destruct Hst; discriminate.
  - destruct (parse_lines Begin ls) as [[zs r]|] eqn:E2; [|discriminate]. inversion H; subst.
    destruct (IH Begin _ more (or_introl eq_refl) E2) as [bl [ts [ps [dl [-> [-> [Hd [Hb [Ht _]]]]]]]]].
    exists (spaces k :: bl), ts, ps, dl. split; [reflexivity|]. split; [reflexivity|]. split; [exact Hd|].
    split; [constructor; [exists k; left; reflexivity|exact Hb]|]. split; [exact Ht|discriminate].
  - assert (seen st ws = Begin \/ seen st ws = Targets) as Hst'.
    { destruct Hst as [->| ->], ws; simpl; auto. }
    assert (tag st = Target) as Etag by (destruct Hst as [->| ->]; reflexivity). rewrite Etag in *.
    assert (exists zs, parse_lines (seen st ws) ls = Some (zs, more) /\ xs = map (pair Target) ws ++ zs) as [zs [E2 Exs]].
    { destruct Hst' as [Es|Es]; rewrite Es in *;
        (destruct (parse_lines _ ls) as [[zs r]|]; [|discriminate]; inversion H; subst; eauto). }
    destruct (IH (seen st ws) zs more Hst' E2) as [bl [ts [ps [dl [-> [-> [Hd [Hb [Ht Hbl]]]]]]]]].
    destruct (match ws with [] => match st with Begin => true | _ => false end | _ => false end) eqn:Eb.
    + destruct ws; [|discriminate]. destruct st; try discriminate. inversion Hws; subst.
      exists ((spaces n ++ [BS]) :: bl), ts, ps, dl. split; [reflexivity|]. split; [reflexivity|]. split; [exact Hd|].
      split; [constructor; [exists n; right; reflexivity|exact Hb]|]. split; [exact Ht|discriminate].
    + assert (seen st ws = Targets) as Es.
      { destruct Hst as [->| ->], ws; simpl; try reflexivity; discriminate. }
      specialize (Hbl Es). subst bl. exists [], (ws ++ ts), ps, ((s ++ [BS]) :: dl).
      split; [rewrite Exs, map_app, <- app_assoc; reflexivity|]. split; [reflexivity|].
      split; [apply d_cont; auto|]. split; [constructor|]. split; [|reflexivity].
      intros ->. destruct ws; discriminate.
  - inversion H; subst. exists [], ts, [], [s ++ [COLON]].
    split; [simpl; rewrite app_nil_r; reflexivity|]. split; [reflexivity|].
    split; [apply (d_colon ts s [] []); [exact Hts|apply p_last; apply (w_nil 0)]|].
    split; [constructor|]. split; [|reflexivity]. intros ->. destruct ts; discriminate.
  - destruct (colon_sound p st' zs ls (match xs with _ => skipn (length ts) xs end) more Hl) as [ps [dl [Eps [-> Hd]]]].
    { destruct st'; [| | |inversion H; subst; rewrite skipn_app, map_length, Nat.sub_diag, skipn_all2 by (rewrite map_length; lia); reflexivity];
        (match type of H with match ?x with _ => _ end = _ => destruct x as [[us r]|]; [|discriminate] end;
         inversion H; subst; rewrite <- app_assoc, skipn_app, map_length, Nat.sub_diag, skipn_all2 by (rewrite map_length; lia); reflexivity). }
    assert (xs = map (pair Target) ts ++ skipn (length ts) xs) as Exs.
    { destruct st'; [| | |inversion H; subst; rewrite skipn_app, map_length, Nat.sub_diag, skipn_all2 by (rewrite map_length; lia); reflexivity];
        (match type of H with match ?x with _ => _ end = _ => destruct x as [[us r]|]; [|discriminate] end;
         inversion H; subst; rewrite <- app_assoc, skipn_app, map_length, Nat.sub_diag, skipn_all2 by (rewrite map_length; lia); reflexivity). }
    exists [], ts, ps, ((s ++ COLON :: p) :: dl).
    split; [rewrite Exs, Eps; reflexivity|]. split; [reflexivity|].
    split; [apply d_colon; auto|]. split; [constructor|]. split; [|reflexivity].
    intros ->. destruct ts; discriminate.
Qed.

Lemma parse_sound ls xs more : parse ls = Some (xs, more) ->
  exists bl ts ps dl,
    xs = map (pair Target) ts ++ map (pair Prereq) ps /\ ls = bl ++ dl ++ more /\ decl ts ps dl /\
    Forall blank bl /\ ts <> [].
Proof.
  intros H. destruct (decl_sound ls Begin xs more (or_introl eq_refl) H) as [bl [ts [ps [dl [H1 [H2 [H3 [H4 [H5 _]]]]]]]]].
  exists bl, ts, ps, dl. auto 10.
Qed.

(* The loop is total: the fuel never runs out. *)
Lemma next_progress st s st' x r : next st s = Some (st', x, r) -> r <> [] -> length r < length s.
Proof.
  intros H Hr. unfold next in H. destruct (next_word s) as [[w e] u] eqn:En. apply next_word_sound in En.
  assert (length u < length s \/ (u = s /\ hd_error u = Some COLON) \/ u = []) as Hu.
  { destruct En as [w ws s Hws Hc|w ws s Hws Hc|w ws s p Hws Hc|n m w rr r0 Hw Hr0 Hrn Hrc]; auto.
    - destruct s as [|y s]; [right; left; auto|left; simpl; rewrite app_length; simpl; lia].
    - left. rewrite !app_length. simpl. lia. }
  assert (r = u \/ u = COLON :: r) as Hru.
  { destruct st; try discriminate;
    (match type of H with match ?o with _ => _ end = _ => destruct o as [st1|]; [|discriminate] end;
     destruct u as [|c u]; [inversion H; auto|]; destruct (ceqb c COLON) eqn:Ec;
     [apply ceqb_eq in Ec; subst; destruct st1; inversion H; auto|inversion H; auto]). }
  destruct Hru as [->| ->].
  - destruct Hu as [Hu|[[-> Hc]|Hu]]; [exact Hu| |congruence].
    exfalso. destruct s as [|c s]; [discriminate|]. inversion Hc; subst c.
    assert (forall (x : bytes) , x <> COLON :: x) as Hx by (induction x0; congruence).
    destruct st; try discriminate;
    (match type of H with match ?o with _ => _ end = _ => destruct o as [st1|]; [|discriminate] end;
     change (ceqb COLON COLON) with true in H; destruct st1; inversion H; eapply Hx; eauto).
  - destruct Hu as [Hu|[[<- _]|Hu]]; [simpl in Hu; lia|simpl; lia|discriminate].
Qed.

Lemma line_loop_fuel f1 : forall st s f2, length s < f1 -> length s < f2 -> line_loop f1 st s = line_loop f2 st s.
Proof.
  induction f1 as [|f1 IH]; intros st s f2 H1 H2; [lia|]. destruct f2 as [|f2]; [lia|]. cbn [line_loop].
  destruct (next st s) as [[[st' [t w]] r]|] eqn:E; [|reflexivity]. destruct r as [|c r]; [reflexivity|].
  pose proof (next_progress _ _ _ _ _ E ltac:(discriminate)) as Hp.
  rewrite (IH st' (c :: r) f2) by lia. reflexivity.
Qed.

Lemma parse_line_fuel st l k : line_loop (S (length l) + k) st l = parse_line st l.
Proof. unfold parse_line. apply line_loop_fuel; lia. Qed.

Lemma word_then n w s : w <> [] -> renders w s ->
  (forall m, next_word (spaces n ++ s ++ spaces m) = (w, true, [])) /\
  (forall m, next_word (spaces n ++ s ++ spaces m ++ ["\"%char]) = (w, false, [])) /\
  (forall m p, next_word (spaces n ++ s ++ spaces m ++ ":"%char :: p) = (w, false, ":"%char :: p)) /\
  (forall m u, u <> [] -> hd_error u <> Some " "%char -> u <> ["\"%char] ->
     next_word (spaces n ++ s ++ spaces (S m) ++ u) = (w, false, u)).
Proof.
  intros Hw Hr. change "\"%char with BS. change ":"%char with COLON. repeat split; intros.
  - rewrite (next_word_spec n w s (spaces m)); auto.
    + unfold after. rewrite <- (app_nil_r (spaces m)), skip_sp_spaces. reflexivity.
    + destruct m; unfold follows; simpl; auto.
  - rewrite (next_word_spec n w s (spaces m ++ [BS])); auto.
    + unfold after. rewrite skip_sp_spaces. reflexivity.
    + destruct m; unfold follows; simpl; auto.
  - rewrite (next_word_spec n w s (spaces m ++ COLON :: p)); auto.
    + unfold after. rewrite skip_sp_spaces. simpl. destruct p; reflexivity.
    + destruct m; unfold follows; simpl; auto.
  - rewrite (next_word_spec n w s (spaces (S m) ++ u)); auto.
    + unfold after. rewrite skip_sp_spaces, skip_sp_non by assumption.
      destruct u as [|c [|c2 u]]; [congruence| |reflexivity].
      destruct (ceqb c BS) eqn:E; [apply ceqb_eq in E; subst; exfalso; apply H1; reflexivity|reflexivity].
    + unfold follows; simpl; auto.
Qed.

Lemma escaped_reads_back w : w <> [] -> ~ In NUL w ->
  (forall n m, next_word (spaces n ++ escape w ++ spaces m) = (w, true, [])) /\
  (forall n m, next_word (spaces n ++ escape w ++ spaces m ++ ["\"%char]) = (w, false, [])) /\
  (forall n m p, next_word (spaces n ++ escape w ++ spaces m ++ ":"%char :: p) = (w, false, ":"%char :: p)) /\
  (forall n m u, u <> [] -> hd_error u <> Some " "%char -> u <> ["\"%char] ->
     next_word (spaces n ++ escape w ++ spaces (S m) ++ u) = (w, false, u)).
Proof.
  intros Hw Hn. pose proof (escape_renders w Hn) as Hr.
  repeat split; intros n; apply (word_then n w (escape w) Hw Hr).
Qed.
