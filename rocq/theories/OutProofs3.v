(* Proofs about reading of redirects. *)
From Verif Require Import Base OutModel OutSpec OutProofs OutProofs2.

Lemma upto_some c s a z : upto c s = Some (a, z) <-> s = a ++ c :: z /\ ~ In c a.
Proof.
  revert a z. induction s as [|x s IH]; intros a z; cbn [upto].
  - split; [discriminate|]. intros [E _]. destruct a; discriminate.
  - destruct (ceqb x c) eqn:E.
    + apply ceqb_eq in E. subst x. split; [intros [= <- <-]; split; [reflexivity | intros []]|]. intros [E N]. destruct a as [|y a]; [now injection E as <-|].
      injection E as <- _. exfalso. apply N. now left.
    + split.
      * destruct (upto c s) as [[a' z']|]; [|discriminate]. intros [= <- <-]. destruct (proj1 (IH a' z') eq_refl) as [-> N]. split; [reflexivity|].
        intros [-> |X]; [rewrite (proj2 (ceqb_eq c c) eq_refl) in E; discriminate | tauto].
      * intros [Q N]. destruct a as [|y a]; [injection Q as -> _; rewrite (proj2 (ceqb_eq c c) eq_refl) in E; discriminate|]. injection Q as <- Q.
        rewrite (proj2 (IH a z)); [reflexivity|]. split; [exact Q|]. intros X. apply N. now right.
Qed.
Lemma upto_none c s : upto c s = None <-> ~ In c s.
Proof.
  induction s as [|x s IH]; cbn [upto]; [split; [intros _ [] | reflexivity]|]. destruct (ceqb x c) eqn:E.
  - apply ceqb_eq in E. subst. split; [discriminate|]. intros N. exfalso. apply N. now left.
  - destruct (upto c s) as [[a z]|].
    + split; [discriminate|]. intros N. assert (X : ~ In c s) by (intros X; apply N; now right). apply IH in X. discriminate.
    + split; [|reflexivity]. intros _ [-> |X]; [rewrite (proj2 (ceqb_eq c c) eq_refl) in E; discriminate | now apply IH in X].
Qed.
Definition fl_ok (c : ascii) : Prop := c = "d"%char \/ c = "i"%char.
Lemma fl_ok_iff x : ceqb x "d" || ceqb x "i" = true <-> fl_ok x.
Proof. unfold fl_ok. rewrite orb_true_iff, !ceqb_eq. reflexivity. Qed.
Lemma flags_iff s f o : flags s = (f, o) <-> s = f ++ o /\ Forall fl_ok f /\ hd_error o <> Some "d"%char /\ hd_error o <> Some "i"%char.
Proof.
  revert f o. induction s as [|x s IH]; intros f o; cbn [flags].
  - split; [intros [= <- <-]; repeat split; try discriminate; constructor|]. intros (E & _). symmetry in E. apply app_eq_nil in E. now destruct E as [-> ->].
  - destruct (ceqb x "d" || ceqb x "i") eqn:E.
    + apply fl_ok_iff in E. destruct (flags s) as [f' o']. split.
      * intros [= <- <-]. destruct (proj1 (IH f' o') eq_refl) as (-> & A & B). repeat split; [constructor; assumption | tauto | tauto].
      * intros (Q & A & B1 & B2). destruct f as [|y f]; cbn [app] in Q.
        -- exfalso. destruct E; subst o; cbn in *; subst; congruence.
        -- injection Q as <- Q. inversion A; subst. assert (X : (f', o') = (f, o)) by (apply IH; auto). congruence.
    + assert (Ne : ~ fl_ok x) by (rewrite <- fl_ok_iff; congruence). split.
      * intros [= <- <-]. repeat split; [constructor | |]; cbn; intros [= ->]; apply Ne; [now left | now right].
      * intros (Q & A & _). destruct f as [|y f]; cbn [app] in Q; [now subst|]. injection Q as <- _. inversion A; subst. contradiction.
Qed.
Lemma parse_line_iff intro ln l : parse_line intro ln = Some l <-> shape intro ln l.
Proof.
  unfold parse_line. destruct ln as [|x s].
  - split; [intros [= <-]; constructor; discriminate|]. intros H. inversion H; subst. reflexivity.
  - destruct (ceqb x intro) eqn:E; cbn [negb].
    + apply ceqb_eq in E. subst x. destruct (upto intro s) as [[v z]|] eqn:U.
      * pose proof U as U0. apply upto_some in U. destruct U as [-> N]. destruct v as [|y v].
        -- split; [intros [= <-]; constructor|]. intros H. inversion H as [? H1|o H1 H2|o|v fl o H1 H2 H3 H4 H5 H6]; subst; [exfalso; apply H1; reflexivity | exfalso; apply H2; now left | reflexivity |].
           destruct v as [|y v]; [contradiction|]. injection H6 as <- _. exfalso. apply H2. now left.
        -- destruct (flags z) as [f o] eqn:Q. apply flags_iff in Q. destruct Q as (-> & A & B1 & B2). split.
           ++ intros [= <-]. constructor; auto. discriminate.
           ++ intros H. inversion H as [? H1|o' H1 H2|o'|v' fl o' H1 H2 H3 H4 H5 H6]; subst; [exfalso; apply H1; reflexivity | | |].
              ** exfalso. apply H2. right. apply in_or_app. right. now left.
              ** exfalso. apply N. now left.
              ** rename H6 into Q. assert (U1 : upto intro (v' ++ intro :: fl ++ o') = Some (v', fl ++ o')) by (apply upto_some; auto).
                 cbn [app] in Q, U0. rewrite Q in U1. rewrite U0 in U1. assert (Q1 : v' = y :: v) by congruence. assert (Q2 : f ++ o = fl ++ o') by congruence. subst v'.
                 assert (X : flags (fl ++ o') = (fl, o')) by (apply flags_iff; auto). rewrite <- Q2 in X.
                 assert (Y : flags (f ++ o) = (f, o)) by (apply flags_iff; auto). congruence.
      * apply upto_none in U. destruct s as [|y s].
        -- split; [discriminate|]. intros H. inversion H as [? H1|o H1 H2|o|v fl o H1 H2 H3 H4 H5 H6]; subst; [exfalso; apply H1; reflexivity | contradiction |]. destruct v; discriminate.
        -- split; [intros [= <-]; constructor; [discriminate | exact U]|]. intros H. inversion H as [? H1|o H1 H2|o|v fl o H1 H2 H3 H4 H5 H6]; subst; [exfalso; apply H1; reflexivity | reflexivity | exfalso; apply U; now left |].
           exfalso. apply U. rewrite <- H6. apply in_or_app. right. now left.
    + assert (Ne : x <> intro) by (intros ->; rewrite (proj2 (ceqb_eq intro intro) eq_refl) in E; discriminate). split.
      * intros [= <-]. constructor. cbn. congruence.
      * intros H. inversion H; subst; try contradiction. reflexivity.
Qed.
Lemma parse_lines_iff intro lns : forall ls, parse_lines intro lns = Some ls <-> Forall2 (shape intro) lns ls.
Proof.
  induction lns as [|ln lns IH]; intros ls; cbn [parse_lines].
  - split; [intros [= <-]; constructor | intros H; now inversion H].
  - split.
    + destruct (parse_line intro ln) as [l|] eqn:L; [|discriminate]. destruct (parse_lines intro lns) as [r|]; [|discriminate]. intros [= <-]. constructor; [now apply parse_line_iff | now apply IH].
    + intros H. inversion H as [|? l ? r A B]; subst. apply parse_line_iff in A. apply IH in B. now rewrite A, B.
Qed.
Definition raw_lines (v : bytes) (ls : list bytes) : Prop := ls <> [] /\ v = join ls /\ Forall (fun l => ~ In NL l) ls.
Lemma raw_iff v ls : split_nl v = ls <-> raw_lines v ls.
Proof.
  split.
  - intros <-. destruct (split_join v) as [A B]. split; [apply split_nl_ne|]. auto.
  - intros (N & -> & F). now apply join_split.
Qed.
Lemma doc_regex_iff intro colon values ls : doc_regex intro colon values = Some ls <->
  exists lns rs, Forall2 raw_lines values lns /\ Forall2 (shape intro) (concat lns) rs /\ ls = rs ++ (if colon then [] else [mkrl false [] [] []]) /\ ls <> [].
Proof.
  assert (V : forall lns, Forall2 raw_lines values lns <-> lns = map split_nl values).
  { induction values as [|v vs IH]; intros lns; cbn [map].
    - split; [intros H; now inversion H | intros ->; constructor].
    - split.
      + intros H. inversion H as [|? l ? r A B]; subst. apply raw_iff in A. apply IH in B. congruence.
      + intros ->. constructor; [now apply raw_iff | now apply IH]. }
  unfold doc_regex. rewrite flat_map_concat_map. split.
  - destruct (parse_lines intro (concat (map split_nl values))) as [rs|] eqn:P; [|discriminate]. intros H. exists (map split_nl values), rs. apply parse_lines_iff in P.
    change [blank] with [mkrl false [] [] []] in H. destruct (rs ++ _) as [|l r] eqn:Q; [discriminate|]. injection H as <-. rewrite <- Q. split; [now apply V|]. split; [exact P|]. split; [reflexivity|]. rewrite Q. discriminate.
  - intros (lns & rs & A & B & -> & N). apply V in A. subst lns. apply parse_lines_iff in B. rewrite B. change [blank] with [mkrl false [] [] []]. destruct (rs ++ _); [contradiction | reflexivity].
Qed.
Lemma str_regex_iff colon w ls : str_regex colon w = Some ls <->
  exists c v fl, w = c :: v ++ c :: fl /\ v <> [] /\ ~ In c v /\ Forall fl_ok fl /\ ls = mkrl true v fl [] :: (if colon then [] else [mkrl false [] [] []]).
Proof.
  unfold str_regex. destruct w as [|c s].
  - split; [discriminate|]. intros (? & ? & ? & E & _). discriminate.
  - split.
    + destruct (upto c s) as [[v z]|] eqn:U; [|discriminate]. apply upto_some in U. destruct U as [-> N]. destruct v as [|y v]; [discriminate|].
      destruct (flags z) as [f o] eqn:Q. destruct o; [|discriminate]. intros [= <-]. apply flags_iff in Q. destruct Q as (-> & A & _). rewrite app_nil_r. exists c, (y :: v), f. repeat split; auto. discriminate.
    + intros (c' & v & fl & E & Nv & N & A & ->). injection E as <- ->. rewrite (proj2 (upto_some c (v ++ c :: fl) v fl)) by auto. destruct v as [|y v]; [contradiction|].
      rewrite (proj2 (flags_iff fl fl [])); [reflexivity|]. rewrite app_nil_r. repeat split; auto; discriminate.
Qed.
Lemma add_lines_iff values : forall rs, add_lines rs values = match rs, values with None, [] => None | None, _ => Some (join values) | Some r, _ => Some (join (r :: values)) end.
Proof.
  induction values as [|v vs IH]; intros rs; cbn [add_lines]; [destruct rs; reflexivity|]. rewrite IH. destruct rs as [r|]; [|reflexivity].
  f_equal. destruct vs as [|v2 vs]; [reflexivity|]. rewrite !join_cons by discriminate. now rewrite <- app_assoc.
Qed.
Lemma doc_text_iff colon values : doc_text colon values = join values ++ (if colon then [] else [NL]).
Proof. unfold doc_text. rewrite add_lines_iff. destruct values; destruct colon; try rewrite app_nil_r; reflexivity. Qed.
