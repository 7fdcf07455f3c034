(* C89: the output of a command matches what is expected if and only if its lines do. *)
From Verif Require Import Base OutModel OutSpec OutProofs OutProofs2 OutProofs3.

Section O.
Context (max_size max_lines : nat).
(* Lines of the output. *)
Theorem C89_output out ls : read max_size max_lines out = Some ls <-> lines_of out ls /\ Forall (fun l => length l <= max_size) ls /\ length ls <= max_lines.
Proof.
  unfold read. rewrite <- out_lines_iff.
  assert (K : forallb (fun l => length l <=? max_size) (out_lines out) && (length (out_lines out) <=? max_lines) = true <-> Forall (fun l : bytes => length l <= max_size) (out_lines out) /\ length (out_lines out) <= max_lines).
  { rewrite andb_true_iff, forallb_forall, Forall_forall, Nat.leb_le. split; intros [A B]; split; auto; intros l I; apply Nat.leb_le; now apply A. }
  destruct (_ && _).
  - split; [intros [= <-]; split; [reflexivity | now apply K] | intros (-> & _); reflexivity].
  - split; [discriminate|]. intros (<- & X). apply K in X. discriminate.
Qed.

Definition fits (out : bytes) : Prop := exists ls, lines_of out ls /\ Forall (fun l => length l <= max_size) ls /\ length ls <= max_lines.
Lemma fits_iff out : fits out <-> read max_size max_lines out <> None.
Proof.
  split.
  - intros (ls & H). apply C89_output in H. congruence.
  - intros H. destruct (read max_size max_lines out) as [ls|] eqn:R; [|contradiction]. exists ls. now apply C89_output.
Qed.
Lemma considered_iff x out (Q : list bytes -> Prop) : (exists ls, read max_size max_lines out = Some ls /\ Q (output_lines x ls)) <-> fits out /\ exists ls, considered x out ls /\ Q ls.
Proof.
  assert (U : forall ls, lines_of out ls -> (ls = [] <-> out = [])).
  { intros ls [[-> ->]|(N & raw & -> & Nr & _ & F)]; [tauto|]. split; [intros ->; inversion F; subst; contradiction | contradiction]. }
  split.
  - intros (ls & R & H). split; [apply fits_iff; congruence|]. apply C89_output in R. destruct R as (L & _). exists (output_lines x ls). split; [|exact H].
    unfold output_lines. destruct ls as [|l ls]; [|apply considered_lines; [exact L | left; intros E; apply (U _ L) in E; discriminate]].
    destruct (x_doc x) eqn:D, (x_colon x) eqn:C; cbn; try (apply considered_lines; auto; fail). apply considered_blank; auto. now apply (U _ L).
  - intros (F & ls & C & H). apply fits_iff in F. destruct (read max_size max_lines out) as [rs|] eqn:R; [|contradiction]. exists rs. split; [reflexivity|].
    apply C89_output in R. destruct R as (L & _). destruct C as [ls L' O|E D C].
    + assert (ls = rs) by (apply out_lines_iff in L, L'; congruence). subst ls. unfold output_lines. destruct rs as [|r rs]; [|exact H].
      assert (out = []) by (now apply (U [])). destruct O as [O|[O|O]]; [contradiction | rewrite O; exact H | rewrite O, andb_false_r; exact H].
    + assert (rs = []) by (now apply (U _ L)). subst rs. unfold output_lines. rewrite D, C. exact H.
Qed.

End O.
Print Assumptions C89_output.

Section P.
Context (windows : bool) (rvalid : bool -> bytes -> bool) (rmatch : bool -> bytes -> bytes -> bool) (max_size max_lines : nat).

(* Lines with an expression written as e match if and only if lines of the output are in the language of it. *)
Theorem C89_match x its e out : Forall2 (carries windows x) (x_lines x) its -> concat its = written e ->
  (forall ic s, In (ILine (PRegex ic s)) (written e) -> rvalid ic s = true) ->
  matches windows rvalid rmatch max_size max_lines x out <-> fits max_size max_lines out /\ exists ls, considered x out ls /\ lang rmatch e ls.
Proof.
  intros F E V. rewrite <- considered_iff. apply matches_iff with (its := its); auto. apply Forall_forall. intros it I. destruct it as [[s|ic s]|c]; cbn; auto.
Qed.
(* There are errors if one of expressions over characters is not valid or the output is too large. *)
Theorem C89_errors x its e out : Forall2 (carries windows x) (x_lines x) its -> concat its = written e ->
  errors windows rvalid max_size max_lines x out <-> ~ (forall ic s, In (ILine (PRegex ic s)) (written e) -> rvalid ic s = true) \/ ~ fits max_size max_lines out.
Proof.
  intros F E. rewrite fits_iff. assert (NN : forall A (o : option A), ~ o <> None <-> o = None) by (intros A [a|]; split; congruence || (intros H; exfalso; apply H; discriminate)). rewrite NN. rewrite (errors_iff windows rvalid rmatch max_size max_lines x its e out F E).
  assert (K : Forall (line_valid rvalid) (written e) <-> forall ic s, In (ILine (PRegex ic s)) (written e) -> rvalid ic s = true).
  { rewrite Forall_forall. split; [intros H ic s I; now apply (H _ I)|]. intros H it I. destruct it as [[s|ic s]|c]; cbn; auto. }
  now rewrite K.
Qed.

(* One by one if there are no operators. *)
Theorem C89_one_by_one x ps out : Forall2 (fun l p => carries windows x l [ILine p]) (x_lines x) ps ->
  (forall ic s, In (PRegex ic s) ps -> rvalid ic s = true) ->
  matches windows rvalid rmatch max_size max_lines x out <-> fits max_size max_lines out /\ exists ls, considered x out ls /\ Forall2 (line_ok rmatch) ps ls.
Proof.
  intros F V. set (e := fold_right (fun p e => Cat (One p) e) Nothing ps).
  assert (W : written e = map ILine ps) by (unfold e; clear; induction ps as [|p ps IH]; cbn in *; congruence).
  assert (L : forall ws, lang rmatch e ws <-> Forall2 (line_ok rmatch) ps ws).
  { unfold e. clear. induction ps as [|p ps IH]; intros ws; cbn [fold_right lang].
    - split; [intros ->; constructor | intros H; now inversion H].
    - split.
      + intros (u & v & -> & (w & -> & O) & H). constructor; [exact O | now apply IH].
      + intros H. inversion H as [|? w ? ws' O H']; subst. exists [w], ws'. split; [reflexivity|]. split; [eauto | now apply IH]. }
  rewrite (C89_match x (map (fun p => [ILine p]) ps) e out).
  - split; intros (R & ls & C & H); (split; [exact R|]); exists ls; (split; [exact C | now apply L]).
  - clear -F. induction F; constructor; auto.
  - rewrite W. clear. induction ps; cbn in *; congruence.
  - intros ic s I. rewrite W in I. apply in_map_iff in I. destruct I as (p & [= ->] & I). now apply V.
Qed.

(* Text: as it is, other than that there are other separators on Windows. *)
Theorem C89_text same slash s out : (forall a c, same a c = true <-> a = c) ->
  (passes windows rvalid rmatch max_size max_lines same (Text slash s) out <-> out = slashed windows slash false s) /\
  (passes windows rvalid rmatch max_size max_lines same (Compare s) out <-> out = s) /\
  (passes windows rvalid rmatch max_size max_lines same None_ out <-> out = []).
Proof.
  intros S. cbn [passes]. rewrite !S, transform_slashed. split; [split; congruence|]. split; [split; congruence | reflexivity].
Qed.
End P.
Print Assumptions C89_match.
Print Assumptions C89_errors.
Print Assumptions C89_one_by_one.
Print Assumptions C89_text.

(* How lines of an expression are read. *)
Theorem C89_document intro colon values ls : doc_regex intro colon values = Some ls <->
  exists lns rs, Forall2 (fun v l => l <> [] /\ v = join l /\ Forall (fun l => ~ In NL l) l) values lns /\
    Forall2 (shape intro) (concat lns) rs /\ ls = rs ++ (if colon then [] else [mkrl false [] [] []]) /\ ls <> [].
Proof. apply doc_regex_iff. Qed.
Print Assumptions C89_document.
Theorem C89_string colon w ls : str_regex colon w = Some ls <->
  exists c v fl, w = c :: v ++ c :: fl /\ v <> [] /\ ~ In c v /\ Forall (fun c => c = "d"%char \/ c = "i"%char) fl /\ ls = mkrl true v fl [] :: (if colon then [] else [mkrl false [] [] []]).
Proof. apply str_regex_iff. Qed.
Print Assumptions C89_string.

(* The text of a document: every line ends with a newline, other than the last one with the : modifier. *)
Theorem C89_document_text values : values <> [] -> doc_text false values = flat_map (fun v => v ++ [NL]) values /\ doc_text false values = doc_text true values ++ [NL].
Proof.
  intros N. rewrite !doc_text_iff. split; [|now rewrite app_nil_r]. induction values as [|v vs IH]; [contradiction|]. destruct vs as [|v2 vs]; [cbn; now rewrite app_nil_r|].
  rewrite join_cons by discriminate. cbn [flat_map]. cbn [flat_map] in IH. rewrite <- IH by discriminate. now rewrite <- !app_assoc.
Qed.
Print Assumptions C89_document_text.
(* There is a newline in an empty one. *)
Theorem C89_empty_document_refuted : ~ (forall values, doc_text false values = flat_map (fun v => v ++ [NL]) values).
Proof. intros H. specialize (H []). discriminate. Qed.
Print Assumptions C89_empty_document_refuted.

(* The d flag swaps dots and escaped dots, and nothing else. *)
Theorem C89_idot s us : units false s us -> s = flat_map unit_text us /\ idot false false s = flat_map unit_text (map unit_swap us).
Proof. apply idot_units. Qed.
Print Assumptions C89_idot.
Theorem C89_idot_any s : (exists us, units false s us) /\ idot false false (idot false false s) = s.
Proof. split; [apply units_ex | apply idot_involutive]. Qed.
Print Assumptions C89_idot_any.

(* Two lines of which the second one is any number of times: >>~/EOO/ with foo, /ba./d, /(, bar, /ba[rz]/i, /)*. *)
Definition ex_doc := [b "foo"; b "/("; b "bar"; b "/ba[rz]/i"; b "/)*"].
Definition ex_rm (ic : bool) (s w : bytes) : bool := ic && beqb s (b "ba[rz]") && (beqb w (b "BAZ") || beqb w (b "Bar")).
Definition ex_x (ls : list rline) := mkex true false false [] ls.
Definition ex_e := Cat (One (PText (b "foo"))) (Cat (Star (Cat (One (PText (b "bar"))) (One (PRegex true (b "ba[rz]"))))) (One (PText []))).
Example C89_nonvacuous : exists ls its, doc_regex "/" false ex_doc = Some ls /\ Forall2 (carries false (ex_x ls)) (x_lines (ex_x ls)) its /\ concat its = written ex_e /\
  matches false (fun _ _ => true) ex_rm 100 100 (ex_x ls) (b "foo" ++ NL :: b "bar" ++ CR :: NL :: b "BAZ" ++ NL :: b "bar" ++ NL :: b "Bar" ++ [NL]) /\
  ~ matches false (fun _ _ => true) ex_rm 100 100 (ex_x ls) (b "foo" ++ NL :: b "bar" ++ [NL]).
Proof.
  eexists. eexists [_; _; _; _; _; _]. split; [reflexivity|].
  match goal with |- ?A /\ ?B /\ _ => assert (F : A /\ B) end.
  { split.
    - cbn [x_lines ex_x]. constructor; [apply carries_text|]. constructor; [apply carries_ops; discriminate|]. constructor; [apply carries_text|].
      constructor; [apply carries_regex with (icase := true) (d := false); [discriminate | split; [intros _; cbn; tauto | reflexivity] | split; [discriminate | cbn; intros [H|H]; [discriminate | contradiction]]]|].
      constructor; [apply carries_ops; discriminate|]. constructor; [apply carries_text | constructor].
    - reflexivity. }
  destruct F as [F1 F2]. split; [exact F1|]. split; [exact F2|]. split.
  - eapply C89_match; [exact F1 | exact F2 | reflexivity |]. apply (considered_iff 100 100 _ _ (lang ex_rm ex_e)). eexists. split; [reflexivity|]. cbn [output_lines x_doc ex_x].
    exists [b "foo"], [b "bar"; b "BAZ"; b "bar"; b "Bar"; []]. split; [reflexivity|]. split; [now exists (b "foo")|]. exists [b "bar"; b "BAZ"; b "bar"; b "Bar"], [[]]. split; [reflexivity|]. split; [|now exists []].
    exists 2. change [b "bar"; b "BAZ"; b "bar"; b "Bar"] with ([b "bar"; b "BAZ"] ++ [b "bar"; b "Bar"] ++ []).
    constructor; [exists [b "bar"], [b "BAZ"]; repeat split; eexists; split; reflexivity|]. constructor; [exists [b "bar"], [b "Bar"]; repeat split; eexists; split; reflexivity | constructor].
  - intros H. eapply C89_match in H; [|exact F1 | exact F2 | reflexivity]. apply (considered_iff 100 100 _ _ (lang ex_rm ex_e)) in H. destruct H as (ls & R & H). vm_compute in R. injection R as <-. cbn [output_lines] in H.
    destruct H as (u & v & E & (w & -> & _) & u2 & v2 & -> & (n & I) & (w2 & -> & O)). injection E as _ E. 
    destruct n as [|n]; [inversion I; subst; discriminate|]. inversion I as [|? p q (x & y & -> & (w3 & -> & _) & (w4 & -> & O4)) I']; subst. cbn [app] in E. injection E as _ <- E. cbn in O4. discriminate.
Qed.
(* An empty output is a blank line for a document. *)
Example C89_empty_nonvacuous : output_lines (mkex true false false [] []) [] = [[]] /\ output_lines (mkex true true false [] []) [] = [] /\ output_lines (mkex false false false [] []) [] = [] /\
  idot false false (b "a.\.[.]\\.") = b "a\..[.]\\\." /\ str_regex false (b "/a b/i") = Some [mkrl true (b "a b") (b "i") []; mkrl false [] [] []] /\ str_regex false (b "/a/x") = None /\
  doc_text false [b "a"; []] = b "a" ++ [NL; NL] /\ doc_regex "/" false [b "/"] = None /\ doc_regex "/" true [] = None.
Proof. repeat split; reflexivity. Qed.
