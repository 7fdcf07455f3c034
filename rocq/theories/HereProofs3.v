(* Lemmas about here-documents: whole documents. *)
From Verif Require Import Base HereModel HereSpec HereProofs HereProofs2.

Section Val.
Context (val : bytes -> option (list bytes)).

Lemma here_ok em nonl lit ls t rest : em <> [] ->
  document val em nonl lit ls t rest -> here_document val em nonl lit ls = HOk (t, rest).
Proof.
  intros NE [ind body ms vs e t' rest' F En U V Tx].
  unfold here_document. rewrite (pre_end lit em ind) by easy.
  rewrite (strip_ok lit em ind body ms) by easy.
  rewrite (play_values val em nonl ms vs).
  - apply text_iff in Tx. now rewrite Tx.
  - apply (unindent_no_end lit em ind body); try easy. apply En.
  - exact V.
Qed.

Lemma here_bad em nonl lit ind ls e rest l : em <> [] ->
  Forall (no_end lit em) ls -> ends lit em ind e -> In l ls -> unindented lit ind l ->
  here_document val em nonl lit (ls ++ e :: rest) = HUnindented.
Proof.
  intros NE F En I B. unfold here_document. rewrite (pre_end lit em ind) by easy.
  destruct (unindent_dec lit ind ls) as [[ms U]|[a [x [r [ms [-> [U Bx]]]]]]].
  - destruct (unindent_not _ _ _ _ U l I B).
  - now rewrite (strip_bad lit ind a x r ms).
Qed.

Lemma here_expand em nonl lit ind ls ms e rest m : em <> [] ->
  Forall (no_end lit em) ls -> ends lit em ind e -> unindent lit ind ls ms ->
  In m ms -> (forall v, ~ line_value val m v) ->
  here_document val em nonl lit (ls ++ e :: rest) = HExpand.
Proof.
  intros NE F En U I NV. unfold here_document. rewrite (pre_end lit em ind) by easy.
  rewrite (strip_ok lit em ind ls ms) by easy.
  rewrite (play_no_value val em nonl ms None m); try easy.
  apply (unindent_no_end lit em ind ls); try easy. apply En.
Qed.

Lemma here_missing em nonl lit ls : em <> [] ->
  Forall (no_end lit em) ls -> here_document val em nonl lit ls = HMissing.
Proof. intros NE F. unfold here_document. now rewrite pre_none. Qed.

Lemma text_total nonl vs : exists t, text_of nonl vs t.
Proof. eexists. apply text_iff. reflexivity. Qed.

(* Exactly one of the four happens. *)
Inductive outcome (em : bytes) (nonl lit : bool) (ls : list (list item))
  : hres (bytes * list (list item)) -> Prop :=
| oc_ok t rest : document val em nonl lit ls t rest -> outcome em nonl lit ls (HOk (t, rest))
| oc_missing : Forall (no_end lit em) ls -> outcome em nonl lit ls HMissing
| oc_bad ind a e r l : ls = a ++ e :: r -> Forall (no_end lit em) a -> ends lit em ind e ->
    In l a -> unindented lit ind l -> outcome em nonl lit ls HUnindented
| oc_expand ind a e r ms m : ls = a ++ e :: r -> Forall (no_end lit em) a -> ends lit em ind e ->
    unindent lit ind a ms -> In m ms -> (forall v, ~ line_value val m v) ->
    outcome em nonl lit ls HExpand.

Lemma here_outcome em nonl lit ls : em <> [] ->
  outcome em nonl lit ls (here_document val em nonl lit ls).
Proof.
  intros NE. destruct (split_end lit em ls NE) as [F|[a [e [r [ind [-> [F En]]]]]]].
  - rewrite here_missing by easy. now apply oc_missing.
  - destruct (unindent_dec lit ind a) as [[ms U]|[a' [x [r' [ms [Ea [U Bx]]]]]]].
    + destruct (values_dec val ms) as [[vs V]|[m [I NV]]].
      * destruct (text_total nonl vs) as [t Tx].
        assert (document val em nonl lit (a ++ e :: r) t r) as D by now apply (document_intro val em nonl lit ind a ms vs).
        rewrite (here_ok em nonl lit _ t r NE D). now apply oc_ok.
      * rewrite (here_expand em nonl lit ind a ms e r m) by easy.
        now apply (oc_expand em nonl lit _ ind a e r ms m).
    + assert (In x a) as I by (subst a; apply in_or_app; right; now left).
      rewrite (here_bad em nonl lit ind a e r x) by easy.
      now apply (oc_bad em nonl lit _ ind a e r x).
Qed.

Lemma here_ok_iff em nonl lit ls t rest : em <> [] ->
  (here_document val em nonl lit ls = HOk (t, rest) <-> document val em nonl lit ls t rest).
Proof.
  intros NE. split; [|now apply here_ok].
  intros E. pose proof (here_outcome em nonl lit ls NE) as O. rewrite E in O. now inversion O.
Qed.

Lemma here_docs_iff ds ls ts rest : (forall d, In d ds -> hend d <> []) ->
  (here_documents val ds ls = HOk (ts, rest) <-> documents val ds ls ts rest).
Proof.
  revert ls ts rest. induction ds as [|d ds IH]; intros ls ts rest NE; cbn [here_documents].
  - split; [injection 1 as <- <-; constructor|inversion 1; reflexivity].
  - assert (hend d <> []) as Nd by (apply NE; now left).
    assert (forall x, In x ds -> hend x <> []) as NE' by (intros x I; apply NE; now right).
    split.
    + destruct (here_document val (hend d) (hnonl d) (hlit d) ls) as [[t r]| | | |] eqn:E;
        try discriminate.
      destruct (here_documents val ds r) as [[ss r']| | | |] eqn:E'; try discriminate.
      injection 1 as <- <-. apply here_ok_iff in E; [|easy].
      apply (ds_cons val d ds ls t r); [easy|]. now apply IH.
    + inversion 1 as [|d' ds' ls' t r ss r' D Ds]; subst.
      rewrite (here_ok _ _ _ _ _ _ Nd D). now rewrite (proj2 (IH _ _ _ NE') Ds).
Qed.
End Val.

(* ---- adding an indentation ---- *)
Lemma as_read_indent lit p l : as_read lit (indent p l) = map Ch p ++ as_read lit l.
Proof. unfold indent. induction p as [|c p IH]; cbn; [reflexivity|now rewrite IH]. Qed.

Lemma indent_no_end lit em p l : (forall c r, em = c :: r -> ~ blank c) ->
  Forall blank p -> no_end lit em l -> no_end lit em (indent p l).
Proof.
  intros Hem Fp Hl ind [E Fi]. rewrite as_read_indent in E.
  revert ind E Fi. induction Fp as [|c p Bc Fp IH]; intros ind E Fi.
  - apply (Hl ind). now split.
  - destruct ind as [|d ind]; cbn in E.
    + destruct em as [|d em]; [discriminate|]. cbn in E. injection E as <- _. now apply (Hem c em).
    + injection E as _ E. inversion Fi; subst. now apply (IH ind).
Qed.

Lemma indent_ends lit em p ind e : Forall blank p ->
  ends lit em ind e -> ends lit em (p ++ ind) (indent p e).
Proof.
  intros Fp [E F]. split; [|now apply Forall_app].
  rewrite as_read_indent, E, <- app_assoc. now rewrite <- map_app.
Qed.

Lemma indented_no_end lit em p ls ls' : em <> [] -> (forall c r, em = c :: r -> ~ blank c) ->
  Forall blank p -> indented lit p ls ls' -> Forall (no_end lit em) ls -> Forall (no_end lit em) ls'.
Proof.
  intros NE Hem Fp I. induction I as [|l ls ls' E I IH|l ls ls' E I IH]; intros F; [easy| |];
    inversion F; subst; constructor; auto using indent_no_end.
Qed.

Lemma indented_unindent lit p ind ls ls' ms : indented lit p ls ls' -> unindent lit ind ls ms ->
  unindent lit (p ++ ind) ls' ms.
Proof.
  intros I. revert ms. induction I as [|l ls ls' E I IH|l ls ls' E I IH]; intros ms U.
  - inversion U; subst. constructor.
  - inversion U as [|? ? ms2 E2 U2|? m2 ? ms2 E2 U2]; subst.
    + apply ui_blank; auto.
    + rewrite E in E2. symmetry in E2. apply app_eq_nil in E2. destruct E2 as [_ ->].
      apply ui_blank; auto.
  - inversion U as [|? ? ms2 E2 U2|? m2 ? ms2 E2 U2]; subst; [easy|].
    apply ui_line; auto. now rewrite as_read_indent, E2, map_app, app_assoc.
Qed.

(* ---- the lines a text has ---- *)
Lemma cut_unique (x y : bytes) s t : ~ In NL x -> ~ In NL y ->
  x ++ NL :: s = y ++ NL :: t -> x = y /\ s = t.
Proof.
  revert y. induction x as [|c x IH]; intros [|d y] Nx Ny E; cbn in E.
  - injection E as ->. now split.
  - injection E as <- _. destruct Ny. now left.
  - injection E as -> _. destruct Nx. now left.
  - injection E as -> E2. destruct (IH y) as [-> ->]; auto; intros I; [apply Nx|apply Ny]; now right.
Qed.

Lemma text_single nonl l t : text_of nonl [l] t -> t = l ++ if nonl then [] else [NL].
Proof. inversion 1; reflexivity. Qed.

Lemma text_two nonl l m ls t : text_of nonl (l :: m :: ls) t ->
  exists t', t = l ++ NL :: t' /\ text_of nonl (m :: ls) t'.
Proof. inversion 1; subst. eexists. split; [reflexivity|easy]. Qed.

Lemma text_not_empty m ls : ~ text_of false (m :: ls) [].
Proof.
  intros H. destruct ls as [|q ls].
  - apply text_single in H. symmetry in H. apply app_eq_nil in H. now destruct H.
  - apply text_two in H. destruct H as [t' [H _]]. symmetry in H. apply app_eq_nil in H. now destruct H.
Qed.

Lemma text_lines_short nonl v w m ws t : ~ In NL v -> ~ In NL w ->
  text_of nonl [v] t -> text_of nonl (w :: m :: ws) t -> False.
Proof.
  intros Nv Nw Tv Tw. apply text_single in Tv. apply text_two in Tw. destruct Tw as [t' [E Tw]].
  subst t. destruct nonl.
  - rewrite app_nil_r in E. apply Nv. rewrite E. apply in_or_app. right. now left.
  - apply cut_unique in E; [|easy..]. destruct E as [_ <-]. now apply text_not_empty in Tw.
Qed.

Lemma text_lines nonl v vs w ws t :
  Forall (fun l => ~ In NL l) (v :: vs) -> Forall (fun l => ~ In NL l) (w :: ws) ->
  text_of nonl (v :: vs) t -> text_of nonl (w :: ws) t -> v :: vs = w :: ws.
Proof.
  revert v w ws t. induction vs as [|v2 vs IH]; intros v w ws t Fv Fw Tv Tw;
    inversion Fv as [|? ? Nv Fv']; inversion Fw as [|? ? Nw Fw']; subst;
    destruct ws as [|w2 ws].
  - apply text_single in Tv. apply text_single in Tw. rewrite Tv in Tw. destruct nonl.
    + now rewrite !app_nil_r in Tw; subst.
    + apply cut_unique in Tw; [|easy..]. now destruct Tw as [-> _].
  - now destruct (text_lines_short nonl v w w2 ws t).
  - now destruct (text_lines_short nonl w v v2 vs t).
  - apply text_two in Tv. apply text_two in Tw.
    destruct Tv as [t1 [-> T1]]. destruct Tw as [t2 [E T2]].
    apply cut_unique in E; [|easy..]. destruct E as [-> ->]. f_equal. now apply (IH v2 w2 ws t2).
Qed.
