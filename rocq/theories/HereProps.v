(* C91: the text of a here-document. *)
From Verif Require Import Base HereModel HereSpec HereProofs HereProofs2 HereProofs3.

Section Props.
Context (val : bytes -> option (list bytes)).

(* A document has a text exactly when its lines up to the first one that is
   the (indented) end marker are indented as it is and have values; it is then
   these values, a newline after each. *)
Theorem C91_text em nonl lit ls t rest : em <> [] ->
  (here_document val em nonl lit ls = HOk (t, rest) <-> document val em nonl lit ls t rest).
Proof. apply here_ok_iff. Qed.

(* The end marker is reported as missing exactly when there is none. *)
Theorem C91_missing em nonl lit ls : em <> [] ->
  (here_document val em nonl lit ls = HMissing <-> forall l ind, In l ls -> ~ ends lit em ind l).
Proof.
  intros NE. split.
  - intros E. pose proof (here_outcome val em nonl lit ls NE) as O. rewrite E in O.
    inversion O as [|F| |]; subst. rewrite Forall_forall in F. intros l ind I. now apply F.
  - intros H. apply here_missing; [easy|]. apply Forall_forall. intros l I ind. now apply H.
Qed.

(* A line is reported as not indented exactly when, in a document that ends,
   there is one that is not blank and does not start with the indentation of
   the end marker. *)
Theorem C91_unindented em nonl lit ls : em <> [] ->
  (here_document val em nonl lit ls = HUnindented <->
   exists ind a e r l, ls = a ++ e :: r /\ Forall (no_end lit em) a /\ ends lit em ind e /\
                       In l a /\ unindented lit ind l).
Proof.
  intros NE. split.
  - intros E. pose proof (here_outcome val em nonl lit ls NE) as O. rewrite E in O.
    inversion O as [| |ind a e r l El F En I B|]; subst. now exists ind, a, e, r, l.
  - intros [ind [a [e [r [l [-> [F [En [I B]]]]]]]]]. now apply (here_bad val em nonl lit ind a e r l).
Qed.

(* A document fails otherwise only if one of its lines has no value. *)
Theorem C91_expand em nonl lit ls : em <> [] ->
  (here_document val em nonl lit ls = HExpand <->
   exists ind a e r ms m, ls = a ++ e :: r /\ Forall (no_end lit em) a /\ ends lit em ind e /\
                          unindent lit ind a ms /\ In m ms /\ forall v, ~ line_value val m v).
Proof.
  intros NE. split.
  - intros E. pose proof (here_outcome val em nonl lit ls NE) as O. rewrite E in O.
    inversion O as [| | |ind a e r ms m El F En U I B]; subst. now exists ind, a, e, r, ms, m.
  - intros [ind [a [e [r [ms [m [-> [F [En [U [I B]]]]]]]]]]].
    now apply (here_expand val em nonl lit ind a ms e r m).
Qed.

(* The second stage always finds the end marker where the first one did: the
   assertion cannot fail. *)
Theorem C91_no_assert em nonl lit ls : em <> [] -> here_document val em nonl lit ls <> HAssert.
Proof.
  intros NE E. pose proof (here_outcome val em nonl lit ls NE) as O. rewrite E in O. inversion O.
Qed.

(* Indenting a document and its end marker further does not change its text,
   whether blank lines are indented or not. *)
Theorem C91_indent em nonl lit ls ls' e ind p rest t :
  (forall c r, em = c :: r -> ~ blank c) -> em <> [] -> Forall blank p ->
  Forall (no_end lit em) ls -> ends lit em ind e -> indented lit p ls ls' ->
  here_document val em nonl lit (ls ++ e :: rest) = HOk (t, rest) ->
  here_document val em nonl lit (ls' ++ indent p e :: rest) = HOk (t, rest).
Proof.
  intros Hem NE Fp F En I E.
  destruct (unindent_dec lit ind ls) as [[ms U]|[a [x [r [ms [Ea [U Bx]]]]]]].
  - destruct (values_dec val ms) as [[vs V]|[m [Im NV]]].
    + destruct (text_total nonl vs) as [t' Tx].
      rewrite (here_ok val em nonl lit _ t' rest NE) in E
        by now apply (document_intro val em nonl lit ind ls ms vs).
      injection E as <-. apply here_ok; [easy|].
      apply (document_intro val em nonl lit (p ++ ind) ls' ms vs); try easy.
      * now apply (indented_no_end lit em p ls).
      * now apply indent_ends.
      * now apply (indented_unindent lit p ind ls).
    + now rewrite (here_expand val em nonl lit ind ls ms e rest m) in E.
  - assert (In x ls) as Ix by (rewrite Ea; apply in_or_app; right; now left).
    now rewrite (here_bad val em nonl lit ind ls e rest x) in E.
Qed.

(* In a literal document nothing is expanded: its text does not depend on the
   values and it cannot fail to have one. *)
Theorem C91_literal em nonl ls val' : em <> [] ->
  here_document val em nonl true ls = here_document val' em nonl true ls /\
  here_document val em nonl true ls <> HExpand.
Proof.
  assert (forall l e, ~ In (Ex e) (as_read true l)) as NoEx.
  { induction l as [|[c|x] l IH]; intros e; cbn.
    - easy.
    - intros [E|I]; [discriminate|now apply (IH e)].
    - intros I. apply in_app_or in I. destruct I as [I|I]; [|now apply (IH e)].
      apply in_map_iff in I. destruct I as [? [E _]]. discriminate. }
  assert (forall v m, (forall e, ~ In (Ex e) m) -> exists s, line_value v m s /\
            forall v', line_value v' m s) as Tot.
  { intros v m H. assert (exists s, forall v', mixed v' m s) as [s M].
    { induction m as [|[c|x] m IH].
      - exists []. constructor.
      - destruct IH as [s M]; [intros e I; apply (H e); now right|].
        exists (c :: s). intros v'. now constructor.
      - destruct (H x). now left. }
    exists s. assert (forall e, m <> [Ex e]) as NA by (intros e ->; apply (H e); now left).
    split; [|intros v']; now apply lv_mixed. }
  assert (forall ind a ms, unindent true ind a ms -> forall m, In m ms -> forall e, ~ In (Ex e) m) as NoM.
  { induction 1 as [|l a ms E U IH|l q a ms E U IH]; intros m I e Ie; [easy| |].
    - destruct I as [<-|I]; [easy|]. now apply (IH m I e).
    - destruct I as [<-|I]; [|now apply (IH m I e)].
      apply (NoEx l e). rewrite E. apply in_or_app. now right. }
  intros NE. assert (here_document val em nonl true ls <> HExpand) as NX.
  { intros E. apply C91_expand in E; [|easy].
    destruct E as [ind [a [e [r [ms [m [-> [F [En [U [I B]]]]]]]]]]].
    destruct (Tot val m (NoM _ _ _ U m I)) as [s [L _]]. destruct (B s L). }
  split; [|exact NX].
  pose proof (here_outcome val em nonl true ls NE) as O.
  inversion O as [t rest D Eo|F Eo|ind a e r l El F En I B Eo|ind a e r ms m El F En U I B Eo];
    rewrite <- Eo in *.
  - symmetry. apply here_ok; [easy|]. destruct D as [ind body ms vs e t' rest' F En U V Tx].
    apply (document_intro val' em nonl true ind body ms vs); try easy.
    clear -V U Tot NoM. pose proof (NoM _ _ _ U) as NM. clear U NoM.
    induction V as [|m s ms vs L V IH]; constructor.
    + destruct (Tot val m) as [s' [L' Any]]; [apply NM; now left|].
      assert (s = s') as ->; [|apply Any].
      apply expand_value in L, L'. congruence.
    + apply IH. intros q I. apply NM. now right.
  - symmetry. now apply here_missing.
  - subst. symmetry. now apply (here_bad val' em nonl true ind a e r l).
  - now destruct NX.
Qed.

(* The documents of a command have the texts of the fragments that follow it,
   in the order they are mentioned. *)
Theorem C91_documents ds ls ts rest : (forall d, In d ds -> hend d <> []) ->
  (here_documents val ds ls = HOk (ts, rest) <-> documents val ds ls ts rest).
Proof. apply here_docs_iff. Qed.
End Props.

(* Different lines (of one line each) make different texts... *)
Theorem C91_lines nonl vs ws t :
  Forall (fun l => ~ In NL l) vs -> Forall (fun l => ~ In NL l) ws -> vs <> [] -> ws <> [] ->
  text_of nonl vs t -> text_of nonl ws t -> vs = ws.
Proof.
  destruct vs as [|v vs]; [easy|]. destruct ws as [|w ws]; [easy|]. intros Fv Fw _ _.
  now apply text_lines.
Qed.

(* ...but a document without lines cannot be told from one with a blank
   line: it is not empty. *)
Theorem C91_empty_refuted :
  ~ (forall val em nonl lit e rest, em <> [] -> ends lit em [] e ->
     here_document val em nonl lit (e :: rest) = HOk ([], rest)).
Proof.
  intros H.
  specialize (H (fun _ => None) (b "EOF") false true (map Ch (b "EOF")) [] ltac:(discriminate)).
  discriminate H. split; [reflexivity|constructor].
Qed.

(* A line with nothing but spaces is not a blank line: with fewer of them than
   the end marker has it is an error. *)
Theorem C91_spaces_refuted :
  ~ (forall val em nonl ls e rest ind, em <> [] -> ends true em ind e ->
     (forall l, In l ls -> exists s, l = map Ch s /\ Forall blank s) ->
     exists t, here_document val em nonl true (ls ++ e :: rest) = HOk (t, rest)).
Proof.
  intros H.
  destruct (H (fun _ => None) (b "EOF") false [[Ch SP]] (map Ch (b "  EOF")) [] (b "  ")) as [t E].
  - discriminate.
  - split; [reflexivity|]. repeat constructor.
  - intros l [<-|[]]. exists [SP]. split; [reflexivity|]. repeat constructor.
  - discriminate E.
Qed.

Print Assumptions C91_text. Print Assumptions C91_missing. Print Assumptions C91_unindented.
Print Assumptions C91_expand. Print Assumptions C91_no_assert. Print Assumptions C91_indent.
Print Assumptions C91_literal. Print Assumptions C91_documents. Print Assumptions C91_lines.
Print Assumptions C91_empty_refuted. Print Assumptions C91_spaces_refuted.

(* ---- examples ---- *)
Definition ex_val (e : bytes) : option (list bytes) :=
  if beqb e (b "$one") then Some [b "uno"]
  else if beqb e (b "$two") then Some [b "a"; b "b"]
  else if beqb e (b "$none") then Some []
  else None.
Definition ex_ln (s : string) : list item := map Ch (b s).

(* Indented lines, a blank one, expansions, and the script that follows. *)
Example C91_text_nonvacuous :
  here_document ex_val (b "EOF") false false
    [ex_ln "  foo " ++ [Ex (b "$one")]; []; ex_ln "  " ++ [Ex (b "$two")]; ex_ln "    bar";
     ex_ln "  xEOF"; ex_ln "  EOF"; ex_ln "cmd"] =
  HOk (b "foo uno" ++ [NL; NL] ++ b "a b" ++ [NL] ++ b "  bar" ++ [NL] ++ b "xEOF" ++ [NL],
       [ex_ln "cmd"]).
Proof. reflexivity. Qed.

Example C91_literal_nonvacuous :
  here_document ex_val (b "EOF") true true
    [ex_ln "x" ++ [Ex (b "$two")]; ex_ln "EOF"] = HOk (b "x$two", []) /\
  here_document ex_val (b "EOF") true false
    [ex_ln "x" ++ [Ex (b "$two")]; ex_ln "EOF"] = HExpand.
Proof. split; reflexivity. Qed.

Example C91_failures_nonvacuous :
  here_document ex_val (b "EOF") false true [ex_ln "x"; ex_ln "EOF "] = HMissing /\
  here_document ex_val (b "EOF") false true [ex_ln "x"; ex_ln " EOF"] = HUnindented /\
  here_document ex_val (b "EOF") false false [[Ex (b "$one")]; ex_ln " EOF"] = HUnindented.
Proof. repeat split; reflexivity. Qed.

Example C91_indent_nonvacuous :
  indented false (b "  ") [ex_ln " foo"; []] [ex_ln "   foo"; []] /\
  here_document ex_val (b "EOF") false false [ex_ln " foo"; []; ex_ln " EOF"] =
    HOk (b "foo" ++ [NL; NL], []) /\
  here_document ex_val (b "EOF") false false [ex_ln "   foo"; []; ex_ln "   EOF"] =
    HOk (b "foo" ++ [NL; NL], []).
Proof.
  split; [|split; reflexivity].
  change (ex_ln "   foo") with (indent (b "  ") (ex_ln " foo")).
  apply id_line; [discriminate|]. apply id_blank; [reflexivity|constructor].
Qed.

Example C91_documents_nonvacuous :
  here_documents ex_val [HDoc (b "IN") false true; HDoc (b "OUT") true false]
    [ex_ln "OUT"; ex_ln " IN "; ex_ln "IN"; [Ex (b "$none")]; ex_ln "IN"; ex_ln "OUT"; ex_ln "c"] =
  HOk ([b "OUT" ++ [NL] ++ b " IN " ++ [NL]; NL :: b "IN"], [ex_ln "c"]).
Proof. reflexivity. Qed.

Example C91_lines_nonvacuous :
  text_of false [b "a"; []] (b "a" ++ [NL; NL]) /\ text_of true [b "a"; []] (b "a" ++ [NL]).
Proof. split; apply text_iff; reflexivity. Qed.
