(* Properties of the make dependency declaration parser (C07, C08). *)
From Verif Require Import Base MakeModel MakeSpec MakeProofs.

(* --- C07 --- *)

Theorem C07_escaped_path_reads_back :
  forall w, w <> [] -> ~ In NUL w ->
  (forall n m, next_word (spaces n ++ escape w ++ spaces m) = (w, true, [])) /\
  (forall n m, next_word (spaces n ++ escape w ++ spaces m ++ ["\"%char]) = (w, false, [])) /\
  (forall n m p, next_word (spaces n ++ escape w ++ spaces m ++ ":"%char :: p) = (w, false, ":"%char :: p)) /\
  (forall n m u, u <> [] -> hd_error u <> Some " "%char -> u <> ["\"%char] ->
     next_word (spaces n ++ escape w ++ spaces (S m) ++ u) = (w, false, u)).
Proof. exact escaped_reads_back. Qed.

(* The same for every admissible way of writing the name, for example with
   backslashes and dollars left alone where that is not ambiguous. *)
Theorem C07_rendered_path_reads_back :
  forall n w s, w <> [] -> renders w s ->
  (forall m, next_word (spaces n ++ s ++ spaces m) = (w, true, [])) /\
  (forall m, next_word (spaces n ++ s ++ spaces m ++ ["\"%char]) = (w, false, [])) /\
  (forall m p, next_word (spaces n ++ s ++ spaces m ++ ":"%char :: p) = (w, false, ":"%char :: p)) /\
  (forall m u, u <> [] -> hd_error u <> Some " "%char -> u <> ["\"%char] ->
     next_word (spaces n ++ s ++ spaces (S m) ++ u) = (w, false, u)).
Proof. exact word_then. Qed.

Example C07_example_escape :
  escape (b "C:\a b#$x") = b "C\:\\a\ b\#$$x" /\ ~ In NUL (b "C:\a b#$x").
Proof. vm_compute. split; [reflexivity|intuition discriminate]. Qed.

Example C07_example_plain : renders (b "a\b$c") (b "a\b$c").
Proof.
  apply r_plain; try discriminate. apply r_plain; try discriminate.
  { intros _. exists "b"%char, (b "$c"). split; [reflexivity|]. unfold special. simpl. intuition discriminate. }
  apply r_plain; try discriminate. apply r_plain; try discriminate. apply r_plain; try discriminate. apply r_nil.
Qed.

(* --- C08 --- *)

Theorem C08_declaration_parses :
  forall bl ts ps ls more,
    Forall blank bl -> decl ts ps ls -> ts <> [] ->
    parse (bl ++ ls ++ more) = Some (map (pair Target) ts ++ map (pair Prereq) ps, more).
Proof. exact decl_parses. Qed.

(* Conversely, whatever the parser accepts is a rendering of what it returns:
   no name is invented, lost, reordered or attributed to the wrong side. *)
Theorem C08_accepted_is_a_declaration :
  forall ls xs more,
    parse ls = Some (xs, more) ->
    exists bl ts ps dl,
      xs = map (pair Target) ts ++ map (pair Prereq) ps /\
      ls = bl ++ dl ++ more /\ decl ts ps dl /\ Forall blank bl /\ ts <> [].
Proof. exact parse_sound. Qed.

(* The per-line loop always makes progress: more iterations than the length of
   the line are never needed. *)
Theorem C08_line_loop_terminates :
  forall st l k, line_loop (S (length l) + k) st l = parse_line st l.
Proof. exact parse_line_fuel. Qed.

Example C08_example :
  parse [b ""; b "foo.o b\ r.o: foo.c \"; b "  x\y.h\"; b " z$$.h"; b "next: decl"] =
    Some ([(Target, b "foo.o"); (Target, b "b r.o"); (Prereq, b "foo.c"); (Prereq, b "x\y.h"); (Prereq, b "z$.h")],
          [b "next: decl"]).
Proof. vm_compute. reflexivity. Qed.

Example C08_example_decl : decl [b "a"] [b "b"; b "c"] [b "a: b\"; b " c"].
Proof.
  assert (forall x, x <> " "%char -> x <> ":"%char -> x <> "\"%char -> x <> "$"%char -> renders [x] [x]) as R1.
  { intros x H1 H2 H3 H4. apply r_plain; auto; try contradiction. apply r_nil. }
  apply (d_colon [b "a"] (b "a") [b "b"; b "c"] (b " b\")).
  - apply (w_cons 0 (b "a") [] (b "a") []); [discriminate|apply R1; discriminate|apply (w_nil 0)|auto].
  - apply (p_cont [b "b"] (b " b") [b "c"] [b " c"]).
    + apply (w_cons 1 (b "b") [] (b "b") []); [discriminate|apply R1; discriminate|apply (w_nil 0)|auto].
    + apply p_last. apply (w_cons 1 (b "c") [] (b "c") []); [discriminate|apply R1; discriminate|apply (w_nil 0)|auto].
Qed.

Print Assumptions C07_escaped_path_reads_back.
Print Assumptions C07_rendered_path_reads_back.
Print Assumptions C08_declaration_parses.
Print Assumptions C08_accepted_is_a_declaration.
Print Assumptions C08_line_loop_terminates.
