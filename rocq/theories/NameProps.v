(* Properties of printing, reading and comparing names, and of the lexer: C27, C28
   and C45. *)
From Verif Require Import Base LexModel NameModel NamesModel LexProofs NamesProofs NamesProofs2 NameSpec NameProofs LexProofs2.

(* The value that is read from a line: text is what follows the assignment and it
   is followed by the end of the line or of the file. The lexer is in the value
   mode on top of whatever other modes. *)
Definition read_value (valid exact : bytes -> bool) (mkdir : bytes -> option bytes) (base : list lst) (text rest : bytes) : option (list name) :=
  match lex_line (S (length text)) (value_lexer base (text ++ rest)) with
  | Some ts => parse_value valid exact mkdir ts
  | None => None
  end.
Definition saved (ns : list name) : bytes := print_names QNormal "@"%char false ns.
Definition end_of_line (rest : bytes) : Prop := rest = [] \/ exists s, rest = NL :: s.
Lemma end_of_line_ok rest : end_of_line rest -> line_end rest.
Proof. intros [-> |[s ->]]; [exact I|reflexivity]. Qed.

(* C27: any list of strings that is printed and read back is the same list of
   strings. (There is no other assumption about the strings than that they do not
   contain NUL: they may contain quotes, spaces, newlines, etc. What directories
   and project names are does not matter either.) *)
Theorem C27_strings_survive : forall valid exact mkdir base vs rest,
  Forall (no_char NUL) vs -> end_of_line rest ->
  exists ns, read_value valid exact mkdir base (saved (of_strings vs)) rest = Some ns /\ to_strings ns = Some vs.
Proof.
  intros valid exact mkdir base vs rest Hn Hr. destruct (strings_read valid exact mkdir vs base rest Hn (end_of_line_ok _ Hr)) as [ns [K1 K2]].
  exists ns. split; [apply K2; unfold saved, AT; lia|]. apply to_strings_all. exact K1.
Qed.
Print Assumptions C27_strings_survive.

(* C27: so is a single string. *)
Theorem C27_string_survives : forall valid exact mkdir base v rest,
  no_char NUL v -> end_of_line rest ->
  exists ns, read_value valid exact mkdir base (saved (of_string_value v)) rest = Some ns /\ to_string_value ns = Some v.
Proof.
  intros valid exact mkdir base v rest Hn Hr. destruct v as [|c v].
  - destruct (strings_read valid exact mkdir [] base rest ltac:(constructor) (end_of_line_ok _ Hr)) as [ns [K1 K2]]. inversion K1; subst.
    exists []. split; [apply K2; cbn; lia|reflexivity].
  - destruct (strings_read valid exact mkdir [c :: v] base rest ltac:(constructor; [exact Hn|constructor]) (end_of_line_ok _ Hr)) as [ns [K1 K2]].
    exists ns. split; [apply K2; unfold of_strings, saved, AT; cbn [of_string_value is_empty map]; lia|].
    inversion K1 as [|n ? ns' ? [E1 E2] K1']; subst. inversion K1'; subst. exact E1.
Qed.
Print Assumptions C27_string_survives.

(* C27: a list of names, with projects, directories, types and pairs, is read back
   as the same list. *)
Theorem C27_names_survive : forall valid exact mkdir base ns rest,
  (forall d, clean_dir d -> exact d = true /\ mkdir d = Some d) ->
  Forall (canonical valid) ns -> well_paired ns -> end_of_line rest ->
  read_value valid exact mkdir base (saved ns) rest = Some ns.
Proof.
  intros valid exact mkdir base ns rest Hd HF HW Hr. unfold read_value, saved. apply (names_read valid exact mkdir Hd ns base rest HF HW (end_of_line_ok _ Hr)). unfold AT. lia.
Qed.
Print Assumptions C27_names_survive.

(* For the examples. *)
Definition ends_slash (v : bytes) : bool := match rev v with c :: _ => is_sepc c | [] => false end.
Definition some_name (v : bytes) : bool := forallb alnum v.
Definition as_dir (v : bytes) : option bytes := Some (if ends_slash v then v else v ++ b "/").
Lemma as_dir_ok d : clean_dir d -> ends_slash d = true /\ as_dir d = Some d.
Proof.
  intros H. destruct (clean_ends d H) as [d' ->]. assert (ends_slash (d' ++ ["/"%char]) = true) as E by (unfold ends_slash; rewrite rev_app_distr; reflexivity).
  unfold as_dir. rewrite E. auto.
Qed.
Definition odd_strings : list bytes := [b "it's"; []; b "a b"; b "x@y"; b "foo%bar"; b "~/x/"; b "+z"; b "$(""a\"; [NL; TAB]].
Example C27_strings_ex : Forall (no_char NUL) odd_strings /\
  saved (of_strings odd_strings) = b """it's"" '' 'a b' 'x@y' 'foo%bar' \~/x/ +z '$(""a\' '" ++ [NL; TAB] ++ b "'" /\
  read_value some_name ends_slash as_dir [] (saved (of_strings odd_strings)) [NL] =
    Some [simple_name (b "it's"); simple_name []; simple_name (b "a b"); simple_name (b "x@y"); mkname (Some (b "foo")) [] [] (b "bar") NUL None;
          mkname None (b "~/x/") [] [] NUL None; simple_name (b "+z"); simple_name (b "$(""a\"); simple_name [NL; TAB]].
Proof.
  split; [|split; vm_compute; reflexivity]. unfold odd_strings, no_char.
  repeat (constructor; [cbn; repeat (apply and_not_or; split; [discriminate|]); exact (fun x => x) || (intros K; repeat (destruct K as [K|K]; [discriminate|]); exact K)|]). constructor.
Qed.

Definition some_names : list name :=
  [mkname None (b "/usr/include/") [] [] "@"%char None; mkname (Some (b "libhello")) (b "out/") (b "lib") (b "hello") NUL None;
   mkname None (b "src dir/") (b "dir") [] NUL None; mkname (Some []) [] (b "exe") (b "+b") NUL None; simple_name []].
Example C27_names_ex :
  Forall (canonical some_name) some_names /\ well_paired some_names /\
  saved some_names = b "/usr/include/@libhello%out/lib{hello} dir{'src dir/'} %exe{\+b} ''".
Proof.
  assert (forall c v, forallb (fun d => negb (ceqb d c)) v = true -> no_char c v) as K.
  { intros c v H Hi. rewrite forallb_forall in H. specialize (H _ Hi). rewrite ceqb_refl in H. discriminate. }
  assert (forall v, ends_slash v = false -> ~ ends_with "/" v) as E.
  { intros v H [w ->]. unfold ends_slash in H. rewrite rev_app_distr in H. discriminate. }
  assert (clean_dir (b "/usr/include/")) as D1.
  { exists true, [b "usr"; b "include"]. split; [reflexivity|]. split; [|discriminate]. repeat constructor; try discriminate; apply K; reflexivity. }
  assert (clean_dir (b "out/")) as D2.
  { exists false, [b "out"]. split; [reflexivity|]. split; [|discriminate]. repeat constructor; try discriminate; apply K; reflexivity. }
  assert (clean_dir (b "src dir/")) as D3.
  { exists false, [b "src dir"]. split; [reflexivity|]. split; [|discriminate]. repeat constructor; try discriminate; apply K; reflexivity. }
  split; [|split; [|vm_compute; reflexivity]].
  - unfold some_names. repeat (apply Forall_cons || apply Forall_nil);
      (constructor; cbn [pattern proj dir type value simple_name]; [reflexivity|first [exact I|split; [auto|apply K; reflexivity]]|repeat split; apply K; reflexivity|repeat split; apply K; reflexivity|apply K; reflexivity|auto|apply E; reflexivity|auto; discriminate|intros; try discriminate; auto]).
  - unfold some_names. apply wp_pair; [reflexivity|reflexivity|]. repeat (apply wp_nil || (apply wp_single; [reflexivity|])).
Qed.

(* Without the conditions this is false, even though each of these is printed for
   reading back. A project with an empty name: *)
Theorem C27_empty_name_keeps_project_refuted :
  ~ (forall valid exact mkdir n, proj n <> None -> pair n = NUL -> read_value valid exact mkdir [] (saved [n]) [NL] = Some [n]).
Proof.
  intros H. specialize (H some_name ends_slash as_dir (mkname (Some (b "foo")) [] [] [] NUL None) ltac:(discriminate) eq_refl).
  vm_compute in H. discriminate H.
Qed.
Print Assumptions C27_empty_name_keeps_project_refuted.
(* And an untyped name with both the directory and the value. *)
Theorem C27_directory_and_value_refuted :
  ~ (forall valid exact mkdir d v, (forall d, clean_dir d -> exact d = true /\ mkdir d = Some d) -> clean_dir d ->
      read_value valid exact mkdir [] (saved [mkname None d [] v NUL None]) [NL] = Some [mkname None d [] v NUL None]).
Proof.
  intros H. specialize (H some_name ends_slash as_dir (b "foo/") (b "bar") as_dir_ok).
  assert (clean_dir (b "foo/")) as D.
  { exists false, [b "foo"]. split; [reflexivity|]. split; [|discriminate]. repeat constructor; try discriminate. intros K. cbn in K. repeat (destruct K as [K|K]; [discriminate|]). exact K. }
  specialize (H D). vm_compute in H. discriminate H.
Qed.
Print Assumptions C27_directory_and_value_refuted.

(* C28: comparing names is a (weak) order, as required by maps and sorting, if
   comparing project names and directories is. *)
Theorem C28_weak_order : forall cp cd, weak_order cp -> weak_order cd -> weak_order (compare cp cd).
Proof. intros cp cd Hp Hd. exact (compare_weak cp cd Hp Hd). Qed.
Print Assumptions C28_weak_order.

(* C28: names are equal (operator==) if and only if all of their parts are. *)
Theorem C28_equality : forall cp cd, (forall x y, cp x y = Eq <-> x = y) -> (forall x y, cd x y = Eq <-> x = y) ->
  forall x y, compare cp cd x y = Eq <-> x = y.
Proof.
  intros cp cd Hp Hd x y. rewrite (compare_eq cp cd), (ocompare_eq cp Hp), Hd. destruct x, y; cbn. split.
  - intros [-> [-> [-> [-> [-> ->]]]]]. reflexivity.
  - intros K. injection K as -> -> -> -> -> ->. repeat split.
Qed.
Print Assumptions C28_equality.

(* C28: in particular, operator< is irreflexive and transitive, and what is not
   comparable is interchangeable. *)
Theorem C28_less_is_strict_weak : forall cp cd, weak_order cp -> weak_order cd ->
  let lt x y := compare cp cd x y = Lt in
  (forall x, ~ lt x x) /\ (forall x y z, lt x y -> lt y z -> lt x z) /\
  (forall x y z, ~ lt x y -> ~ lt y x -> (lt x z <-> lt y z) /\ (lt z x <-> lt z y)).
Proof.
  intros cp cd Hp Hd lt. pose proof (compare_weak cp cd Hp Hd) as H. subst lt. cbv beta. split; [|split].
  - intros x. rewrite (wo_refl _ H). discriminate.
  - intros x y z K1 K2. apply (wo_lt _ H x y z K1). rewrite K2. discriminate.
  - intros x y z K1 K2. assert (compare cp cd x y = Eq) as E.
    { destruct (compare cp cd x y) eqn:E; [reflexivity|contradiction K1; reflexivity|]. apply (wo_flip _ H) in E. contradiction. }
    rewrite (wo_eq_l _ H x y z E). split; [tauto|]. rewrite <- !(wo_flip _ H), (wo_eq_l _ H x y z E). tauto.
Qed.
Print Assumptions C28_less_is_strict_weak.

Example C28_ex : weak_order scompare /\ (forall x y, scompare x y = Eq <-> x = y) /\
  compare scompare scompare (mkname None (b "a/") [] (b "x") NUL None) (mkname None (b "a/") (b "t") (b "x") NUL None) = Lt /\
  compare scompare scompare (mkname None [] [] (b "x") NUL (Some PRegex)) (mkname None [] [] (b "x") NUL (Some PPath)) = Gt.
Proof. split; [exact wo_string|]. split; [exact scompare_eq|]. split; reflexivity. Qed.

(* C45: in every mode, a token that the lexer returns has taken at least one
   character from the input, unless it is the end of the input, or it is an empty
   variable name in the variable mode, which is then left. *)
Theorem C45_lexer_makes_progress : forall l t l', Forall st_ok (stack l) -> next l = Some (t, l') ->
  tt t = TEos \/ length (input l') < length (input l) \/
  (exists st, hd_error (stack l) = Some st /\ md st = Varname /\ stack l' = tl (stack l) /\ tt t = TWord /\ tv t = []).
Proof.
  intros l t l' Hok H. destruct (next_progress l t l' Hok H) as [[K|K]|K]; [left; exact K|right; left; exact K|right; right; exact K].
Qed.
Print Assumptions C45_lexer_makes_progress.
(* C45: the condition holds for every mode that can be entered, and is kept. *)
Theorem C45_states : (forall m ps e sp nl, st_ok (mode_state m ps e sp nl)) /\
  (forall l t l', Forall st_ok (stack l) -> next l = Some (t, l') -> Forall st_ok (stack l')) /\
  (forall s stk, st_ok s -> Forall st_ok stk -> Forall st_ok (push_mode s stk) /\ Forall st_ok (expire_mode stk)).
Proof.
  split; [intros [] ps e sp nl; reflexivity || exact I|]. split; [exact next_states|]. intros s stk Hs Hstk. split.
  - unfold push_mode. destruct stk as [|q stk]; [auto|]. inversion Hstk; subst. destruct (among _ _ && _); repeat constructor; assumption.
  - unfold expire_mode. destruct stk as [|q [|u stk]]; try constructor. inversion Hstk as [|? ? H1 H2]; subst. inversion H2; subst. destruct (among _ _); constructor; assumption.
Qed.
Print Assumptions C45_states.

Example C45_ex : exists l', next (mklex [mode_state Normal NUL None [] true] true false (b "  foo.bar = baz")) = Some (mktok TWord (b "foo.bar") true Unquoted false false, l') /\
  input l' = b " = baz".
Proof. eexists. split; [vm_compute; reflexivity|]. reflexivity. Qed.
Example C45_empty_ex : exists l', next (mklex [mode_state Varname NUL None [] true] false false (b "/x")) = Some (mktok TWord [] false Unquoted false false, l') /\ input l' = b "/x" /\ stack l' = [].
Proof. eexists. split; [vm_compute; reflexivity|]. split; reflexivity. Qed.

(* A line continuation joins two lines: one would expect that removing it does not
   change the tokens. But if it comes right after a word and is followed by an
   empty line then the value continues on the line after that. *)
Theorem C45_line_continuation_refuted :
  ~ (forall v s, forallb alnum v = true -> forall k ts, lex_line k (value_lexer [] (v ++ [BSL; NL] ++ s)) = Some ts -> lex_line k (value_lexer [] (v ++ s)) = Some ts).
Proof.
  intros H. specialize (H (b "foo") (NL :: b "bar" ++ [NL]) eq_refl 9). vm_compute in H. specialize (H _ eq_refl). discriminate H.
Qed.
Print Assumptions C45_line_continuation_refuted.

(* C45: a line continuation in the middle of a word is as if it was not there. *)
Theorem C45_continuation_in_word : forall base v u s, v <> [] -> u <> [] -> forallb alnum v = true -> forallb alnum u = true ->
  next (value_lexer base (v ++ [BSL; NL] ++ u ++ s)) = next (value_lexer base (v ++ u ++ s)).
Proof.
  intros base v u s Hv Hu Av Au.
  assert (P : forall x, alnum x = true -> plainc AT x = true) by (intros [[] [] [] [] [] [] [] []] Hx; vm_compute in Hx |- *; congruence).
  assert (PA : forall l, forallb alnum l = true -> forallb (plainc AT) l = true) by (intros l; rewrite !forallb_forall; auto).
  assert (S : forall t, start_ok (v ++ t)).
  { intros t. destruct v as [|c v]; [congruence|]. cbn [forallb] in Av. apply andb_true_iff in Av. destruct Av as [Ac _]. cbn [app start_ok].
    clear - Ac. destruct c as [[] [] [] [] [] [] [] []]; vm_compute in Ac; try discriminate Ac; (split; [reflexivity|intros X; discriminate X]). }
  assert (VM : value_mode AT value_state) by (repeat split).
  destruct (next_starts value_state base false false false (v ++ [BSL; NL] ++ u ++ s) VM (S _)) as [b1 K1].
  destruct (next_starts value_state base false false false (v ++ u ++ s) VM (S _)) as [b2 K2].
  cbn [gap app orb] in K1, K2. unfold value_lexer. cbn [app]. rewrite K1, K2.
  set (st := plain_st value_state). assert (VM' : value_mode AT st) by exact VM.
  set (q1 := mkq Unquoted false false). set (q2 := if is_empty v then q1 else nonempty_q q1).
  set (q3 := if is_empty u then q2 else nonempty_q q2).
  assert (E1 : word (st :: base) st false (v ++ BSL :: NL :: u ++ s) = word_loop (st :: base) st false false (rev u ++ rev v ++ []) q3 false s).
  { unfold word. change (among (md st) [Double_quoted]) with false. rewrite (word_plain AT _ _ _ _ VM') by (apply PA; exact Av).
    fold q1. fold q2. 
    change (word_loop (st :: base) st false false (rev v ++ []) q2 false (BSL :: NL :: u ++ s)) with (word_loop (st :: base) st false false (rev v ++ []) q2 false (u ++ s)).
    rewrite (word_plain AT _ _ _ _ VM') by (apply PA; exact Au). reflexivity. }
  assert (E2 : word (st :: base) st false (v ++ u ++ s) = word_loop (st :: base) st false false (rev u ++ rev v ++ []) q3 false s).
  { unfold word. change (among (md st) [Double_quoted]) with false. rewrite (word_plain AT _ _ _ _ VM') by (apply PA; exact Av).
    fold q1. fold q2. rewrite (word_plain AT _ _ _ _ VM') by (apply PA; exact Au). reflexivity. }
  rewrite E1, E2. destruct (word_loop _ _ _ _ _ _ _ s) as [[[t stk'] s']|] eqn:E; [|reflexivity].
  apply (word_shorter (length s)) in E; [|lia]. unfold ret_word, ret, advance. cbn [input bol sepf].
  destruct u as [|d u]; [congruence|]. rewrite !app_length. cbn [length]. rewrite ?app_length. cbn [length]. rewrite ?app_length.
  set (k := length v + length u + (length s - length s')).
  replace (length v + Datatypes.S (Datatypes.S (Datatypes.S (length u) + length s)) - length s') with (Datatypes.S (2 + k)) by lia.
  replace (length v + (Datatypes.S (length u) + length s) - length s') with (Datatypes.S k) by lia.
  assert (N : nth (2 + k) (v ++ BSL :: NL :: (d :: u) ++ s) NUL = nth k (v ++ (d :: u) ++ s) NUL); [|cbn in N |- *; rewrite N; reflexivity].
  rewrite (app_nth2 v) by lia. rewrite (app_nth2 v) by lia. replace (2 + k - length v) with (Datatypes.S (Datatypes.S (k - length v))) by lia. reflexivity.
Qed.
Print Assumptions C45_continuation_in_word.
Example C45_continuation_ex : exists l', next (value_lexer [] (b "foo" ++ [BSL; NL] ++ b "bar baz")) = Some (mktok TWord (b "foobar") false Unquoted false false, l') /\ input l' = b " baz".
Proof. eexists. split; [vm_compute; reflexivity|reflexivity]. Qed.
