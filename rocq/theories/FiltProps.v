(* The properties of config.test. *)
From Verif Require Import Base FiltModel FiltSpec FiltProofs.

Section Search.
Context (search : name -> target -> bool) (denotes : path -> bytes -> bytes -> target -> Prop).
(* What a name with a type denotes is what is found for it, and this has the same directory, type and name. *)
Context (search_ok : forall n d y v t, TypedName n d y v -> (tdir t = d /\ ttype t = y /\ tname t = v /\ search n t = true <-> denotes d y v t)).

(* C72: Targets, aliases, tests and groups of tests are selected as the specification says. *)
Theorem C72_target (es : list entry) (ns : list name) (t : target) : Written es ns ->
  exists r, test search (Some ns) t = Some r /\ (r = true <-> Tested denotes es t).
Proof.
  intros W. destruct (test_spec search denotes search_ok es ns t W (length ns) true (le_n _)) as (r & E & K). exists r. split; [exact E |].
  rewrite K. unfold Tested. tauto.
Qed.
Theorem C72_id (es : list entry) (ns : list name) (t : target) (id : path) : Written es ns ->
  exists r, test_id search (Some ns) t id = Some r /\ (r = true <-> Executed denotes es t id).
Proof.
  intros W. destruct (test_id_spec search denotes search_ok es ns t id W (length ns) true (le_n _)) as (r & E & K). exists r. split; [exact E |].
  rewrite K. unfold Executed. tauto.
Qed.
Theorem C72_alias (es : list entry) (ns : list name) (a : target) : Written es ns ->
  exists r, pass (Some ns) a = Some r /\ (r = true <-> Passed es (tdir a)).
Proof.
  intros W. destruct (pass_spec es ns (tdir a) W (length ns) true (le_n _)) as (r & E & K). exists r. split; [exact E |].
  rewrite K. unfold Passed, leads. tauto.
Qed.

(* Nothing that is selected is unreachable: every alias above a target that is tested is passed through, whichever directory it is
   in, and every group above a test that is executed is executed. *)
Theorem C72_reachable_target (es : list entry) (ns : list name) (a t : target) : Written es ns ->
  prefix (tdir a) (tdir t) -> test search (Some ns) t = Some true -> pass (Some ns) a = Some true.
Proof.
  intros W P T. destruct (C72_target es ns t W) as (r & E & K). rewrite T in E. injection E as <-. destruct K as [K _]. specialize (K eq_refl).
  destruct (C72_alias es ns a W) as (r & E & [_ L]). rewrite E. f_equal. apply L. clear L E. destruct K as [(e & w & He & Te & M) | N]; [left | right; exact N].
  exists e, w. split; [exact He |]. split; [exact Te |]. destruct w as [d | d y v]; cbn in M.
  - destruct (prefix_comparable (tdir a) d (tdir t) P M); auto.
  - destruct (search_ok (mkname false d y v false) d y v t) as [_ S].
    + assert (y <> []). { intros ->. clear - W He Te. revert e He Te. induction W as [| w n es ns W P H IH | p n es ns I H IH | w p n m es ns W P I H IH]; intros e He Te.
        - contradiction.
        - destruct He as [<- | He]; [| eauto]. injection Te as ->. destruct W as (_ & _ & ? & N & _). congruence.
        - destruct He as [<- | He]; [discriminate | eauto].
        - destruct He as [<- | He]; [| eauto]. injection Te as ->. destruct W as (_ & _ & ? & N & _). congruence. }
      repeat split. assumption.
    + destruct (S M) as (<- & _). exact P.
Qed.
Theorem C72_reachable_test (es : list entry) (ns : list name) (t : target) (group id : path) : Written es ns ->
  prefix group id -> test_id search (Some ns) t id = Some true -> test_id search (Some ns) t group = Some true.
Proof.
  intros W P T. destruct (C72_id es ns t id W) as (r & E & K). rewrite T in E. injection E as <-. destruct K as [K _]. specialize (K eq_refl).
  destruct (C72_id es ns t group W) as (r & E & [_ L]). rewrite E. f_equal. apply L. clear L E. destruct K as [(p & A & [B | B]) | N]; [left | left | right; exact N].
  - exists p. split; [exact A |]. apply (prefix_comparable p group id B P).
  - exists p. split; [exact A |]. right. apply (prefix_trans _ _ _ P B).
Qed.
(* And everything in a group that is asked for is executed. *)
Theorem C72_inside (es : list entry) (ns : list name) (t : target) (p id : path) : Written es ns ->
  Asked denotes es t p -> prefix p id -> test_id search (Some ns) t id = Some true.
Proof.
  intros W A P. destruct (C72_id es ns t id W) as (r & E & [_ L]). rewrite E. f_equal. apply L. left. exists p. auto.
Qed.
End Search.
Print Assumptions C72_target.
Print Assumptions C72_id.
Print Assumptions C72_alias.
Print Assumptions C72_reachable_target.
Print Assumptions C72_reachable_test.
Print Assumptions C72_inside.

(* The value of a name without a type is ignored: config.test=tests/foo is the same as config.test=tests/, and config.test=foo@id is
   the same as config.test=id for targets and selects all of them. *)
Theorem C72_value_refuted (search : name -> target -> bool) (v : bytes) :
  v <> b "other" ->
  test search (Some [mkname false [b "tests"] [] v false]) (mktarget [b "tests"] (b "exe") (b "other")) = Some true /\
  test search (Some [mkname false [] [] v true; mkname false [] [] (b "id") false]) (mktarget [b "x"] (b "exe") (b "other")) = Some true.
Proof. intros _. split; reflexivity. Qed.
Print Assumptions C72_value_refuted.
(* Asking for a test of a target takes precedence over asking for the target: config.test='tests/ tests/@id' does not execute other
   tests of tests/ although they are executed with config.test=tests/. *)
Theorem C72_union_refuted (search : name -> target -> bool) (t : target) : tdir t = [b "tests"] ->
  test_id search (Some [mkname false [b "tests"] [] [] false]) t [b "other"] = Some true /\
  test_id search (Some [mkname false [b "tests"] [] [] false; mkname false [b "tests"] [] [] true; mkname false [] [] (b "id") false]) t [b "other"] = Some false.
Proof. intros E. unfold test_id. cbn. unfold is_target. cbn. rewrite E. split; reflexivity. Qed.
Print Assumptions C72_union_refuted.

(* Examples: config.test='tests/basics/@foo/bar exe{hello} tests/other/' *)
Definition exf_es : list entry := [EBoth (Under [b "tests"; b "basics"]) [b "foo"; b "bar"]; ETarget (Target [] (b "exe") (b "hello")); ETarget (Under [b "tests"; b "other"])].
Definition exf_ns : list name :=
  [mkname false [b "tests"; b "basics"] [] [] true; mkname false [] [] (b "foo/bar") false;
   mkname false [] (b "exe") (b "hello") false; mkname false [b "tests"; b "other"] [] [] false].
Example C72_written : Written exf_es exf_ns.
Proof.
  apply W_both; [cbn; unfold Dir; cbn; repeat split; discriminate | reflexivity | unfold WrittenId; cbn; repeat split; try discriminate |].
  - repeat constructor; try discriminate; unfold slash_free; cbn; intuition discriminate.
  - apply W_target; [unfold WrittenTarget, TypedName; cbn; repeat split; discriminate | reflexivity |].
    apply W_target; [unfold WrittenTarget, Dir; cbn; repeat split; discriminate | reflexivity | constructor].
Qed.
Definition exf_search (n : name) (t : target) : bool := true.
Definition exf_denotes (d : path) (y v : bytes) (t : target) : Prop := tdir t = d /\ ttype t = y /\ tname t = v.
Example C72_search : forall n d y v t, TypedName n d y v -> (tdir t = d /\ ttype t = y /\ tname t = v /\ exf_search n t = true <-> exf_denotes d y v t).
Proof. intros. unfold exf_denotes, exf_search. tauto. Qed.
Example C72_example :
  let t := mktarget [b "tests"; b "basics"; b "sub"] (b "testscript") (b "x") in
  test exf_search (Some exf_ns) t = Some true /\
  test exf_search (Some exf_ns) (mktarget [] (b "exe") (b "hello")) = Some true /\
  test exf_search (Some exf_ns) (mktarget [] (b "exe") (b "hell")) = Some false /\
  test exf_search (Some exf_ns) (mktarget [b "tests"] (b "dir") []) = Some false /\
  pass (Some exf_ns) (mktarget [b "tests"] (b "dir") []) = Some true /\
  pass (Some exf_ns) (mktarget [b "doc"] (b "dir") []) = Some false /\
  test_id exf_search (Some exf_ns) t [b "foo"] = Some true /\
  test_id exf_search (Some exf_ns) t [b "foo"; b "bar"; b "baz"] = Some true /\
  test_id exf_search (Some exf_ns) t [b "foo"; b "baz"] = Some false /\
  test_id exf_search (Some exf_ns) (mktarget [b "tests"; b "other"] (b "testscript") (b "y")) [b "foo"; b "baz"] = Some true.
Proof. repeat split. Qed.
