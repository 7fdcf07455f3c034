(* Properties of name patterns: C69. *)
From Coq Require Import Sorting.Sorted.
From Verif Require Import Base SplitModel SplitSpec GlobModel GlobSpec GlobProofs2 GlobProofs3 GlobProofs4.

Section Expansion.
Context (search : bytes -> list hit) (recursions : bytes -> nat) (is_pattern : bytes -> bool) (matches : bytes -> bytes -> bool)
        (buildignore : bytes -> bool) (has_ext : bytes -> bool).
Notation expand := (expand search recursions is_pattern matches buildignore has_ext).

(* C69: a pattern with inclusions and exclusions expands to names of files (or directories) that have been included and have
   not been excluded after that, each once and in the order in which they have been included, unless it is invalid. *)
Theorem C69_result : forall k default is, is <> [] -> consistent k default -> plain_special is_pattern k is -> found_once search recursions ->
  sound_search search is_pattern -> nameable_files search k default is ->
  as_specified search is_pattern matches buildignore has_ext k default is (expand k is).
Proof.
  intros k default is Hne Hc Hp Hu Hs Hn. pose proof (items_all search recursions is_pattern matches buildignore has_ext k default is Hc Hp Hu Hne) as I. unfold GlobModel.expand, as_specified.
  destruct (items search recursions is_pattern matches buildignore has_ext k None is []) as [[[d r]|]|]; [|exact I|exact I].
  destruct I as [I1 [[acts [I2 I3]] [I4 I5]]]. destruct (finish_list search is_pattern k default is Hc Hp Hs Hn d r I1) as [ns [E1 E2]]. rewrite E1.
  split; [exact I4|]. split; [exact I5|]. exists acts, (map path r). auto.
Qed.
(* C69: in particular, it is invalid if and only if it says so. *)
Theorem C69_invalid : forall k default is, is <> [] -> consistent k default -> plain_special is_pattern k is -> found_once search recursions ->
  sound_search search is_pattern -> nameable_files search k default is -> expand k is = Invalid <-> invalid k default is_pattern is.
Proof.
  intros k default is Hne Hc Hp Hu Hs Hn. pose proof (C69_result k default is Hne Hc Hp Hu Hs Hn) as R. unfold as_specified in R. destruct (expand k is) as [| |d ns].
  - tauto.
  - contradiction.
  - split; [discriminate|]. intros K. destruct R as [R _]. contradiction.
Qed.
End Expansion.
Print Assumptions C69_result.
Print Assumptions C69_invalid.
(* A filesystem for the examples: files, patterns with a single asterisk at the beginning. *)
Section Files.
Context (files : list bytes).
Definition ex_is_pattern (p : bytes) : bool := existsb (fun c => ceqb c "*"%char) p.
Fixpoint ends (s p : bytes) : bool := beqb s p || match s with [] => false | _ :: s => ends s p end.
Definition ex_matches (f p : bytes) : bool := match p with c :: r => if ceqb c "*"%char then ends f r && (length r <? length f) else beqb f p | [] => false end.
Definition ex_search (p : bytes) : list hit := map (fun f => mkhit [] f p) (filter (fun f => ex_matches f p) files).
Definition ex_has_ext (f : bytes) : bool := existsb is_dot f.
Definition ex_expand := expand ex_search (fun _ => 0) ex_is_pattern ex_matches (fun _ => false) ex_has_ext.
End Files.
(* For example: cxx{* -*.test -z +a.test +*-c.hxx} where z and .q are there as well. *)
Example C69_ex : ex_expand [b "x.cxx"; b "a.test.cxx"; b "z.cxx"; b "y.cxx"; b ".q.cxx"; b "b-c.hxx"; b "x.hxx"] (Ext (Some (b "cxx")))
    [(true, b "*"); (false, b "*.test..."); (false, b "z"); (true, b "a.test..."); (true, b "*-c.hxx")] =
  Names false [b "x"; b "y"; b "a.test..."; b "b-c.hxx"] /\
  ex_expand [b "x.cxx"] (Ext (Some (b "cxx"))) [(true, b "*"); (false, b "d/")] = Invalid /\
  ex_expand [b "x/"; b "y/"] Dirs [(true, b "*"); (false, b "y")] = Names true [b "x"].
Proof. repeat split; vm_compute; reflexivity. Qed.

(* Such a search is as expected. *)
Lemma ends_app s p : ends s p = true -> exists w, s = w ++ p.
Proof.
  induction s as [|c s IH]; cbn; intros H; apply orb_true_iff in H; destruct H as [H | H].
  - apply beqb_true in H. exists []. exact H.
  - discriminate.
  - apply beqb_true in H. exists []. exact H.
  - destruct (IH H) as [w ->]. exists (c :: w). reflexivity.
Qed.
Lemma ex_sound files : Forall no_slash files -> sound_search (ex_search files) ex_is_pattern.
Proof.
  intros Hf p h Hh. apply in_map_iff in Hh. destruct Hh as [f [<- Hh]]. cbn [found]. apply filter_In in Hh. destruct Hh as [Hin Hm]. rewrite Forall_forall in Hf. specialize (Hf f Hin).
  assert (~ ends_with_slash f) as Hs. { intros [u ->]. apply Hf. rewrite in_app_iff. right. left. reflexivity. }
  assert (f = p \/ exists r w, p = "*"%char :: r /\ f = w ++ r /\ w <> []) as K.
  { destruct p as [|c r]; [discriminate|]. cbn in Hm. destruct (ceqb c "*"%char) eqn:E; [|left; apply beqb_true; exact Hm]. apply ceqb_eq in E. subst c. apply andb_true_iff in Hm. destruct Hm as [H1 H2].
    apply ends_app in H1. destruct H1 as [w ->]. right. exists r, w. split; [reflexivity|]. split; [reflexivity|]. intros ->. apply Nat.ltb_lt in H2. cbn in H2. lia. }
  split; [|split; [|split]].
  - split; [|intros K2; contradiction]. intros [u ->]. destruct K as [-> | [r [w [K1 [K2 _]]]]]; [exists u; reflexivity|]. destruct u as [|c u]; [discriminate|]. injection K1 as -> K1. exists (w ++ u). rewrite K2, <- K1. apply app_assoc.
  - intros u ->. apply Hf. rewrite in_app_iff. right. left. reflexivity.
  - intros Hp. destruct K as [K | [r [w [-> _]]]]; [exact K|discriminate].
  - intros u x Hu _ _. destruct K as [-> | [r [w [K1 [K2 _]]]]]; [exists u; exact Hu|]. rewrite K1 in Hu. destruct u as [|c u]; [discriminate|]. injection Hu as _ Hu. exists (w ++ u). rewrite K2, Hu, <- app_assoc. reflexivity.
Qed.
Lemma plain_no_slash s : existsb is_sep s = false -> no_slash s.
Proof. intros H Hi. assert (existsb is_sep s = true); [|congruence]. apply existsb_exists. eexists. split; [exact Hi|reflexivity]. Qed.
Lemma plain_nameable w : existsb is_sep w = false -> forallb is_dot w = false -> last_is is_dot w = false -> forall e, nameable w e.
Proof.
  intros H1 H2 H3 e. exists [], w. split; [reflexivity|]. split; [left; reflexivity|]. split; [apply plain_no_slash; exact H1|]. split.
  - intros K. assert (forallb is_dot w = true); [|congruence]. apply forallb_forall. unfold only_dots in K. rewrite Forall_forall in K. intros c Hc. rewrite (K c Hc). reflexivity.
  - intros [u ->]. unfold last_is in H3. rewrite rev_app_distr in H3. discriminate.
Qed.
Lemma strip_cxx w x : w ++ b ".cxx" = x ++ b ".cxx" -> w = x.
Proof. apply app_inv_tail. Qed.
Definition ex_files := [b "x.cxx"; b "a.test.cxx"; b "z.cxx"].
Definition ex_items : list item := [(true, b "*"); (false, b "z")].
Example C69_ex_hypotheses : let k := Ext (Some (b "cxx")) in let default := fun _ : bytes => Some (b "cxx") in
  consistent k default /\ plain_special ex_is_pattern k ex_items /\ found_once (ex_search ex_files) (fun _ => 0) /\
  sound_search (ex_search ex_files) ex_is_pattern /\ nameable_files (ex_search ex_files) k default ex_items /\
  expand (ex_search ex_files) (fun _ => 0) ex_is_pattern ex_matches (fun _ => false) ex_has_ext k ex_items = Names false [b "x"; b "a.test..."].
Proof.
  cbv zeta. split; [split; [reflexivity|intros y [= <-]; apply plain_no_slash; reflexivity]|]. split; [exact I|]. split.
  { intros p _. unfold ex_search. rewrite map_map. cbn [found]. rewrite map_id. apply NoDup_filter. repeat constructor; vm_compute; intuition discriminate. }
  split; [apply ex_sound; repeat constructor; apply plain_no_slash; reflexivity|]. split; [|vm_compute; reflexivity].
  intros s v p e h w Hin Ha _ Hh Hw. split; [|exact I].
  assert (e = Some (b "cxx")) as ->.
  { destruct Ha as [u [e0 [H1 [H2 _]]]]. destruct Hin as [Hin | [Hin | []]]; injection Hin as <- <-; vm_compute in H1; injection H1 as <- <-; exact H2. }
  apply in_map_iff in Hh. destruct Hh as [f [<- Hh]]. apply filter_In in Hh. destruct Hh as [Hh _]. cbn [found file_with b] in Hw. change (f = w ++ b ".cxx") in Hw.
  destruct Hh as [<- | [<- | [<- | []]]].
  - change (b "x" ++ b ".cxx" = w ++ b ".cxx") in Hw. apply strip_cxx in Hw. subst w. apply plain_nameable; reflexivity.
  - change (b "a.test" ++ b ".cxx" = w ++ b ".cxx") in Hw. apply strip_cxx in Hw. subst w. apply plain_nameable; reflexivity.
  - change (b "z" ++ b ".cxx" = w ++ b ".cxx") in Hw. apply strip_cxx in Hw. subst w. apply plain_nameable; reflexivity.
Qed.

(* C69: the conditions are necessary. A file with two dots in a row before its extension: an assertion if the extension is
   specified and another file if it is not. *)
Theorem C69_trailing_dot_refuted : ~ (forall search k default is, is <> [] -> consistent k default -> plain_special ex_is_pattern k is ->
  found_once search (fun _ => 0) -> sound_search search ex_is_pattern ->
  as_specified search ex_is_pattern ex_matches (fun _ => false) ex_has_ext k default is (expand search (fun _ => 0) ex_is_pattern ex_matches (fun _ => false) ex_has_ext k is)).
Proof.
  intros H. specialize (H (ex_search [b "foo..cxx"]) (Ext (Some (b "cxx"))) (fun _ => Some (b "cxx")) [(true, b "*.cxx")]).
  apply H; [discriminate|split; [reflexivity|intros y [= <-]; apply plain_no_slash; reflexivity]|exact I| |apply ex_sound; repeat constructor; apply plain_no_slash; reflexivity].
  intros p _. unfold ex_search. rewrite map_map. cbn [found]. rewrite map_id. apply NoDup_filter. repeat constructor. intros [].
Qed.
Print Assumptions C69_trailing_dot_refuted.
Example C69_trailing_dot_ex : ex_expand [b "foo..cxx"] (Ext (Some (b "cxx"))) [(true, b "*.cxx")] = Assertion /\
  ex_expand [b "foo..cxx"] (Ext (Some (b "cxx"))) [(true, b "*")] = Names false [b "foo.."] /\ split_name (b "foo..") = Split (b "foo.") (Some []).
Proof. repeat split; vm_compute; reflexivity. Qed.
(* C69: a pattern that is not for targets (the value of a variable, say) also gives names with dots escaped, which are then not
   files that have been found. *)
Theorem C69_values_refuted : ~ (forall files is ns, ex_expand files Untyped is = Names false ns -> forall n, In n ns -> In n files).
Proof.
  intros H. specialize (H [b "a..b.txt"] [(true, b "*.txt")] [b "a....b.txt"] ltac:(vm_compute; reflexivity) _ (or_introl eq_refl)). destruct H as [H | []]. vm_compute in H. discriminate.
Qed.
Print Assumptions C69_values_refuted.
(* C69: the buildfile in another directory cannot be found by its name, and the one called as the special one but with the
   extension is taken for it: buildfile{*/buildfile} looks for */buildfile.build and buildfile{*} that finds buildfile.build
   denotes buildfile. *)
Theorem C69_special_refuted : let k := Special (b "buildfile") (b "build") in
  forall default, consistent k default ->
  ~ (forall files is ns, ex_expand files k is = Names false ns -> forall n, In n ns -> exists f, In f files /\ denotes k default false n f) /\
  ~ (forall files v f, In f files -> denotes k default false v f -> exists n, ex_expand files k [(true, v)] = Names false [n]).
Proof.
  intros k default [Hd _]. assert (forall d, directory_part d -> default (d ++ b "buildfile") = None) as Hd' by (intros d K; apply Hd; exists d; auto). split.
  - intros H. destruct (H [b "buildfile.build"] [(true, b "*")] [b "buildfile"] ltac:(vm_compute; reflexivity) _ (or_introl eq_refl)) as [f [[<- | []] [v [e [E1 E2]]]]].
    vm_compute in E1. injection E1 as <- <-. cbn [or_else] in E2. pose proof (Hd' [] (or_introl eq_refl)) as K. cbn [app] in K. change (b "buildfile.build" = file_with (b "buildfile") (default (b "buildfile"))) in E2. rewrite K in E2. vm_compute in E2. discriminate.
  - intros H. destruct (H [b "x/buildfile"] (b "x/buildfile") (b "x/buildfile") (or_introl eq_refl)) as [n E].
    + exists (b "x/buildfile"), None. split; [vm_compute; reflexivity|]. cbn [or_else]. change (b "x/buildfile") with (b "x/" ++ b "buildfile"). rewrite Hd'; [reflexivity|]. right. exists (b "x"). reflexivity.
    + vm_compute in E. discriminate.
Qed.
Print Assumptions C69_special_refuted.
(* C69: an extension that is specific to some names: only that of the target type is used in patterns. *)
Theorem C69_specific_refuted : ~ (forall files x default is ns, default (b "*") = Some x -> ex_expand files (Ext (Some x)) is = Names false ns ->
  forall n, In n ns -> exists f, In f files /\ denotes (Ext (Some x)) default false n f).
Proof.
  intros H. destruct (H [b "a-foo.cxx"] (b "cxx") (fun v => if ends v (b "-foo") then Some (b "cc") else Some (b "cxx")) [(true, b "*")] [b "a-foo"] eq_refl ltac:(vm_compute; reflexivity) _ (or_introl eq_refl))
    as [f [[<- | []] [v [e [E1 E2]]]]].
  vm_compute in E1. injection E1 as <- <-. vm_compute in E2. discriminate.
Qed.
Print Assumptions C69_specific_refuted.
