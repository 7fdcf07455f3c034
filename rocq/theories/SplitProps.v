(* Properties of splitting and combining target names: C29. *)
From Verif Require Import Base SplitModel SplitSpec SplitProofs SplitProofs2 SplitProofs3.

(* C29: a name (with an optional directory) and an extension that are combined into
   a single string are split from it again. *)
Theorem C29_combine_split : forall d l e de, directory_part d -> separable l e de ->
  exists s, combine_name (d ++ l) e de = Some s /\ split_name s = Split (d ++ l) e.
Proof. exact combine_split. Qed.
Print Assumptions C29_combine_split.

(* C29: splitting a string either fails with diagnostics or results in a name and
   an extension as described, except for a name that ends with a dot and has
   another dot that could be taken for the extension separator. *)
Theorem C29_split_result : forall s v e, split_name s = Split v e ->
  exists d l, v = d ++ l /\ directory_part d /\ (separable l e true \/ (e = Some [] /\ ends_with_dot l /\ lone_dot_inside l)).
Proof.
  intros s v e H. pose proof (split_form s) as F. rewrite H in F. destruct F as [d [l [-> [Hd [Hl [Hod He]]]]]]. exists d, l. split; [reflexivity|]. split; [exact Hd|].
  unfold separable. destruct e as [x|]; [|left; split; [exact Hl|]; split; [exact Hod|]; split; [exact He|discriminate]]. destruct He as [H1 [H2 H3]].
  destruct (last_is is_dot l) eqn:E.
  - apply last_is_iff in E. rewrite (H3 E) in *. destruct (lone_dec l) as [K|K]; [right; auto|].
    left. split; [exact Hl|]. split; [exact Hod|]. split; [exact H1|]. split; [exact H2|]. auto.
  - left. split; [exact Hl|]. split; [exact Hod|]. split; [exact H1|]. split; [exact H2|]. intros K. apply last_is_iff in K. congruence.
Qed.
Print Assumptions C29_split_result.

(* C29: so what has been split can be combined and split again. *)
Theorem C29_split_combine_split : forall s v e, split_name s = Split v e ->
  (forall d l, v = d ++ l -> directory_part d -> no_slash l -> ~ (ends_with_dot l /\ lone_dot_inside l)) ->
  exists s', combine_name v e true = Some s' /\ split_name s' = Split v e.
Proof.
  intros s v e H Hx. pose proof (split_form s) as F. rewrite H in F. destruct F as [d [l [-> [Hd [Hl [Hod He]]]]]].
  apply combine_split; [exact Hd|]. split; [exact Hl|]. split; [exact Hod|]. destruct e as [x|]; [|split; [exact He|discriminate]].
  destruct He as [H1 [H2 H3]]. split; [exact H1|]. split; [exact H2|]. intros K. split; [exact (H3 K)|]. intros K2. exact (Hx d l eq_refl Hd Hl (conj K K2)).
Qed.
Print Assumptions C29_split_combine_split.

(* C29: the exception is real. *)
Theorem C29_trailing_dot_refuted :
  ~ (forall s v e, split_name s = Split v e -> exists s', combine_name v e true = Some s' /\ split_name s' = Split v e).
Proof.
  intros H. destruct (H (b "foo..bar..") (b "foo.bar.") (Some []) eq_refl) as [s' [E1 E2]]. vm_compute in E1. injection E1 as <-. vm_compute in E2. discriminate.
Qed.
Print Assumptions C29_trailing_dot_refuted.

(* C29: and no assertion fails, neither when splitting (except for the empty name)
   nor when combining what has been split. *)
Theorem C29_no_assertion : forall s, s <> [] -> split_name s <> Asserted /\
  forall v e de, split_name s = Split v e -> combine_name v e de <> None.
Proof.
  intros s Hs. split; [intros K; pose proof (split_form s) as F; rewrite K in F; contradiction|]. intros v e de H.
  pose proof (split_form s) as F. rewrite H in F. destruct F as [d [l [-> [Hd [Hl [Hod He]]]]]].
  assert (l <> []) as Hne. { intros ->. apply Hod. constructor. }
  unfold combine_name. destruct (escaped_name d l Hd Hl) as [l' [f [E S]]]. rewrite E. destruct (last_is is_dot (d ++ l')) eqn:EL.
  - apply last_is_iff in EL. rewrite (ends_app _ _ (shape_nonempty _ _ _ _ _ _ S Hne)), (shape_last _ _ _ _ _ _ S) in EL.
    destruct e as [[|c x]|]; try discriminate. destruct He as [_ [_ He]]. discriminate (He EL).
  - destruct e as [x|]; [|discriminate]. destruct He as [Hx _]. destruct (escaped_ext x Hx) as [x' [fx [Ex _]]]. rewrite Ex. discriminate.
Qed.
Print Assumptions C29_no_assertion.

(* C29: the special cases that are documented: the last dot separates the
   extension, three dots do so even if they are not last, three trailing dots are
   the default extension, a trailing dot is no extension and the dot can be escaped
   with another one. *)
Example C29_documented :
  split_name (b "foo.cxx") = Split (b "foo") (Some (b "cxx")) /\
  split_name (b "foo") = Split (b "foo") None /\
  split_name (b "libfoo...u.a") = Split (b "libfoo") (Some (b "u.a")) /\
  split_name (b "foo.test...") = Split (b "foo.test") None /\
  split_name (b "foo.") = Split (b "foo") (Some []) /\
  split_name (b "libfoo.u..a") = Split (b "libfoo") (Some (b "u.a")) /\
  split_name (b "foo..") = Split (b "foo.") (Some []) /\
  split_name (b "d.e/.foo") = Split (b "d.e/.foo") None /\
  split_name (b "d/..") = Failed /\ split_name (b "a.....b") = Failed /\ split_name (b "a...b...c") = Failed /\ split_name (b "...a") = Failed.
Proof. repeat split; vm_compute; reflexivity. Qed.

Example C29_ex : directory_part (b "x./") /\ separable (b "..foo..bar.z") (Some (b "a.b..c.")) false /\
  combine_name (b "x./..foo..bar.z") (Some (b "a.b..c.")) false = Some (b "x./....foo....bar.z...a.b....c.").
Proof.
  split; [right; exists (b "x."); reflexivity|]. split; [|vm_compute; reflexivity].
  assert (forall s, existsb is_sep s = false -> no_slash s) as K. { intros s H Hi. assert (existsb is_sep s = true); [|congruence]. apply existsb_exists. eexists. split; [exact Hi|reflexivity]. }
  split; [apply K; reflexivity|]. split. { intros H. unfold only_dots in H. rewrite Forall_forall in H. specialize (H "f"%char ltac:(cbn; tauto)). discriminate. }
  split; [apply K; reflexivity|]. split; [intros [s H]; discriminate|]. intros H. apply last_is_iff in H. discriminate.
Qed.
