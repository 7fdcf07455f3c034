(* What testing a target means, independently of the test rule. *)
From Verif Require Import Base TruleModel.

(* --- What is done for a target --- *)

(* The testscripts of the target, in order. *)
Definition scripts_of (t : target) : list nat := map p_target (filter (fun p => p_normal p && p_script p) (t_prereqs t)).
(* Prerequisites used as stdin, stdout (roundtrip: both) and inputs of a simple test. *)
Definition is_stdin (p : prereq) : bool := p_normal p && (p_rt p || p_stdin p).
Definition is_stdout (p : prereq) : bool := p_normal p && (p_rt p || p_stdout p).
Definition is_input (p : prereq) : bool := p_normal p && p_input p.
Definition is_io (p : prereq) : bool := is_stdin p || is_stdout p || is_input p.
Definition stdin_of (t : target) : list nat := map p_target (filter is_stdin (t_prereqs t)).
Definition stdout_of (t : target) : list nat := map p_target (filter is_stdout (t_prereqs t)).
Definition inputs_of (t : target) : list nat := map p_target (filter is_input (t_prereqs t)).
Definition has_io (t : target) : bool := existsb is_io (t_prereqs t).

(* What tests of other targets this one leads to: members of a group, prerequisites of an alias. *)
Definition pass_through (t : target) : list nat := t_members t ++ if t_alias t && t_pass t then t_matched t else [].

(* A test with testscripts: selected, has testscripts and is not disabled. *)
Definition script_test (t : target) : Prop := t_test t = true /\ t_var t <> VFalse /\ scripts_of t <> [].
(* A simple test: selected, not a testscript and with none, not disabled, and with something that says it is a test. *)
Definition simple_test (t : target) : Prop :=
  t_test t = true /\ t_var t <> VFalse /\ scripts_of t = [] /\ t_script t = false /\
  (has_io t = true \/ t_var t = VOther \/ t_args t = true).
(* A simple test is only possible with one stdin and one stdout, all files. *)
Definition proper (t : target) : Prop :=
  length (stdin_of t) <= 1 /\ length (stdout_of t) <= 1 /\ (forall p, In p (t_prereqs t) -> is_io p = true -> p_file p = true).
(* stdin, stdout and the inputs as the test is given them. *)
Definition test_files (t : target) : list (option nat) :=
  if has_io t then hd_error (stdin_of t) :: hd_error (stdout_of t) :: map Some (inputs_of t) else [].

(* --- Performing the scripts --- *)

(* The testscripts to be run: those selected, or the only one called testscript. *)
Definition is_one (ss : list script) : Prop := exists x, ss = [x] /\ s_name x = b "testscript".
Definition to_run (ss : list script) (x : script) : Prop := In x ss /\ (is_one ss \/ s_selected x = true).
(* One called testscript or any number with other names. *)
Definition names_ok (ss : list script) : Prop := ss <> [] /\ (is_one ss \/ forall x, In x ss -> s_name x <> b "testscript").
(* The working directory is not something else and, if it must not exist, does not. *)
Definition wd_ok (bf : before) (w : wdir) : Prop :=
  match w with NotDir => False | NoDir => True | Dir _ => bf <> BFail end.
