(* Model of execution of testscripts: libbuild2/test/script/parser.cxx, execute () 2569-2624 and exec_scope_body () 2626-2960, with
   libbuild2/test/script/runner.cxx, enter () and leave (), and libbuild2/test/script/script.hxx, empty () 258-273 and 314-318.

   A scope is what pre-parsing returns. Sequences of lines and conditions are numbers whose outcome is a parameter: what commands do
   (script/parser.cxx, exec_lines (), see C48) is not modelled here and neither are variables, timeouts, test runners, keeping
   the output and diagnostics. Inner scopes are executed by any threads in any order. *)
From Verif Require Import Base.

Notation path := (list bytes).
Inductive outcome := Success | ExitScript | Failure. (* ExitScript: the exit builtin without an error. *)
Inductive check := Yes | No | CheckExit | CheckFailure.
(* if_cond_: none, if, if! (and elif, with null and empty values) and else. *)
Inductive cond := Always | If (negated : bool) (k : nat) | Else.
(* test and group in script.hxx 224-330; chains of scopes with their ids (the same for all scopes of a chain, parser.cxx
   1202-1206, 1415-1418). Lines are absent or numbered. *)
Inductive scope :=
| Test (lines : option nat)
| Group (setup : option nat) (inner : chains) (teardown : option nat)
with chains := CNil | CCons (id : bytes) (bs : branches) (r : chains)
with branches := BNil | BCons (c : cond) (s : scope) (r : branches).

Inductive command := TestLines | SetupLines | TeardownLines.
(* What can be observed, with the id path of the scope. *)
Inductive event := Enter (p : path) | Run (p : path) (c : command) (k : nat) | Check (p : path) (k : nat) | Leave (p : path).

(* empty () 258-273 and 314-318. Only the first scope of a chain is looked at. *)
Definition conditional (c : cond) : bool := match c with Always => false | _ => true end.
Definition none (l : option nat) : bool := match l with None => true | Some _ => false end.
Fixpoint empty (c : cond) (s : scope) : bool :=
  match s with
  | Test l => none l
  | Group su cs td => negb (conditional c) && none su && none td && empty_chains cs
  end
with empty_chains (cs : chains) : bool :=
  match cs with CNil => true | CCons _ bs r => empty_first bs && empty_chains r end
with empty_first (bs : branches) : bool :=
  match bs with BNil => true | BCons c s _ => empty c s end.

(* What a thread that executes a scope is about to do. Inner scopes that have been started are in kids. *)
Inductive proc :=
| Start (p : path) (s : scope)
| TestBody (p : path) (lines : option nat)
| SetupBody (p : path) (su : option nat) (cs : chains) (td : option nat)
| Loop (p : path) (cs : chains) (td : option nat) (kids : procs)                                  (* 2752 *)
| Pick (p : path) (id : bytes) (bs : branches) (cs : chains) (td : option nat) (kids : procs)     (* 2769 *)
| Sync (p : path) (cs : chains) (td : option nat) (kids : procs) (k : proc)                       (* 2904, executed synchronously *)
| Wait (p : path) (td : option nat) (kids : procs) (throwing : bool)                              (* 2926, or ~wait_guard () *)
| TeardownBody (p : path) (td : option nat)
| Leaving (p : path)
| Done (passed : bool)
with procs := PNil | PCons (k : proc) (r : procs).

Fixpoint all_done (ks : procs) : bool :=
  match ks with PNil => true | PCons (Done _) r => all_done r | PCons _ _ => false end.
Fixpoint some_failed (ks : procs) : bool :=
  match ks with PNil => false | PCons (Done false) _ => true | PCons _ r => some_failed r end.

Section Run.
(* Whether the working directory can be created and, after cleanups, removed; outcomes of lines and conditions; config.test (C72);
   --keep-going. *)
Context (enters leaves : path -> bool) (run : nat -> outcome) (holds : nat -> check) (selected : path -> bool) (keep_going : bool).

Definition block (p : path) (c : command) (l : option nat) : list event := match l with None => [] | Some k => [Run p c k] end.
Definition result (l : option nat) : outcome := match l with None => Success | Some k => run k end.
Definition checked (p : path) (c : cond) : list event := match c with If _ k => [Check p k] | _ => [] end.
(* 2790-2861 *)
Definition take (c : cond) : check :=
  match c with
  | Always | Else => Yes
  | If neg k => match holds k with Yes => if neg then No else Yes | No => if neg then Yes else No | r => r end
  end.

Inductive step : proc -> list event -> proc -> Prop :=
(* 2629; runner.cxx 32-88 *)
| S_enter p s : step (Start p s) [Enter p]
    (if enters p then match s with Test l => TestBody p l | Group su cs td => SetupBody p su cs td end else Done false)
(* 2723-2731 *)
| S_test p l : step (TestBody p l) (block p TestLines l) (match result l with Failure => Done false | _ => Leaving p end)
(* 2733-2744 *)
| S_setup p su cs td : step (SetupBody p su cs td) (block p SetupLines su)
    (match result su with Success => Loop p cs td PNil | ExitScript => TeardownBody p td | Failure => Done false end)
(* 2752-2760 *)
| S_end p td ks : step (Loop p CNil td ks) [] (Wait p td ks false)
| S_ignore p id bs cs td ks : selected (p ++ [id]) = false -> step (Loop p (CCons id bs cs) td ks) [] (Loop p cs td ks)
| S_chain p id bs cs td ks : selected (p ++ [id]) = true -> step (Loop p (CCons id bs cs) td ks) [] (Pick p id bs cs td ks)
(* 2769-2878 *)
| S_none p id cs td ks : step (Pick p id BNil cs td ks) [] (Loop p cs td ks)
| S_no p id c s bs cs td ks : take c = No -> step (Pick p id (BCons c s bs) cs td ks) (checked p c) (Pick p id bs cs td ks)
| S_exit p id c s bs cs td ks : take c = CheckExit -> step (Pick p id (BCons c s bs) cs td ks) (checked p c) (Wait p td ks false)
| S_throw p id c s bs cs td ks : take c = CheckFailure -> step (Pick p id (BCons c s bs) cs td ks) (checked p c) (Wait p td ks true)
(* 2880-2882 *)
| S_empty p id c s bs cs td ks : take c = Yes -> empty c s = true -> step (Pick p id (BCons c s bs) cs td ks) (checked p c) (Loop p cs td ks)
(* 2884-2914; asynchronously and synchronously. *)
| S_async p id c s bs cs td ks : take c = Yes -> empty c s = false ->
    step (Pick p id (BCons c s bs) cs td ks) (checked p c) (Loop p cs td (PCons (Start (p ++ [id]) s) ks))
| S_sync p id c s bs cs td ks : take c = Yes -> empty c s = false ->
    step (Pick p id (BCons c s bs) cs td ks) (checked p c) (Sync p cs td ks (Start (p ++ [id]) s))
| S_inside p cs td ks k e k' : step k e k' -> step (Sync p cs td ks k) e (Sync p cs td ks k')
(* 2915-2922 *)
| S_return p cs td ks b : step (Sync p cs td ks (Done b)) []
    (if b || keep_going then Loop p cs td (PCons (Done b) ks) else Wait p td ks true)
(* 2926-2942 *)
| S_wait p td ks t : all_done ks = true -> step (Wait p td ks t) [] (if t || some_failed ks then Done false else TeardownBody p td)
(* 2944-2949 *)
| S_teardown p td : step (TeardownBody p td) (block p TeardownLines td) (match result td with Failure => Done false | _ => Leaving p end)
(* 2954-2956; runner.cxx 90-137 *)
| S_leave p : step (Leaving p) [Leave p] (Done (leaves p))
(* Other threads. *)
| S_kid_loop p cs td ks e ks' : steps ks e ks' -> step (Loop p cs td ks) e (Loop p cs td ks')
| S_kid_pick p id bs cs td ks e ks' : steps ks e ks' -> step (Pick p id bs cs td ks) e (Pick p id bs cs td ks')
| S_kid_sync p cs td ks k e ks' : steps ks e ks' -> step (Sync p cs td ks k) e (Sync p cs td ks' k)
| S_kid_wait p td ks t e ks' : steps ks e ks' -> step (Wait p td ks t) e (Wait p td ks' t)
with steps : procs -> list event -> procs -> Prop :=
| S_first k e k' ks : step k e k' -> steps (PCons k ks) e (PCons k' ks)
| S_rest k e ks ks' : steps ks e ks' -> steps (PCons k ks) e (PCons k ks').

(* Any number of steps. *)
Inductive execution : proc -> list event -> proc -> Prop :=
| E_refl k : execution k [] k
| E_step k e k' es k'' : step k e k' -> execution k' es k'' -> execution k (e ++ es) k''.

(* execute () 2569-2582 for the whole script, whose id path is empty. *)
Definition script (s : scope) : proc := if empty Always s then Done true else Start [] s.
End Run.
