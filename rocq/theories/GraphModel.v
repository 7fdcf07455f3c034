(* Model of updating a graph of targets with ad hoc recipes:
   adhoc_buildscript_rule::perform_update_file_or_group () and
   execute_update_prerequisites (), libbuild2/adhoc-rule-buildscript.cxx, executed for the
   prerequisites first (algorithm.cxx), in parallel.

   The dependency database is that of DepdbModel.v. Not modelled: groups and ad hoc members,
   symlinks, dry-run, the depdb preamble and dynamic dependencies, prerequisites that are not files
   or that have been updated during match, unmatched prerequisites (update=unmatch). A target can
   be updated for one action only. The number of threads is not bounded. *)
From Verif Require Import Base DepdbModel.
From Verif Require InModel.

(* A recipe: its text, what is hashed for the variables expanded in it (hash_script_vars (),
   adhoc-rule-buildscript.cxx:29-58), its prerequisites and what is hashed for those that are
   programs (113-136). Targets are identified with their paths. *)
Record recipe := mkrecipe { text : bytes; vars : list bytes; prereqs : list bytes; exes : list bytes; envs : list bytes }.

Definition upd {A} (m : bytes -> A) (k : bytes) (v : A) : bytes -> A := fun x => if beqb x k then v else m x.

(* Files and databases with their modification times. *)
Record world := mkworld { file : bytes -> option (bytes * nat); dd : bytes -> option (bytes * nat); clock : nat }.

(* The hash as a string, and what executing the body makes of the contents of the prerequisites,
   unless it fails. *)
Section Graph.
Context (hash : list bytes -> bytes) (body : bytes -> recipe -> list bytes -> option bytes).

(* 1870-1952: what is expected *)
Definition lines (t : bytes) (r : recipe) : list bytes :=
  [b "<ad hoc buildscript recipe> 1"; hash [text r]; hash (vars r); hash [t]; hash (prereqs r); hash (exes r); hash (envs r)].

(* Where the execution of a target is. Begun is with the database closed and before the body has
   been executed. Interrupted is if the process has been killed. *)
Inductive state := Unchanged | Changed.
Inductive status := Idle | Begun | Done (s : state) | Failed | Interrupted.
Definition is_changed (s : state) : bool := match s with Changed => true | Unchanged => false end.
Definition merge (x y : state) : state := if is_changed x then x else y.

(* mtime_target::newer (), target.ixx:802-815. Simplified: the time of a target that has been
   updated is that of the file (and not that of having updated it). *)
Definition newer (mt mp : nat) (s : state) : bool := (mt <? mp) || ((mt =? mp) && is_changed s).
(* execute_update_prerequisites (), 2084-2161, after everything has been executed *)
Fixpoint execute_prerequisites (w : world) (st : bytes -> status) (mt : option nat) (ps : list bytes) (e : bool) (rs : state) : option (bool * state) :=
  match ps with
  | [] => Some (e, rs)
  | p :: ps =>
      match st p, file w p with
      | Done s, Some (_, mp) => execute_prerequisites w st mt ps (e || match mt with Some mt => newer mt mp s | None => true end) (merge rs s)
      | _, _ => None
      end
  end.
Definition mtime (f : option (bytes * nat)) : option nat := match f with Some (_, m) => Some m | None => None end.
Definition contents (f : option (bytes * nat)) : option bytes := match f with Some (x, _) => Some x | None => None end.
(* 1824-2013: whether to update, the state if not, and the database before it is closed. None if
   the prerequisites have not been executed. *)
Definition decide (w : world) (st : bytes -> status) (t : bytes) (r : recipe) : option (bool * state * db) :=
  match execute_prerequisites w st (mtime (file w t)) (prereqs r) (match file w t with None => true | _ => false end) Unchanged with
  | None => None
  | Some (e, rs) =>
      match InModel.expects (lines t r) (open_db false (contents (dd w t))) with
      | None => None
      | Some d =>
          let later := match dd w t, file w t with Some (_, md), Some (_, mt) => mt <? md | _, _ => true end in
          Some (e || InModel.writing d || later, rs, d)
      end
  end.
(* close (), depdb.cxx:331-408: nothing is written if everything has been read. *)
Definition closed (d : db) (old : option (bytes * nat)) (n : nat) : option (bytes * nat) :=
  match st d, old with
  | ReadEof, Some (f, m) => Some (f, m)
  | _, _ => Some (close_db TNone d, n)
  end.
Fixpoint all_contents (w : world) (ps : list bytes) : option (list bytes) :=
  match ps with
  | [] => Some []
  | p :: ps => match file w p, all_contents w ps with Some (c, _), Some cs => Some (c :: cs) | _, _ => None end
  end.

(* A run for a project (the recipes as they are now), with any schedule. Things happen at any time
   that is not before the last one. *)
Definition at_time (n : nat) (w : world) : world := mkworld (file w) (dd w) n.
Definition set_file t x (w : world) := mkworld (upd (file w) t x) (dd w) (clock w).
Definition set_dd t x (w : world) := mkworld (file w) (upd (dd w) t x) (clock w).
Inductive reachable (proj : bytes -> option recipe) (roots : list bytes) : bytes -> Prop :=
| re_root t : In t roots -> reachable proj roots t
| re_prereq t r p : reachable proj roots t -> proj t = Some r -> In p (prereqs r) -> reachable proj roots p.
(* torn is whether what is written by a recipe can be left incomplete. *)
Inductive run_step (torn : bool) (proj : bytes -> option recipe) (roots : list bytes) : world * (bytes -> status) -> world * (bytes -> status) -> Prop :=
(* There is nothing to do for a source file (file_rule, rule.cxx). *)
| rs_source t x w st : reachable proj roots t -> st t = Idle -> proj t = None -> file w t = Some x -> run_step torn proj roots (w, st) (w, upd st t (Done Unchanged))
| rs_up_to_date t r s d n w st : reachable proj roots t -> st t = Idle -> proj t = Some r -> decide w st t r = Some (false, s, d) -> clock w <= n ->
    run_step torn proj roots (w, st) (set_dd t (closed d (dd w t) n) (at_time n w), upd st t (Done s))
| rs_begin t r s d n w st : reachable proj roots t -> st t = Idle -> proj t = Some r -> decide w st t r = Some (true, s, d) -> clock w <= n ->
    run_step torn proj roots (w, st) (set_dd t (closed d (dd w t) n) (at_time n w), upd st t Begun)
| rs_finish t r cs x n w st : st t = Begun -> proj t = Some r -> all_contents w (prereqs r) = Some cs -> body t r cs = Some x -> clock w <= n ->
    run_step torn proj roots (w, st) (set_file t (Some (x, n)) (at_time n w), upd st t (Done Changed))
(* The output of a recipe that has failed is removed (2254-2304). *)
| rs_fail t r cs w st : st t = Begun -> proj t = Some r -> all_contents w (prereqs r) = Some cs -> body t r cs = None ->
    run_step torn proj roots (w, st) (set_file t None w, upd st t Failed)
(* Being interrupted while writing the database: the first k bytes have been written. *)
| rs_torn_writing t r u s d n k w st : reachable proj roots t -> st t = Idle -> proj t = Some r -> decide w st t r = Some (u, s, d) -> InModel.writing d = true -> clock w <= n ->
    run_step torn proj roots (w, st) (set_dd t (Some (image d k, n)) (at_time n w), upd st t Interrupted)
| rs_torn_closing t r u s d n k w st : reachable proj roots t -> st t = Idle -> proj t = Some r -> decide w st t r = Some (u, s, d) -> DepdbModel.st d <> ReadEof -> clock w <= n ->
    run_step torn proj roots (w, st) (set_dd t (Some (image (closing TNone d) k, n)) (at_time n w), upd st t Interrupted)
(* Being interrupted while executing the body. *)
| rs_torn_body t r x n w st : torn = true -> st t = Begun -> proj t = Some r -> clock w <= n ->
    run_step torn proj roots (w, st) (set_file t (Some (x, n)) (at_time n w), upd st t Interrupted).
Inductive run_steps (torn : bool) (proj : bytes -> option recipe) (roots : list bytes) : world * (bytes -> status) -> world * (bytes -> status) -> Prop :=
| run_none c : run_steps torn proj roots c c
| run_more c c1 c2 : run_steps torn proj roots c c1 -> run_step torn proj roots c1 c2 -> run_steps torn proj roots c c2.
(* A run is later than everything that precedes it. *)
Definition begin (w : world) : world * (bytes -> status) := (at_time (S (clock w)) w, fun _ => Idle).
Definition complete_run (torn : bool) proj roots (w w' : world) : Prop := exists st, run_steps torn proj roots (begin w) (w', st) /\ forall t, In t roots -> exists s, st t = Done s.

(* What can happen: files that are not generated are edited, any files are removed, and there are
   runs, each ending at any point. *)
Inductive event (torn : bool) (allowed : bytes -> recipe -> Prop) : world -> world -> Prop :=
| ev_edit p x w : dd w p = None -> event torn allowed w (set_file p (Some (x, S (clock w))) (at_time (S (clock w)) w))
| ev_remove p w : event torn allowed w (set_file p None w)
| ev_forget p w : event torn allowed w (set_dd p None w)
| ev_run proj roots w w' st : (forall t r, proj t = Some r -> allowed t r) -> run_steps torn proj roots (begin w) (w', st) -> event torn allowed w w'.
Inductive history (torn : bool) (allowed : bytes -> recipe -> Prop) : world -> world -> Prop :=
| hi_none w : history torn allowed w w
| hi_more w w1 w2 : history torn allowed w w1 -> event torn allowed w1 w2 -> history torn allowed w w2.
End Graph.
