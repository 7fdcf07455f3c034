(* Model of matching a graph of targets in parallel: locking a target, cycle detection, starting the
   match of prerequisites, waiting for it and completing it, libbuild2/algorithm.{cxx,ixx}.

   Simplified: one action, no match options, no groups and no phase switching. The rule of a target
   either fails before it gets to the prerequisites or matches all of them (match_prerequisites ()) and
   that is the only reason to match another target. The requested targets are the prerequisites of a
   pseudo-target that is not a prerequisite of anything (perform_match (), operation.cxx:431-465). *)
From Verif Require Import Base.

(* What the thread that matches a target is doing:
   - in the loop that starts the match of prerequisites (algorithm.cxx:1768-1793), todo are the
     remaining ones and kids those queued so far;
   - the same, executing one of them synchronously because the queue is full (1502-1533);
   - waiting for those queued (1798);
   - the same, working the queue in the meantime: executing one of them;
   - the same but because of an exception (~wait_guard (), context.ixx:26-34), not working the queue;
   - in the loop that completes the match (1800-1806);
   - the same, executing a prerequisite synchronously. *)
Inductive pc :=
| Starting (todo kids : list nat)
| Sync (c : nat) (todo kids : list nat)
| Waiting (kids : list nat)
| Nested (c : nat) (kids : list nat)
| Unwinding (kids : list nat)
| Completing (todo : list nat)
| Joining (c : nat) (todo : list nat).

(* The state of a target: not touched; locked and in the queue, with the stack of locks of the thread
   that has queued it; locked and being matched, with the stack of locks; applied or failed. The first
   of a stack is the last lock (target_lock, algorithm.hxx:183-246). *)
Inductive status := Idle | Queued (stack : list nat) | Running (stack : list nat) (p : pc) | Done (ok : bool).
Definition state := nat -> status.
Definition set (s : state) (t : nat) (x : status) : state := fun u => if u =? t then x else s u.

(* A scheduling decision: a thread takes a step, where if it starts an asynchronous task then the task
   is queued or not; a queued task is started by another thread or by the waiting one. *)
Inductive choice := Advance (t : nat) (queue : bool) | Start (c : nat) (nested : bool).
(* What is diagnosed. *)
Inductive event := Quiet | Cycle (t : nat).

Section Match.
(* The prerequisites, whether the rule fails and the --keep-going mode. *)
Context (deps : nat -> list nat) (bad : nat -> bool) (keep_going : bool).

Definition is_done (x : status) : bool := match x with Done _ => true | _ => false end.
Definition all_done (s : state) (ts : list nat) : bool := forallb (fun c => is_done (s c)) ts.
(* dependency_cycle (), algorithm.ixx:338-350 *)
Definition on_stack (t : nat) (stack : list nat) : bool := existsb (Nat.eqb t) stack.
(* match_impl_impl (), algorithm.cxx:1208-1450 up to calling the rule. The target has been pushed to the
   stack (1515: reassembling the lock). *)
Definition enter (t : nat) (stack : list nat) : status := Running (t :: stack) (if bad t then Unwinding [] else Starting (deps t) []).
(* What match_async () does about the state, algorithm.ixx:493-508 *)
Definition started (ok : bool) (todo kids : list nat) : pc := if ok || keep_going then Starting todo kids else Unwinding kids.

Definition advance (s : state) (t : nat) (stack : list nat) (p : pc) (queue : bool) : option (state * event) :=
  let go p := set s t (Running stack p) in
  match p with
  | Starting [] kids => Some (go (Waiting kids), Quiet)
  | Starting (d :: todo) kids =>
      (* match_impl (), 1453-1549, with task_count. *)
      match s d with
      | Idle =>
          if queue then Some (set (go (Starting todo (d :: kids))) d (Queued stack), Quiet)
          else Some (set (go (Sync d todo kids)) d (enter d stack), Quiet)
      | Done ok => Some (go (started ok todo kids), Quiet)
      | _ =>
          (* lock_impl (), 270-280 *)
          if on_stack d stack then Some (go (Unwinding kids), Cycle d) else Some (go (Starting todo kids), Quiet)
      end
  | Sync d todo kids => match s d with Done ok => Some (go (started ok todo kids), Quiet) | _ => None end
  | Waiting kids => if all_done s kids then Some (go (Completing (deps t)), Quiet) else None
  | Nested d kids => match s d with Done _ => Some (go (Waiting kids), Quiet) | _ => None end
  | Unwinding kids => if all_done s kids then Some (set s t (Done false), Quiet) else None
  | Completing [] => Some (set s t (Done true), Quiet)
  | Completing (d :: todo) =>
      (* match_sync (), algorithm.ixx:418-431: match_impl () without task_count. *)
      match s d with
      | Idle => Some (set (go (Joining d todo)) d (enter d stack), Quiet)
      | Done true => Some (go (Completing todo), Quiet)
      | Done false => Some (set s t (Done false), Quiet) (* 428: throw *)
      | _ =>
          (* lock_impl (), 270-304: wait if this is not a cycle. *)
          if on_stack d stack then Some (set s t (Done false), Cycle d) else None
      end
  | Joining d todo => match s d with Done _ => Some (go (Completing (d :: todo)), Quiet) | _ => None end
  end.

Definition step (s : state) (x : choice) : option (state * event) :=
  match x with
  | Advance t queue => match s t with Running stack p => advance s t stack p queue | _ => None end
  | Start c nested =>
      match s c with
      | Queued stack =>
          if nested then
            match stack with
            | p :: _ =>
                match s p with
                | Running pstack (Waiting kids) => if on_stack c kids then Some (set (set s p (Running pstack (Nested c kids))) c (enter c stack), Quiet) else None
                | _ => None
                end
            | [] => None
            end
          else Some (set s c (enter c stack), Quiet)
      | _ => None
      end
  end.

Definition init (root : nat) : state := set (fun _ => Idle) root (Running [root] (Starting (deps root) [])).
(* A run: the state and what has been diagnosed. *)
Fixpoint run (s : state) (xs : list choice) : option (state * list event) :=
  match xs with
  | [] => Some (s, [])
  | x :: xs =>
      match step s x with
      | Some (s, e) => match run s xs with Some (s, es) => Some (s, e :: es) | None => None end
      | None => None
      end
  end.
End Match.
