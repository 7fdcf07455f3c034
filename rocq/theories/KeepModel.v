(* Model of executing an operation on targets, with and without keep going:
   perform_execute () (libbuild2/operation.cxx), execute_impl (), execute_async () and
   execute_complete () and the members loops (libbuild2/algorithm.{cxx,ixx}), for the
   first execution mode (prerequisites before targets).

   The number of threads is not bounded; how threads are shared and waited for is
   modelled in SchedModel.v and WaitModel.v, and the last execution mode in Count.v and
   CleanModel.v. Matching, backlinks, callbacks, dry run, update during load, progress
   and diagnostics are not modelled. A member of a group whose recipe executes the
   group is a target with the group as its only prerequisite and its state as result. *)
From Verif Require Import Base.

(* The result of a successful execution, target-state.hxx:28-38. *)
Inductive state := Unchanged | Changed.
(* operator|= (), target-state.hxx:40-47 *)
Definition merge (x y : state) : state := match x with Changed => Changed | Unchanged => y end.

(* A matched target: whether its recipe is noop, its prerequisite targets, and what the
   rest of its recipe results in after their execution with this merged state, None
   if it fails. *)
Record target := mktarget { noop : bool; prereqs : list nat; own : state -> option state }.

(* What the thread that executes a target is doing, straight_execute_members (),
   algorithm.cxx:4230-4275. *)
Inductive stage :=
| Starting (rest : list nat)              (* the first loop, then wg.wait () *)
| Calling (p : nat) (rest : list nat)     (* p is being executed synchronously *)
| Completing (rest : list nat) (r : state) (* the second loop *)
| Running (r : state)                     (* the rest of the recipe *)
| Unwinding.                              (* failed has been thrown, ~wait_guard () *)
(* task_count relative to the count base: applied, busy or executed (None: failed).
   queued: the tasks started with the task count of this target. *)
Inductive status := Applied | Busy (g : stage) (queued : list nat) | Executed (r : option state).

(* What perform_execute () is doing: the top-level targets or one of the lists of post
   hoc prerequisites (grp), what is left of its first loop, or p is executed
   synchronously; its tasks; the lists that follow; fail and posthoc_fail. *)
Inductive mstage := MStarting (rest : list nat) | MCalling (p : nat) (rest : list nat).
Inductive main :=
| Main (top : bool) (grp : list nat) (g : mstage) (queued : list nat) (todo : list (list nat)) (fail pfail : bool)
| Finished (fail pfail : bool).

(* log: the targets whose recipes have got to the rest, the last one first. *)
Record mstate := mk { st : nat -> status; mn : main; log : list nat }.
Definition upd (f : nat -> status) (k : nat) (v : status) : nat -> status := fun x => if x =? k then v else f x.
Definition init (top : list nat) (posthoc : list (list nat)) : mstate :=
  mk (fun _ => Applied) (Main true top (MStarting top) [] posthoc false false) [].

Section Graph.
Context (g : nat -> target).

(* execute_impl (), algorithm.cxx:2944-3047, and execute_direct_impl (), 3049-3118. The
   scheduler either queues the task or executes it synchronously. *)
Inductive called := Queued | Synchronous | IsBusy | Returned (r : option state).
Inductive call (f : nat -> status) (p : nat) : called -> (nat -> status) -> Prop :=
| call_noop : f p = Applied -> noop (g p) = true -> call f p (Returned (Some Unchanged)) (upd f p (Executed (Some Unchanged)))
| call_async : f p = Applied -> noop (g p) = false -> call f p Queued (upd f p (Busy (Starting (prereqs (g p))) []))
| call_sync : f p = Applied -> noop (g p) = false -> call f p Synchronous (upd f p (Busy (Starting (prereqs (g p))) []))
| call_busy x q : f p = Busy x q -> call f p IsBusy f
| call_done r : f p = Executed r -> call f p (Returned r) f.

Definition is_executed (x : status) : bool := match x with Executed _ => true | _ => false end.
Definition is_failed (x : status) : bool := match x with Executed None => true | _ => false end.

(* context::keep_going, false if the operation does not support it (790-796). *)
Context (kg : bool).

(* execute_async (), algorithm.ixx:892-903: fail is true. *)
Definition after_return (r : option state) (ps : list nat) : stage :=
  match r with Some _ => Starting ps | None => if kg then Starting ps else Unwinding end.
(* After a call in the first loop. *)
Definition after_call (c : called) (p : nat) (ps q : list nat) : status :=
  match c with
  | Queued => Busy (Starting ps) (p :: q)
  | Synchronous => Busy (Calling p ps) q
  | IsBusy => Busy (Starting ps) q
  | Returned r => Busy (after_return r ps) q
  end.

(* The same in perform_execute (): fail is false, and break unless keep going,
   operation.cxx:884-901 and 702-716. *)
Definition m_return (r : option state) (ps : list nat) : list nat :=
  match r with Some _ => ps | None => if kg then ps else [] end.
Definition failed_r (r : option state) : bool := match r with None => true | Some _ => false end.
Definition m_after (top : bool) (grp : list nat) (c : called) (p : nat) (ps q : list nat) (todo : list (list nat)) (fl pf : bool) : main :=
  match c with
  | Queued => Main top grp (MStarting ps) (p :: q) todo fl pf
  | Synchronous => Main top grp (MCalling p ps) q todo fl pf
  | IsBusy => Main top grp (MStarting ps) q todo fl pf
  | Returned r => Main top grp (MStarting (m_return r ps)) q todo (fl || (top && failed_r r)) (pf || (negb top && failed_r r))
  end.
(* The next list of post hoc prerequisites, 669-743. *)
Definition next_list (todo : list (list nat)) (fl pf : bool) : main :=
  match todo with
  | [] => Finished fl pf
  | l :: todo' => Main false l (MStarting l) [] todo' fl pf
  end.
(* After wg.wait (): 904-912 for top-level targets; 718-742 for post hoc prerequisites. *)
Definition m_waited (f : nat -> status) (top : bool) (grp : list nat) (todo : list (list nat)) (fl pf : bool) : main :=
  if top then if negb fl || kg then next_list todo fl pf else Finished fl pf
  else let pf' := pf || existsb (fun t => is_failed (f t)) grp in
       if pf' && negb kg then Finished fl pf' else next_list todo fl pf'.

Inductive step : mstate -> mstate -> Prop :=
(* A target: the first loop *)
| s_call t p ps q c f s : st s t = Busy (Starting (p :: ps)) q -> call (st s) p c f ->
    step s (mk (upd f t (after_call c p ps q)) (mn s) (log s))
| s_return t p ps q r s : st s t = Busy (Calling p ps) q -> st s p = Executed r ->
    step s (mk (upd (st s) t (Busy (after_return r ps) q)) (mn s) (log s))
(* wg.wait () *)
| s_wait t q s : st s t = Busy (Starting []) q -> forallb (fun p => is_executed (st s p)) q = true ->
    step s (mk (upd (st s) t (Busy (Completing (prereqs (g t)) Unchanged) q)) (mn s) (log s))
(* execute_complete (), algorithm.ixx:905-920 *)
| s_complete t p ps r x q s : st s t = Busy (Completing (p :: ps) r) q -> st s p = Executed (Some x) ->
    step s (mk (upd (st s) t (Busy (Completing ps (merge r x)) q)) (mn s) (log s))
| s_fail t p ps r q s : st s t = Busy (Completing (p :: ps) r) q -> st s p = Executed None ->
    step s (mk (upd (st s) t (Busy Unwinding q)) (mn s) (log s))
| s_run t r q s : st s t = Busy (Completing [] r) q ->
    step s (mk (upd (st s) t (Busy (Running r) q)) (mn s) (t :: log s))
(* execute_recipe () and execute_impl (), algorithm.cxx:2006-2110 and 2807-2942 *)
| s_end t r q s : st s t = Busy (Running r) q ->
    step s (mk (upd (st s) t (Executed (own (g t) r))) (mn s) (log s))
| s_unwind t q s : st s t = Busy Unwinding q -> forallb (fun p => is_executed (st s p)) q = true ->
    step s (mk (upd (st s) t (Executed None)) (mn s) (log s))
(* perform_execute () *)
| s_mcall top grp p ps q todo fl pf c f s : mn s = Main top grp (MStarting (p :: ps)) q todo fl pf -> call (st s) p c f ->
    step s (mk f (m_after top grp c p ps q todo fl pf) (log s))
| s_mreturn top grp p ps q todo fl pf r s : mn s = Main top grp (MCalling p ps) q todo fl pf -> st s p = Executed r ->
    step s (mk (st s) (m_after top grp (Returned r) p ps q todo fl pf) (log s))
| s_mwait top grp q todo fl pf s : mn s = Main top grp (MStarting []) q todo fl pf -> forallb (fun p => is_executed (st s p)) q = true ->
    step s (mk (st s) (m_waited (st s) top grp todo fl pf) (log s)).

Inductive steps : nat -> mstate -> mstate -> Prop :=
| steps_0 s : steps 0 s s
| steps_S n s s' s'' : steps n s s' -> step s' s'' -> steps (S n) s s''.

(* The states that are reported, operation.cxx:917-948 with executed_state_impl (),
   target.ixx:346-357: a target that has not been executed has the state that it has
   been matched with. *)
Inductive reported := RUnknown | RUnchanged | RChanged | RFailed.
Definition report (s : mstate) (pf : bool) (t : nat) : reported :=
  if pf then RFailed
  else match st s t with
       | Executed (Some Changed) => RChanged
       | Executed (Some Unchanged) => RUnchanged
       | Executed None => RFailed
       | _ => if noop (g t) then RUnchanged else RUnknown
       end.
Definition r_failed (r : reported) : bool := match r with RFailed => true | _ => false end.
(* Whether the operation fails, 914-948 and 1029. *)
Definition op_failed (s : mstate) (top : list nat) (fl pf : bool) : bool := fl || existsb (fun t => r_failed (report s pf t)) top.
End Graph.
