(* Model of how one target is locked, matched and executed for one action by any
   number of threads: libbuild2/algorithm.cxx:235-372 (lock_impl, unlock_impl),
   1225-1452 (match_impl_impl), 2807-3110 (execute_impl, execute_direct_impl),
   algorithm.ixx:412-440, 873-960, target.hxx:914-945.

   A step is one atomic operation on the task count (or on the dependents count),
   or what a thread does with the target's data while it has the target locked.

   Simplifications. A task that match_impl () or execute_impl () passes to the
   scheduler is the same entity here as the caller until it is done: what the
   caller does after the task is queued is to wait for it and query the state,
   which is what WaitDone and Read do. What rules and recipes do is not modelled:
   their outcomes are part of the operations. A target whose state is that of its
   group (target_state::group) is not modelled. The dependency cycle check is an
   operation that may happen whenever the target is busy. Match options are bit
   sets (N). size_t does not overflow. *)
From Coq Require Import NArith.
From Verif Require Import Base Count ExecModel.

(* A thread, as far as this target is concerned. *)
Inductive thr :=
| TIdle
(* lock_impl (); o: the options, w: whether to wait *)
| LTry (e : nat) (w : bool) (o : N)   (* about to do the compare-exchange, expecting e *)
| LWait (o : N)                       (* in sched->wait (), about to check the count *)
| LSleep (o : N)                      (* ... suspended *)
| LCheck (e : nat) (w : bool) (o : N) (* about to query the current options *)
| LGot (e : nat) (o : N)              (* has the lock, the old value is e *)
| LHold (off : nat)                   (* lock_impl () returned the lock; off: target_lock::offset *)
| LRet (off : nat)                    (* not locked any more or not locked at all; off: offset *)
(* execute_impl () and execute_direct_impl () *)
| ECas (direct : bool)                (* about to do the compare-exchange *)
| EWon (direct : bool)                (* changed applied to busy *)
| ERun                                (* the recipe is being executed *)
| EFinish (r : tstate)                (* about to decrement the count to executed; r: result *)
| EWait                               (* returned busy or unknown and waits, about to check the count *)
| ESleep                              (* ... suspended *)
| ERead                               (* about to query executed_state () *)
| EPostponed                          (* returned postponed *)
| EDone (r : tstate)                  (* got the state *)
| ECrash.                             (* assertion failed *)

Record tgt := mktgt {
  on : nat;               (* context::current_on *)
  exec : bool;            (* the phase is execute (as opposed to match) *)
  last : bool;            (* context::current_mode is last *)
  tc : nat;               (* task_count *)
  children : nat;         (* tasks that count towards task_count, see Child below *)
  deps : nat;             (* dependents *)
  st : tstate;            (* state *)
  opts : N;               (* match_extra::cur_options (and cur_options_) *)
  resumes : nat;          (* calls of sched->resume (task_count) yet to be made *)
  threads : list thr;
  (* What happened; not part of the program. All since the beginning of the
     current operation. *)
  runs : nat;             (* executions of the recipe (including of a noop recipe) *)
  result : option tstate; (* what it set the state to *)
  bad : bool;             (* a match failed after the target had been applied *)
  lost : bool;            (* a lock was abandoned *)
  incs : nat; calls : nat (* match_inc_dependents (), execute_impl () *)
}.

(* context.hxx:482-489, target.hxx:914-919 *)
Definition base (s : tgt) : nat := 5 * (on s - 1).
Definition o_touched := 1. Definition o_tried := 2. Definition o_matched := 3.
Definition o_applied := 4. Definition o_executed := 5. Definition o_busy := 6.
Definition applied s := base s + o_applied.
Definition executed s := base s + o_executed.
Definition cbusy s := base s + o_busy.

(* match_extra::all_options, rule.hxx *)
Definition all_options : N := N.ones 64.
(* (cur & options) == options *)
Definition has_options (cur o : N) : bool := N.eqb (N.land cur o) o.

Definition set_threads x (s : tgt) := mktgt (on s) (exec s) (last s) (tc s) (children s) (deps s) (st s) (opts s) (resumes s) x (runs s) (result s) (bad s) (lost s) (incs s) (calls s).
Definition set_tc x (s : tgt) := mktgt (on s) (exec s) (last s) x (children s) (deps s) (st s) (opts s) (resumes s) (threads s) (runs s) (result s) (bad s) (lost s) (incs s) (calls s).
Definition set_children x (s : tgt) := mktgt (on s) (exec s) (last s) (tc s) x (deps s) (st s) (opts s) (resumes s) (threads s) (runs s) (result s) (bad s) (lost s) (incs s) (calls s).
Definition set_deps x (s : tgt) := mktgt (on s) (exec s) (last s) (tc s) (children s) x (st s) (opts s) (resumes s) (threads s) (runs s) (result s) (bad s) (lost s) (incs s) (calls s).
Definition set_st x (s : tgt) := mktgt (on s) (exec s) (last s) (tc s) (children s) (deps s) x (opts s) (resumes s) (threads s) (runs s) (result s) (bad s) (lost s) (incs s) (calls s).
Definition set_opts x (s : tgt) := mktgt (on s) (exec s) (last s) (tc s) (children s) (deps s) (st s) x (resumes s) (threads s) (runs s) (result s) (bad s) (lost s) (incs s) (calls s).
Definition set_resumes x (s : tgt) := mktgt (on s) (exec s) (last s) (tc s) (children s) (deps s) (st s) (opts s) x (threads s) (runs s) (result s) (bad s) (lost s) (incs s) (calls s).
Definition set_exec x (s : tgt) := mktgt (on s) x (last s) (tc s) (children s) (deps s) (st s) (opts s) (resumes s) (threads s) (runs s) (result s) (bad s) (lost s) (incs s) (calls s).
Definition set_ran x y (s : tgt) := mktgt (on s) (exec s) (last s) (tc s) (children s) (deps s) (st s) (opts s) (resumes s) (threads s) x y (bad s) (lost s) (incs s) (calls s).
Definition set_bad x (s : tgt) := mktgt (on s) (exec s) (last s) (tc s) (children s) (deps s) (st s) (opts s) (resumes s) (threads s) (runs s) (result s) x (lost s) (incs s) (calls s).
Definition set_lost x (s : tgt) := mktgt (on s) (exec s) (last s) (tc s) (children s) (deps s) (st s) (opts s) (resumes s) (threads s) (runs s) (result s) (bad s) x (incs s) (calls s).
Definition set_hist x y (s : tgt) := mktgt (on s) (exec s) (last s) (tc s) (children s) (deps s) (st s) (opts s) (resumes s) (threads s) (runs s) (result s) (bad s) (lost s) x y.

Definition go (i : nat) (x : thr) (s : tgt) : tgt := set_threads (lupd (threads s) i x) s.

(* The task count is set and the threads waiting for it are to be resumed. *)
Definition publish (c : nat) (s : tgt) : tgt := set_resumes (resumes s + 1) (set_tc c s).

(* How match_impl_impl () (or match_recipe ()) leaves a locked target. *)
Inductive mres :=
| MTried                            (* no rule, 1313, 1349 *)
| MMatched                          (* rule matched, 1354 *)
| MApplied (noop : bool) (o : N)    (* rule applied, 1363-1372 and set_recipe (), algorithm.ixx:570-605 *)
| MRecipe (noop : bool) (o : N)     (* match_recipe (), algorithm.ixx:613-631 *)
| MReapplied (o : N)                (* new options applied, 1395-1410 *)
| MFailed.                          (* 1425-1446, also 1297-1310 *)

(* None: not possible with this offset. *)
Definition match_step (i off : nat) (m : mres) (s : tgt) : option tgt :=
  match m with
  | MTried => if off <=? o_tried then Some (go i (LHold o_tried) s) else None
  | MMatched => if off <=? o_tried then Some (go i (LHold o_matched) s) else None
  | MApplied noop o =>
      if off =? o_matched then Some (go i (LHold o_applied) (set_opts o (set_st (if noop then unchanged else unknown) s)))
      else None
  | MRecipe noop o =>
      if off <=? o_tried then Some (go i (LHold o_applied) (set_opts o (set_st (if noop then unchanged else unknown) s)))
      else None
  | MReapplied o => if off =? o_applied then Some (set_opts (N.lor (opts s) o) s) else None
  | MFailed =>
      Some (go i (LHold o_applied)
             (set_bad (bad s || (o_applied <=? off)) (set_opts all_options (set_st failed s))))
  end.

(* lock_impl () once the compare-exchange has succeeded, 318-354. *)
Definition lock_got (i e : nat) (o : N) (s : tgt) : tgt :=
  if e <=? base s then go i (LHold o_touched) (set_opts 0%N (set_deps 0 s))
  else if (base s + o_applied <=? e) && has_options (opts s) o then publish e (go i (LRet (e - base s)) s)
  else go i (LHold (e - base s)) s.

(* execute_impl () and execute_direct_impl () once applied was changed to busy,
   2984-3034 and 3072-3101. *)
Definition exec_won (i : nat) (direct : bool) (cb : option tstate) (s : tgt) : tgt :=
  match st s with
  | unchanged =>
      (* Noop; cb is the outcome if this is dir{} with operation callbacks. *)
      let r := match cb with Some r => r | None => unchanged end in
      let s1 := set_ran (runs s + 1) (Some r) (set_st r s) in
      publish (executed s) (go i (EDone (match r with postponed => unchanged | _ => r end)) s1)
  | unknown => go i ERun (set_ran (runs s + 1) (result s) s)
  | failed => if direct then publish (executed s) (go i (EDone failed) s) else go i ECrash (set_lost true s)
  | _ => go i ECrash (set_lost true s)
  end.

(* target.ixx:346-357 *)
Definition executed_state (x : tstate) : tstate := match x with postponed => unchanged | _ => x end.

(* What a recipe (or callback) can set the state to, algorithm.cxx:2087-2105. *)
Definition final (r : tstate) : bool := match r with unchanged | changed | postponed | failed => true | _ => false end.

Inductive top :=
| NewThread
| Lock (i : nat) (w : bool) (o : N)   (* lock_impl () is called *)
| Cas (i : nat)                       (* the compare-exchange of lock_impl () or execute_impl () *)
| Cycle (i : nat)                     (* dependency_cycle (): lock_impl () fails *)
| Wait (i : nat)                      (* the check of the count in sched->wait () *)
| Check (i : nat)
| Got (i : nat)
| MatchStep (i : nat) (m : mres)
| Unlock (i : nat)
| Abandon (i : nat)                   (* phase_lock throws in the task of match_impl (), 1508-1521 *)
| Inc (i : nat)                       (* match_inc_dependents () *)
| Forget (i : nat)                    (* the thread goes on with something else *)
| Execute (i : nat)                   (* execute_impl () is called *)
| ExecuteDirect (i : nat)
| Won (i : nat) (cb : option tstate)
| Recipe (i : nat) (r : tstate)       (* the recipe is done *)
| Finish (i : nat)
| Read (i : nat)
| Child (i : nat)                     (* a task of the matched or executed target is queued *)
| ChildDone                           (* ... is done *)
| Resume                              (* sched->resume () is called *)
| ToExecute | ToMatch                 (* the phase is switched *)
| NextOperation (l : bool).           (* current_operation (): l is the mode *)

(* The thread keeps the match (execute) phase from being switched: it is doing
   something that the code only does in that phase. A thread that has locked the
   target is not such since it may itself switch the phase to update a
   prerequisite; one that waits for the lock has unlocked the phase. *)
Definition in_match (t : thr) : bool := match t with LTry _ _ _ | LCheck _ _ _ | LGot _ _ => true | _ => false end.
Definition in_exec (t : thr) : bool :=
  match t with ECas _ | EWon _ | ERun | EFinish _ | EWait | ESleep | ERead => true | _ => false end.
(* Between calls. *)
Definition at_rest (t : thr) : bool := match t with TIdle | LRet _ | EPostponed | EDone _ => true | _ => false end.

Definition wake (t : thr) : thr := match t with LSleep o => LWait o | ESleep => EWait | _ => t end.

(* None: this cannot happen in state s. *)
Definition step (s : tgt) (op : top) : option tgt :=
  match op with
  | NewThread => Some (set_threads (threads s ++ [TIdle]) s)
  | Lock i w o =>
      match nth_error (threads s) i with
      | Some t => if at_rest t && negb (exec s) && has_options all_options o
                  then Some (go i (LTry (base s + o_touched - 1) w o) s) else None
      | None => None
      end
  | Cas i =>
      match nth_error (threads s) i with
      | Some (LTry e w o) =>
          if tc s =? e then Some (go i (LGot e o) (set_tc (cbusy s) s))
          else if cbusy s <=? tc s then Some (go i (if w then LWait o else LRet (tc s - base s)) s)
          else Some (go i (LCheck (tc s) w o) s)
      | Some (ECas direct) =>
          if tc s =? applied s then Some (go i (EWon direct) (set_tc (cbusy s) s))
          else if cbusy s <=? tc s then Some (go i EWait s)
          else if tc s =? executed s then Some (go i ERead s)
          else Some (go i ECrash s)
      | _ => None
      end
  | Cycle i =>
      match nth_error (threads s) i with
      | Some (LTry e _ _) => if cbusy s <=? tc s then Some (go i TIdle s) else None
      | _ => None
      end
  | Wait i =>
      match nth_error (threads s) i with
      | Some (LWait o) => if tc s <=? cbusy s - 1
                          then (if exec s then None else Some (go i (LCheck (tc s) true o) s))
                          else Some (go i (LSleep o) s)
      | Some EWait => Some (go i (if tc s <=? executed s then ERead else ESleep) s)
      | _ => None
      end
  | Check i =>
      match nth_error (threads s) i with
      | Some (LCheck e w o) =>
          Some (go i (if (applied s <=? e) && has_options (opts s) o then LRet (e - base s) else LTry e w o) s)
      | _ => None
      end
  | Got i => match nth_error (threads s) i with Some (LGot e o) => Some (lock_got i e o s) | _ => None end
  | MatchStep i m =>
      match nth_error (threads s) i with
      | Some (LHold off) => if exec s then None else match_step i off m s
      | _ => None
      end
  | Unlock i =>
      match nth_error (threads s) i with
      | Some (LHold off) =>
          if exec s || negb (children s =? 0) then None
          else Some (publish (off + base s) (go i (LRet off) s))
      | _ => None
      end
  | Abandon i =>
      match nth_error (threads s) i with
      | Some (LHold off) => Some (set_lost true (go i TIdle s))
      | _ => None
      end
  | Inc i =>
      match nth_error (threads s) i with
      | Some (LRet off) =>
          if (o_applied <=? off) && (off <? o_busy) && negb (exec s) && negb (tstate_eqb (st s) failed)
          then Some (go i TIdle (set_hist (incs s + 1) (calls s) (set_deps (deps s + 1) s)))
          else None
      | _ => None
      end
  | Forget i =>
      match nth_error (threads s) i with
      | Some t => if at_rest t then Some (go i TIdle s) else None
      | None => None
      end
  | Execute i =>
      (* Each call is by a dependent that has matched the target. *)
      match nth_error (threads s) i with
      | Some TIdle =>
          if exec s && (calls s <? incs s)
          then let s1 := set_hist (incs s) (calls s + 1) (set_deps (deps s - 1) s) in
               Some (go i (if deps s =? 0 then ECrash
                           else if last s && negb (deps s - 1 =? 0) then EPostponed
                           else ECas false) s1)
          else None
      | _ => None
      end
  | ExecuteDirect i =>
      (* Only after it has been matched. *)
      match nth_error (threads s) i with
      | Some (LRet off) => if exec s && (o_applied <=? off) && (off <? o_busy) then Some (go i (ECas true) s) else None
      | _ => None
      end
  | Won i cb =>
      match nth_error (threads s) i with
      | Some (EWon direct) =>
          if match cb with Some r => final r | None => true end then Some (exec_won i direct cb s) else None
      | _ => None
      end
  | Recipe i r =>
      match nth_error (threads s) i with
      | Some ERun => if final r && (children s =? 0) then Some (go i (EFinish r) (set_ran (runs s) (Some r) (set_st r s))) else None
      | _ => None
      end
  | Finish i =>
      match nth_error (threads s) i with
      | Some (EFinish r) =>
          if tc s =? cbusy s
          then Some (publish (tc s - (o_busy - o_executed)) (go i (EDone (executed_state r)) s))
          else Some (go i ECrash (set_lost true s))
      | _ => None
      end
  | Read i =>
      match nth_error (threads s) i with
      | Some ERead => Some (go i (EDone (executed_state (st s))) s)
      | _ => None
      end
  | Child i =>
      match nth_error (threads s) i with
      | Some (LHold _) | Some ERun => Some (set_children (children s + 1) (set_tc (tc s + 1) s))
      | _ => None
      end
  | ChildDone =>
      if children s =? 0 then None else Some (set_children (children s - 1) (set_tc (tc s - 1) s))
  | Resume =>
      if resumes s =? 0 then None else Some (set_resumes (resumes s - 1) (set_threads (map wake (threads s)) s))
  | ToExecute => if exec s || negb (num in_match (threads s) =? 0) then None else Some (set_exec true s)
  | ToMatch => if negb (exec s) || negb (num in_exec (threads s) =? 0) then None else Some (set_exec false s)
  | NextOperation l =>
      if lost s || negb (num (fun t => negb (at_rest t)) (threads s) =? 0) then None
      else Some (mktgt (on s + 1) false l (tc s) (children s) (deps s) (st s) (opts s) (resumes s)
                   (map (fun _ => TIdle) (threads s)) 0 None false false 0 0)
  end.

Fixpoint run (s : tgt) (l : list top) : option tgt :=
  match l with
  | [] => Some s
  | o :: l' => match step s o with Some s' => run s' l' | None => None end
  end.

(* A new target in the first operation. *)
Definition start (l : bool) : tgt := mktgt 1 false l 0 0 0 uninitialized 0%N 0 [] 0 None false false 0 0.
