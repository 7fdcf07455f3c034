(* Model of the scheduler's thread accounting: libbuild2/scheduler.{hxx,cxx,ixx,txx}.

   The state consists of the scheduler's counters, all accessed under its mutex
   (except queued_task_count_, which is atomic), and of what every thread is
   doing. One step is what one thread does while holding the mutex, or one atomic
   access to queued_task_count_. What the C++ runtime decides (which waiter
   notify_one () wakes up, spurious wakeups) are arguments of the steps.

   Not modelled: the tasks themselves (see QueueModel.v), statistics, the task
   monitor, the progress counter, the pipe behind the jobserver. *)
From Verif Require Import Base.

Inductive tst :=
| TRun                   (* active, running arbitrary code *)
| TPushed                (* active, in async () between push () and the lock *)
| TDeal (n : nat)        (* active, in the loop of deallocate () after it has
                            released the lock, with the old value of n *)
| TWait (ext : bool)     (* between deactivate_impl () and activate_impl () *)
| TReady (woken : bool)  (* waits on ready_condv_ in activate_impl () *)
| TStart                 (* helper before it has locked the mutex *)
| TIdle (woken : bool)   (* helper waits on idle_condv_ *)
| TGone.                 (* helper has terminated (or could not be created) *)

Record thread := mkthread { is_helper : bool; tstate : tst }.

(* scheduler.hxx:600-700; init_active_ is 1. [monitor]: the deadlock monitor does
   not sleep on deadlock_condv_. [alloc] is not in the code: the sum of what
   allocate () and serialize () have returned and that was not yet deallocated. *)
Record sched := mksched {
  threads : list thread;
  active : nat; idle : nat; waiting : nat; ready : nat; starting : nat;
  helpers : nat; external : nat; queued : nat;
  max_active : nat; max_threads : nat; idle_reserve : nat;
  shutdown : bool; js_active : nat; js_debt : bool;
  monitor : bool; alloc : nat
}.

Definition set_threads x s := mksched x (active s) (idle s) (waiting s) (ready s) (starting s) (helpers s) (external s) (queued s) (max_active s) (max_threads s) (idle_reserve s) (shutdown s) (js_active s) (js_debt s) (monitor s) (alloc s).
Definition set_active x s := mksched (threads s) x (idle s) (waiting s) (ready s) (starting s) (helpers s) (external s) (queued s) (max_active s) (max_threads s) (idle_reserve s) (shutdown s) (js_active s) (js_debt s) (monitor s) (alloc s).
Definition set_idle x s := mksched (threads s) (active s) x (waiting s) (ready s) (starting s) (helpers s) (external s) (queued s) (max_active s) (max_threads s) (idle_reserve s) (shutdown s) (js_active s) (js_debt s) (monitor s) (alloc s).
Definition set_waiting x s := mksched (threads s) (active s) (idle s) x (ready s) (starting s) (helpers s) (external s) (queued s) (max_active s) (max_threads s) (idle_reserve s) (shutdown s) (js_active s) (js_debt s) (monitor s) (alloc s).
Definition set_ready x s := mksched (threads s) (active s) (idle s) (waiting s) x (starting s) (helpers s) (external s) (queued s) (max_active s) (max_threads s) (idle_reserve s) (shutdown s) (js_active s) (js_debt s) (monitor s) (alloc s).
Definition set_starting x s := mksched (threads s) (active s) (idle s) (waiting s) (ready s) x (helpers s) (external s) (queued s) (max_active s) (max_threads s) (idle_reserve s) (shutdown s) (js_active s) (js_debt s) (monitor s) (alloc s).
Definition set_helpers x s := mksched (threads s) (active s) (idle s) (waiting s) (ready s) (starting s) x (external s) (queued s) (max_active s) (max_threads s) (idle_reserve s) (shutdown s) (js_active s) (js_debt s) (monitor s) (alloc s).
Definition set_external x s := mksched (threads s) (active s) (idle s) (waiting s) (ready s) (starting s) (helpers s) x (queued s) (max_active s) (max_threads s) (idle_reserve s) (shutdown s) (js_active s) (js_debt s) (monitor s) (alloc s).
Definition set_queued x s := mksched (threads s) (active s) (idle s) (waiting s) (ready s) (starting s) (helpers s) (external s) x (max_active s) (max_threads s) (idle_reserve s) (shutdown s) (js_active s) (js_debt s) (monitor s) (alloc s).
Definition set_max_active x s := mksched (threads s) (active s) (idle s) (waiting s) (ready s) (starting s) (helpers s) (external s) (queued s) x (max_threads s) (idle_reserve s) (shutdown s) (js_active s) (js_debt s) (monitor s) (alloc s).
Definition set_limits x y s := mksched (threads s) (active s) (idle s) (waiting s) (ready s) (starting s) (helpers s) (external s) (queued s) (max_active s) x y (shutdown s) (js_active s) (js_debt s) (monitor s) (alloc s).
Definition set_shutdown s := mksched (threads s) (active s) (idle s) (waiting s) (ready s) (starting s) (helpers s) (external s) (queued s) (max_active s) (max_threads s) (idle_reserve s) true (js_active s) (js_debt s) (monitor s) (alloc s).
Definition set_js x y s := mksched (threads s) (active s) (idle s) (waiting s) (ready s) (starting s) (helpers s) (external s) (queued s) (max_active s) (max_threads s) (idle_reserve s) (shutdown s) x y (monitor s) (alloc s).
Definition set_monitor x s := mksched (threads s) (active s) (idle s) (waiting s) (ready s) (starting s) (helpers s) (external s) (queued s) (max_active s) (max_threads s) (idle_reserve s) (shutdown s) (js_active s) (js_debt s) x (alloc s).
Definition set_alloc x s := mksched (threads s) (active s) (idle s) (waiting s) (ready s) (starting s) (helpers s) (external s) (queued s) (max_active s) (max_threads s) (idle_reserve s) (shutdown s) (js_active s) (js_debt s) (monitor s) x.

Fixpoint upd {X} (l : list X) (i : nat) (x : X) : list X :=
  match l, i with
  | [], _ => []
  | _ :: l', 0 => x :: l'
  | y :: l', S i' => y :: upd l' i' x
  end.

(* Thread i goes to state x. *)
Definition go (i : nat) (x : tst) (s : sched) : sched :=
  match nth_error (threads s) i with
  | Some t => set_threads (upd (threads s) i (mkthread (is_helper t) x)) s
  | None => s
  end.

Definition ready_asleep (t : thread) : bool := match tstate t with TReady false => true | _ => false end.
Definition idle_asleep (t : thread) : bool := match tstate t with TIdle false => true | _ => false end.

(* Index of the first thread that satisfies p. *)
Fixpoint find_index (p : thread -> bool) (l : list thread) : option nat :=
  match l with
  | [] => None
  | t :: l' => if p t then Some 0 else match find_index p l' with Some n => Some (S n) | None => None end
  end.

(* The thread notify_one () wakes up: thread k if it waits, otherwise the first
   one that does, if any. *)
Definition notified (p : thread -> bool) (k : nat) (s : sched) : option nat :=
  match nth_error (threads s) k with
  | Some t => if p t then Some k else find_index p (threads s)
  | None => find_index p (threads s)
  end.

Definition notify_ready (k : nat) (s : sched) : sched :=
  match notified ready_asleep k s with Some i => go i (TReady true) s | None => s end.
Definition notify_idle (k : nat) (s : sched) : sched :=
  match notified idle_asleep k s with Some i => go i (TIdle true) s | None => s end.
Definition notify_all_ready (s : sched) : sched :=
  set_threads (map (fun t => if ready_asleep t then mkthread (is_helper t) (TReady true) else t) (threads s)) s.
Definition notify_all_idle (s : sched) : sched :=
  set_threads (map (fun t => if idle_asleep t then mkthread (is_helper t) (TIdle true) else t) (threads s)) s.

(* scheduler.cxx:968-976: create_helper () up to unlock (). *)
Definition create_helper (s : sched) : sched :=
  set_threads (threads s ++ [mkthread true TStart])
    (set_starting (starting s + 1) (set_helpers (helpers s + 1) s)).

(* scheduler.cxx:940-966. Result: the value returned, whether the lock was
   released, the new state. The subtraction is on size_t: it wraps around to
   something that is not less than max_threads_. *)
Definition activate_helper (k : nat) (s : sched) : bool * bool * sched :=
  if shutdown s then (false, false, s)
  else if idle_reserve s <? idle s then (true, false, notify_idle k s)
  else if ((idle_reserve s <=? 1 + helpers s) && (1 + helpers s - idle_reserve s <? max_threads s))
          || ((active s =? 0) && negb (queued s =? 0))
       then (true, true, create_helper s)
       else (false, false, s).

(* "Pay off the jobserver debt", e.g. scheduler.cxx:134-142. *)
Definition pay_debt (s : sched) : sched :=
  set_active (active s + 1) (set_js (js_active s + 1) false s).

(* scheduler.cxx:90-152 deactivate_impl () by thread i. *)
Definition deactivate (i : nat) (ext : bool) (k : nat) (s0 : sched) : sched :=
  let s1 := set_active (active s0 - 1) (set_waiting (waiting s0 + 1) (go i (TWait ext) s0)) in
  let s := if ext then set_external (external s1 + 1) s1 else s1 in
  let rest :=
    if js_debt s then pay_debt s
    else if (active s =? 0) && (external s =? 0) then set_monitor true s
    else s in
  if negb (ready s =? 0) then notify_ready k s
  else if negb (queued s =? 0)
       then match activate_helper k s with
            | (true, _, s') => s'
            | (false, _, _) => rest
            end
       else rest.

(* The loop condition and what follows it in activate_impl (),
   scheduler.cxx:179-188; if shutting down the thread gets an exception. *)
Definition become_active (i : nat) (s : sched) : sched :=
  if negb (shutdown s) && (max_active s <=? active s) then go i (TReady false) s
  else set_ready (ready s - 1) (set_active (active s + 1) (go i TRun s)).

(* scheduler.cxx:154-188 activate_impl () by thread i. *)
Definition activate (i : nat) (ext : bool) (s : sched) : sched :=
  let s1 := if ext then set_external (external s - 1) s else s in
  become_active i (set_ready (ready s1 + 1) (set_waiting (waiting s1 - 1) s1)).

(* scheduler.cxx:214-232: allocate (n); the lock is held throughout. *)
Definition allocate (n : nat) (s : sched) : nat * sched :=
  if max_active s =? 1 then (0, s)
  else if active s <? max_active s then
    let d := max_active s - active s in
    let n' := if (n =? 0) || (d <? n) then d else n in
    (n', set_alloc (alloc s + n') (set_active (active s + n') s))
  else (0, s).

(* The end of deallocate (), scheduler.cxx:282-290. *)
Definition dealloc_end (i n : nat) (s : sched) : sched :=
  go i TRun (if js_debt s && negb (n =? 0) then pay_debt s else s).

(* The loop of deallocate (), scheduler.cxx:262-279. If the lock is released, the
   thread continues later with [dealloc_relock]. The recursion is on n. *)
Fixpoint dealloc_loop (i n k : nat) (s : sched) : sched :=
  match n with
  | 0 => dealloc_end i 0 s
  | S n' =>
      if negb (queued s =? 0) then
        match activate_helper k s with
        | (false, _, _) => dealloc_end i n s
        | (true, false, s') => dealloc_loop i n' k s'
        | (true, true, s') => go i (TDeal n) s'
        end
      else dealloc_end i n s
  end.

(* scheduler.cxx:270-277: having locked again. *)
Definition dealloc_relock (i n k : nat) (s : sched) : sched :=
  let d := if active s <? max_active s then max_active s - active s else 0 in
  dealloc_loop i (if d <? n then d else n - 1) k s.

(* scheduler.cxx:234-296: deallocate (n) by thread i. *)
Definition deallocate (i n k : nat) (s0 : sched) : sched :=
  if (max_active s0 =? 1) || (n =? 0) then s0
  else
    let s := set_active (active s0 - n) (set_alloc (alloc s0 - n) s0) in
    if negb (ready s =? 0) then
      let s' := if (1 <? ready s) && (1 <? n) then notify_all_ready s else notify_ready k s in
      dealloc_end i (n - (if ready s <? n then ready s else n)) s'
    else dealloc_loop i n k s.

(* scheduler.cxx:1146-1219: the top of the loop in helper (), with the lock. *)
Definition helper_top (i : nat) (s : sched) : sched :=
  if shutdown s then set_helpers (helpers s - 1) (go i TGone s)
  else if active s <? max_active s then set_active (active s + 1) (go i TRun s)
  else set_idle (idle s + 1) (go i (TIdle false) s).

(* scheduler.cxx:1184-1213: the helper has found queued_task_count_ to be 0. *)
Definition helper_done (i k : nat) (s0 : sched) : sched :=
  let s := set_active (active s0 - 1) s0 in
  let s' := if negb (ready s =? 0) then notify_ready k s
            else if js_debt s then pay_debt s
            else if (active s =? 0) && (external s =? 0) then set_monitor true s
            else s in
  set_idle (idle s' + 1) (go i (TIdle false) s').

(* scheduler.cxx:1620-1650: the jobserver deallocates a token. *)
Definition js_deallocate (k : nat) (s0 : sched) : sched :=
  let s := set_active (active s0 - 1) (set_js (js_active s0 - 1) false s0) in
  let rest := if (active s =? 0) && (external s =? 0) then set_monitor true s else s in
  if negb (ready s =? 0) then notify_ready k s
  else if negb (queued s =? 0) then
         match activate_helper k s with (true, _, s') => s' | (false, _, _) => rest end
       else rest.

Inductive op :=
| Push (i : nat)                  (* async (): the task has been queued *)
| PushedSkip (i : nat)            (* async (): no queued tasks any more *)
| PushedLock (i k : nat)          (* async (): scheduler.txx:111-117 *)
| Take (i : nat)                  (* thread i takes a task off a queue *)
| Deactivate (i : nat) (ext : bool) (k : nat)
| Activate (i : nat)
| Wake (i : nat)                  (* a thread that was notified continues *)
| Spurious (i : nat)              (* a thread wakes up without a notification *)
| Allocate (i n : nat)
| Deallocate (i n k : nat)
| DeallocRelock (i k : nat)
| Serialize (i : nat)             (* serialize (): active_ is 1 *)
| HelperStart (i : nat)
| StartFail (i : nat)             (* the thread could not be created *)
| HelperDone (i k : nat)
| JsAllocate                      (* jobserver: a token was consumed *)
| JsCancel
| JsDeallocate (k : nat)          (* jobserver: a token was returned *)
| MonitorSleep
| Tune (m : nat)
| PushPhase (i : nat) (mt : nat)  (* queued tasks are hidden, new max_threads_ *)
| PopPhase (i q mt r : nat)       (* q tasks come back, new limit and reserve *)
| Shutdown
| NotifyAll.                      (* shutdown (): wake up all sleepers *)

Definition state_of (s : sched) (i : nat) : option tst :=
  match nth_error (threads s) i with Some t => Some (tstate t) | None => None end.

Definition helper_of (s : sched) (i : nat) : bool :=
  match nth_error (threads s) i with Some t => is_helper t | None => false end.

(* None: this cannot happen in state s. The functions called by a thread do
   nothing during serial execution. *)
Definition step (s : sched) (o : op) : option sched :=
  match o with
  | Push i =>
      match state_of s i with
      | Some TRun => if max_active s =? 1 then None else Some (go i TPushed (set_queued (queued s + 1) s))
      | _ => None
      end
  | PushedSkip i =>
      match state_of s i with
      | Some TPushed => if queued s =? 0 then Some (go i TRun s) else None
      | _ => None
      end
  | PushedLock i k =>
      match state_of s i with
      | Some TPushed =>
          let s' := go i TRun s in
          Some (if active s' <? max_active s' then snd (activate_helper k s') else s')
      | _ => None
      end
  | Take i =>
      match state_of s i with
      | Some TRun => if queued s =? 0 then None else Some (set_queued (queued s - 1) s)
      | _ => None
      end
  | Deactivate i ext k =>
      match state_of s i with
      | Some TRun => if max_active s =? 1 then None else Some (deactivate i ext k s)
      | _ => None
      end
  | Activate i =>
      match state_of s i with
      | Some (TWait ext) => Some (activate i ext s)
      | _ => None
      end
  | Wake i =>
      match state_of s i with
      | Some (TReady true) => Some (become_active i s)
      | Some (TIdle true) => Some (helper_top i (set_idle (idle s - 1) s))
      | _ => None
      end
  | Spurious i =>
      match state_of s i with
      | Some (TReady false) => Some (go i (TReady true) s)
      | Some (TIdle false) => Some (go i (TIdle true) s)
      | _ => None
      end
  | Allocate i n =>
      match state_of s i with
      | Some TRun => Some (snd (allocate n s))
      | _ => None
      end
  | Deallocate i n k =>
      match state_of s i with
      | Some TRun => if n <=? alloc s then Some (deallocate i n k s) else None
      | _ => None
      end
  | DeallocRelock i k =>
      match state_of s i with
      | Some (TDeal n) => Some (dealloc_relock i n k s)
      | _ => None
      end
  (* scheduler.txx:149-193; the loop consists of Deactivate and Activate. *)
  | Serialize i =>
      match state_of s i with
      | Some TRun =>
          if (max_active s =? 1) || negb (active s =? 1) then None
          else Some (set_alloc (alloc s + (max_active s - 1)) (set_active (max_active s) s))
      | _ => None
      end
  | HelperStart i =>
      match state_of s i with
      | Some TStart => Some (helper_top i (set_starting (starting s - 1) s))
      | _ => None
      end
  (* scheduler.cxx:978-988, 1101-1104 *)
  | StartFail i =>
      match state_of s i with
      | Some TStart => Some (set_helpers (helpers s - 1) (set_starting (starting s - 1) (go i TGone s)))
      | _ => None
      end
  | HelperDone i k =>
      match state_of s i with
      | Some TRun => if helper_of s i && (queued s =? 0) then Some (helper_done i k s) else None
      | _ => None
      end
  (* scheduler.cxx:1542-1576 *)
  | JsAllocate =>
      if shutdown s || (max_active s =? 1) then None
      else if active s <? max_active s then Some (pay_debt s)
      else Some (set_js (js_active s) true s)
  | JsCancel => Some (set_js (js_active s) false s)
  | JsDeallocate k =>
      if shutdown s || (max_active s =? 1) || (js_active s =? 0) then None else Some (js_deallocate k s)
  (* scheduler.cxx:1270-1274: the inner loop ends, so wait () is called. *)
  | MonitorSleep =>
      if (active s =? 0) && (external s =? 0) && negb (shutdown s) then None else Some (set_monitor false s)
  (* scheduler.cxx:580-610 with wait_idle (), 376-402. *)
  | Tune m =>
      if (active s =? 1) && (starting s =? 0) && (waiting s =? 0) && (ready s =? 0) && (1 <=? m) && negb (shutdown s)
      then Some (set_max_active m s) else None
  | PushPhase i mt =>
      match state_of s i with
      | Some TRun => Some (set_queued 0 (set_limits mt 0 s))
      | _ => None
      end
  | PopPhase i q mt r =>
      match state_of s i with
      | Some TRun => Some (set_queued q (set_limits mt r s))
      | _ => None
      end
  | Shutdown => Some (set_shutdown s)
  | NotifyAll => if shutdown s then Some (notify_all_idle (notify_all_ready s)) else None
  end.

(* scheduler.cxx:456-540: the state after startup (). *)
Definition startup (max_active max_threads : nat) : sched :=
  mksched [mkthread false TRun] 1 0 0 0 0 0 0 0 max_active max_threads 0 false 0 false false 0.

Fixpoint run (s : sched) (l : list op) : option sched :=
  match l with
  | [] => Some s
  | o :: l' => match step s o with Some s' => run s' l' | None => None end
  end.
