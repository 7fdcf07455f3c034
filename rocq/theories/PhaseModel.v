(* Model of the run phase mutex: run_phase_mutex, libbuild2/context.cxx:1120-1322
   and context.hxx:26-115, and of how ~phase_switch () reports a failed load,
   context.cxx:1558-1584.

   A step is what a thread does while it holds m_, or an operation on the second
   mutex lm_, or a call of notify_all () (made after m_ was unlocked). The calls
   to the scheduler only matter in that a sub-phase is entered or left
   (push_phase () and pop_phase ()), which are counted here; see QueueModel.v for
   what they do. Not modelled: the contention counters, wait () (a timed wait
   that changes nothing). *)
From Verif Require Import Base Count.

(* types.hxx:576 *)
Inductive phase := Load | Match | Execute.

Definition phase_eqb (x y : phase) : bool :=
  match x, y with Load, Load | Match, Match | Execute, Execute => true | _, _ => false end.

Inductive pst :=
| POut                             (* does not hold the lock *)
| PWait (n : phase) (woken : bool) (* in v->wait () for phase n *)
| PLoadMutex                       (* in phase load, about to lock lm_ *)
| PHold (n : phase) (ok : bool)    (* lock () or relock () returned; ok: the result *)
| PLeave (next : option phase).    (* unlock (load) or relock (load, next): lm_ is unlocked *)

Record pmutex := mkpm {
  threads : list pst;
  cur : phase;                     (* context::phase *)
  lc : nat; mc : nat; ec : nat;
  lm : bool;                       (* lm_ is locked *)
  fail : bool;                     (* fail_ *)
  notifies : list phase;           (* calls of notify_all () yet to be made *)
  pushes : nat;                    (* calls of scheduler::push_phase () *)
  pops : nat                       (* calls of scheduler::pop_phase () *)
}.

Definition get (n : phase) (s : pmutex) : nat := match n with Load => lc s | Match => mc s | Execute => ec s end.

Definition set_threads ts (s : pmutex) := mkpm ts (cur s) (lc s) (mc s) (ec s) (lm s) (fail s) (notifies s) (pushes s) (pops s).
Definition set_cur p (s : pmutex) := mkpm (threads s) p (lc s) (mc s) (ec s) (lm s) (fail s) (notifies s) (pushes s) (pops s).
Definition set_lm x (s : pmutex) := mkpm (threads s) (cur s) (lc s) (mc s) (ec s) x (fail s) (notifies s) (pushes s) (pops s).
Definition set_fail (s : pmutex) := mkpm (threads s) (cur s) (lc s) (mc s) (ec s) (lm s) true (notifies s) (pushes s) (pops s).
Definition set_notifies x (s : pmutex) := mkpm (threads s) (cur s) (lc s) (mc s) (ec s) (lm s) (fail s) x (pushes s) (pops s).
Definition set_sub x y (s : pmutex) := mkpm (threads s) (cur s) (lc s) (mc s) (ec s) (lm s) (fail s) (notifies s) x y.
Definition set_count (n : phase) (x : nat) (s : pmutex) :=
  match n with
  | Load => mkpm (threads s) (cur s) x (mc s) (ec s) (lm s) (fail s) (notifies s) (pushes s) (pops s)
  | Match => mkpm (threads s) (cur s) (lc s) x (ec s) (lm s) (fail s) (notifies s) (pushes s) (pops s)
  | Execute => mkpm (threads s) (cur s) (lc s) (mc s) x (lm s) (fail s) (notifies s) (pushes s) (pops s)
  end.

Definition go (i : nat) (x : pst) (s : pmutex) : pmutex := set_threads (lupd (threads s) i x) s.

(* What follows the wait for the phase: in case of load the thread goes on to
   lock lm_ and queries fail_ again, context.cxx:1158-1174, 1293-1313. *)
Definition arrive (i : nat) (n : phase) (s : pmutex) : pmutex :=
  go i (match n with Load => PLoadMutex | _ => PHold n (negb (fail s)) end) s.

(* context.cxx:1120-1156: lock (n) up to and including the first check of the
   phase. *)
Definition lock (i : nat) (n : phase) (s0 : pmutex) : pmutex :=
  let u := (lc s0 =? 0) && (mc s0 =? 0) && (ec s0 =? 0) in
  let s := set_count n (get n s0 + 1) s0 in
  if u then arrive i n (set_cur n s)
  else if negb (phase_eqb (cur s) n) then go i (PWait n false) s
  else arrive i n s.

(* "Enter/leave scheduler sub-phase", context.cxx:1217-1223, 1266-1272. *)
Definition subphase (o n : phase) (s : pmutex) : pmutex :=
  match o, n with
  | Match, Execute => set_sub (pushes s + 1) (pops s) s
  | Execute, Match => set_sub (pushes s) (pops s + 1) s
  | _, _ => s
  end.

(* context.cxx:1187-1232: the part of unlock (o) under m_. *)
Definition unlock (i : nat) (o : phase) (s0 : pmutex) : pmutex :=
  let s := go i POut (set_count o (get o s0 - 1) s0) in
  if get o s =? 0 then
    let (n, v) := if negb (lc s =? 0) then (Load, true)
                  else if negb (mc s =? 0) then (Match, true)
                  else if negb (ec s =? 0) then (Execute, true)
                  else (Load, false) in
    let s1 := subphase o n (set_cur n s) in
    if v then set_notifies (n :: notifies s1) s1 else s1
  else s.

(* context.cxx:1246-1291: the part of relock (o, n) under m_. *)
Definition relock (i : nat) (o n : phase) (s0 : pmutex) : pmutex :=
  let s := set_count o (get o s0 - 1) s0 in
  let u := get o s =? 0 in
  let v := negb (get n s =? 0) || negb u in
  let s1 := set_count n (get n s + 1) s in
  if u then
    let s2 := subphase o n (set_cur n s1) in
    arrive i n (if v then set_notifies (n :: notifies s2) s2 else s2)
  else if phase_eqb (cur s1) n then arrive i n s1
  else go i (PWait n false) s1.

Inductive pop :=
| Lock (i : nat) (n : phase)
| Wake (i : nat)            (* a thread that was notified locks m_ and checks the phase *)
| Spurious (i : nat)
| LockLoad (i : nat)        (* lm_.try_lock () or lm_.lock () succeeds *)
| Unlock (i : nat)
| Relock (i : nat) (n : phase)
| Leave (i : nat)           (* having unlocked lm_, the rest of unlock () or relock () *)
| Fail (i : nat)            (* ~phase_switch () after a failed load *)
| Notify (k : nat)          (* notify_all () is called *)
| NewThread.

Definition wake_all (n : phase) (l : list pst) : list pst :=
  map (fun t => match t with PWait m _ => if phase_eqb m n then PWait m true else t | _ => t end) l.

Fixpoint ldel {X} (l : list X) (i : nat) : list X :=
  match l, i with
  | [], _ => []
  | _ :: l', 0 => l'
  | y :: l', S i' => y :: ldel l' i'
  end.

(* None: this cannot happen in state s. *)
Definition step (s : pmutex) (o : pop) : option pmutex :=
  match o with
  | Lock i n => match nth_error (threads s) i with Some POut => Some (lock i n s) | _ => None end
  | Wake i =>
      match nth_error (threads s) i with
      | Some (PWait n true) => Some (if phase_eqb (cur s) n then arrive i n s else go i (PWait n false) s)
      | _ => None
      end
  | Spurious i =>
      match nth_error (threads s) i with
      | Some (PWait n false) => Some (go i (PWait n true) s)
      | _ => None
      end
  | LockLoad i =>
      match nth_error (threads s) i with
      | Some PLoadMutex => if lm s then None else Some (set_lm true (go i (PHold Load (negb (fail s))) s))
      | _ => None
      end
  | Unlock i =>
      match nth_error (threads s) i with
      | Some (PHold Load _) => Some (set_lm false (go i (PLeave None) s))
      | Some (PHold o _) => Some (unlock i o s)
      | _ => None
      end
  | Relock i n =>
      match nth_error (threads s) i with
      | Some (PHold o _) =>
          if phase_eqb o n then None
          else match o with
               | Load => Some (set_lm false (go i (PLeave (Some n)) s))
               | _ => Some (relock i o n s)
               end
      | _ => None
      end
  | Leave i =>
      match nth_error (threads s) i with
      | Some (PLeave None) => Some (unlock i Load s)
      | Some (PLeave (Some n)) => Some (relock i Load n s)
      | _ => None
      end
  | Fail i =>
      match nth_error (threads s) i with
      | Some (PHold Load _) => Some (set_fail s)
      | _ => None
      end
  | Notify k =>
      match nth_error (notifies s) k with
      | Some n => Some (set_notifies (ldel (notifies s) k) (set_threads (wake_all n (threads s)) s))
      | None => None
      end
  | NewThread => Some (set_threads (threads s ++ [POut]) s)
  end.

Fixpoint run (s : pmutex) (l : list pop) : option pmutex :=
  match l with
  | [] => Some s
  | o :: l' => match step s o with Some s' => run s' l' | None => None end
  end.

(* The initial state: the phase is load and nobody holds the lock. *)
Definition start : pmutex := mkpm [] Load 0 0 0 false false [] 0 0.
