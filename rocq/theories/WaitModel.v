(* Model of waiting for task counts: scheduler::wait (), suspend (), resume () and
   the end of a task. libbuild2/scheduler.cxx:296-366, scheduler.ixx:6-20,
   scheduler.txx:123-140.

   Task counts are named by numbers (their addresses). Every step below is what
   a thread does while it holds the mutex of a wait slot, or a single access to
   a task count. The counters of the scheduler (deactivate_impl () and
   activate_impl (), called around the wait) are in SchedModel.v, task queues are
   in QueueModel.v; here a task is unfinished until it has decremented the
   count, whether queued or running. *)
From Verif Require Import Base.

(* A waiting thread. *)
Inductive wst :=
| WEnter               (* in suspend (), has not locked the slot yet *)
| WAsleep              (* in condv.wait () *)
| WNotified            (* was woken up and is about to lock the slot *)
| WDone (tc : nat)     (* returned tc *)
| WCancelled.          (* woke up because of the shutdown *)

Record waiter := mkwaiter { w_count : nat; w_start : nat; w_state : wst }.

Record wsys := mkwsys {
  count_of : nat -> nat;            (* the task counts *)
  unfinished : list (nat * nat);    (* tasks: count, start count passed to async () *)
  resumes : list nat;               (* calls of resume () that are yet to be made *)
  waiters : list waiter;
  slot_waiters : nat -> nat;        (* wait_slot::waiters *)
  slot_shutdown : nat -> bool       (* wait_slot::shutdown *)
}.

Definition fupd {X} (f : nat -> X) (a : nat) (x : X) (b : nat) : X := if b =? a then x else f b.

Fixpoint lset {X} (l : list X) (i : nat) (x : X) : list X :=
  match l, i with
  | [], _ => []
  | _ :: l', 0 => x :: l'
  | y :: l', S i' => y :: lset l' i' x
  end.

Fixpoint ldel {X} (l : list X) (i : nat) : list X :=
  match l, i with
  | [], _ => []
  | _ :: l', 0 => l'
  | y :: l', S i' => y :: ldel l' i'
  end.

Section Slots.
(* The hash of the address of a task count and the number of slots,
   scheduler.cxx:301-303. *)
Variable hash : nat -> nat.
Variable size : nat.

Definition slot (a : nat) : nat := hash a mod size.

(* The thread at position i has the slot locked and is at the loop condition,
   scheduler.cxx:333-337. If the loop ends the waiters counter is decremented. *)
Definition check (i : nat) (w : waiter) (s : wsys) : wsys :=
  let a := w_count w in
  let j := slot a in
  let leave x := mkwsys (count_of s) (unfinished s) (resumes s)
                        (lset (waiters s) i (mkwaiter a (w_start w) x))
                        (fupd (slot_waiters s) j (slot_waiters s j - 1)) (slot_shutdown s) in
  if slot_shutdown s j then leave WCancelled
  else if count_of s a <=? w_start w then leave (WDone (count_of s a))
  else mkwsys (count_of s) (unfinished s) (resumes s)
              (lset (waiters s) i (mkwaiter a (w_start w) WAsleep)) (slot_waiters s) (slot_shutdown s).

(* notify_all () on the slot. *)
Definition notify_slot (j : nat) (l : list waiter) : list waiter :=
  map (fun w => match w_state w with
                | WAsleep => if slot (w_count w) =? j then mkwaiter (w_count w) (w_start w) WNotified else w
                | _ => w
                end) l.

Inductive wop :=
| Async (a start : nat)      (* async (): the count is incremented, the task is queued *)
| Finish (k : nat)           (* a task ends, scheduler.txx:135-136 *)
| Store (a v : nat)          (* a count is set and resume () is going to be called *)
| Resume (k : nat)           (* a call of resume (), scheduler.cxx:349-366 *)
| Wait (a start : nat)       (* wait () is called, scheduler.ixx:6-20 *)
| Lock (i : nat)             (* the waiting thread i locks the slot and checks the count *)
| Spurious (i : nat)
| SlotShutdown (j : nat)     (* scheduler.cxx:703-708 *)
| SlotNotify (j : nat).      (* scheduler.cxx:741-743 *)

Definition wstep (s : wsys) (o : wop) : option wsys :=
  match o with
  | Async a start =>
      Some (mkwsys (fupd (count_of s) a (count_of s a + 1)) ((a, start) :: unfinished s) (resumes s)
                   (waiters s) (slot_waiters s) (slot_shutdown s))
  | Finish k =>
      match nth_error (unfinished s) k with
      | Some (a, start) =>
          let c := count_of s a - 1 in
          Some (mkwsys (fupd (count_of s) a c) (ldel (unfinished s) k)
                       (if c <=? start then a :: resumes s else resumes s)
                       (waiters s) (slot_waiters s) (slot_shutdown s))
      | None => None
      end
  | Store a v =>
      Some (mkwsys (fupd (count_of s) a v) (unfinished s) (a :: resumes s)
                   (waiters s) (slot_waiters s) (slot_shutdown s))
  | Resume k =>
      match nth_error (resumes s) k with
      | Some a =>
          let j := slot a in
          Some (mkwsys (count_of s) (unfinished s) (ldel (resumes s) k)
                       (if slot_waiters s j =? 0 then waiters s else notify_slot j (waiters s))
                       (slot_waiters s) (slot_shutdown s))
      | None => None
      end
  (* Working on the own queue (wait_impl ()) happens before: it only makes the
     tasks of other positions finish. *)
  | Wait a start =>
      let st := if count_of s a <=? start then WDone (count_of s a) else WEnter in
      Some (mkwsys (count_of s) (unfinished s) (resumes s) (waiters s ++ [mkwaiter a start st])
                   (slot_waiters s) (slot_shutdown s))
  | Lock i =>
      match nth_error (waiters s) i with
      | Some w =>
          match w_state w with
          | WEnter =>
              let j := slot (w_count w) in
              Some (check i w (mkwsys (count_of s) (unfinished s) (resumes s) (waiters s)
                                      (fupd (slot_waiters s) j (slot_waiters s j + 1)) (slot_shutdown s)))
          | WNotified => Some (check i w s)
          | _ => None
          end
      | None => None
      end
  | Spurious i =>
      match nth_error (waiters s) i with
      | Some w =>
          match w_state w with
          | WAsleep => Some (mkwsys (count_of s) (unfinished s) (resumes s)
                                    (lset (waiters s) i (mkwaiter (w_count w) (w_start w) WNotified))
                                    (slot_waiters s) (slot_shutdown s))
          | _ => None
          end
      | None => None
      end
  | SlotShutdown j =>
      Some (mkwsys (count_of s) (unfinished s) (resumes s) (waiters s) (slot_waiters s) (fupd (slot_shutdown s) j true))
  | SlotNotify j =>
      if slot_shutdown s j
      then Some (mkwsys (count_of s) (unfinished s) (resumes s) (notify_slot j (waiters s)) (slot_waiters s) (slot_shutdown s))
      else None
  end.

Fixpoint wrun (s : wsys) (l : list wop) : option wsys :=
  match l with
  | [] => Some s
  | o :: l' => match wstep s o with Some s' => wrun s' l' | None => None end
  end.

End Slots.

(* Before anything happens: task counts have arbitrary values. *)
Definition wstart (c : nat -> nat) : wsys := mkwsys c [] [] [] (fun _ => 0) (fun _ => false).
