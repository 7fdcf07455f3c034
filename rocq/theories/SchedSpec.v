(* What to count in a scheduler state. *)
From Verif Require Import Base SchedModel.

Definition count (p : thread -> bool) (s : sched) : nat := length (filter p (threads s)).

(* Threads that run (arbitrary code, or code of the scheduler). *)
Definition running (t : thread) : bool :=
  match tstate t with TRun | TPushed | TDeal _ => true | _ => false end.
(* Threads that wait for something other than their turn. *)
Definition blocked (t : thread) : bool := match tstate t with TWait _ => true | _ => false end.
Definition blocked_external (t : thread) : bool := match tstate t with TWait true => true | _ => false end.
(* Threads that wait for their turn to run: asleep, or notified. *)
Definition in_line (t : thread) : bool := match tstate t with TReady _ => true | _ => false end.
Definition in_line_notified (t : thread) : bool := match tstate t with TReady true => true | _ => false end.
Definition in_line_asleep (t : thread) : bool := match tstate t with TReady false => true | _ => false end.
Definition is_starting (t : thread) : bool := match tstate t with TStart => true | _ => false end.
Definition is_idle (t : thread) : bool := match tstate t with TIdle _ => true | _ => false end.
Definition idle_notified (t : thread) : bool := match tstate t with TIdle true => true | _ => false end.
(* Helper threads that exist. *)
Definition live_helper (t : thread) : bool := is_helper t && match tstate t with TGone => false | _ => true end.

(* Some thread is about to run without anything else having to happen. *)
Definition about_to_run (s : sched) : Prop :=
  0 < count in_line_notified s \/ 0 < count idle_notified s \/ 0 < count is_starting s.

(* Histories without a failure to create a thread. *)
Definition no_start_fail (l : list op) : Prop := forall i, ~ In (StartFail i) l.
