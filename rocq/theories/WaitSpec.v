(* What the theorems about waiting speak about. *)
From Verif Require Import Base WaitModel.

(* The documented condition (scheduler.hxx:84-106) on start counts: whoever waits
   for a task count uses a start count that is not greater than the one passed
   to async () with the same task count. *)
Definition start_counts_agree (l : list wop) : Prop :=
  forall a st sw, In (Async a st) l -> In (Wait a sw) l -> sw <= st.

(* The task counts are only changed by starting and finishing tasks. *)
Definition no_store (l : list wop) : Prop := forall a v, ~ In (Store a v) l.
Definition no_shutdown (l : list wop) : Prop := forall j, ~ In (SlotShutdown j) l.

(* The number of unfinished tasks of a task count. *)
Definition tasks_of (a : nat) (s : wsys) : nat := length (filter (fun t => fst t =? a) (unfinished s)).

Definition asleep (w : waiter) : Prop := w_state w = WAsleep.
