(* Dependencies and cycles of them. *)
From Coq Require Import Relations.
From Verif Require Import Base CycModel.

Section Graph.
Context (deps : nat -> list nat).
(* A target depends on another, directly or not. *)
Definition depends : nat -> nat -> Prop := clos_trans nat (fun t d => In d (deps t)).
Definition needs (t d : nat) : Prop := t = d \/ depends t d.
(* A cycle that this depends on. *)
Definition cyclic (t : nat) : Prop := exists c, needs t c /\ depends c c.
(* There are finitely many targets. *)
Definition finite (root : nat) : Prop := exists all : list nat, forall t, needs root t -> In t all.
End Graph.

(* A scheduling decision of a serial build: nothing is queued. *)
Definition serial (x : choice) : Prop := match x with Advance _ queue => queue = false | Start _ _ => False end.

Section Runs.
Context (deps : nat -> list nat) (bad : nat -> bool) (keep_going : bool) (root : nat).
(* What a build that matches root can get to and what it has diagnosed by then. *)
Definition gets_to (s : state) (es : list event) : Prop := exists xs, run deps bad keep_going (init deps root) xs = Some (s, es).
Definition gets_to_serially (s : state) (es : list event) : Prop := exists xs, Forall serial xs /\ run deps bad keep_going (init deps root) xs = Some (s, es).
(* No thread can go on. *)
Definition stopped (s : state) : Prop := forall x, step deps bad keep_going s x = None.
Definition stopped_serially (s : state) : Prop := forall x, serial x -> step deps bad keep_going s x = None.
End Runs.
