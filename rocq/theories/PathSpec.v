(* What users of paths of targets rely on, in terms of what calls return. *)
From Verif Require Import Base PathModel.

(* This call found the path to be this (whole or not). *)
Inductive finds : event -> cell -> Prop :=
| fi_get i v : finds (EGet i (Some v)) v
| fi_set i p v : finds (ESet i p v) v.

(* [later l e f]: in the log l (last first) call f returned after e. *)
Definition later (l : list event) (e f : event) : Prop :=
  exists x y z, l = x ++ f :: y ++ e :: z.

(* Some thread has the call that sets this path. *)
Definition to_set (prog : nat -> list op) (p : bytes) : Prop :=
  exists i, In (SetPath p) (prog i).

(* Times are only set after a path by the same thread, as path_mtime() does. *)
Definition path_first (prog : nat -> list op) : Prop :=
  forall i x m y, prog i = x ++ SetTime m :: y -> exists p, In (SetPath p) x.

(* A thread that is in the midst of setting the path. *)
Definition owner (c : pc) : bool :=
  match c with Claimed _ | Writing _ | Wrote _ => true | _ => false end.
