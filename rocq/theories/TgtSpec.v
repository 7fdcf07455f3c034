(* What the theorems about locking and executing a target speak about. *)
From Verif Require Import Base Count ExecModel TgtModel.

(* The thread has the target locked: it is matching or executing it, or is about
   to, or has just done so. *)
Definition holder (t : thr) : bool :=
  match t with LGot _ _ | LHold _ | EWon _ | ERun | EFinish _ => true | _ => false end.
(* The thread is suspended until the target is unlocked. *)
Definition sleeping (t : thr) : bool := match t with LSleep _ | ESleep => true | _ => false end.

(* Nobody has the target locked. *)
Definition free (s : tgt) : Prop := (forall t, In t (threads s) -> holder t = false) /\ lost s = false.

(* A history within one operation. *)
Definition same_operation (l : list top) : Prop := forall o, In o l -> match o with NextOperation _ => False | _ => True end.
Definition no_direct (l : list top) : Prop := forall o, In o l -> match o with ExecuteDirect _ => False | _ => True end.
