(* What the theorems about the phase mutex speak about. *)
From Verif Require Import Base Count PhaseModel.

(* The thread is executing in phase n. *)
Definition executing_in (n : phase) (t : pst) : bool := match t with PHold m _ => phase_eqb m n | _ => false end.
(* The thread keeps the phase from changing: it executes in phase n, or it is
   between having joined the phase and returning, or is about to give it up. *)
Definition keeps (n : phase) (t : pst) : bool :=
  match t with PHold m _ => phase_eqb m n | PLoadMutex | PLeave _ => phase_eqb Load n | _ => false end.
(* The thread waits for phase n. *)
Definition waits_for (n : phase) (t : pst) : bool := match t with PWait m _ => phase_eqb m n | _ => false end.
Definition sleeps_for (n : phase) (t : pst) : bool := match t with PWait m false => phase_eqb m n | _ => false end.
Definition woken_for (n : phase) (t : pst) : bool := match t with PWait m true => phase_eqb m n | _ => false end.

(* Nobody is in or waits for any phase. *)
Definition unlocked (s : pmutex) : Prop := forall t, In t (threads s) -> t = POut.

(* How the code uses the phases within an operation (context.cxx:1495-1503 and
   target.cxx:1614-1616): the lock is acquired and released only in the match
   phase, and the switches are between match and load and match and execute. *)
Definition disciplined_op (s : pmutex) (o : pop) : Prop :=
  match o with
  | Lock _ n => n = Match
  | Unlock i => exists ok, nth_error (threads s) i = Some (PHold Match ok)
  | Relock i n => match nth_error (threads s) i with
                  | Some (PHold Match _) => n = Load \/ n = Execute
                  | Some (PHold _ _) => n = Match
                  | _ => True
                  end
  | _ => True
  end.

Fixpoint disciplined (s : pmutex) (l : list pop) : Prop :=
  match l with
  | [] => True
  | o :: l' => disciplined_op s o /\ match step s o with Some s' => disciplined s' l' | None => True end
  end.
