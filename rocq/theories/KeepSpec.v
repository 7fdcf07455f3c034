(* What should become of targets. *)
From Verif Require Import Base KeepModel.

Section Spec.
Context (g : nat -> target).
Definition any_changed (l : list state) : state := if existsb (fun x => match x with Changed => true | Unchanged => false end) l then Changed else Unchanged.
(* A target can be executed, with this result: if all its prerequisites can. *)
Inductive result : nat -> state -> Prop :=
| res_noop t : noop (g t) = true -> result t Unchanged
| res_own t f s : noop (g t) = false -> (forall p, In p (prereqs (g t)) -> result p (f p)) ->
    own (g t) (any_changed (map f (prereqs (g t)))) = Some s -> result t s.
Definition fine (t : nat) : Prop := exists s, result t s.
(* The targets that some targets need. *)
Inductive needs (l : list nat) : nat -> Prop :=
| need_top t : In t l -> needs l t
| need_prereq t p : needs l t -> noop (g t) = false -> In p (prereqs (g t)) -> needs l p.
(* No cycles. *)
Definition acyclic : Prop := exists rank : nat -> nat, forall t p, In p (prereqs (g t)) -> rank p < rank t.
End Spec.
