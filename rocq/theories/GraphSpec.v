(* What a build from scratch makes. *)
From Verif Require Import Base DepdbSpec GraphModel.

Section Graph.
Context (hash : list bytes -> bytes) (body : bytes -> recipe -> list bytes -> option bytes).

(* The contents of a target: those of a source file or else what its recipe makes of the contents
   of its prerequisites. *)
Inductive built (proj : bytes -> option recipe) (source : bytes -> option bytes) : bytes -> bytes -> Prop :=
| bu_source t x : proj t = None -> source t = Some x -> built proj source t x
| bu_recipe t r cs x : proj t = Some r -> built_all proj source (prereqs r) cs -> body t r cs = Some x -> built proj source t x
with built_all (proj : bytes -> option recipe) (source : bytes -> option bytes) : list bytes -> list bytes -> Prop :=
| ba_nil : built_all proj source [] []
| ba_cons p ps c cs : built proj source p c -> built_all proj source ps cs -> built_all proj source (p :: ps) (c :: cs).
Definition sources (w : world) (t : bytes) : option bytes := contents (file w t).

(* Hashes are lines that tell what is hashed apart. *)
Definition good_hash (used : list bytes -> Prop) : Prop :=
  (forall l, line_ok (hash l)) /\ forall l l', used l -> used l' -> hash l = hash l' -> l = l'.
Definition hashed (used : list bytes -> Prop) (t : bytes) (r : recipe) : Prop :=
  used [text r] /\ used (vars r) /\ used (prereqs r) /\ used (exes r) /\ used (envs r).
(* At first nothing has been built. *)
Definition fresh (w : world) : Prop := (forall t, dd w t = None) /\ forall t x m, file w t = Some (x, m) -> m <= clock w.
End Graph.
