(* Directories, scopes and projects. *)
From Verif Require Import Base ScopeModel.

(* x is y or is above it. *)
Definition within (x y : dir) : Prop := exists z, y = x ++ z.
(* x is above y. *)
Definition above (x y : dir) : Prop := exists a z, y = x ++ a :: z.
(* The innermost of a set (P) of directories that d is in, and that d is below. *)
Definition innermost (P : dir -> Prop) (d x : dir) : Prop := P x /\ within x d /\ forall y, P y -> within y d -> within y x.
Definition nearest (P : dir -> Prop) (d x : dir) : Prop := P x /\ above x d /\ forall y, P y -> above y d -> within y x.

(* What has been inserted by now: the global scope to begin with. *)
Definition is_scope (os : list op) (d : dir) : Prop := d = [] \/ exists rt, In (Out d rt) os.
Definition is_root (os : list op) (d : dir) : Prop := In (Out d true) os.
Definition is_src (os : list op) (d s : dir) : Prop := In (Src s d) os.

(* The map after these insertions. *)
Definition made (os : list op) (m : scope_map) : Prop := run empty (Out [] false :: os) = Some m.
