(* Specification: calls of init() as they follow each other, newest first. *)
From Verif Require Import Base ModModel.

(* A call of init() for a module of a project, in some scope. *)
Definition entered (p : nat) (m : bytes) (l : list event) : Prop := exists sc f o, In (Enter p sc m f o) l.
Definition left_in (p : nat) (sc : scope) (m : bytes) (l : list event) : Prop := exists c, In (Leave p sc m c) l.
Definition imports (p : nat) (mm : bytes) (l : list event) : Prop := exists b o d, In (Import p mm b o d) l.
(* Calls for the module in the scope. *)
Fixpoint calls (p : nat) (sc : scope) (m : bytes) (l : list event) : nat :=
  match l with
  | [] => 0
  | Enter p' sc' m' _ _ :: l => (if key_eqb (p', sc', m') (p, sc, m) then 1 else 0) + calls p sc m l
  | _ :: l => calls p sc m l
  end.

(* Modules that a program may ask for. *)
Inductive uses : prog -> bytes -> Prop :=
| uses_here k sc m next : uses (Do k sc m next) m
| uses_later k sc m next r m' : uses (next r) m' -> uses (Do k sc m next) m'.
(* Some way of it ends with this answer. *)
Inductive may_return : prog -> bool -> Prop :=
| may_ret c : may_return (Ret c) c
| may_do k sc m next r c : may_return (next r) c -> may_return (Do k sc m next) c.

Section Spec.
  Context (funs : bytes -> bytes -> list func).
  (* Lists of functions: the main module is in it, and others are submodules of it. *)
  Definition proper : Prop := forall mm d, main mm = mm -> (exists f, In f (funs mm d) /\ f_name f = mm) /\ forall f, In f (funs mm d) -> main (f_name f) = mm.
  (* No module asks for itself in init(), be it via others. *)
  Definition acyclic : Prop := exists rank : bytes -> nat, forall mm d f sc first opt m, In f (funs mm d) -> uses (f_init f sc first opt) m -> rank m < rank (f_name f).
  (* A module that isn't optional either configures or fails. *)
  Definition strict : Prop := forall mm d f sc first, In f (funs mm d) -> ~ may_return (f_init f sc first false) false.
  (* Some init() asks for the module. *)
  Definition used (m : bytes) : Prop := exists mm d f sc first opt, In f (funs mm d) /\ uses (f_init f sc first opt) m.
End Spec.

Section Events.
  Context (imp : nat -> bytes -> bool -> bool -> bool -> imp_result) (bundled : bytes -> bool).
  (* The project searched for the module and found it in the directory. *)
  Definition from (p : nat) (mm d : bytes) (l : list event) : Prop := exists b o dr, imp p mm b o dr = Found d /\ In (Import p mm b o dr) l.
  (* What is true of each event, given those before: init() isn't called in a scope once it has returned there, it is told to be first if it is for the project, the module is from the
     directory it is from for every project that has called it or a submodule of the same, unless bundled, and a project searches for a module once. *)
  Definition ok (e : event) (before : list event) : Prop :=
    match e with
    | Enter p sc m f _ => ~ left_in p sc m before /\ (f = true <-> ~ entered p m before) /\
        (bundled (main m) = false -> exists d, from p (main m) d before /\ forall q m', main m' = main m -> entered q m' before -> from q (main m) d before)
    | Import p mm _ _ _ => ~ imports p mm before
    | _ => True
    end.
  Definition log_ok (l : list event) : Prop := forall l2 e l1, l = l2 ++ e :: l1 -> ok e l1.
End Events.
