(* Specification for command expressions: left-associative, both operators of the same
   precedence. *)
From Verif Require Import Base CmdModel.

Section Expr.
Context {P St : Type}.
Inductive expr := EPipe (p : P) (n : nat) | EOr (l : expr) (p : P) (n : nat) | EAnd (l : expr) (p : P) (n : nat).
Fixpoint terms (e : expr) : list (term P) :=
  match e with
  | EPipe p n => [mkterm OpOr p n]
  | EOr l p n => terms l ++ [mkterm OpOr p n]
  | EAnd l p n => terms l ++ [mkterm OpAnd p n]
  end.
(* The number of commands. *)
Fixpoint commands (e : expr) : nat := match e with EPipe _ n => n | EOr l _ n | EAnd l _ n => commands l + n end.
(* The value of an expression: print is whether to print diagnostics about pipes that make it
   false, first is the number of its first command. *)
Context (run_pipe : P -> nat -> bool -> St -> St * outcome).
Fixpoint eval (print : bool) (first : nat) (e : expr) (st : St) : St * outcome :=
  match e with
  | EPipe p _ => run_pipe p first print st
  | EOr l p _ => match eval false first l st with
                 | (st, Returns false) => run_pipe p (first + commands l) print st
                 | r => r
                 end
  | EAnd l p _ => match eval print first l st with
                  | (st, Returns true) => run_pipe p (first + commands l) print st
                  | r => r
                  end
  end.
(* The pipes that failed while printing of diagnostics is requested. *)
Definition reporting (p : P) (ci : nat) (print : bool) (s : St * list P) : (St * list P) * outcome :=
  let '(st, o) := run_pipe p ci print (fst s) in
  ((st, match o with Returns false => if print then p :: snd s else snd s | _ => snd s end), o).
End Expr.
Arguments expr : clear implicits.
