(* Model of command expressions, libbuild2/script/run.cxx:3401-3460, and of the names of files
   for standard streams, 2075-2113. *)
From Coq Require Import Decimal DecimalString.
From Verif Require Import Base.

(* command_expr, libbuild2/script/script.hxx: expr_term is the operator before it (log_or for
   the first one) and the pipe: here what stands for it and the number of commands. *)
Inductive op := OpOr | OpAnd.
Record term (P : Type) := mkterm { t_op : op; t_pipe : P; t_size : nat }.
Arguments mkterm {P}. Arguments t_op {P}. Arguments t_pipe {P}. Arguments t_size {P}.
Definition is_or (o : op) : bool := match o with OpOr => true | OpAnd => false end.

(* Result of run_pipe (): it can complete or throw (exit or failed). *)
Inductive outcome := Returns (v : bool) | Throws.

Section Expr.
Context {P St : Type}.
(* run_pipe (), given the number of the first command and whether to print diagnostics. *)
Context (run_pipe : P -> nat -> bool -> St -> St * outcome).

(* trailing_ands: the number of terms before it (3417-3424). *)
Fixpoint skip_ands (rev : list (term P)) : nat :=
  match rev with
  | t :: rev' => if is_or (t_op t) then length rev else skip_ands rev'
  | [] => 0
  end.
(* The loop, 3429-3459: i is the number of terms before. *)
Fixpoint run_terms (trailing : option nat) (ts : list (term P)) (i ci : nat) (r print : bool) (st : St) : St * outcome :=
  match ts with
  | [] => (st, Returns r)
  | t :: ts =>
      let print := match trailing with Some n => if S i =? n then true else print | None => print end in
      let or_op := is_or (t_op t) in
      if negb ((or_op && r) || (negb or_op && negb r)) then
        let '(st, o) := run_pipe (t_pipe t) ci print st in
        match o with
        | Returns r => run_terms trailing ts (S i) (ci + t_size t) r print st
        | Throws => (st, Throws)
        end
      else run_terms trailing ts (S i) (ci + t_size t) r print st
  end.
(* run_expr (), 3401-3460 *)
Definition run_expr (e : list (term P)) (diag : bool) (st : St) : St * outcome :=
  let ci := match e with [t] => if t_size t =? 1 then 0 else 1 | _ => 1 end in
  run_terms (if diag then Some (skip_ands (rev e)) else None) e 0 ci false false st.
End Expr.

(* to_string () *)
Definition to_string (n : nat) : bytes := list_ascii_of_string (NilEmpty.string_of_uint (Nat.to_uint n)).
(* std_path (), 2075-2113, without the directory. ii is innermost first. *)
Definition insert_at (n : nat) (x s : bytes) : bytes := firstn n s ++ x ++ skipn n s.
Definition std_name (nm : bytes) (ii : list nat) (li ci : nat) : bytes :=
  let n := length nm in
  let s := fold_left (fun s i => insert_at n (b "-i" ++ to_string i) s) ii nm in
  let s := if li =? 0 then s else s ++ b "-n" ++ to_string li in
  if ci =? 0 then s else s ++ b "-c" ++ to_string ci.
