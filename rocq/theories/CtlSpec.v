(* Specification of flow control in buildfiles: what a program means, how it is written down and which programs can
   be written down. *)
From Verif Require Import Base CtlModel.

Inductive stmt :=
| SPlain (c : nat)
| SAssign (c : nat)
| SDecl (c : nat) (vars : option (list nat)) (recipes : list (list line))
| SScope (d : nat) (b : block)
| SIf (k : test) (neg : bool) (e : nat) (b : body) (rest : branches)
| SSwitch (es : list (nat * option nat)) (cs : switch)
| SFor (v e : nat) (b : body)
| SWhile (neg : bool) (e : nat) (b : body)
| SJump (c : control)
with block := Nil | Cons (x : stmt) (b : block)
with body := Block (b : block) | Line (x : stmt)
with branches := BEnd | BElse (b : body) | BElif (k : test) (neg : bool) (e : nat) (b : body) (rest : branches)
with switch := CEnd | CDefault (labels : list (list (list nat))) (b : body) | CCase (labels : list (list (list nat))) (b : body) (rest : switch).

(* How it is written down. *)
Definition print_vars (vars : option (list nat)) : list line := match vars with None => [] | Some vs => Open :: map Assign vs ++ [Close] end.
Definition print_recipe (r : list line) : list line := Multi :: r ++ [Unmulti].
Fixpoint print (x : stmt) : list line :=
  match x with
  | SPlain c => [Plain c]
  | SAssign c => [Assign c]
  | SDecl c vars rs => Decl c :: print_vars vars ++ flat_map print_recipe rs
  | SScope d b => Scope d :: Open :: prints b ++ [Close]
  | SIf k neg e b rest => If k neg e :: print_body b ++ print_branches rest
  | SSwitch es cs => Switch es :: Open :: print_switch cs ++ [Close]
  | SFor v e b => For v e :: print_body b
  | SWhile neg e b => While neg e :: print_body b
  | SJump Cont => [Continue]
  | SJump Brk => [Break]
  end
with prints (b : block) : list line := match b with Nil => [] | Cons x b => print x ++ prints b end
with print_body (b : body) : list line := match b with Block b => Open :: prints b ++ [Close] | Line x => print x end
with print_branches (r : branches) : list line :=
  match r with
  | BEnd => []
  | BElse b => Else :: print_body b
  | BElif k neg e b rest => Elif k neg e :: print_body b ++ print_branches rest
  end
with print_switch (cs : switch) : list line :=
  match cs with
  | CEnd => []
  | CDefault ls b => map Case ls ++ Default :: print_body b
  | CCase ls b rest => map Case ls ++ print_body b ++ print_switch rest
  end.

(* Programs that can be written down: the body without braces is a single line; lines in recipes that are a sole
   brace are balanced. *)
Inductive balanced : list line -> Prop :=
| bal_nil : balanced []
| bal_line l r : l <> Open -> l <> Close -> balanced r -> balanced (l :: r)
| bal_block x r : balanced x -> balanced r -> balanced (Open :: x ++ Close :: r).
Definition simple (x : stmt) : Prop :=
  match x with SPlain _ | SAssign _ | SDecl _ None [] | SJump _ => True | _ => False end.
Definition wf_labels (ls : list (list (list nat))) : Prop := Forall (fun ps => ps <> [] /\ Forall (fun p => p <> []) ps) ls.
Fixpoint wf (x : stmt) : Prop :=
  match x with
  | SPlain _ | SAssign _ | SJump _ => True
  | SDecl _ _ rs => Forall (fun r => balanced r /\ ~ In Unmulti r) rs
  | SScope _ b => wfs b
  | SIf _ _ _ b rest => wf_body b /\ wf_branches rest
  | SSwitch _ cs => wf_switch cs
  | SFor _ _ b | SWhile _ _ b => wf_body b
  end
with wfs (b : block) : Prop := match b with Nil => True | Cons x b => wf x /\ wfs b end
with wf_body (b : body) : Prop := match b with Block b => wfs b | Line x => simple x end
with wf_branches (r : branches) : Prop :=
  match r with BEnd => True | BElse b => wf_body b | BElif _ _ _ b rest => wf_body b /\ wf_branches rest end
with wf_switch (cs : switch) : Prop :=
  match cs with
  | CEnd => True
  | CDefault ls b => wf_labels ls /\ wf_body b
  | CCase ls b rest => ls <> [] /\ wf_labels ls /\ wf_body b /\ wf_switch rest
  end.
(* Without while. *)
Fixpoint bounded (x : stmt) : Prop :=
  match x with
  | SScope _ b => boundeds b
  | SIf _ _ _ b rest => bounded_body b /\ bounded_branches rest
  | SSwitch _ cs => bounded_switch cs
  | SFor _ _ b => bounded_body b
  | SWhile _ _ _ => False
  | _ => True
  end
with boundeds (b : block) : Prop := match b with Nil => True | Cons x b => bounded x /\ boundeds b end
with bounded_body (b : body) : Prop := match b with Block b => boundeds b | Line x => bounded x end
with bounded_branches (r : branches) : Prop :=
  match r with BEnd => True | BElse b => bounded_body b | BElif _ _ _ b rest => bounded_body b /\ bounded_branches rest end
with bounded_switch (cs : switch) : Prop :=
  match cs with CEnd => True | CDefault _ b => bounded_body b | CCase _ b rest => bounded_body b /\ bounded_switch rest end.

Section Spec.
Context {state val elem : Type}.
Context (eval : nat -> state -> option val) (truth null empty : val -> option bool)
        (compare : val -> option nat -> nat -> state -> option (bool * val))
        (elems : nat -> state -> option (list elem)) (touch : nat -> state -> state) (assign : nat -> elem -> state -> option state)
        (exec : nat -> state -> option state) (enter : nat -> state -> option state) (leave : state -> state -> state)
        (declare : nat -> list nat -> list (list line) -> state -> option state).

(* What executing ends with. *)
Inductive outcome := Normal (s : state) | Jump (c : control) (s : state) | Error.

(* Whether a condition holds in a state; it does not if it is neither true nor false. *)
Inductive holds (k : test) (neg : bool) (e : nat) (s : state) : bool -> Prop :=
| holds_intro v x :
    eval e s = Some v -> (match k with Truth => truth | Null => null | Empty => empty end) v = Some x -> holds k neg e s (xorb neg x).
Definition senseless (k : test) (neg : bool) (e : nat) (s : state) : Prop := forall x, ~ holds k neg e s x.

(* Values of a switch are compared with alternatives until one matches, with patterns until one does not, and with
   labels until one does. Comparing a value can change its type. *)
Notation vals := (list (val * option nat)).
Inductive alts (f : option nat) (s : state) : val -> list nat -> option (bool * val) -> Prop :=
| alts_fail v p ps : compare v f p s = None -> alts f s v (p :: ps) None
| alts_hit v p ps v' : compare v f p s = Some (true, v') -> alts f s v (p :: ps) (Some (true, v'))
| alts_miss v p v' : compare v f p s = Some (false, v') -> alts f s v [p] (Some (false, v'))
| alts_next v p q ps v' r : compare v f p s = Some (false, v') -> alts f s v' (q :: ps) r -> alts f s v (p :: q :: ps) r.
Definition with_val (x : val * option nat) (r : option (bool * vals)) : option (bool * vals) :=
  match r with Some (t, vs) => Some (t, x :: vs) | None => None end.
Inductive pats (s : state) : vals -> list (list nat) -> option (bool * vals) -> Prop :=
| pats_many p ps : pats s [] (p :: ps) None
| pats_fail v f vs p ps : alts f s v p None -> pats s ((v, f) :: vs) (p :: ps) None
| pats_miss v f vs p ps v' : alts f s v p (Some (false, v')) -> pats s ((v, f) :: vs) (p :: ps) (Some (false, (v', f) :: vs))
| pats_last v f vs p v' : alts f s v p (Some (true, v')) -> pats s ((v, f) :: vs) [p] (Some (true, (v', f) :: vs))
| pats_next v f vs p q ps v' r :
    alts f s v p (Some (true, v')) -> pats s vs (q :: ps) r -> pats s ((v, f) :: vs) (p :: q :: ps) (with_val (v', f) r).
Inductive labels (s : state) : vals -> list (list (list nat)) -> option (bool * vals) -> Prop :=
| labels_none vs : labels s vs [] (Some (false, vs))
| labels_fail vs l ls : pats s vs l None -> labels s vs (l :: ls) None
| labels_hit vs l ls vs' : pats s vs l (Some (true, vs')) -> labels s vs (l :: ls) (Some (true, vs'))
| labels_next vs l ls vs' r : pats s vs l (Some (false, vs')) -> labels s vs' ls r -> labels s vs (l :: ls) r.

Definition of_option (x : option state) : outcome := match x with Some s => Normal s | None => Error end.
Definition switch_values (es : list (nat * option nat)) (s : state) (vs : vals) : Prop :=
  Forall2 (fun ef vf => eval (fst ef) s = Some (fst vf) /\ snd ef = snd vf) es vs.

(* The next iteration follows. *)
Inductive again : outcome -> state -> Prop := again_normal s : again (Normal s) s | again_continue s : again (Jump Cont s) s.

(* lp: whether inside a loop. *)
Inductive runs : bool -> stmt -> state -> outcome -> Prop :=
| r_plain lp c s : runs lp (SPlain c) s (of_option (exec c s))
| r_assign lp c s : runs lp (SAssign c) s (of_option (exec c s))
| r_decl lp c vars rs s :
    runs lp (SDecl c vars rs) s (of_option (declare c (match vars with Some vs => vs | None => [] end) rs s))
| r_scope lp d b s s1 o :
    enter d s = Some s1 -> runs_block lp b s1 o ->
    runs lp (SScope d b) s (match o with Normal s2 => Normal (leave s s2) | Jump c s2 => Jump c (leave s s2) | Error => Error end)
| r_scope_fail lp d b s : enter d s = None -> runs lp (SScope d b) s Error
| r_if lp k neg e b rest s o : runs_branches lp (BElif k neg e b rest) s o -> runs lp (SIf k neg e b rest) s o
| r_switch lp es cs s vs o : switch_values es s vs -> runs_switch lp cs vs s o -> runs lp (SSwitch es cs) s o
| r_switch_fail lp es cs s : (forall vs, ~ switch_values es s vs) -> runs lp (SSwitch es cs) s Error
| r_for lp v e b s xs o : elems e s = Some xs -> runs_for v b xs (touch v s) o -> runs lp (SFor v e b) s o
| r_for_fail lp v e b s : elems e s = None -> runs lp (SFor v e b) s Error
| r_while lp neg e b s o : runs_while neg e b s o -> runs lp (SWhile neg e b) s o
| r_jump lp c s : runs lp (SJump c) s (if lp then Jump c s else Error)
with runs_block : bool -> block -> state -> outcome -> Prop :=
| r_nil lp s : runs_block lp Nil s (Normal s)
| r_cons lp x b s s1 o : runs lp x s (Normal s1) -> runs_block lp b s1 o -> runs_block lp (Cons x b) s o
| r_cons_jump lp x b s c s1 : runs lp x s (Jump c s1) -> runs_block lp (Cons x b) s (Jump c s1)
| r_cons_fail lp x b s : runs lp x s Error -> runs_block lp (Cons x b) s Error
with runs_body : bool -> body -> state -> outcome -> Prop :=
| r_block lp b s o : runs_block lp b s o -> runs_body lp (Block b) s o
| r_line lp x s o : runs lp x s o -> runs_body lp (Line x) s o
with runs_branches : bool -> branches -> state -> outcome -> Prop :=
| r_end lp s : runs_branches lp BEnd s (Normal s)
| r_else lp b s o : runs_body lp b s o -> runs_branches lp (BElse b) s o
| r_taken lp k neg e b rest s o : holds k neg e s true -> runs_body lp b s o -> runs_branches lp (BElif k neg e b rest) s o
| r_skipped lp k neg e b rest s o : holds k neg e s false -> runs_branches lp rest s o -> runs_branches lp (BElif k neg e b rest) s o
| r_senseless lp k neg e b rest s : senseless k neg e s -> runs_branches lp (BElif k neg e b rest) s Error
with runs_switch : bool -> switch -> vals -> state -> outcome -> Prop :=
| r_none lp vs s : runs_switch lp CEnd vs s (Normal s)
| r_default lp ls b vs s r o : labels s vs ls (Some r) -> runs_body lp b s o -> runs_switch lp (CDefault ls b) vs s o
| r_default_fail lp ls b vs s : labels s vs ls None -> runs_switch lp (CDefault ls b) vs s Error
| r_case lp ls b rest vs s vs' o : labels s vs ls (Some (true, vs')) -> runs_body lp b s o -> runs_switch lp (CCase ls b rest) vs s o
| r_other lp ls b rest vs s vs' o :
    labels s vs ls (Some (false, vs')) -> runs_switch lp rest vs' s o -> runs_switch lp (CCase ls b rest) vs s o
| r_case_fail lp ls b rest vs s : labels s vs ls None -> runs_switch lp (CCase ls b rest) vs s Error
with runs_for : nat -> body -> list elem -> state -> outcome -> Prop :=
| r_for_end v b s : runs_for v b [] s (Normal s)
| r_for_assign v b x xs s : assign v x s = None -> runs_for v b (x :: xs) s Error
| r_for_next v b x xs s s1 o1 s2 o :
    assign v x s = Some s1 -> runs_body true b s1 o1 -> again o1 s2 -> runs_for v b xs s2 o ->
    runs_for v b (x :: xs) s o
| r_for_break v b x xs s s1 s2 : assign v x s = Some s1 -> runs_body true b s1 (Jump Brk s2) -> runs_for v b (x :: xs) s (Normal s2)
| r_for_error v b x xs s s1 : assign v x s = Some s1 -> runs_body true b s1 Error -> runs_for v b (x :: xs) s Error
with runs_while : bool -> nat -> body -> state -> outcome -> Prop :=
| r_while_senseless neg e b s : senseless Truth neg e s -> runs_while neg e b s Error
| r_while_end neg e b s : holds Truth neg e s false -> runs_while neg e b s (Normal s)
| r_while_next neg e b s o1 s1 o :
    holds Truth neg e s true -> runs_body true b s o1 -> again o1 s1 -> runs_while neg e b s1 o ->
    runs_while neg e b s o
| r_while_break neg e b s s1 : holds Truth neg e s true -> runs_body true b s (Jump Brk s1) -> runs_while neg e b s (Normal s1)
| r_while_error neg e b s : holds Truth neg e s true -> runs_body true b s Error -> runs_while neg e b s Error.
End Spec.
