(* Specification for scripts: structured programs, how they are written and what executing
   them does. *)
From Verif Require Import Base FlowModel.

Inductive stmt :=
| SVar (id : nat)
| SCmd (id : nat)
| SBreak (id : nat)
| SContinue (id : nat)
| SIf (k : ckind) (neg : bool) (id : nat) (then_ : block) (else_ : chain)
| SWhile (id : nat) (body : block)
| SFor (stream : bool) (id : nat) (body : block)   (* ... | for x   or   for x: ... *)
with block := BNil | BCons (s : stmt) (b : block)
with chain := CNone | CElse (id : nat) (b : block) | CElif (k : ckind) (neg : bool) (id : nat) (b : block) (c : chain).
Scheme stmt_ind3 := Induction for stmt Sort Prop with block_ind3 := Induction for block Sort Prop with chain_ind3 := Induction for chain Sort Prop.
Combined Scheme program_ind from stmt_ind3, block_ind3, chain_ind3.

(* The lines of a program: one after another with 'end' closing every if and loop. *)
Definition for_type (stream : bool) : ltype := if stream then LForStream else LForArgs.
Fixpoint lines_of_stmt (s : stmt) : list line :=
  match s with
  | SVar id => [(LVar, id)]
  | SCmd id => [(LCmd, id)]
  | SBreak id => [(LBreak, id)]
  | SContinue id => [(LContinue, id)]
  | SIf k neg id b c => (LIf k neg, id) :: lines_of b ++ lines_of_chain c
  | SWhile id b => (LWhile, id) :: lines_of b ++ [end_line]
  | SFor stream id b => (for_type stream, id) :: lines_of b ++ [end_line]
  end
with lines_of (b : block) : list line :=
  match b with BNil => [] | BCons s b => lines_of_stmt s ++ lines_of b end
with lines_of_chain (c : chain) : list line :=
  match c with
  | CNone => [end_line]
  | CElse id b => (LElse, id) :: lines_of b ++ [end_line]
  | CElif k neg id b c => (LElif k neg, id) :: lines_of b ++ lines_of_chain c
  end.

(* The text of a program. In the first version of the syntax that's its lines. In the
   second a block is lines in braces or a single statement. *)
Definition text1 (b : block) : list src := map (fun l => SLine (fst l) (snd l)) (lines_of b).
Inductive text_stmt : stmt -> list src -> Prop :=
| t_var id : text_stmt (SVar id) [SLine LVar id]
| t_cmd id : text_stmt (SCmd id) [SLine LCmd id]
| t_break id : text_stmt (SBreak id) [SLine LBreak id]
| t_continue id : text_stmt (SContinue id) [SLine LContinue id]
| t_if k neg id b c t u : text_body b t -> text_chain c u -> text_stmt (SIf k neg id b c) (SLine (LIf k neg) id :: t ++ u)
| t_while id b t : text_body b t -> text_stmt (SWhile id b) (SLine LWhile id :: t)
| t_for stream id b t : text_body b t -> text_stmt (SFor stream id b) (SLine (for_type stream) id :: t)
with text : block -> list src -> Prop :=
| t_nil : text BNil []
| t_cons s b t u : text_stmt s t -> text b u -> text (BCons s b) (t ++ u)
with text_body : block -> list src -> Prop :=
| t_braces b t : text b t -> text_body b (LBrace :: t ++ [RBrace])
| t_single s t : text_stmt s t -> text_body (BCons s BNil) t
with text_chain : chain -> list src -> Prop :=
| t_none : text_chain CNone []
| t_else id b t : text_body b t -> text_chain (CElse id b) (SLine LElse id :: t)
| t_elif k neg id b c t u : text_body b t -> text_chain c u -> text_chain (CElif k neg id b c) (SLine (LElif k neg) id :: t ++ u).

(* break and continue are in loops only. *)
Fixpoint in_loops_stmt (loop : bool) (s : stmt) : Prop :=
  match s with
  | SVar _ | SCmd _ => True
  | SBreak _ | SContinue _ => loop = true
  | SIf _ _ _ b c => in_loops loop b /\ in_loops_chain loop c
  | SWhile _ b | SFor _ _ b => in_loops true b
  end
with in_loops (loop : bool) (b : block) : Prop :=
  match b with BNil => True | BCons s b => in_loops_stmt loop s /\ in_loops loop b end
with in_loops_chain (loop : bool) (c : chain) : Prop :=
  match c with CNone => True | CElse _ b => in_loops loop b | CElif _ _ _ b c => in_loops loop b /\ in_loops_chain loop c end.

(* How many line indexes a part of the program has: one for every command, condition and
   '... | for'. *)
Fixpoint size_stmt (s : stmt) : nat :=
  match s with
  | SCmd _ => 1
  | SVar _ | SBreak _ | SContinue _ => 0
  | SIf _ _ _ b c => S (size b + size_chain c)
  | SWhile _ b => S (size b)
  | SFor stream _ b => (if stream then 1 else 0) + size b
  end
with size (b : block) : nat := match b with BNil => 0 | BCons s b => size_stmt s + size b end
with size_chain (c : chain) : nat := match c with CNone => 0 | CElse _ b => size b | CElif _ _ _ b c => S (size b + size_chain c) end.
(* The same, without the condition the chain starts with. *)
Definition size_rest (c : chain) : nat := match c with CElif _ _ _ b c => size b + size_chain c | c => size_chain c end.

Fixpoint only_vars (b : block) : bool := match b with BNil => true | BCons (SVar _) b => only_vars b | _ => false end.

Section Runs.
Context {St Val : Type} (env : environment St Val) (throw_on_failure : bool).

Definition exited (code : nat) (st : St) : res St := if throw_on_failure && negb (code =? 0) then Failed st else Exit code st.
Definition completed (r : res St) : bool := match r with Done _ _ => true | _ => false end.
Definition completed_or_loop (r : res St) : bool := match r with Done _ _ | Loop _ _ => true | _ => false end.
(* The value of a condition: a failure to evaluate it, exit or true and false; the number of
   line indexes it takes when evaluated. *)
Definition condition (k : ckind) (neg : bool) (id : nat) (ii : list nat) (li : nat) (st : St) (st' : St) (r : result bool) : Prop :=
  match k with
  | KCmd => exists r0, e_cond env id ii li st = (st', r0) /\ r = match r0 with Ok v => Ok (xorb neg v) | Exits c => Exits c | Fails => Fails end
  | KNull => exists r0, e_null env id st = (st', r0) /\ r = match r0 with Some v => Ok (xorb neg v) | None => Fails end
  | KEmpty => exists r0, e_empty env id st = (st', r0) /\ r = match r0 with Some v => Ok (xorb neg v) | None => Fails end
  end.
Definition takes (k : ckind) : nat := match k with KCmd => 1 | _ => 0 end.
(* Ending of '... | for'. *)
Inductive finished (stream : bool) (id : nat) (st : St) (st' : St) : bool -> Prop :=
| f_args : stream = false -> st' = st -> finished stream id st st' true
| f_stream ok : stream = true -> e_stream_end env id st = (st', ok) -> finished stream id st st' ok.

(* runs b ii li st r: executing block b in state st with iteration indexes ii and the first line
   index li has result r. *)
Inductive run1 : stmt -> bool -> list nat -> nat -> St -> res St -> Prop :=
| r_var id last ii li st st' : e_set env id st = (st', true) -> run1 (SVar id) last ii li st (Done li st')
| r_var_fail id last ii li st st' : e_set env id st = (st', false) -> run1 (SVar id) last ii li st (Failed st')
| r_cmd id last ii li st st' u : e_cmd env id ii li ((li =? 1) && last) st = (st', Ok u) -> run1 (SCmd id) last ii li st (Done (S li) st')
| r_cmd_exit id last ii li st st' c : e_cmd env id ii li ((li =? 1) && last) st = (st', Exits c) -> run1 (SCmd id) last ii li st (exited c st')
| r_cmd_fail id last ii li st st' : e_cmd env id ii li ((li =? 1) && last) st = (st', Fails) -> run1 (SCmd id) last ii li st (Failed st')
| r_break id last ii li st : run1 (SBreak id) last ii li st (Loop true st)
| r_continue id last ii li st : run1 (SContinue id) last ii li st (Loop false st)
| r_if k neg id b c last ii li st r : runs_if k neg id b c ii li st r -> run1 (SIf k neg id b c) last ii li st r
| r_while id b last ii li st r : runs_while id b 1 ii li st r -> run1 (SWhile id b) last ii li st r
| r_for_args id b last ii li st st' vs r : e_values env id st = (st', Some vs) -> runs_for false id b vs 1 li ii (li + size b) st' r -> run1 (SFor false id b) last ii li st r
| r_for_args_fail id b last ii li st st' : e_values env id st = (st', None) -> run1 (SFor false id b) last ii li st (Failed st')
| r_for_stream id b last ii li st st' vs r : e_stream env id ii li st = (st', Some vs) -> runs_for true id b vs 1 (S li) ii (S li + size b) st' r -> run1 (SFor true id b) last ii li st r
| r_for_stream_fail id b last ii li st st' : e_stream env id ii li st = (st', None) -> run1 (SFor true id b) last ii li st (Failed st')
with runs : block -> list nat -> nat -> St -> res St -> Prop :=
| r_nil ii li st : runs BNil ii li st (Done li st)
| r_next s b ii li st li' st' r : run1 s (only_vars b) ii li st (Done li' st') -> runs b ii li' st' r -> runs (BCons s b) ii li st r
| r_stop s b ii li st r : run1 s (only_vars b) ii li st r -> completed r = false -> runs (BCons s b) ii li st r
(* if b ... c *)
with runs_if : ckind -> bool -> nat -> block -> chain -> list nat -> nat -> St -> res St -> Prop :=
| i_fail k neg id b c ii li st st' : condition k neg id ii li st st' Fails -> runs_if k neg id b c ii li st (Failed st')
| i_exit k neg id b c ii li st st' code : condition k neg id ii li st st' (Exits code) -> runs_if k neg id b c ii li st (exited code st')
| i_then k neg id b c ii li st st' li' st'' : condition k neg id ii li st st' (Ok true) -> runs b ii (li + takes k) st' (Done li' st'') ->
    runs_if k neg id b c ii li st (Done (li' + size_rest c) st'')
| i_then_stop k neg id b c ii li st st' r : condition k neg id ii li st st' (Ok true) -> runs b ii (li + takes k) st' r -> completed r = false -> runs_if k neg id b c ii li st r
| i_else k neg id b c ii li st st' r : condition k neg id ii li st st' (Ok false) -> runs_chain c ii (li + takes k + size b) st' r -> runs_if k neg id b c ii li st r
with runs_chain : chain -> list nat -> nat -> St -> res St -> Prop :=
| c_none ii li st : runs_chain CNone ii li st (Done li st)
| c_else id b ii li st r : runs b ii li st r -> runs_chain (CElse id b) ii li st r
| c_elif k neg id b c ii li st r : runs_if k neg id b c ii li st r -> runs_chain (CElif k neg id b c) ii li st r
(* Iteration number wi of a while-loop. *)
with runs_while : nat -> block -> nat -> list nat -> nat -> St -> res St -> Prop :=
| w_fail id b wi ii li st st' : e_cond env id (wi :: ii) li st = (st', Fails) -> runs_while id b wi ii li st (Failed st')
| w_exit id b wi ii li st st' c : e_cond env id (wi :: ii) li st = (st', Exits c) -> runs_while id b wi ii li st (exited c st')
| w_end id b wi ii li st st' : e_cond env id (wi :: ii) li st = (st', Ok false) -> runs_while id b wi ii li st (Done (S li + size b) st')
| w_done id b wi ii li st st' li' st'' r : e_cond env id (wi :: ii) li st = (st', Ok true) ->
    runs b (wi :: ii) (S li) st' (Done li' st'') -> runs_while id b (S wi) ii li st'' r -> runs_while id b wi ii li st r
| w_continue id b wi ii li st st' st'' r : e_cond env id (wi :: ii) li st = (st', Ok true) ->
    runs b (wi :: ii) (S li) st' (Loop false st'') -> runs_while id b (S wi) ii li st'' r -> runs_while id b wi ii li st r
| w_break id b wi ii li st st' st'' : e_cond env id (wi :: ii) li st = (st', Ok true) ->
    runs b (wi :: ii) (S li) st' (Loop true st'') -> runs_while id b wi ii li st (Done (S li + size b) st'')
| w_stop id b wi ii li st st' r : e_cond env id (wi :: ii) li st = (st', Ok true) ->
    runs b (wi :: ii) (S li) st' r -> completed_or_loop r = false -> runs_while id b wi ii li st r
(* Iteration number fi of a for-loop with what remains of its values. The last index is the one
   to continue with if there are no more values. *)
with runs_for : bool -> nat -> block -> list Val -> nat -> nat -> list nat -> nat -> St -> res St -> Prop :=
| f_end stream id b fi fli ii li st st' : finished stream id st st' true ->
    runs_for stream id b [] fi fli ii li st (Done li st')
| f_end_fail stream id b fi fli ii li st st' : finished stream id st st' false -> runs_for stream id b [] fi fli ii li st (Failed st')
| f_set_fail stream id b v vs fi fli ii li st st' : e_for env id v st = (st', false) -> runs_for stream id b (v :: vs) fi fli ii li st (Failed st')
| f_done stream id b v vs fi fli ii li st st' li' st'' r : e_for env id v st = (st', true) ->
    runs b (fi :: ii) fli st' (Done li' st'') -> runs_for stream id b vs (S fi) fli ii li' st'' r -> runs_for stream id b (v :: vs) fi fli ii li st r
| f_continue stream id b v vs fi fli ii li st st' st'' r : e_for env id v st = (st', true) ->
    runs b (fi :: ii) fli st' (Loop false st'') -> runs_for stream id b vs (S fi) fli ii (fli + size b) st'' r -> runs_for stream id b (v :: vs) fi fli ii li st r
| f_break stream id b v vs fi fli ii li st st' st'' r : e_for env id v st = (st', true) ->
    runs b (fi :: ii) fli st' (Loop true st'') -> runs_for stream id b [] (S fi) fli ii (fli + size b) st'' r -> runs_for stream id b (v :: vs) fi fli ii li st r
| f_fail stream id b v vs fi fli ii li st st' st'' : e_for env id v st = (st', true) ->
    runs b (fi :: ii) fli st' (Failed st'') -> runs_for stream id b (v :: vs) fi fli ii li st (Failed st'')
| f_exit stream id b v vs fi fli ii li st st' st'' st3 c : e_for env id v st = (st', true) ->
    runs b (fi :: ii) fli st' (Exit c st'') -> finished stream id st'' st3 true -> runs_for stream id b (v :: vs) fi fli ii li st (Exit c st3)
| f_exit_fail stream id b v vs fi fli ii li st st' st'' st3 c : e_for env id v st = (st', true) ->
    runs b (fi :: ii) fli st' (Exit c st'') -> finished stream id st'' st3 false -> runs_for stream id b (v :: vs) fi fli ii li st (Failed st3).
End Runs.
Scheme run1_min := Minimality for run1 Sort Prop with runs_min := Minimality for runs Sort Prop with runs_if_min := Minimality for runs_if Sort Prop
  with runs_chain_min := Minimality for runs_chain Sort Prop with runs_while_min := Minimality for runs_while Sort Prop with runs_for_min := Minimality for runs_for Sort Prop.
Combined Scheme runs_mutind from run1_min, runs_min, runs_if_min, runs_chain_min, runs_while_min, runs_for_min.

(* The source of a script: 'end' exists in the first version of the syntax only. *)
Definition proper (v1 : bool) (s : list src) : Prop := forall id, In (SLine LEnd id) s -> v1 = true /\ id = 0.
(* The text of a program with all blocks in braces. *)
Fixpoint braces_stmt (s : stmt) : list src :=
  match s with
  | SVar id => [SLine LVar id]
  | SCmd id => [SLine LCmd id]
  | SBreak id => [SLine LBreak id]
  | SContinue id => [SLine LContinue id]
  | SIf k neg id b c => SLine (LIf k neg) id :: LBrace :: braces b ++ RBrace :: braces_chain c
  | SWhile id b => SLine LWhile id :: LBrace :: braces b ++ [RBrace]
  | SFor stream id b => SLine (for_type stream) id :: LBrace :: braces b ++ [RBrace]
  end
with braces (b : block) : list src := match b with BNil => [] | BCons s b => braces_stmt s ++ braces b end
with braces_chain (c : chain) : list src :=
  match c with
  | CNone => []
  | CElse id b => SLine LElse id :: LBrace :: braces b ++ [RBrace]
  | CElif k neg id b c => SLine (LElif k neg) id :: LBrace :: braces b ++ RBrace :: braces_chain c
  end.

(* Recording the line and iteration indexes that commands are executed with: the line, the
   iteration indexes and the line index. *)
Definition event := (nat * list nat * nat)%type.
Definition logged {St Val : Type} (env : environment St Val) : environment (St * list event) Val :=
  {| e_set id s := let '(st, ok) := e_set env id (fst s) in ((st, snd s), ok);
     e_cmd id ii li single s := let '(st, r) := e_cmd env id ii li single (fst s) in ((st, (id, ii, li) :: snd s), r);
     e_cond id ii li s := let '(st, r) := e_cond env id ii li (fst s) in ((st, (id, ii, li) :: snd s), r);
     e_null id s := let '(st, r) := e_null env id (fst s) in ((st, snd s), r);
     e_empty id s := let '(st, r) := e_empty env id (fst s) in ((st, snd s), r);
     e_values id s := let '(st, r) := e_values env id (fst s) in ((st, snd s), r);
     e_for id v s := let '(st, ok) := e_for env id v (fst s) in ((st, snd s), ok);
     e_stream id ii li s := let '(st, r) := e_stream env id ii li (fst s) in ((st, (id, ii, li) :: snd s), r);
     e_stream_end id s := let '(st, ok) := e_stream_end env id (fst s) in ((st, snd s), ok) |}.
Definition log_of {St : Type} (r : res (St * list event)) : list event :=
  match r with Done _ s | Exit _ s | Loop _ s | Failed s => snd s | Assert => [] end.
(* Every if has a command as the condition and no elif. *)
Fixpoint plain_stmt (s : stmt) : Prop :=
  match s with
  | SVar _ | SCmd _ | SBreak _ | SContinue _ => True
  | SIf k _ _ b c => k = KCmd /\ plain b /\ match c with CNone => True | CElse _ b => plain b | CElif _ _ _ _ _ => False end
  | SWhile _ b | SFor _ _ b => plain b
  end
with plain (b : block) : Prop := match b with BNil => True | BCons s b => plain_stmt s /\ plain b end.
(* The same, in for-loops. *)
Fixpoint plain_loops_stmt (s : stmt) : Prop :=
  match s with
  | SVar _ | SCmd _ | SBreak _ | SContinue _ => True
  | SIf k _ _ b c => plain_loops b /\ plain_loops_chain c
  | SWhile _ b => plain_loops b
  | SFor _ _ b => plain b
  end
with plain_loops (b : block) : Prop := match b with BNil => True | BCons s b => plain_loops_stmt s /\ plain_loops b end
with plain_loops_chain (c : chain) : Prop := match c with CNone => True | CElse _ b => plain_loops b | CElif _ _ _ b c => plain_loops b /\ plain_loops_chain c end.
(* The positions of commands and conditions, if the first one is li. *)
Fixpoint positions_stmt (s : stmt) (li : nat) : list (nat * nat) :=
  match s with
  | SCmd id => [(id, li)]
  | SVar _ | SBreak _ | SContinue _ => []
  | SIf _ _ id b c => (id, li) :: positions b (S li) ++ positions_chain c (S li + size b)
  | SWhile id b => (id, li) :: positions b (S li)
  | SFor true id b => (id, li) :: positions b (S li)
  | SFor false id b => positions b li
  end
with positions (b : block) (li : nat) : list (nat * nat) :=
  match b with BNil => [] | BCons s b => positions_stmt s li ++ positions b (li + size_stmt s) end
with positions_chain (c : chain) (li : nat) : list (nat * nat) :=
  match c with CNone => [] | CElse _ b => positions b li | CElif _ _ id b c => (id, li) :: positions b (S li) ++ positions_chain c (S li + size b) end.
