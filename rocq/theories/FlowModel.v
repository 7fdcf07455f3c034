(* Model of flow control in scripts: pre-parsing of buildscripts,
   libbuild2/build/script/parser.cxx:174-217, 252-869 and
   libbuild2/script/parser.cxx:2182-2260, and execution of lines,
   libbuild2/script/parser.cxx:2320-3157.

   A line is its type and a number that stands for its tokens. What the lines do when
   executed are the functions of the environment below. *)
From Verif Require Import Base.

(* line_type, libbuild2/script/script.hxx. The conditions: command, null, empty; neg is the
   form with '!'. *)
Inductive ckind := KCmd | KNull | KEmpty.
Inductive ltype := LVar | LCmd | LIf (k : ckind) (neg : bool) | LElif (k : ckind) (neg : bool) | LElse | LWhile | LForStream | LForArgs | LContinue | LBreak | LEnd.
Definition line := (ltype * nat)%type.

(* Pre-parsing. The source: lines and braces that are on lines of their own. For the syntax
   version 2 there is no LEnd (see script/parser.cxx:2219-2252). Being able to parse the
   line itself is not modelled.

   The functions return the lines appended to the script and the rest of the source, None
   is a failure (or that there are not enough steps). *)
Inductive src := SLine (t : ltype) (id : nat) | LBrace | RBrace.
Definition is_if (t : ltype) : bool := match t with LIf _ _ => true | _ => false end.
Definition is_loop (t : ltype) : bool := match t with LWhile | LForStream | LForArgs => true | _ => false end.
Definition is_else (t : ltype) : bool := match t with LElse => true | _ => false end.
Definition is_elif (t : ltype) : bool := match t with LElif _ _ => true | _ => false end.
Definition is_end (t : ltype) : bool := match t with LEnd => true | _ => false end.
Definition end_line : line := (LEnd, 0).

(* The functions, to be called recursively. if_else is whether fct is cmd_if, fct whether it
   is present, loop is loop_level_, bt is whether the current block is else. *)
Inductive pre :=
| PLine (fct if_else : bool) (* pre_parse_line () *)
| PIf (bt : bool)            (* the loop of pre_parse_if_else () *)
| PBlock                     (* the loop of pre_parse_block () *)
| PBlockLine                 (* pre_parse_block () or pre_parse_block_line (), depending on the token *)
| PIfV1 (bt : bool)          (* the loop of pre_parse_if_else_v1 () *)
| PLoopV1.                   (* the loop of pre_parse_loop_v1 () *)
Fixpoint pre_parse (steps : nat) (v1 : bool) (loop : nat) (p : pre) (s : list src) : option (list line * list src) :=
  match steps with
  | O => None
  | S steps =>
      let self := pre_parse steps v1 in
      match p with
      (* parser.cxx:252-558 *)
      | PLine fct if_else =>
          match s with
          | SLine t id :: s =>
              if match t with LContinue | LBreak => loop =? 0 | _ => false end then None
              else if match t with LElif _ _ | LElse => negb if_else | LEnd => negb fct | _ => false end then None
              else if is_if t then
                match self loop (if v1 then PIfV1 false else PIf false) s with
                | Some (l, s) => Some ((t, id) :: l, s)
                | None => None
                end
              else if is_loop t then
                if v1 then match self (S loop) PLoopV1 s with Some (l, s) => Some ((t, id) :: l, s) | None => None end
                else match self (S loop) PBlockLine s with Some (l, s) => Some ((t, id) :: l ++ [end_line], s) | None => None end
              else Some ([(t, id)], s)
          | _ => None
          end
      (* 560-615, 665-686 *)
      | PBlockLine =>
          match s with
          | LBrace :: s => self loop PBlock s
          | _ => self loop (PLine false false) s
          end
      | PBlock =>
          match s with
          | RBrace :: s => Some ([], s)
          | LBrace :: _ => None
          | _ => match self loop (PLine false false) s with
                 | Some (l, s) => match self loop PBlock s with Some (l', s) => Some (l ++ l', s) | None => None end
                 | None => None
                 end
          end
      (* 656-741 *)
      | PIf bt =>
          match self loop PBlockLine s with
          | Some (l, s) =>
              match s with
              | SLine t id :: _ =>
                  if is_elif t || is_else t then
                    if bt then None
                    else match self loop (PLine true true) s with
                         | Some (l', s) => match self loop (PIf (is_else t)) s with Some (l'', s) => Some (l ++ l' ++ l'', s) | None => None end
                         | None => None
                         end
                  else Some (l ++ [end_line], s)
              | _ => Some (l ++ [end_line], s)
              end
          | None => None
          end
      (* 617-655, 743-804 *)
      | PIfV1 bt =>
          match self loop (PLine true true) s with
          | Some ((t, id) :: l, s) =>
              if is_end t then Some ((t, id) :: l, s)
              else if bt && (is_elif t || is_else t) then None
              else match self loop (PIfV1 (if is_elif t then false else if is_else t then true else bt)) s with Some (l', s) => Some ((t, id) :: l ++ l', s) | None => None end
          | _ => None
          end
      (* 837-866 *)
      | PLoopV1 =>
          match self loop (PLine true false) s with
          | Some ((t, id) :: l, s) =>
              if is_end t then Some ((t, id) :: l, s)
              else match self loop PLoopV1 s with Some (l', s) => Some ((t, id) :: l ++ l', s) | None => None end
          | _ => None
          end
      end
  end.
(* pre_parse_script (), 174-217 *)
Fixpoint pre_parse_script (steps : nat) (v1 : bool) (s : list src) : option (list line) :=
  match steps, s with
  | O, _ => None
  | S _, [] => Some []
  | S n, _ =>
      match pre_parse n v1 0 (PLine false false) s with
      | Some (l, s) => match pre_parse_script n v1 s with Some l' => Some (l ++ l') | None => None end
      | None => None
      end
  end.

(* The environment: the state, the elements of for-loop values and what lines do to it. A
   command can complete, exit the script or fail (throw failed). A condition also has the
   value. Commands and conditions are passed the iteration indexes (innermost first) and the
   line index. *)
Inductive result {A} := Ok (x : A) | Exits (code : nat) | Fails.
Arguments result : clear implicits.
Record environment (St Val : Type) := mkenv {
  e_set : nat -> St -> St * bool;                                  (* exec_set *)
  e_cmd : nat -> list nat -> nat -> bool -> St -> St * result unit; (* exec_cmd *)
  e_cond : nat -> list nat -> nat -> St -> St * result bool;        (* exec_cond *)
  e_null : nat -> St -> St * option bool;                          (* parse_value_null () *)
  e_empty : nat -> St -> St * option bool;                         (* parse_value_empty () *)
  e_values : nat -> St -> St * option (list Val);                  (* value of for x: ..., nothing if null *)
  e_for : nat -> Val -> St -> St * bool;                           (* exec_for, environment::set_variable () *)
  e_stream : nat -> list nat -> nat -> St -> St * option (list Val); (* exec_cmd of for, up to reading *)
  e_stream_end : nat -> St -> St * bool                            (* the same, after reading *)
}.
Arguments e_set {St Val}. Arguments e_cmd {St Val}. Arguments e_cond {St Val}. Arguments e_null {St Val}. Arguments e_empty {St Val}.
Arguments e_values {St Val}. Arguments e_for {St Val}. Arguments e_stream {St Val}. Arguments e_stream_end {St Val}.

(* The result of exec_lines (): completed (with the line index), exited, loop_control thrown,
   failed thrown and assertion. *)
Inductive res (St : Type) := Done (li : nat) (st : St) | Exit (code : nat) (st : St) | Loop (brk : bool) (st : St) | Failed (st : St) | Assert.
Arguments Done {St}. Arguments Exit {St}. Arguments Loop {St}. Arguments Failed {St}. Arguments Assert {St}.

(* fcend, 2346-2440: goes over the lines after j. Returns the lines before the one found, the line
   found, the lines after it and by how much li is incremented if skipping. *)
Definition starts (t : ltype) : bool := is_if t || is_loop t.
Definition counts (t : ltype) : nat := match t with LCmd | LIf _ _ | LElif _ _ | LForStream | LWhile => 1 | _ => 0 end.
Definition stops (end_ : bool) (t : ltype) : bool := is_end t || (negb end_ && (is_elif t || is_else t)).
Fixpoint fcend (end_ : bool) (n : nat) (ls : list line) : option (list line * line * list line * nat) :=
  match ls with
  | [] => None
  | l :: ls =>
      let n := if starts (fst l) then S n else n in
      if (n =? 0) && stops end_ (fst l) then Some ([], l, ls, 0)
      else match fcend end_ (if is_end (fst l) then n - 1 else n) ls with
           | Some (pre, x, post, k) => Some (l :: pre, x, post, counts (fst l) + k)
           | None => None
           end
  end.

Section Exec.
Context {St Val : Type} (env : environment St Val) (throw_on_failure : bool).

(* catch (const exit&), 3142-3156 *)
Definition leave (code : nat) (st : St) : res St := if throw_on_failure && negb (code =? 0) then Failed st else Exit code st.
(* Evaluating the condition: 2484-2545. *)
Definition test (k : ckind) (neg : bool) (id : nat) (ii : list nat) (li : nat) (st : St) : St * nat * result bool :=
  let fix_ v := if neg : bool then negb v else v in
  match k with
  | KCmd => let '(st, r) := e_cond env id ii li st in (st, S li, match r with Ok v => Ok (fix_ v) | Exits c => Exits c | Fails => Fails end)
  | KNull => let '(st, r) := e_null env id st in (st, li, match r with Some v => Ok (fix_ v) | None => Fails end)
  | KEmpty => let '(st, r) := e_empty env id st in (st, li, match r with Some v => Ok (fix_ v) | None => Fails end)
  end.
Definition is_var (l : line) : bool := match fst l with LVar => true | _ => false end.

(* exec_lines (), 2320-3157: what remains to be done. TLines: the lines from i to e. TWhile:
   about to evaluate the condition of the while line, ls is what follows it. TFor: the
   values that remain; li is None if it is to be re-calculated, found is fe != e. *)
Inductive task :=
| TLines (ls : list line) (li : nat)
| TWhile (wi wli id : nat) (ls : list line)
| TFor (stream : bool) (id fi fli : nat) (vs : list Val) (ls : list line) (li : option nat) (found : bool).
(* None: not enough steps. *)
Fixpoint exec (steps : nat) (ii : list nat) (t : task) (st : St) : option (res St) :=
  match steps with
  | O => None
  | S steps =>
      match t with
      | TLines [] li => Some (Done li st)
      | TLines ((t, id) :: ls) li =>
          let branch st li r :=
            match r with
            | Fails => Some (Failed st)
            | Exits c => Some (leave c st)
            | Ok true =>
                match fcend false 0 ls with
                | None => Some Assert
                | Some (body, l, rest, _) =>
                    match exec steps ii (TLines body li) st with
                    | Some (Done li st) =>
                        if is_end (fst l) then exec steps ii (TLines rest li) st
                        else match fcend true 0 rest with
                             | None => Some Assert
                             | Some (_, _, rest, k) => exec steps ii (TLines rest (li + k)) st
                             end
                    | r => r
                    end
                end
            | Ok false =>
                match fcend false 0 ls with
                | None => Some Assert
                | Some (_, l, rest, k) => exec steps ii (TLines (if is_end (fst l) then rest else l :: rest) (li + k)) st
                end
            end in
          match t with
          | LVar => let '(st, ok) := e_set env id st in if ok then exec steps ii (TLines ls li) st else Some (Failed st)
          | LCmd =>
              let '(st, r) := e_cmd env id ii li ((li =? 1) && forallb is_var ls) st in
              match r with
              | Ok _ => exec steps ii (TLines ls (S li)) st
              | Exits c => Some (leave c st)
              | Fails => Some (Failed st)
              end
          | LIf k neg | LElif k neg => let '(st, li, r) := test k neg id ii li st in branch st li r
          | LElse => branch st li (Ok true)
          | LWhile => exec steps ii (TWhile 1 li id ls) st
          | LForStream =>
              let '(st, r) := e_stream env id ii li st in
              match r with
              | Some vs => exec steps ii (TFor true id 1 (S li) vs ls (Some (S li)) false) st
              | None => Some (Failed st)
              end
          | LForArgs =>
              let '(st, r) := e_values env id st in
              match r with
              | Some vs => exec steps ii (TFor false id 1 li vs ls (Some li) false) st
              | None => Some (Failed st)
              end
          | LContinue => Some (Loop false st)
          | LBreak => Some (Loop true st)
          | LEnd => Some Assert
          end
      | TWhile wi wli id ls =>
          let '(st, r) := e_cond env id (wi :: ii) wli st in
          match fcend true 0 ls with
          | None => Some Assert
          | Some (body, _, rest, k) =>
              match r with
              | Fails => Some (Failed st)
              | Exits c => Some (leave c st)
              | Ok false => exec steps ii (TLines rest (S wli + k)) st
              | Ok true =>
                  match exec steps (wi :: ii) (TLines body (S wli)) st with
                  | Some (Done _ st) | Some (Loop false st) => exec steps ii (TWhile (S wi) wli id ls) st
                  | Some (Loop true st) => exec steps ii (TLines rest (S wli + k)) st
                  | r => r
                  end
              end
          end
      | TFor stream id fi fli vs ls li found =>
          let finish st r := if stream then let '(st, ok) := e_stream_end env id st in if ok then r st else Some (Failed st) else r st in
          match fcend true 0 ls with
          | None => Some Assert
          | Some (body, _, rest, k) =>
              match vs with
              | [] => finish st (fun st => exec steps ii (TLines rest (match li with None => fli + k | Some li => if found then li else li + k end)) st)
              | v :: vs =>
                  let '(st, ok) := e_for env id v st in
                  if ok then
                    match exec steps (fi :: ii) (TLines body fli) st with
                    | Some (Done li st) => exec steps ii (TFor stream id (S fi) fli vs ls (Some li) true) st
                    | Some (Loop false st) => exec steps ii (TFor stream id (S fi) fli vs ls None true) st
                    | Some (Loop true st) => exec steps ii (TFor stream id (S fi) fli [] ls None true) st
                    | Some (Exit c st) => finish st (fun st => Some (Exit c st))
                    | r => r
                    end
                  else Some (Failed st)
              end
          end
      end
  end.
End Exec.
