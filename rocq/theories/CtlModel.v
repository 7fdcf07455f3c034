(* Model of flow control in buildfiles: libbuild2/parser.cxx, parse_clause () (640-2060), parse_clause_block ()
   (2070-2089), parse_if_else () (5334-5549), parse_switch () (5552-5929), parse_for () (5932-6318), parse_while ()
   (6321-6467), skip_line () and skip_block () (10203-10240).

   Simplified: a buildfile is a sequence of lines that are known by their first tokens. Values, commands and names
   are numbers whose meaning is given by parameters. Evaluating a value does not change the state. Recipes are not
   inside if-else and switch of their own (multi = true). A line that is skipped can be tokenized (for example, its
   quotes are balanced). *)
From Verif Require Import Base.

(* if, ifn and ife (parser.cxx 5402-5437) *)
Inductive test := Truth | Null | Empty.
(* First tokens of lines as told apart in parse_clause () (parser.cxx 667-860, 2010-2060). *)
Inductive line :=
| Open | Close                         (* { and } on their own lines *)
| Multi | Unmulti                      (* {{ and }} *)
| If (k : test) (neg : bool) (e : nat) (* neg: if!, ifn! and ife! *)
| Elif (k : test) (neg : bool) (e : nat)
| Else
| Switch (es : list (nat * option nat)) (* values and match functions *)
| Case (ps : list (list nat))           (* patterns with alternatives *)
| Default
| For (v e : nat)
| While (neg : bool) (e : nat)
| Continue | Break
| Assign (c : nat)  (* variable assignment *)
| Plain (c : nat)   (* any other directive *)
| Decl (c : nat)    (* targets and prerequisites *)
| Scope (d : nat).  (* directory *)
Inductive control := Cont | Brk.

Section Model.
Context {state val elem : Type}.
Context (eval : nat -> state -> option val) (truth null empty : val -> option bool)
        (compare : val -> option nat -> nat -> state -> option (bool * val)) (* with the value modified *)
        (elems : nat -> state -> option (list elem)) (touch : nat -> state -> state) (assign : nat -> elem -> state -> option state)
        (exec : nat -> state -> option state) (enter : nat -> state -> option state) (leave : state -> state -> state)
        (declare : nat -> list nat -> list (list line) -> state -> option state).

(* What a parsing function does (parser.cxx 640-): loop_control is an exception. More: the limit of calls is reached. *)
Inductive result := Done (ls : list line) (s : state) | Thrown (c : control) (s : state) | Failed | More.
(* Continue unless there is an exception (C++). *)
Definition and_then (r : result) (f : list line -> state -> result) : result := match r with Done ls s => f ls s | r => r end.

(* skip_block () (parser.cxx 10210-10238): what is skipped and what is left, starting with the closing brace. *)
Fixpoint skip_block (b : nat) (ls : list line) : list line * list line :=
  match ls with
  | [] => ([], [])
  | l :: r =>
      match l, b with
      | Close, O => ([], ls)
      | Close, S b => let x := skip_block b r in (l :: fst x, snd x)
      | Open, _ => let x := skip_block (S b) r in (l :: fst x, snd x)
      | _, _ => let x := skip_block b r in (l :: fst x, snd x)
      end
  end.
(* The condition: whether to take this branch (parser.cxx 5372-5443, 6406-6432). *)
Definition condition (k : test) (neg : bool) (e : nat) (s : state) : option bool :=
  match eval e s with
  | None => None
  | Some v =>
      match (match k with Truth => truth v | Null => null v | Empty => empty v end) with
      | None => None
      | Some x => Some (if neg then negb x else x)
      end
  end.
(* Alternatives of a pattern (parser.cxx 5745-5803). *)
Fixpoint alternatives (v : val) (ps : list nat) (f : option nat) (s : state) : option (bool * val) :=
  match ps with
  | [] => None (* expected case pattern *)
  | p :: ps =>
      match compare v f p s with
      | None => None
      | Some (take, v) => match ps with [] => Some (take, v) | _ => if take then Some (true, v) else alternatives v ps f s end
      end
  end.
(* Patterns of a case (parser.cxx 5731-5823). *)
Fixpoint patterns (vs : list (val * option nat)) (ps : list (list nat)) (s : state) : option (bool * list (val * option nat)) :=
  match ps, vs with
  | [], _ => None (* expected case pattern *)
  | _ :: _, [] => None (* more patterns than switch expressions *)
  | p :: ps, (v, f) :: vs =>
      match alternatives v p f s with
      | None => None
      | Some (false, v) => Some (false, (v, f) :: vs)
      | Some (true, v) =>
          match ps with
          | [] => Some (true, (v, f) :: vs)
          | _ => match patterns vs ps s with None => None | Some (take, vs) => Some (take, (v, f) :: vs) end
          end
      end
  end.
(* Values of a switch (parser.cxx 5601-5641). *)
Fixpoint values (es : list (nat * option nat)) (s : state) : option (list (val * option nat)) :=
  match es with
  | [] => Some []
  | (e, f) :: es => match eval e s, values es s with Some v, Some vs => Some ((v, f) :: vs) | _, _ => None end
  end.
(* special () and lines that are skipped (parser.cxx 5660-5702, 5830-5854). *)
Fixpoint special (seen : bool) (ls : list line) : option (bool * list line) :=
  match ls with
  | Case _ :: r => if seen then None else special seen r
  | Default :: r => if seen then None else special true r
  | _ => Some (seen, ls)
  end.
(* Variable block (parser.cxx 2092-2145); only assignments. *)
Fixpoint variables (ls : list line) : option (list nat * list line) :=
  match ls with
  | Assign c :: r => match variables r with Some (vs, r) => Some (c :: vs, r) | None => None end
  | Close :: r => Some ([], r)
  | _ => None
  end.
Definition variable_block (ls : list line) : option (list nat * list line) :=
  match ls with Open :: r => variables r | _ => Some ([], ls) end.
(* Recipes that follow a declaration (parser.cxx 2147-2200); their text is not interpreted. *)
Fixpoint recipes (inside : option (list line)) (ls : list line) : option (list (list line) * list line) :=
  match inside, ls with
  | None, Multi :: r => recipes (Some []) r
  | None, _ => Some ([], ls)
  | Some _, [] => None
  | Some x, Unmulti :: r => match recipes None r with Some (xs, r) => Some (x :: xs, r) | None => None end
  | Some x, l :: r => recipes (Some (x ++ [l])) r
  end.
(* parse_for () and parse_while (): the body is saved while it is skipped (parser.cxx 6178-6210, 6350-6383). *)
Definition saved (ls : list line) : option (bool * list line * list line) :=
  match ls with
  | Open :: r => match skip_block 0 r with (body, Close :: r) => Some (true, body ++ [Close], r) | _ => None end
  | [] => Some (false, [], [])
  | l :: r => Some (false, [l], r)
  end.
(* The end of the body is as expected (parser.cxx 6285-6288, 6462-6464). *)
Definition complete (block : bool) (ls : list line) : bool :=
  match block, ls with true, Close :: _ => true | false, [] => true | _, _ => false end.

(* parse_clause () (parser.cxx 640-2060), with the directory scope (2010-2060). The number is the limit of nested calls; level is that of loops. *)
Fixpoint clause (n level : nat) (one parsed : bool) (ls : list line) (s : state) : result :=
  match n with
  | O => More
  | S n =>
      let continue r := and_then r (clause n level one true) in
      let run x r := match x with None => Failed | Some s => continue (Done r s) end in
      match ls with
      | [] => Done [] s
      | l :: r =>
          if one && parsed then Done ls s
          else
            match l with
            | Close | Multi | Unmulti => Done ls s (* something else, for the caller *)
            | Open => Failed
            | If _ _ _ => continue (if_else n level false ls s)
            | Elif _ _ _ | Else | Case _ | Default => Failed
            | Switch es =>
                match values es s, r with
                | Some vs, Open :: r => continue (cases n level vs false false r s)
                | _, _ => Failed
                end
            | For v e =>
                match elems e s, saved r with
                | Some xs, Some (block, body, r) => continue (and_then (each n level v xs block body (touch v s)) (fun _ s => Done r s))
                | _, _ => Failed
                end
            | While neg e =>
                match saved r with
                | Some (block, body, r) => continue (and_then (repeat n level neg e block body s) (fun _ s => Done r s))
                | None => Failed
                end
            | Continue => if level =? 0 then Failed else Thrown Cont s
            | Break => if level =? 0 then Failed else Thrown Brk s
            | Assign c | Plain c => run (exec c s) r
            | Decl c =>
                match variable_block r with
                | None => Failed
                | Some (vs, r) => match recipes None r with None => Failed | Some (rs, r) => run (declare c vs rs s) r end
                end
            | Scope d =>
                match r with
                | Open :: r =>
                    match enter d s with
                    | None => Failed
                    | Some s' =>
                        match clause n level false false r s' with
                        | Done (Close :: r) s' => continue (Done r (leave s s'))
                        | Done _ _ => Failed
                        | Thrown c s' => Thrown c (leave s s')
                        | r => r
                        end
                    end
                | _ => Failed
                end
            end
      end
  end
(* The block or line of if-else and switch (parser.cxx 2070-2089, 5453-5522, 5856-5922). *)
with branch (n level : nat) (strict take : bool) (ls : list line) (s : state) : result :=
  match n with
  | O => More
  | S n =>
      match ls with
      | Open :: r =>
          and_then (if take then clause n level false false r s else Done (snd (skip_block 0 r)) s) (fun ls s =>
          match ls with Close :: r => Done r s | _ => Failed end)
      | _ =>
          if match ls with Multi :: _ => strict | _ => false end then Failed
          else if take then
            match ls with
            | [] | Close :: _ | Multi :: _ | Unmulti :: _ => Failed
            | _ => clause n level true false ls s
            end
          else Done (tl ls) s
      end
  end
(* parse_if_else () (parser.cxx 5353-5549) *)
with if_else (n level : nat) (taken : bool) (ls : list line) (s : state) : result :=
  match n with
  | O => More
  | S n =>
      match ls with
      | l :: r =>
          match
            (match l with
             | If k neg e | Elif k neg e => if taken then Some false else condition k neg e s
             | Else => Some (negb taken)
             | _ => None
             end)
          with
          | None => Failed
          | Some take =>
              and_then (branch n level true take r s) (fun ls s =>
              match l, ls with
              | Else, _ => Done ls s
              | _, (Elif _ _ _ | Else) :: _ => if_else n level (taken || take) ls s
              | _, _ => Done ls s
              end)
          end
      | [] => Failed
      end
  end
(* parse_switch () (parser.cxx 5704-5929) *)
with cases (n level : nat) (vs : list (val * option nat)) (taken seen : bool) (ls : list line) (s : state) : result :=
  match n with
  | O => More
  | S n =>
      let after vs seen take r :=
        if match r with (Case _ | Default) :: _ => negb take && negb taken | _ => false end then cases n level vs taken false r s
        else
          match special seen r with
          | None => Failed
          | Some (seen, r) => and_then (branch n level false take r s) (cases n level vs (taken || take) seen)
          end in
      match ls with
      | Close :: r => Done r s
      | Case ps :: r =>
          if seen then Failed
          else if taken then after vs false false r
          else match patterns vs ps s with None => Failed | Some (take, vs) => after vs false take r end
      | Default :: r => if seen then Failed else after vs true (negb taken) r
      | _ => Failed
      end
  end
(* parse_for () (parser.cxx 6212-6318) *)
with each (n level v : nat) (xs : list elem) (block : bool) (body : list line) (s : state) : result :=
  match n with
  | O => More
  | S n =>
      match xs with
      | [] => Done [] s
      | x :: xs =>
          match assign v x s with
          | None => Failed
          | Some s =>
              match clause n (S level) false false body s with
              | Done ls s => if complete block ls then each n level v xs block body s else Failed
              | Thrown Cont s => each n level v xs block body s
              | Thrown Brk s => Done [] s
              | r => r
              end
          end
      end
  end
(* parse_while () (parser.cxx 6321-6467) *)
with repeat (n level : nat) (neg : bool) (e : nat) (block : bool) (body : list line) (s : state) : result :=
  match n with
  | O => More
  | S n =>
      match condition Truth neg e s with
      | None => Failed
      | Some false => Done [] s
      | Some true =>
          match clause n (S level) false false body s with
          | Done ls s => if complete block ls then repeat n level neg e block body s else Failed
          | Thrown Cont s => repeat n level neg e block body s
          | Thrown Brk s => Done [] s
          | r => r
          end
      end
  end.
(* parse_buildfile () (357-400) *)
Definition parse (n : nat) (ls : list line) (s : state) : result :=
  and_then (clause n 0 false false ls s) (fun ls s => match ls with [] => Done [] s | _ => Failed end).
End Model.
