(* Model of parsing and evaluating of evaluation contexts, libbuild2/parser.cxx.

   The tokens are those between the parentheses, with the following simplification:
   everything that parse_value() consumes and that is not itself a lone nested
   evaluation context (names, expansions, function calls, concatenations, etc.) is a
   single operand, TVal, and so are attributes with the square brackets, TAttr.
   Evaluating an operand can fail and so can applying attributes. What is evaluated
   is recorded in the log. *)
From Verif Require Import Base.

Inductive cop := CEq | CNe | CLt | CLe | CGt | CGe.
Inductive tok (A B : Type) :=
| TVal (a : A) | TAttr (c : B) | TNot | TCmp (o : cop) | TAnd | TOr | TQuestion | TColon | TComma | TLparen | TRparen | TOther.
Arguments TVal {A B}. Arguments TAttr {A B}. Arguments TNot {A B}. Arguments TCmp {A B}. Arguments TAnd {A B}. Arguments TOr {A B}.
Arguments TQuestion {A B}. Arguments TColon {A B}. Arguments TComma {A B}. Arguments TLparen {A B}. Arguments TRparen {A B}. Arguments TOther {A B}.
Inductive event (A B : Type) := EVal (a : A) | EAttr (c : B).
Arguments EVal {A B}. Arguments EAttr {A B}.

(* The values and what is done with them.
   value_of: the value of an operand.
   to_bool: convert<bool> (), of_bool: value (bool), empty: value (names ()).
   cmp: compare_values () (7642-7698), which fails if the types are different.
   attr: apply_value_attributes ().
   qual: the target-qualified name, from the value before the colon and the name
   after it (7598-7621). *)
Record world (A B V : Type) := mkworld {
  value_of : A -> option V; empty : V; to_bool : V -> option bool; of_bool : bool -> V;
  cmp : cop -> V -> V -> option bool; attr : B -> V -> option V; qual : V -> V -> option V }.
Arguments value_of {A B V}. Arguments empty {A B V}. Arguments to_bool {A B V}. Arguments of_bool {A B V}. Arguments cmp {A B V}. Arguments attr {A B V}. Arguments qual {A B V}.

Section Eval.
Context {A B V : Type} (w : world A B V).
Notation toks := (list (tok A B)).
Notation log := (list (event A B)).

(* The result: a value, what has been evaluated and the remaining tokens, or failure
   (of parsing or evaluating). Stuck: out of fuel. *)
Inductive res (X : Type) := Ok (x : X) (l : log) (rest : toks) | Fail (l : log) | Stuck.
Arguments Ok {X}. Arguments Fail {X}. Arguments Stuck {X}.
Definition andthen {X Y} (r : res X) (k : X -> toks -> res Y) : res Y :=
  match r with
  | Ok v l ts => match k v ts with Ok v' l' ts' => Ok v' (l ++ l') ts' | Fail l' => Fail (l ++ l') | Stuck => Stuck end
  | Fail l => Fail l
  | Stuck => Stuck
  end.
Definition need {X} (o : option X) (ts : toks) : res X := match o with Some v => Ok v [] ts | None => Fail [] end.
(* 7548-7565: there is no value. *)
Definition no_value (t : tok A B) : bool :=
  match t with TColon | TQuestion | TComma | TRparen | TCmp _ | TOr | TAnd => true | _ => false end.

(* pp: pre_parse_, which is an argument since it is always restored. n: fuel. *)
Fixpoint p_eval (n : nat) (pp : bool) (ts : toks) : res (list V) := (* parse_eval, 7277-7298 *)
  match n with
  | 0 => Stuck
  | S n =>
      match ts with
      | TRparen :: _ => Ok [] [] ts
      | _ => andthen (p_comma n pp ts) (fun vs ts => match ts with TRparen :: _ => Ok vs [] ts | _ => Fail [] end)
      end
  end
with p_comma (n : nat) (pp : bool) (ts : toks) : res (list V) := (* parse_eval_comma, 7300-7325; first is true, see p_eval *)
  match n with
  | 0 => Stuck
  | S n => andthen (p_ternary n true pp ts) (fun v ts => p_comma_loop n pp (if pp then [] else [v]) ts)
  end
with p_comma_loop (n : nat) (pp : bool) (vs : list V) (ts : toks) : res (list V) := (* 7314-7322 *)
  match n with
  | 0 => Stuck
  | S n =>
      match ts with
      | TComma :: ts => andthen (p_ternary n false pp ts) (fun v ts => p_comma_loop n pp (if pp then vs else vs ++ [v]) ts)
      | _ => Ok vs [] ts
      end
  end
with p_ternary (n : nat) (first pp : bool) (ts : toks) : res V := (* parse_eval_ternary, 7327-7390 *)
  match n with
  | 0 => Stuck
  | S n =>
      andthen (p_or n first pp ts) (fun lhs ts =>
        match ts with
        | TQuestion :: ts =>
            andthen (need (if pp then Some true else to_bool w lhs) ts) (fun q ts =>
              andthen (p_ternary n false (if pp then pp else negb q) ts) (fun mhs ts =>
                match ts with
                | TColon :: ts =>
                    andthen (p_ternary n false (if pp then pp else q) ts) (fun rhs ts => Ok (if q then mhs else rhs) [] ts)
                | _ => Fail []
                end))
        | _ => Ok lhs [] ts
        end)
  end
with p_or (n : nat) (first pp : bool) (ts : toks) : res V := (* parse_eval_or, 7392-7431 *)
  match n with
  | 0 => Stuck
  | S n => andthen (p_and n first pp ts) (fun lhs ts => p_or_loop n pp lhs ts)
  end
with p_or_loop (n : nat) (pp : bool) (lhs : V) (ts : toks) : res V := (* 7407-7427 *)
  match n with
  | 0 => Stuck
  | S n =>
      match ts with
      | TOr :: ts =>
          andthen (need (if pp then Some false else to_bool w lhs) ts) (fun c ts =>
            let pp := if negb pp && c then true else pp in
            andthen (p_and n false pp ts) (fun rhs ts =>
              if pp then p_or_loop n pp lhs ts
              else andthen (need (to_bool w rhs) ts) (fun x ts => p_or_loop n pp (of_bool w x) ts)))
      | _ => Ok lhs [] ts
      end
  end
with p_and (n : nat) (first pp : bool) (ts : toks) : res V := (* parse_eval_and, 7433-7472 *)
  match n with
  | 0 => Stuck
  | S n => andthen (p_comp n first pp ts) (fun lhs ts => p_and_loop n pp lhs ts)
  end
with p_and_loop (n : nat) (pp : bool) (lhs : V) (ts : toks) : res V := (* 7448-7468 *)
  match n with
  | 0 => Stuck
  | S n =>
      match ts with
      | TAnd :: ts =>
          andthen (need (if pp then Some true else to_bool w lhs) ts) (fun c ts =>
            let pp := if negb pp && negb c then true else pp in
            andthen (p_comp n false pp ts) (fun rhs ts =>
              if pp then p_and_loop n pp lhs ts
              else andthen (need (to_bool w rhs) ts) (fun x ts => p_and_loop n pp (of_bool w x) ts)))
      | _ => Ok lhs [] ts
      end
  end
with p_comp (n : nat) (first pp : bool) (ts : toks) : res V := (* parse_eval_comp, 7474-7507 *)
  match n with
  | 0 => Stuck
  | S n => andthen (p_value n first pp ts) (fun lhs ts => p_comp_loop n pp lhs ts)
  end
with p_comp_loop (n : nat) (pp : bool) (lhs : V) (ts : toks) : res V := (* 7484-7504 *)
  match n with
  | 0 => Stuck
  | S n =>
      match ts with
      | TCmp o :: ts =>
          andthen (p_value n false pp ts) (fun rhs ts =>
            if pp then p_comp_loop n pp lhs ts
            else andthen (need (cmp w o lhs rhs) ts) (fun x ts => p_comp_loop n pp (of_bool w x) ts))
      | _ => Ok lhs [] ts
      end
  end
with p_value (n : nat) (first pp : bool) (ts : toks) : res V := (* parse_eval_value, 7509-7640 *)
  match n with
  | 0 => Stuck
  | S n =>
      andthen (match ts with TAttr c :: ts => Ok (Some c) (if pp then [] else [EAttr c]) ts | _ => Ok None [] ts end) (fun at_ ts => (* attributes_push () *)
        andthen (p_bare n pp ts) (fun v ts =>
          match first, ts with
          | true, TColon :: ts => (* 7572-7622 *)
              match at_ with
              | Some _ => Fail []
              | None =>
                  andthen (p_operand n pp ts) (fun name ts =>
                    match ts with
                    | TRparen :: _ => if pp then Ok v [] ts else need (qual w v name) ts
                    | _ => Fail []
                    end)
              end
          | _, _ => (* 7623-7639 *)
              if pp then Ok v [] ts
              else match at_ with None => Ok v [] ts | Some c => need (attr w c v) ts end
          end))
  end
with p_bare (n : nat) (pp : bool) (ts : toks) : res V := (* 7522-7567 *)
  match n with
  | 0 => Stuck
  | S n =>
      match ts with
      | TNot :: ts =>
          andthen (p_value n false pp ts) (fun v ts =>
            if pp then Ok v [] ts else andthen (need (to_bool w v) ts) (fun x ts => Ok (of_bool w (negb x)) [] ts))
      | [] => Fail []
      | t :: _ => if no_value t then Ok (empty w) [] ts else p_operand n pp ts
      end
  end
with p_operand (n : nat) (pp : bool) (ts : toks) : res V := (* parse_value (), in particular 9749-9770 *)
  match n with
  | 0 => Stuck
  | S n =>
      match ts with
      | TVal a :: ts =>
          if pp then Ok (empty w) [] ts else match value_of w a with Some v => Ok v [EVal a] ts | None => Fail [EVal a] end
      | TLparen :: ts =>
          andthen (p_eval n pp ts) (fun vs ts =>
            match ts with
            | TRparen :: ts =>
                if pp then Ok (empty w) [] ts
                else match vs with [] => Ok (empty w) [] ts | [v] => Ok v [] ts | _ => Fail [] end
            | _ => Fail []
            end)
      | _ => Fail []
      end
  end.

(* The fuel that is enough, as shown in the proofs. *)
Definition fuel (ts : toks) : nat := 16 * S (length ts).
(* An evaluation context: the tokens after the opening parenthesis. *)
Definition eval_context (ts : toks) : res (list V) := p_eval (fuel ts) false ts.
End Eval.
Arguments Ok {A B X}. Arguments Fail {A B X}. Arguments Stuck {A B X}.
