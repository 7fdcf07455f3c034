(* Expressions, how they are written and what they mean: independently of the
   parser. *)
From Verif Require Import Base EvalModel.

Section Spec.
Context {A B V : Type} (w : world A B V).
Notation toks := (list (tok A B)).
Notation log := (list (event A B)).

Inductive expr :=
| Operand (a : A)
| Nothing (* a missing operand *)
| Attributes (c : B) (e : expr)
| Not (e : expr)
| Compare (o : cop) (e1 e2 : expr)
| And (e1 e2 : expr)
| Or (e1 e2 : expr)
| Cond (e1 e2 e3 : expr)
| Nested (c : context)
with context :=
| NoValues
| Values (es : exprs)
| Qualified (e1 e2 : expr)
with exprs := One (e : expr) | More (es : exprs) (e : expr).

(* The grammar:

   ternary ::= or | or ? ternary : ternary
   or      ::= and | or || and
   and     ::= comp | and && comp
   comp    ::= value | comp <op> value
   value   ::= [attributes] bare | bare
   bare    ::= ! value | operand | <nothing>
   operand ::= <operand> | ( context )
   context ::= <nothing> | list | bare : operand
   list    ::= ternary | list , ternary *)
Inductive is_operand : toks -> expr -> Prop :=
| op_val a : is_operand [TVal a] (Operand a)
| op_nested ts c : is_context ts c -> is_operand (TLparen :: ts ++ [TRparen]) (Nested c)
with is_bare : toks -> expr -> Prop :=
| bare_nothing : is_bare [] Nothing
| bare_operand ts e : is_operand ts e -> is_bare ts e
| bare_not ts e : is_value ts e -> is_bare (TNot :: ts) (Not e)
with is_value : toks -> expr -> Prop :=
| value_bare ts e : is_bare ts e -> is_value ts e
| value_attributes c ts e : is_bare ts e -> is_value (TAttr c :: ts) (Attributes c e)
with is_comp : toks -> expr -> Prop :=
| comp_value ts e : is_value ts e -> is_comp ts e
| comp_op o ts1 e1 ts2 e2 : is_comp ts1 e1 -> is_value ts2 e2 -> is_comp (ts1 ++ TCmp o :: ts2) (Compare o e1 e2)
with is_and : toks -> expr -> Prop :=
| and_comp ts e : is_comp ts e -> is_and ts e
| and_and ts1 e1 ts2 e2 : is_and ts1 e1 -> is_comp ts2 e2 -> is_and (ts1 ++ TAnd :: ts2) (And e1 e2)
with is_or : toks -> expr -> Prop :=
| or_and ts e : is_and ts e -> is_or ts e
| or_or ts1 e1 ts2 e2 : is_or ts1 e1 -> is_and ts2 e2 -> is_or (ts1 ++ TOr :: ts2) (Or e1 e2)
with is_ternary : toks -> expr -> Prop :=
| ternary_or ts e : is_or ts e -> is_ternary ts e
| ternary_cond ts1 e1 ts2 e2 ts3 e3 : is_or ts1 e1 -> is_ternary ts2 e2 -> is_ternary ts3 e3 ->
    is_ternary (ts1 ++ TQuestion :: ts2 ++ TColon :: ts3) (Cond e1 e2 e3)
with is_list : toks -> exprs -> Prop :=
| list_one ts e : is_ternary ts e -> is_list ts (One e)
| list_more ts1 es ts2 e : is_list ts1 es -> is_ternary ts2 e -> is_list (ts1 ++ TComma :: ts2) (More es e)
with is_context : toks -> context -> Prop :=
| context_nothing : is_context [] NoValues
| context_list ts es : is_list ts es -> ts <> [] -> is_context ts (Values es)
| context_qualified ts1 e1 ts2 e2 : is_bare ts1 e1 -> is_operand ts2 e2 -> is_context (ts1 ++ TColon :: ts2) (Qualified e1 e2).

(* The meaning: the value, if any, and what is evaluated for it, in this order. *)
Definition meaning (X : Type) : Type := option X * log.
Definition bind {X Y} (m : meaning X) (k : X -> meaning Y) : meaning Y :=
  match m with
  | (Some v, l) => (fst (k v), l ++ snd (k v))
  | (None, l) => (None, l)
  end.
Definition ret {X} (o : option X) : meaning X := (o, []).
Definition bool_of (v : V) : meaning bool := ret (to_bool w v).
Definition val_of (x : bool) : meaning V := ret (Some (of_bool w x)).

Fixpoint eval (e : expr) : meaning V :=
  match e with
  | Operand a => (value_of w a, [EVal a])
  | Nothing => ret (Some (empty w))
  | Attributes c e => bind (Some tt, [EAttr c]) (fun _ => bind (eval e) (fun v => ret (attr w c v)))
  | Not e => bind (bind (eval e) bool_of) (fun x => val_of (negb x))
  | Compare o e1 e2 => bind (eval e1) (fun v1 => bind (eval e2) (fun v2 => bind (ret (cmp w o v1 v2)) val_of))
  (* Short-circuit: the right operand is only evaluated if it matters. *)
  | And e1 e2 => bind (eval e1) (fun v1 => bind (bool_of v1) (fun x => if x then bind (bind (eval e2) bool_of) val_of else ret (Some v1)))
  | Or e1 e2 => bind (eval e1) (fun v1 => bind (bool_of v1) (fun x => if x then ret (Some v1) else bind (bind (eval e2) bool_of) val_of))
  | Cond e1 e2 e3 => bind (bind (eval e1) bool_of) (fun x => if x then eval e2 else eval e3)
  | Nested c => bind (eval_ctx c) (fun vs => match vs with [] => ret (Some (empty w)) | [v] => ret (Some v) | _ => ret None end)
  end
with eval_ctx (c : context) : meaning (list V) :=
  match c with
  | NoValues => ret (Some [])
  | Values es => eval_list es
  | Qualified e1 e2 => bind (eval e1) (fun v1 => bind (eval e2) (fun v2 => bind (ret (qual w v1 v2)) (fun v => ret (Some [v]))))
  end
with eval_list (es : exprs) : meaning (list V) :=
  match es with
  | One e => bind (eval e) (fun v => ret (Some [v]))
  | More es e => bind (eval_list es) (fun vs => bind (eval e) (fun v => ret (Some (vs ++ [v]))))
  end.
End Spec.
