(* C33: evaluation contexts. *)
From Verif Require Import Base EvalModel EvalSpec EvalProofs EvalProofs2 EvalProofs3.

(* C33: an evaluation context evaluates to what its expressions mean, evaluating what
   they mean to evaluate, in this order. *)
Theorem C33_meaning {A B V} (w : world A B V) ts c rest : is_context ts c ->
  eval_context w (ts ++ TRparen :: rest) =
  match eval_ctx w c with
  | (Some vs, log) => Ok vs log (TRparen :: rest)
  | (None, log) => Fail log
  end.
Proof.
  intros H. destruct (complete w) as (_ & _ & _ & _ & _ & _ & _ & _ & K). specialize (K ts c H rest). unfold eval_context. rewrite (P_eval_eq w) by (unfold big, fuel; lia). exact (proj1 K).
Qed.
Print Assumptions C33_meaning.

(* C33: nothing else is accepted. *)
Theorem C33_only_expressions {A B V} (w : world A B V) ts vs log rest : eval_context w ts = Ok vs log rest ->
  exists ts' c rest', ts = ts' ++ TRparen :: rest' /\ rest = TRparen :: rest' /\ is_context ts' c /\ eval_ctx w c = (Some vs, log).
Proof.
  intros H. destruct (all w (fuel ts)) as (K & _). destruct (K _ _ _ _ _ H) as (ts1 & c & r & -> & -> & Hc & He). exists ts1, c, r. auto.
Qed.
Print Assumptions C33_only_expressions.

(* C33: parsing always ends, one way or another. *)
Theorem C33_always_ends {A B V} (w : world A B V) ts : eval_context w ts <> Stuck.
Proof.
  unfold eval_context. destruct (enough w (fuel ts)) as (K & _). specialize (K false ts ltac:(unfold fuel; lia)). intros E. rewrite E in K. exact K.
Qed.
Print Assumptions C33_always_ends.

(* C33: the grammar is unambiguous in that all ways to read an expression mean the
   same: precedence and associativity leave no choice. *)
Theorem C33_unambiguous {A B V} (w : world A B V) ts c c' : is_context ts c -> is_context ts c' -> eval_ctx w c = eval_ctx w c'.
Proof.
  intros H H'. pose proof (C33_meaning w ts c [] H) as E. rewrite (C33_meaning w ts c' [] H') in E.
  destruct (eval_ctx w c) as [[v|] l], (eval_ctx w c') as [[v'|] l']; try discriminate; injection E; intros; subst; reflexivity.
Qed.
Print Assumptions C33_unambiguous.

(* C33: the operands that do not matter are not evaluated (and so cannot fail or
   have an effect) but they must still be expressions. *)
Theorem C33_short_circuit {A B V} (w : world A B V) ts1 e1 ts2 e2 v log rest :
  eval w e1 = (Some v, log) ->
  (is_and ts1 e1 -> is_comp ts2 e2 -> to_bool w v = Some false ->
     eval_context w (ts1 ++ TAnd :: ts2 ++ TRparen :: rest) = Ok [v] log (TRparen :: rest)) /\
  (is_or ts1 e1 -> is_and ts2 e2 -> to_bool w v = Some true ->
     eval_context w (ts1 ++ TOr :: ts2 ++ TRparen :: rest) = Ok [v] log (TRparen :: rest)) /\
  (forall ts3 e3 v3 log3, is_or ts1 e1 -> is_ternary ts2 e2 -> is_ternary ts3 e3 -> to_bool w v = Some false -> eval w e3 = (Some v3, log3) ->
     eval_context w (ts1 ++ TQuestion :: ts2 ++ TColon :: ts3 ++ TRparen :: rest) = Ok [v3] (log ++ log3) (TRparen :: rest)) /\
  (forall ts3 e3 v2 log2, is_or ts1 e1 -> is_ternary ts2 e2 -> is_ternary ts3 e3 -> to_bool w v = Some true -> eval w e2 = (Some v2, log2) ->
     eval_context w (ts1 ++ TQuestion :: ts2 ++ TColon :: ts3 ++ TRparen :: rest) = Ok [v2] (log ++ log2) (TRparen :: rest)).
Proof.
  intros E.
  assert (S : forall ts e v log, is_ternary ts e -> ts <> [] -> eval w e = (Some v, log) -> eval_context w (ts ++ TRparen :: rest) = Ok [v] log (TRparen :: rest)).
  { intros ts e x l H Hn He. rewrite (C33_meaning w ts (Values (One e)) rest); [|constructor; [constructor; exact H|exact Hn]].
    change (eval_ctx w (Values (One e))) with (bind (eval w e) (fun v => ret (A := A) (B := B) (Some [v]))). rewrite He. cbn. rewrite app_nil_r. reflexivity. }
  assert (N : forall (x : list (tok A B)) t y, x ++ t :: y <> []) by (intros [|? ?] ? ?; discriminate).
  assert (R : forall x y z : list (tok A B), x ++ TQuestion :: y ++ TColon :: z ++ TRparen :: rest = (x ++ TQuestion :: y ++ TColon :: z) ++ TRparen :: rest).
  { intros x y z. rewrite <- app_assoc. cbn [app]. rewrite <- app_assoc. reflexivity. }
  repeat split.
  - intros H1 H2 Hb. rewrite <- app_app. apply (S _ (And e1 e2)); [constructor; constructor; constructor; assumption|apply N|]. cbn [eval]. rewrite E, bind_some. unfold bool_of, ret. rewrite Hb. cbn. rewrite app_nil_r. reflexivity.
  - intros H1 H2 Hb. rewrite <- app_app. apply (S _ (Or e1 e2)); [constructor; constructor; assumption|apply N|]. cbn [eval]. rewrite E, bind_some. unfold bool_of, ret. rewrite Hb. cbn. rewrite app_nil_r. reflexivity.
  - intros ts3 e3 v3 l3 H1 H2 H3 Hb E3. rewrite (R ts1 ts2 ts3). apply (S _ (Cond e1 e2 e3)); [constructor; assumption|apply N|]. cbn [eval]. rewrite E. unfold bool_of, ret. cbn. rewrite Hb. cbn. rewrite E3. rewrite app_nil_r. reflexivity.
  - intros ts3 e3 v3 l3 H1 H2 H3 Hb E3. rewrite (R ts1 ts2 ts3). apply (S _ (Cond e1 e2 e3)); [constructor; assumption|apply N|]. cbn [eval]. rewrite E. unfold bool_of, ret. cbn. rewrite Hb. cbn. rewrite E3. rewrite app_nil_r. reflexivity.
Qed.
Print Assumptions C33_short_circuit.

(* A world where values are names or booleans and the operand "error" fails. *)
Inductive val := Names (ns : list bytes) | Boolean (x : bool).
Definition val_bool (v : val) : option bool :=
  match v with
  | Boolean x => Some x
  | Names [n] => if beqb n (b "true") then Some true else if beqb n (b "false") then Some false else None
  | _ => None
  end.
Definition val_cmp (o : cop) (x y : val) : option bool :=
  match x, y with
  | Names [u], Names [v] => match o with CEq => Some (beqb u v) | CNe => Some (negb (beqb u v)) | _ => None end
  | _, _ => match val_bool x, val_bool y, o with Some u, Some v, CEq => Some (Bool.eqb u v) | Some u, Some v, CNe => Some (negb (Bool.eqb u v)) | _, _, _ => None end
  end.
Definition example_world : world bytes bytes val :=
  mkworld _ _ _ (fun a => if beqb a (b "error") then None else Some (Names [a])) (Names []) val_bool Boolean val_cmp (fun c v => if beqb c (b "null") then Some (Names []) else Some v)
    (fun v n => match v, n with Names [u], Names [x] => Some (Names [x; u]) | _, _ => None end).
Notation W s := (TVal (b s)).
Notation E s := (EVal (b s)).

(* (a == b || true && false != error ? ... : ...) *)
Example C33_ex1 : is_context (A := bytes) (B := bytes) [W "a"; TCmp CEq; W "b"; TOr; W "true"; TAnd; TNot; W "true"; TQuestion; W "x"; TColon; W "error"; TQuestion; W "y"; TColon; W "z"]
    (Values (One (Cond (Or (Compare CEq (Operand (b "a")) (Operand (b "b"))) (And (Operand (b "true")) (Not (Operand (b "true"))))) (Operand (b "x"))
      (Cond (Operand (b "error")) (Operand (b "y")) (Operand (b "z")))))) /\
  eval_context example_world [W "a"; TCmp CEq; W "b"; TOr; W "true"; TAnd; TNot; W "true"; TQuestion; W "x"; TColon; W "error"; TQuestion; W "y"; TColon; W "z"; TRparen] =
    Fail [E "a"; E "b"; E "true"; E "true"; E "error"] /\
  eval_context example_world [W "a"; TCmp CNe; W "b"; TOr; W "true"; TAnd; TNot; W "true"; TQuestion; W "x"; TColon; W "error"; TQuestion; W "y"; TColon; W "z"; TRparen] =
    Ok [Names [b "x"]] [E "a"; E "b"; E "x"] [TRparen].
Proof.
  split; [|split; vm_compute; reflexivity]. constructor; [|discriminate]. constructor.
  apply (ternary_cond [W "a"; TCmp CEq; W "b"; TOr; W "true"; TAnd; TNot; W "true"] _ [W "x"] _ [W "error"; TQuestion; W "y"; TColon; W "z"]).
  - apply (or_or [W "a"; TCmp CEq; W "b"] _ [W "true"; TAnd; TNot; W "true"]).
    + do 2 constructor. apply (comp_op CEq [W "a"] _ [W "b"]); repeat constructor.
    + apply (and_and [W "true"] _ [TNot; W "true"]); [repeat constructor|]. do 2 constructor. apply bare_not. repeat constructor.
  - repeat constructor.
  - apply (ternary_cond [W "error"] _ [W "y"] _ [W "z"]); repeat constructor.
Qed.
(* Nested, attributes, lists, the qualified name and what is not an expression. *)
Example C33_ex2 :
  eval_context example_world [TLparen; W "a"; TCmp CEq; W "a"; TRparen; TCmp CEq; TAttr (b "bool"); W "true"; TComma; TAttr (b "null"); TRparen] =
    Ok [Boolean true; Names []] [E "a"; E "a"; EAttr (b "bool"); E "true"; EAttr (b "null")] [TRparen] /\
  eval_context example_world [W "foo"; TColon; W "bar"; TRparen] = Ok [Names [b "bar"; b "foo"]] [E "foo"; E "bar"] [TRparen] /\
  eval_context example_world [W "true"; TQuestion; W "bar"; TRparen] = Fail [E "true"; E "bar"] /\
  eval_context example_world [W "true"; TOr; W "x"; TQuestion; TRparen] = Fail [E "true"] /\
  eval_context example_world [TRparen] = Ok [] [] [TRparen].
Proof. repeat split; vm_compute; reflexivity. Qed.
(* Note that when short-circuited, the result of a logical operator is its left
   operand as is, which is not necessarily of the bool type. *)
Example C33_type_of_result :
  eval_context example_world [W "true"; TOr; W "false"; TRparen] = Ok [Names [b "true"]] [E "true"] [TRparen] /\
  eval_context example_world [W "false"; TOr; W "true"; TRparen] = Ok [Boolean true] [E "false"; E "true"] [TRparen].
Proof. split; vm_compute; reflexivity. Qed.
