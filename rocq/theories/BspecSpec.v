(* What a buildspec means. *)
From Verif Require Import Base BspecModel.

(* A buildspec is a sequence of names (plain) and calls. A call has names of operations or meta-operations, what is in
   parentheses and parameters, the last of which can be missing after the comma. *)
Inductive item := Plain (ns : list nm) | Call (ns : list nm) (inner : list item) (ps : list nat) (trailing : bool).

Definition write_params (ps : list nat) (trailing : bool) : list token :=
  flat_map (fun v => [Comma; Value v]) ps ++ (if trailing then [Comma] else []).
Fixpoint write (i : item) : list token :=
  match i with
  | Plain ns => [Names ns]
  | Call ns inner ps t => Names ns :: LParen :: flat_map write inner ++ write_params ps t ++ [RParen]
  end.

(* Words that can name operations: letters and dashes and, except at the beginning, digits. *)
Definition word_char (start : bool) (c : ascii) : Prop :=
  c = "-"%char \/ alpha c = true \/ start = false /\ alnum c = true.
Definition Word (n : nm) (s : bytes) : Prop :=
  n = Simple s /\ exists c r, s = c :: r /\ word_char true c /\ Forall (word_char false) r.
Definition word (n : nm) : bytes := match n with Simple v => v | _ => [] end.

Section Words.
(* Which names are words is decidable; everything else here is stated with this function. *)
Context (is_word : nm -> bool).

(* A call is of a meta-operation if there is an operation in parentheses. *)
Definition has_op (i : item) : bool := match i with Plain ns => existsb is_word ns | Call _ _ _ _ => true end.
Definition meta_call (i : item) : bool := match i with Plain _ => false | Call _ inner _ _ => existsb has_op inner end.

(* Names are words in calls and meta-operations are not nested. *)
Inductive Valid : item -> Prop :=
| V_plain ns : ns <> [] -> ~ In Qualified ns -> ~ In BadPair ns -> Valid (Plain ns)
| V_call ns inner ps t : ns <> [] -> Forall (fun n => is_word n = true) ns -> inner <> [] ->
    Forall Valid inner -> Forall (fun i => meta_call i = false) inner -> Valid (Call ns inner ps t).

Definition params_of (ps : list nat) (trailing : bool) : list nat := ps ++ (if trailing then [0] else []).
(* Adjacent operations without names are one operation, and so are meta-operations. *)
Definition join_ops (o : opspec) (os : list opspec) : list opspec :=
  match oname o, os with
  | [], o' :: r => match oname o' with [] => mkop [] [] (targets o ++ targets o') :: r | _ => o :: os end
  | _, _ => o :: os
  end.
Definition joined_ops (os : list opspec) : list opspec := fold_right join_ops [] os.
Definition join_metas (m : metaopspec) (ms : list metaopspec) : list metaopspec :=
  match mname m, ms with
  | [], m' :: r => match mname m' with [] => mkmeta [] [] (joined_ops (ops m ++ ops m')) :: r | _ => m :: ms end
  | _, _ => m :: ms
  end.
Definition joined_metas (ms : list metaopspec) : list metaopspec := fold_right join_metas [] ms.

(* A word is an operation without targets, and another name is a target of the operation without a name. *)
Definition name_op (n : nm) : opspec := if is_word n then mkop (word n) [] [] else mkop [] [] [n].
Definition all_names (is : list item) : list nm := flat_map (fun i => match i with Plain ns => ns | Call _ _ _ _ => [] end) is.
Definition item_ops (i : item) : list opspec :=
  match i with
  | Plain ns => map name_op ns
  | Call ns inner ps t => map (fun n => mkop (word n) (params_of ps t) (all_names inner)) ns
  end.
Definition item_metas (i : item) : list metaopspec :=
  match i with
  | Call ns inner ps t =>
      if existsb has_op inner then map (fun n => mkmeta (word n) (params_of ps t) (joined_ops (flat_map item_ops inner))) ns
      else [mkmeta [] [] (joined_ops (item_ops i))]
  | Plain _ => [mkmeta [] [] (joined_ops (item_ops i))]
  end.
Definition meaning (is : list item) : list metaopspec := joined_metas (flat_map item_metas is).
End Words.
