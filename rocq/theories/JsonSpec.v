(* What is expected of JSON values, independently of how they are compared and
   combined. *)
From Coq Require Export Permutation Sorted.
From Verif Require Import Base NameModel JsonModel.

(* The number that a value denotes. *)
Definition num (x : json) : option Z := match x with JSigned _ v | JUnsigned _ v => Some v | _ => None end.

(* Well-formed: the numbers are in range and there are no duplicate members. *)
Fixpoint wf (x : json) : Prop :=
  match x with
  | JSigned _ v => (- 2 ^ 63 <= v < 2 ^ 63)%Z
  | JUnsigned _ v => (0 <= v < 2 ^ 64)%Z
  | JArray l => (fix all (l : list json) : Prop := match l with [] => True | a :: l' => wf a /\ all l' end) l
  | JObject o => NoDup (map fst o) /\ (fix all (o : list (bytes * json)) : Prop := match o with [] => True | m :: o' => wf (snd m) /\ all o' end) o
  | _ => True
  end.

(* The same value: numbers by value and objects regardless of the order. *)
Inductive same : json -> json -> Prop :=
| same_null : same JNull JNull
| same_bool v : same (JBool v) (JBool v)
| same_num x y z : num x = Some z -> num y = Some z -> same x y
| same_string v : same (JString v) (JString v)
| same_array u v : Forall2 same u v -> same (JArray u) (JArray v)
| same_object u v w : Permutation v w -> Forall2 (fun m n => fst m = fst n /\ same (snd m) (snd n)) u w -> same (JObject u) (JObject v).

(* Lexicographical comparison. *)
Definition lex {A B} (f : A -> B -> comparison) : list A -> list B -> comparison :=
  fix go (u : list A) (v : list B) : comparison :=
    match u, v with
    | [], [] => Eq
    | [], _ :: _ => Lt
    | _ :: _, [] => Gt
    | a :: u', c :: v' => match f a c with Eq => go u' v' | r => r end
    end.

(* The members in the order of their names. *)
Definition name_order {X} (m n : bytes * X) : Prop := scompare (fst m) (fst n) = Lt.
Definition in_order {X} (o s : list (bytes * X)) : Prop := Permutation o s /\ StronglySorted name_order s.

(* Members are compared by name and then by value. *)
Definition member_compare {X Y} (f : X -> Y -> comparison) (m : bytes * X) (n : bytes * Y) : comparison := then_ (scompare (fst m) (fst n)) (f (snd m) (snd n)).

(* The kinds of values from the smallest to the greatest. *)
Definition kind (x : json) : nat :=
  match x with
  | JNull => 0 | JBool _ => 1 | JSigned _ _ | JUnsigned _ _ => 2 | JString _ => 3 | JArray _ => 4 | JObject _ => 5
  end.

(* The value of a member. *)
Definition member (k : bytes) (o : list (bytes * json)) (v : json) : Prop := In (k, v) o.
Definition absent (o : list (bytes * json)) (k : bytes) : bool := negb (existsb (beqb k) (map fst o)).
Definition names (o : list (bytes * json)) : list bytes := map fst o.
