(* What looking up a variable means. *)
From Verif Require Import Base NameModel VarModel.

Section Spec.
Context {V N K : Type} (w : vops V N).

(* The scopes, starting with the innermost, up to and including the root scope of the
   project. *)
Fixpoint project (chain : list (scope V N K)) : list (scope V N K) :=
  match chain with
  | [] => []
  | s :: outer => s :: (if root s then [] else project outer)
  end.
(* The scopes whose variables can be seen. *)
Definition visible (vis : visibility) (chain : list (scope V N K)) : list (scope V N K) :=
  match vis with
  | VGlobal => chain
  | VProject | VTarget => project chain
  | VScope => firstn 1 chain
  | VPrereq => []
  end.

(* The places where to look, in order: in each scope first what is specific to the
   types and names of the target (number 0) and its groups (numbers 1 and so on),
   and then the variables of the scope. *)
Inductive place := Specific (s : scope V N K) (i : nat) (k : K) | Plain (s : scope V N K).
Fixpoint specific (s : scope V N K) (i : nat) (ks : list K) : list place :=
  match ks with [] => [] | k :: ks' => Specific s i k :: specific s (S i) ks' end.
Definition places (ks : list K) (scopes : list (scope V N K)) : list place :=
  flat_map (fun s => specific s 0 ks ++ [Plain s]) scopes.

(* The value is the first one that is found. If it has to be prepended or appended,
   then that is to what is found in the remaining places except that what is
   specific to a group is never applied to what is specific to its member: i is the
   number of the target or group that was reached. plain: whether the variables of
   scopes are considered. *)
Fixpoint meaning (plain all : bool) (i : nat) (ps : list place) : option (V * mapid) :=
  match ps with
  | [] => None
  | Plain s :: ps' =>
      match (if plain && all then svars s else None) with
      | Some v => Some (v, MScope (sid s))
      | None => meaning plain all i ps'
      end
  | Specific s j k :: ps' =>
      match (if j <? i then None else sfind s k) with
      | None => meaning plain all i ps'
      | Some (m, p) =>
          let stem := match meaning plain true j ps' with Some (v, _) => Some v | None => None end in
          Some (match p with
                | PAssign v => v
                | PPrepend None | PAppend None => copy w stem
                | PPrepend (Some n) => prepend w (copy w stem) n
                | PAppend (Some n) => append w (copy w stem) n
                end, MPattern (sid s) m)
      end
  end.

(* A scope that has nothing for the variable. *)
Definition nothing (ks : list K) (s : scope V N K) : Prop := svars s = None /\ forall k, In k ks -> sfind s k = None.
End Spec.

(* p is more specific than q: regular expressions are more specific than wildcard
   patterns, and longer ones than shorter (ones of the same length are ordered
   lexicographically). *)
Definition more_specific (p q : pattern) : Prop :=
  (regex p = true /\ regex q = false) \/
  (regex p = regex q /\ (length (text p) > length (text q) \/ (length (text p) = length (text q) /\ scompare (text p) (text q) = Gt))).

(* What is assigned, in order, and what a pattern then has. *)
Fixpoint assigned {X} (p : pattern) (x : X) (as_ : list (pattern * X)) : Prop :=
  match as_ with
  | [] => False
  | (q, y) :: as' => assigned p x as' \/ (q = p /\ y = x /\ forall z, ~ In (p, z) as')
  end.
