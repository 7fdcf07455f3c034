(* Model of calling a buildfile function: overload resolution, libbuild2/function.{hxx,cxx}.

   Not modelled: what functions do, diagnostics, the scope. *)
From Verif Require Import Base.

(* A value type with its base types (value_type::base_type, variable.hxx). Types are compared by
   address in the code and by their names and bases here. *)
Inductive vtype := VType (name : nat) (base : option vtype).
Fixpoint vtype_eqb (x y : vtype) : bool :=
  match x, y with
  | VType n None, VType m None => n =? m
  | VType n (Some x), VType m (Some y) => (n =? m) && vtype_eqb x y
  | _, _ => false
  end.

(* A parameter: any type, untyped or typed (function.hxx:111-113). *)
Inductive param := Any | Untyped | Typed (t : vtype).
(* function_overload, function.hxx:103-172. None for arg_max is arg_variadic. *)
Record overload := mkoverload { arg_min : nat; arg_max : option nat; arg_types : list param }.
(* function_overloads::insert () asserts this, function.hxx:185-187. *)
Definition sane (f : overload) : Prop := match arg_max f with Some m => arg_min f <= m /\ length (arg_types f) <= m | None => True end.

(* An argument: None is untyped. *)
Record value := mkvalue { type : option vtype; data : bytes }.

(* function.cxx:143: whether the type is derived from another *)
Fixpoint derived (x y : vtype) : bool :=
  match x with
  | VType _ None => false
  | VType _ (Some z) => vtype_eqb z y || derived z y
  end.
(* 132-160: the rank of a match of one argument *)
Definition arg_rank (at_ : option vtype) (p : param) : option nat :=
  match p with
  | Any => Some 0
  | Untyped => match at_ with None => Some 0 | Some _ => Some 2 end
  | Typed ft =>
      match at_ with
      | None => None
      | Some at_ => if vtype_eqb at_ ft then Some 0 else if derived at_ ft then Some 1 else None
      end
  end.
(* 127-165, the loop up to the smaller of the two sizes *)
Fixpoint args_rank (args : list value) (ps : list param) (r : nat) : option nat :=
  match args, ps with
  | a :: args, p :: ps =>
      match arg_rank (type a) p with
      | Some k => args_rank args ps (if r <? k then k else r)
      | None => None
      end
  | _, _ => Some r
  end.
(* 120-165 *)
Definition rank_of (args : list value) (f : overload) : option nat :=
  if (length args <? arg_min f) || (match arg_max f with Some m => m <? length args | None => false end) then None
  else args_rank args (arg_types f) 0.
(* 110-182. The rank so far (~0 is None) and the overloads of that rank, by their positions. *)
Definition consider (args : list value) (f : overload) (i : nat) (acc : option nat * list nat) : option nat * list nat :=
  match rank_of args f with
  | None => acc
  | Some r =>
      let (rank, ovls) := acc in
      match rank with
      | None => (Some r, [i])
      | Some k => if r <? k then (Some r, [i]) else if r =? k then (Some k, ovls ++ [i]) else acc
      end
  end.
Fixpoint resolve (args : list value) (fs : list overload) (i : nat) (acc : option nat * list nat) : option nat * list nat :=
  match fs with
  | [] => acc
  | f :: fs => resolve args fs (S i) (consider args f i acc)
  end.

(* The names of what is untypified. *)
Section Call.
Context (untypify : value -> bytes).
(* 211-217: the loop over all the arguments. None is reading past the parameters, against which
   209 asserts. *)
Fixpoint reverse (args : list value) (ps : list param) : option (list value) :=
  match args, ps with
  | [], _ => Some []
  | _ :: _, [] => None
  | a :: args, p :: ps =>
      match reverse args ps with
      | None => None
      | Some args => Some ((match p, type a with Untyped, Some _ => mkvalue None (untypify a) | _, _ => a end) :: args)
      end
  end.
(* call (), 83-296: what is called, and with what. None is a failed assertion. *)
Inductive result := Called (i : nat) (args : list value) | Unmatched | Ambiguous.
Definition call (fs : list overload) (args : list value) : option result :=
  match resolve args fs 0 (None, []) with
  | (rank, [i]) =>
      match nth_error fs i with
      | None => None
      | Some f =>
          match rank with
          | Some 2 => match reverse args (arg_types f) with Some args => Some (Called i args) | None => None end
          | _ => Some (Called i args)
          end
      end
  | (_, []) => Some Unmatched
  | (_, _) => Some Ambiguous
  end.
End Call.

(* function_map::defined (), 60-81, where the keys are in order. *)
Fixpoint less (x y : bytes) : bool :=
  match x, y with
  | [], _ :: _ => true
  | c :: x, d :: y => (nat_of_ascii c <? nat_of_ascii d) || (ceqb c d && less x y)
  | _, [] => false
  end.
Fixpoint starts (x y : bytes) : bool :=
  match x, y with
  | [], _ => true
  | c :: x, d :: y => ceqb c d && starts x y
  | _ :: _, [] => false
  end.
Definition defined_family (keys : list bytes) (name : bytes) : bool :=
  match List.find (fun k => less name k) keys with
  | Some k => starts name k
  | None => false
  end.
