(* Which overload a call is a call of. *)
From Verif Require Import Base FuncModel.

(* How an argument can match a parameter: exactly, as a type derived from that of the parameter, or
   by being converted to the untyped value. *)
Inductive base_of : vtype -> vtype -> Prop :=
| bo_direct n y : base_of (VType n (Some y)) y
| bo_more n z y : base_of z y -> base_of (VType n (Some z)) y.
Inductive matches : option vtype -> param -> nat -> Prop :=
| m_any a : matches a Any 0
| m_untyped : matches None Untyped 0
| m_typed t : matches (Some t) (Typed t) 0
| m_derived t u : base_of t u -> matches (Some t) (Typed u) 1
| m_reversed t : matches (Some t) Untyped 2.
(* Arguments without a parameter are of any type. *)
Inductive all_match : list value -> list param -> nat -> Prop :=
| am_args args : all_match args [] 0
| am_params ps : all_match [] ps 0
| am_more a args p ps k r : matches (type a) p k -> all_match args ps r -> all_match (a :: args) (p :: ps) (max k r).
Definition viable (args : list value) (f : overload) (r : nat) : Prop :=
  arg_min f <= length args /\ (forall m, arg_max f = Some m -> length args <= m) /\ all_match args (arg_types f) r.
(* The best one is better than every other. *)
Definition best (fs : list overload) (args : list value) (i : nat) : Prop :=
  exists f r, nth_error fs i = Some f /\ viable args f r /\ forall j g q, j <> i -> nth_error fs j = Some g -> viable args g q -> r < q.
(* What a parameter can be given. *)
Inductive accepts : param -> option vtype -> Prop :=
| ac_any a : accepts Any a
| ac_untyped : accepts Untyped None
| ac_typed t : accepts (Typed t) (Some t)
| ac_derived t u : base_of t u -> accepts (Typed u) (Some t).
