(* What values of each type there are, what is known about paths and what keeping the
   last value of a key means. *)
From Coq Require Import Sorted.
From Verif Require Import Base NameModel NameSpec IntModel TypedModel.

Definition below {A} (f : A -> A -> comparison) (x y : A) : Prop := f x y = Lt.

Section Ok.
Context (mkp mkd : bytes -> option bytes) (joinp joind : bytes -> bytes -> option bytes)
        (cpath cdir cproj : bytes -> bytes -> comparison) (validp : bytes -> bool) (split : bytes -> bytes * bytes).

(* What is assumed about the paths of libbutl. *)
Record path_facts : Prop := {
  pf_empty : mkp [] = Some [];
  pf_again : forall s p, mkp s = Some p -> mkp p = Some p;
  pf_join : forall x y p, joinp x y = Some p -> mkp p = Some p;
  pf_dir : mkd [] = Some [];
  pf_project : forall s, validp s = true -> s <> [] /\ to_directory s = false }.

(* Values of simple types. *)
Inductive simple_ok : forall T, traits T -> T -> Prop :=
| ok_bool x : simple_ok bool bool_traits x
| ok_int64 x : (int64_min <= x <= int64_max)%Z -> simple_ok Z int64_traits x
| ok_uint64 x : (0 <= x <= uint64_max)%Z -> simple_ok Z uint64_traits x
| ok_string x : simple_ok bytes string_traits x
| ok_path x : mkp x = Some x \/ to_directory x = true -> simple_ok bytes (path_traits mkp joinp cpath) x
| ok_dir x : mkd [] = Some [] -> simple_ok bytes (dir_traits mkd joind cdir) x
| ok_project x : x = [] \/ validp x = true /\ to_directory x = false -> simple_ok bytes (project_traits cproj validp) x.
(* Elements of containers can also be names. *)
Inductive element_ok : forall T, traits T -> T -> Prop :=
| ok_simple T t x : simple_ok T t x -> element_ok T t x
| ok_name n : pair n = NUL -> pattern n = None -> element_ok name (name_traits cdir cproj) n.
Inductive pair_ok : forall K V, ptraits K V -> K * V -> Prop :=
| ok_both F S tf ts f s : simple_ok F tf f -> simple_ok S ts s -> pair_ok F S (pair_both tf ts) (f, s)
| ok_second F S tf ts f s : simple_ok F tf f -> match s with Some x => simple_ok S ts x | None => True end ->
    pair_ok F (option S) (pair_second tf ts) (f, s)
| ok_first F S tf ts f s : match f with Some x => simple_ok F tf x | None => True end -> simple_ok S ts s ->
    pair_ok (option F) S (pair_first tf ts) (f, s).

(* A path of an executable: its directory and leaf combined are the path. *)
Definition executable (p : bytes) : Prop :=
  (fst (split p) <> [] \/ snd (split p) <> []) /\
  (if is_empty (fst (split p)) then mkp (snd (split p)) else joinp (fst (split p)) (snd (split p))) = Some p.

Inductive value_ok : forall t : value_type, data t -> Prop :=
| vo_simple T (t : traits T) x : simple_ok T t x -> value_ok (simple_type t) x
| vo_name n : pair n = NUL -> pattern n = None -> (name_empty n = true -> n = simple_name []) -> value_ok (name_type cproj cdir) n
| vo_vector T (t : traits T) l : Forall (element_ok T t) l -> value_ok (vector_type t) l
| vo_set T (t : traits T) l : weak_order (compare1 t) -> Forall (element_ok T t) l -> StronglySorted (below (compare1 t)) l ->
    value_ok (set_type t) l
| vo_pairs K V (t : ptraits K V) l : Forall (pair_ok K V t) l -> value_ok (pairs_type t) l
| vo_map K V (t : ptraits K V) l : weak_order (fcompare t) -> Forall (pair_ok K V t) l ->
    StronglySorted (below (fcompare t)) (map fst l) -> value_ok (map_type t) l
| vo_name_pair f s : pair f = NUL -> pattern f = None -> pair s = NUL -> pattern s = None ->
    (name_empty f = true -> f = simple_name [] /\ s = simple_name []) -> (name_empty s = true -> s = simple_name []) ->
    value_ok (name_pair_type cproj cdir) (f, s)
| vo_process_path r e : r = [] /\ e = [] \/ r <> [] /\ executable r /\ (e = [] \/ executable e) ->
    value_ok (process_path_type mkp joinp split cpath) (mkpp r e None None None)
| vo_process_path_ex r e n c v : r = [] /\ e = [] /\ n = None /\ c = None /\ v = None \/ r <> [] /\ executable r /\ (e = [] \/ executable e) ->
    value_ok (process_path_ex_type mkp joinp split cpath) (mkpp r e n c v).

(* The types all values of which, however obtained, are covered: all but name,
   name_pair and process_path. *)
Inductive simple_known : forall T, traits T -> Prop :=
| k_bool : simple_known bool bool_traits
| k_int64 : simple_known Z int64_traits
| k_uint64 : simple_known Z uint64_traits
| k_string : simple_known bytes string_traits
| k_path : simple_known bytes (path_traits mkp joinp cpath)
| k_dir : simple_known bytes (dir_traits mkd joind cdir)
| k_project : simple_known bytes (project_traits cproj validp).
Inductive element_known : forall T, traits T -> Prop :=
| k_simple T t : simple_known T t -> element_known T t
| k_name : element_known name (name_traits cdir cproj).
Inductive pair_known : forall K V, ptraits K V -> Prop :=
| k_both F S tf ts : simple_known F tf -> simple_known S ts -> pair_known F S (pair_both tf ts)
| k_second F S tf ts : simple_known F tf -> simple_known S ts -> pair_known F (option S) (pair_second tf ts)
| k_first F S tf ts : simple_known F tf -> simple_known S ts -> pair_known (option F) S (pair_first tf ts).
Inductive known : value_type -> Prop :=
| kn_simple T t : simple_known T t -> known (simple_type t)
| kn_vector T t : element_known T t -> known (vector_type t)
| kn_set T t : element_known T t -> known (set_type t)
| kn_pairs K V t : pair_known K V t -> known (pairs_type t)
| kn_map K V t : pair_known K V t -> known (map_type t).
End Ok.

(* The names of operations. *)
Definition op_names (o : op) : list name := match o with Assign ns | Append ns | Prepend ns => ns end.
(* The directory of a name ends with a separator. *)
Definition dir_ok (n : name) : Prop := dir n = [] \/ to_directory (dir n) = true.
(* The names of a variable after some operations, read from left to right: what an
   assignment forgets, an append puts on the right and a prepend on the left. *)
Definition names_after (os : list op) : list name :=
  fold_left (fun ns o => match o with Assign l => l | Append l => ns ++ l | Prepend l => l ++ ns end) os [].

(* The last value of a key, from left to right. *)
Fixpoint last_value {K V} (same : K -> K -> bool) (k : K) (l : list (K * V)) : option V :=
  match l with
  | [] => None
  | (k', v) :: l' => match last_value same k l' with Some x => Some x | None => if same k k' then Some v else None end
  end.
Definition same_key {K} (f : K -> K -> comparison) (x y : K) : bool := match f x y with Eq => true | _ => false end.

(* No key is repeated. *)
Definition unique_keys {K V} (f : K -> K -> comparison) (l : list (K * V)) : Prop :=
  forall i j p q, nth_error l i = Some p -> nth_error l j = Some q -> i <> j -> f (fst p) (fst q) <> Eq.
