(* Specification: each name matches the pattern for it. *)
From Verif Require Import Base RxModel.

(* Expressions and names in order, with groups counted and references over all of them. n: groups before. *)
Inductive each (icase : bool) : nat -> list bytes -> env -> list bytes -> env -> Prop :=
| each_nil n e : each icase n [] e [] e
| each_cons n t ts a n' w ws e e1 e2 : parse n t = Some (a, n') -> ma icase a e w e1 -> each icase n' ts e1 ws e2 -> each icase n (t :: ts) e (w :: ws) e2.
(* All are valid as they are, and none has alternatives other than in groups. *)
Inductive simple : nat -> list bytes -> Prop :=
| simple_nil n : simple n []
| simple_cons n t ts s n' : parse n t = Some ([s], n') -> simple n' ts -> simple n (t :: ts).

(* The expression and flags of a value: delimiters are the same and there is no such character after. *)
Definition delimited (v t fl : bytes) : Prop := exists d, v = d :: t ++ d :: fl /\ ~ In d fl.

(* Names of targets, and which ones a pattern is for: the first of the type, of members and of normal prerequisites, the same one for every
   pattern with the type. *)
Inductive name_of (is_dir ext_explicit : nat -> bool) (k : key) (with_ext : Prop) : bytes -> Prop :=
| name_dir : k_name k = [] -> is_dir (k_type k) = true -> name_of is_dir ext_explicit k with_ext (k_leaf k)
| name_ext x : ~ (k_name k = [] /\ is_dir (k_type k) = true) -> k_ext k = Some x -> x <> [] -> with_ext \/ ext_explicit (k_type k) = true ->
    name_of is_dir ext_explicit k with_ext (k_name k ++ "."%char :: x)
| name_only : ~ (k_name k = [] /\ is_dir (k_type k) = true) -> k_ext k = None \/ k_ext k = Some [] \/ ~ (with_ext \/ ext_explicit (k_type k) = true) ->
    name_of is_dir ext_explicit k with_ext (k_name k).
Definition first_such {A} (P : A -> Prop) (l : list A) (x : A) : Prop := exists l1 l2, l = l1 ++ x :: l2 /\ P x /\ Forall (fun y => ~ P y) l1.
Definition chosen (is_a : nat -> nat -> bool) (t : target) (tys pys : list nat) (ks : list key) : Prop :=
  exists ms ps, ks = t_key t :: ms ++ ps /\
    Forall2 (fun ty k => first_such (fun k => is_a (k_type k) ty = true) (t_members t) k) tys ms /\
    Forall2 (fun ty k => first_such (fun p => snd p = true /\ is_a (k_type (fst p)) ty = true) (t_prereqs t) (k, true)) pys ps.
Definition slash_free (k : key) : Prop := ~ In SL (k_leaf k) /\ ~ In SL (k_name k) /\ match k_ext k with Some x => ~ In SL x | None => True end.

(* Following a relative directory from an absolute one. *)
Inductive walks : list bytes -> list bytes -> list bytes -> Prop :=
| walks_end p : walks p [] p
| walks_same p d q : walks p d q -> walks p (b "." :: d) q
| walks_up p x d q : walks p d q -> walks (p ++ [x]) (b ".." :: d) q
| walks_down p n d q : n <> b "." -> n <> b ".." -> walks (p ++ [n]) d q -> walks p (n :: d) q.
(* What a substitution is replaced with: it is not empty. *)
Definition replaced (replace : env -> bytes -> bytes) (e : env) (v n : bytes) : Prop := exists f fl, delimited v f fl /\ n = replace e f /\ n <> [].
(* Members to be added: those of substitutions, in order. *)
Inductive adds (replace : env -> bytes -> bytes) (e : env) (dir : list bytes) : list element -> list (nat * list bytes * bytes) -> Prop :=
| adds_nil : adds replace e dir [] []
| adds_other x es l : (forall d v, e_kind x <> Subst d v) -> adds replace e dir es l -> adds replace e dir (x :: es) l
| adds_subst ty d v d' n es l : walks dir d d' -> replaced replace e v n -> adds replace e dir es l -> adds replace e dir (mkel (Subst d v) ty :: es) ((ty, d', n) :: l).
(* Prerequisites: those of substitutions and of ones that are neither, in order. *)
Inductive needs (replace : env -> bytes -> bytes) (search_subst : nat -> list bytes -> bytes -> nat) (search_plain : nat -> nat -> nat) (e : env) : list element -> list nat -> Prop :=
| needs_nil : needs replace search_subst search_plain e [] []
| needs_pattern ty v es l : needs replace search_subst search_plain e es l -> needs replace search_subst search_plain e (mkel (Pattern v) ty :: es) l
| needs_subst ty d v n es l : replaced replace e v n -> needs replace search_subst search_plain e es l -> needs replace search_subst search_plain e (mkel (Subst d v) ty :: es) (search_subst ty d n :: l)
| needs_plain ty n es l : needs replace search_subst search_plain e es l -> needs replace search_subst search_plain e (mkel (Plain n) ty :: es) (search_plain ty n :: l).
(* Patterns among what is on a side of a rule, with types, in order. *)
Inductive patterns_of : list element -> list (bytes * nat) -> Prop :=
| po_nil : patterns_of [] []
| po_pattern v ty es l : patterns_of es l -> patterns_of (mkel (Pattern v) ty :: es) ((v, ty) :: l)
| po_other x es l : (forall v, e_kind x <> Pattern v) -> patterns_of es l -> patterns_of (x :: es) l.
