(* What it means for a name to be canonical: the names that the build system itself
   makes when it has parsed a buildfile. Independent of the lexer and parser. *)
From Verif Require Import Base NameModel.

(* A directory: components, each followed by a separator, after a separator if
   absolute. *)
Definition component (c : bytes) : Prop := c <> [] /\ ~ In "/"%char c.
Definition clean_dir (d : bytes) : Prop :=
  exists (absolute : bool) cs, d = (if absolute then b "/" else []) ++ concat (map (fun c => c ++ b "/") cs) /\
    Forall component cs /\ d <> [].

Definition no_char (c : ascii) (v : bytes) : Prop := ~ In c v.
Definition ends_with (c : ascii) (v : bytes) : Prop := exists v', v = v' ++ [c].

(* valid: whether a string is a valid project name. *)
Record canonical (valid : bytes -> bool) (n : name) : Prop := {
  c_pattern : pattern n = None;
  c_project : match proj n with Some p => (p = [] \/ valid p = true) /\ no_char NUL p | None => True end;
  c_nul : no_char NUL (dir n) /\ no_char NUL (type n) /\ no_char NUL (value n);
  c_percent : no_char "%" (dir n) /\ no_char "%" (type n) /\ no_char "%" (value n);
  c_type : no_char "/" (type n);
  c_dir : dir n = [] \/ clean_dir (dir n);
  c_value : ~ ends_with "/" (value n);
  c_untyped : type n = [] -> dir n = [] \/ value n = [];
  c_empty : dir n = [] -> value n = [] -> proj n = None /\ type n = []
}.

(* Pairs: two names next to each other, the first having @ as its pair. *)
Inductive well_paired : list name -> Prop :=
| wp_nil : well_paired []
| wp_single n ns : pair n = NUL -> well_paired ns -> well_paired (n :: ns)
| wp_pair n m ns : pair n = "@"%char -> pair m = NUL -> well_paired ns -> well_paired (n :: m :: ns).

(* A three-way comparison that is a weak order: for example, what is not less and
   not greater may still be different. *)
Definition weak_order {A} (f : A -> A -> comparison) : Prop :=
  (forall x y, f y x = CompOpp (f x y)) /\
  (forall x y z, f x y <> Gt -> f y z <> Gt -> f x z <> Gt).
(* And a total order. *)
Definition total_order {A} (f : A -> A -> comparison) : Prop := weak_order f /\ forall x y, f x y = Eq <-> x = y.
