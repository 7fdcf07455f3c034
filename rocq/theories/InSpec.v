(* What the output of the in rule is. *)
From Verif Require Import Base DepdbSpec InModel.

(* A line consists of characters that are copied and substitutions. *)
Inductive piece := Char (c : ascii) | Sub (name : bytes).
Definition starts_with (y : ascii) (s : bytes) : Prop := exists r, s = y :: r.

(* In the strict mode every symbol starts a substitution and two stand for one, also in the
   name. A symbol ends the name if it is not followed by another. *)
Inductive quoted (y : ascii) : bytes -> bytes -> Prop :=
| q_none : quoted y [] []
| q_char c q n : c <> y -> quoted y q n -> quoted y (c :: q) (c :: n)
| q_escape q n : quoted y q n -> quoted y (y :: y :: q) (y :: n).
Inductive strictly (y : ascii) : bytes -> list piece -> Prop :=
| st_end : strictly y [] []
| st_char c s ps : c <> y -> strictly y s ps -> strictly y (c :: s) (Char c :: ps)
| st_escape s ps : ~ starts_with y s -> strictly y s ps -> strictly y (y :: y :: s) (Char y :: ps)
| st_sub q n s ps : quoted y q n -> n <> [] -> ~ starts_with y s -> strictly y s ps -> strictly y (y :: q ++ y :: s) (Sub n :: ps).

(* In the lax mode what is between two symbols is a substitution if it looks like a variable
   name. If it does not, then both are copied. *)
Definition letter (c : ascii) : Prop := In c (list_ascii_of_string "abcdefghijklmnopqrstuvwxyzABCDEFGHIJKLMNOPQRSTUVWXYZ").
Definition number (c : ascii) : Prop := In c (list_ascii_of_string "0123456789").
Definition name_like (n : bytes) : Prop := forall x c z, n = x ++ c :: z -> c = "_"%char \/ letter c \/ (number c /\ x <> []) \/ (c = "."%char /\ z <> []).
Inductive laxly (y : ascii) : bytes -> list piece -> Prop :=
| lx_end : laxly y [] []
| lx_char c s ps : c <> y -> laxly y s ps -> laxly y (c :: s) (Char c :: ps)
| lx_open s : ~ In y s -> laxly y (y :: s) (map Char (y :: s))
| lx_double s ps : laxly y (y :: s) ps -> laxly y (y :: y :: s) (Char y :: ps)
| lx_sub n s ps : n <> [] -> ~ In y n -> name_like n -> laxly y s ps -> laxly y (y :: n ++ y :: s) (Sub n :: ps)
| lx_not n s ps : n <> [] -> ~ In y n -> ~ name_like n -> laxly y s ps -> laxly y (y :: n ++ y :: s) (map Char (y :: n ++ [y]) ++ ps).
Definition reads (e : setup) (s : bytes) (ps : list piece) : Prop := if strict e then strictly (sym e) s ps else laxly (sym e) s ps.

(* The value: from the substitution map or else that of the variable, where null can be
   replaced. *)
Definition value_of (e : setup) (n v : bytes) : Prop :=
  smap e n = Some (Some v) \/
  ((smap e n = Some None \/ (smap e n = None /\ var e n = Null)) /\ null e = Some v) \/
  (smap e n = None /\ var e n = String (Some v)).
(* Newlines of the value become those of the line. *)
Fixpoint with_newlines (nl v : bytes) : bytes :=
  match v with
  | [] => []
  | c :: v =>
      if ceqb c NL then nl ++ with_newlines nl v
      else match v with
           | c2 :: v2 => if ceqb c CR && ceqb c2 NL then nl ++ with_newlines nl v2 else c :: with_newlines nl v
           | [] => [c]
           end
  end.
Inductive expands (e : setup) (nl : bytes) : list piece -> list (bytes * bytes) -> bytes -> Prop :=
| ex_end : expands e nl [] [] []
| ex_char c ps l o : expands e nl ps l o -> expands e nl (Char c :: ps) l (c :: o)
| ex_sub n v ps l o : value_of e n v -> expands e nl ps l o -> expands e nl (Sub n :: ps) ((n, v) :: l) (with_newlines nl v ++ o).

(* Lines with their endings. If the last line has none, then there is one in the output. *)
Definition ends_with (c : ascii) (s : bytes) : Prop := exists r, s = r ++ [c].
Inductive lines : bytes -> list (bytes * bytes) -> Prop :=
| li_end : lines [] []
| li_lf l s ls : ~ In NL l -> ~ ends_with CR l -> lines s ls -> lines (l ++ NL :: s) ((l, [NL]) :: ls)
| li_crlf l s ls : ~ In NL l -> lines s ls -> lines (l ++ CR :: NL :: s) ((l, [CR; NL]) :: ls)
| li_last l : l <> [] -> ~ In NL l -> ~ ends_with CR l -> lines l [(l, [NL])]
| li_last_cr l : ~ In NL l -> lines (l ++ [CR]) [(l, [CR; NL])].
Inductive expand_lines (e : setup) : list (bytes * bytes) -> bytes -> Prop :=
| el_end : expand_lines e [] []
| el_line l nl ls ps subs o o' : reads e l ps -> expands e nl ps subs o -> expand_lines e ls o' -> expand_lines e ((l, nl) :: ls) (o ++ nl ++ o').
(* An empty file becomes a newline. *)
Definition output (e : setup) (s o : bytes) : Prop :=
  exists ls, lines s ls /\ ((ls = [] /\ o = [NL]) \/ (ls <> [] /\ expand_lines e ls o)).

(* What is stored in the database: lines, and hashes that tell the values used apart. *)
Definition storable_setup (used : bytes -> Prop) (e : setup) (path : bytes) : Prop :=
  line_ok [sym e] /\ line_ok path /\ forall n v, value_of e n v -> used v.
Definition good_hash (hash : bytes -> bytes) (used : bytes -> Prop) : Prop :=
  (forall v, ~ In NL (hash v) /\ ~ In SP (hash v)) /\ forall v v', used v -> used v' -> hash v = hash v' -> v = v'.
