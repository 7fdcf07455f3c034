(* The make dependency declaration syntax, independently of how it is parsed. *)
From Verif Require Import Base.

Definition spaces (n : nat) : bytes := repeat SP n.

(* What a backslash escapes (a NUL cannot appear in a path; listed because the
   code's strchr() finds it). *)
Definition special (c : ascii) : Prop := In c ["\"; " "; ":"; "#"; NUL]%char.

(* [renders w s]: s is a way to write the name w. *)
Inductive renders : bytes -> bytes -> Prop :=
| r_nil : renders [] []
| r_escape c w s : special c -> renders w s -> renders (c :: w) ("\"%char :: c :: s)
| r_dollar w s : renders w s -> renders ("$"%char :: w) ("$"%char :: "$"%char :: s)
| r_plain c w s :
    c <> " "%char -> c <> ":"%char ->
    (c = "\"%char -> exists d s', s = d :: s' /\ ~ special d) ->
    (c = "$"%char -> hd_error s <> Some "$"%char) ->
    renders w s -> renders (c :: w) (c :: s).

(* The canonical way: escape everything that can be. *)
Fixpoint escape (w : bytes) : bytes :=
  match w with
  | [] => []
  | c :: w' =>
      (if existsb (Ascii.eqb c) ["\"; " "; ":"; "#"]%char then ["\"%char; c]
       else if Ascii.eqb c "$" then ["$"; "$"]%char
       else [c]) ++ escape w'
  end.

(* [words ws s]: a line fragment with names ws separated by spaces, with
   optional spaces around. *)
Inductive words : list bytes -> bytes -> Prop :=
| w_nil n : words [] (spaces n)
| w_cons n w ws r t :
    w <> [] -> renders w r -> words ws t -> (t = [] \/ hd_error t = Some " "%char) ->
    words (w :: ws) (spaces n ++ r ++ t).

(* Prerequisites over one or more lines joined with a final backslash. *)
Inductive prereqs : list bytes -> list bytes -> Prop :=
| p_last ps s : words ps s -> prereqs ps [s]
| p_cont ps s ps' ls :
    words ps s -> prereqs ps' ls -> prereqs (ps ++ ps') ((s ++ ["\"%char]) :: ls).

(* Targets, colon, prerequisites. *)
Inductive decl : list bytes -> list bytes -> list bytes -> Prop :=
| d_colon ts s ps p ls :
    words ts s -> prereqs ps (p :: ls) -> decl ts ps ((s ++ ":"%char :: p) :: ls)
| d_cont ts s ts' ps ls :
    words ts s -> decl ts' ps ls -> decl (ts ++ ts') ps ((s ++ ["\"%char]) :: ls).

(* Lines that can precede a declaration. *)
Definition blank (l : bytes) : Prop := exists n, l = spaces n \/ l = spaces n ++ ["\"%char].
