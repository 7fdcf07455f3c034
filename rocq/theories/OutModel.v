(* Model of checking the output of script commands: libbuild2/script/run.cxx: transform () 190-227, check_output () 243-845;
   libbuild2/script/regex.cxx: line_char 24-145, transform () 213-275, char_regex 277-296; libbuild2/script/parser.cxx: parse_regex () 78-133,
   add_here_str_regex 263-289, parse_here_document () 1880-1983 and 2033-2068 (lines are already expanded, without indentation).

   Of expressions over lines (std::basic_regex<line_char>) groups, alternatives, any line and *, +, ? are modelled; None for other operators, as if
   invalid. Expressions over characters are a parameter. Not modelled: diagnostics, input/output errors, files that are saved. *)
From Verif Require Import Base.

Definition CR : ascii := "013".
Definition mem (c : ascii) (s : bytes) : bool := existsb (ceqb c) s.

(* regex_line of script.hxx. *)
Record rline := mkrl { l_regex : bool; l_value : bytes; l_flags : bytes; l_special : bytes }.

(* parser.cxx 78-133: up to the next introducer. *)
Fixpoint upto (c : ascii) (s : bytes) : option (bytes * bytes) :=
  match s with
  | [] => None
  | x :: s => if ceqb x c then Some ([], s) else match upto c s with Some (a, z) => Some (x :: a, z) | None => None end
  end.
Fixpoint flags (s : bytes) : bytes * bytes :=
  match s with
  | [] => ([], [])
  | x :: s' => if ceqb x "d" || ceqb x "i" then let (f, z) := flags s' in (x :: f, z) else ([], s)
  end.
(* 1922-1983: a line of a document. None: it fails. *)
Definition parse_line (intro : ascii) (ln : bytes) : option rline :=
  match ln with
  | [] => Some (mkrl false [] [] [])
  | x :: s =>
    if negb (ceqb x intro) then Some (mkrl false ln [] [])
    else match upto intro s with
         | None => match s with [] => None | _ => Some (mkrl false [] [] s) end
         | Some ([], z) => Some (mkrl true [] [] z)
         | Some (v, z) => let (f, sp) := flags z in Some (mkrl true v f sp)
         end
  end.
(* 1913-1931: a value can be several lines. *)
Fixpoint split_nl (s : bytes) : list bytes :=
  match s with
  | [] => [[]]
  | c :: s => if ceqb c NL then [] :: split_nl s else match split_nl s with l :: ls => (c :: l) :: ls | [] => [[c]] end
  end.
Fixpoint parse_lines (intro : ascii) (lns : list bytes) : option (list rline) :=
  match lns with
  | [] => Some []
  | ln :: lns => match parse_line intro ln, parse_lines intro lns with Some l, Some ls => Some (l :: ls) | _, _ => None end
  end.
Definition blank : rline := mkrl false [] [] [].
Definition doc_regex (intro : ascii) (colon : bool) (values : list bytes) : option (list rline) :=
  match parse_lines intro (flat_map split_nl values) with
  | None => None
  | Some ls => match ls ++ (if colon then [] else [blank]) with [] => None | ls => Some ls end
  end.
(* 263-289 *)
Definition str_regex (colon : bool) (w : bytes) : option (list rline) :=
  match w with
  | [] => None
  | x :: s =>
    match upto x s with
    | None | Some ([], _) => None
    | Some (v, z) => match flags z with (f, []) => Some (mkrl true v f [] :: if colon then [] else [blank]) | _ => None end
    end
  end.
(* 1898-1909, 2037-2050: text that is expected. *)
Fixpoint add_lines (rs : option bytes) (values : list bytes) : option bytes :=
  match values with
  | [] => rs
  | s :: values => add_lines (Some (match rs with Some r => r ++ NL :: s | None => s end)) values
  end.
Definition doc_text (colon : bool) (values : list bytes) : bytes :=
  match add_lines None values with
  | Some r => if colon then r else r ++ [NL]
  | None => if colon then [] else [NL]
  end.

(* regex.cxx 213-275 *)
Fixpoint idot (escape cclass : bool) (s : bytes) : bytes :=
  match s with
  | [] => if escape then ["\"%char] else []
  | c :: s =>
    let inverse := ceqb c "." && negb cclass in
    if escape then (if inverse then [c] else ["\"%char; c]) ++ idot false cclass s
    else if ceqb c "\" then idot true cclass s
    else if ceqb c "[" && negb cclass then c :: idot false true s
    else if ceqb c "]" && cclass then c :: idot false false s
    else if inverse then "\"%char :: c :: idot false cclass s
    else c :: idot false cclass s
  end.

(* regex.cxx 24-145: a line character. Strings are of the pool, which they are added to at the front if not there: the number is of those before. *)
Inductive lchar := Special (c : ascii) | Lit (i : nat) | Rgx (icase : bool) (s : bytes).
Definition pool := list bytes.
Fixpoint find_id (s : bytes) (p : pool) : option nat := match p with [] => None | x :: p => if beqb x s then Some (length p) else find_id s p end.
Definition intern (p : pool) (s : bytes) : pool * nat := match find_id s p with Some i => (p, i) | None => (s :: p, length p) end.
Definition get (p : pool) (i : nat) : option bytes := nth_error (rev p) i.
Definition syntax (c : ascii) : bool := mem c (b "()|.*+?{}\0123456789,=!").

Section Check.
Context (windows : bool).
Context (rvalid : bool -> bytes -> bool) (rmatch : bool -> bytes -> bytes -> bool).   (* std::regex, with whether to ignore case *)
Context (max_size max_lines : nat).                                                  (* 16384 and 12288 *)

(* run.cxx 190-227 *)
Fixpoint slashes (r : bytes) (s : bytes) : bytes := match s with [] => [] | c :: s => (if ceqb c "/" then r else [c]) ++ slashes r s end.
Definition transform (slash regex : bool) (s : bytes) : bytes :=
  if negb slash then s else if negb windows then s else slashes (if regex then b "\\" else b "\") s.

(* run.cxx 475-655 *)
Record expected := mkex { x_doc : bool; x_colon : bool; x_slash : bool; x_flags : bytes; x_lines : list rline }.
Definition line_char (x : expected) (p : pool) (l : rline) : option (pool * list lchar) :=
  if l_regex l then
    match l_value l with
    | [] => let (p, i) := intern p [] in Some (p, [Lit i])
    | _ =>
      let fl := x_flags x ++ l_flags l in
      let s := transform (x_slash x) true (l_value l) in
      let s := if mem "d" fl then idot false false s else s in
      if rvalid (mem "i" fl) s then Some (p, [Rgx (mem "i" fl) s]) else None
    end
  else match l_special l with
       | _ :: _ => Some (p, [])
       | [] => let (p, i) := intern p (transform (x_slash x) false (l_value l)) in Some (p, [Lit i])
       end.
Fixpoint line_string (x : expected) (p : pool) (ls : list rline) : option (pool * list lchar) :=
  match ls with
  | [] => Some (p, [])
  | l :: ls =>
    match line_char x p l with
    | None => None
    | Some (p, cs) =>
      if forallb syntax (l_special l) then
        match line_string x p ls with Some (p, r) => Some (p, cs ++ map Special (l_special l) ++ r) | None => None end
      else None
    end
  end.

(* Expressions: groups being read, innermost first, each with alternatives before and the current one, last first. *)
Inductive re := Chr (c : lchar) | Any | Grp (alts : list (list re)) | Rep (lo hi : bool) (r : re).
Definition pst := list (list (list re) * list re).
Definition push (s : pst) (r : re) : option pst := match s with (d, c) :: fs => Some ((d, r :: c) :: fs) | [] => None end.
Definition quant (s : pst) (lo hi : bool) : option pst :=
  match s with
  | (d, r :: c) :: fs => match r with Rep _ _ _ => None | _ => Some ((d, Rep lo hi r :: c) :: fs) end
  | _ => None
  end.
Definition step (s : pst) (c : lchar) : option pst :=
  match c with
  | Special x =>
    if ceqb x "(" then Some (([], []) :: s)
    else if ceqb x "|" then match s with (d, c) :: fs => Some ((rev c :: d, []) :: fs) | [] => None end
    else if ceqb x ")" then match s with (d, c) :: f :: fs => push (f :: fs) (Grp (rev (rev c :: d))) | _ => None end
    else if ceqb x "." then push s Any
    else if ceqb x "*" then quant s false true
    else if ceqb x "+" then quant s true true
    else if ceqb x "?" then quant s false false
    else if ceqb x "{" || ceqb x "}" || ceqb x "\" then None
    else push s (Chr c)
  | _ => push s (Chr c)
  end.
Fixpoint steps (s : pst) (cs : list lchar) : option pst := match cs with [] => Some s | c :: cs => match step s c with Some s => steps s cs | None => None end end.
Definition parse (cs : list lchar) : option (list (list re)) := match steps [([], [])] cs with Some [(d, c)] => Some (rev (rev c :: d)) | _ => None end.

(* regex.cxx 118-145: a line of the output and a character of the expression. *)
Definition eqc (p : pool) (i : nat) (c : lchar) : Prop :=
  match c with Special _ => False | Lit j => i = j | Rgx ic s => exists w, get p i = Some w /\ rmatch ic s w = true end.
Inductive m1 (p : pool) : re -> list nat -> Prop :=
| m_chr c i : eqc p i c -> m1 p (Chr c) [i]
| m_any i : m1 p Any [i]
| m_grp alts w : ma p alts w -> m1 p (Grp alts) w
| m_zero hi r : m1 p (Rep false hi r) []
| m_once lo hi r w : m1 p r w -> m1 p (Rep lo hi r) w
| m_more lo r w w' : m1 p r w -> m1 p (Rep lo true r) w' -> m1 p (Rep lo true r) (w ++ w')
with ms (p : pool) : list re -> list nat -> Prop :=
| ms_nil : ms p [] []
| ms_cons r rs w w' : m1 p r w -> ms p rs w' -> ms p (r :: rs) (w ++ w')
with ma (p : pool) : list (list re) -> list nat -> Prop :=
| ma_in s alts w : In s alts -> ms p s w -> ma p alts w.

(* run.cxx 693-765: lines of the output. *)
Fixpoint strip (s : bytes) : bytes := match s with [] => [] | c :: s => match strip s with [] => if ceqb c CR then [] else [c] | r => c :: r end end.
Definition out_lines (out : bytes) : list bytes := match out with [] => [] | _ => map strip (split_nl out) end.
Definition read (out : bytes) : option (list bytes) :=
  let ls := out_lines out in
  if forallb (fun l => length l <=? max_size) ls && (length ls <=? max_lines) then Some ls else None.
Fixpoint intern_all (p : pool) (ls : list bytes) : pool * list nat :=
  match ls with [] => (p, []) | l :: ls => let (p, i) := intern p l in let (p, is) := intern_all p ls in (p, i :: is) end.

(* 453-845: the output matches. It fails (rather than does not match) if errors. *)
Definition output_lines (x : expected) (ls : list bytes) : list bytes := match ls with [] => if x_doc x && negb (x_colon x) then [[]] else [] | _ => ls end.
Definition matches (x : expected) (out : bytes) : Prop :=
  exists p cs a ls, line_string x [] (x_lines x) = Some (p, cs) /\ parse cs = Some a /\ read out = Some ls /\
    let (p, is) := intern_all p (output_lines x ls) in ma p a is.
Definition errors (x : expected) (out : bytes) : Prop :=
  match line_string x [] (x_lines x) with
  | None => True
  | Some (_, cs) => match parse cs, read out with Some _, Some _ => False | _, _ => True end
  end.

(* 275-451: what is expected other than by expressions. same: diff (with --strip-trailing-cr on Windows). *)
Context (same : bytes -> bytes -> bool).
Inductive redirect := None_ | Text (slash : bool) (s : bytes) | Compare (content : bytes) | Regex (x : expected) | Other.
Definition passes (r : redirect) (out : bytes) : Prop :=
  match r with
  | None_ => out = []
  | Text slash s => same (transform slash false s) out = true
  | Compare f => same f out = true
  | Regex x => matches x out
  | Other => True
  end.
End Check.
