(* Here-documents of scripts: how the lines that follow a command are turned
   into the text of its redirect.

   libbuild2/script/parser.cxx 1688-1767 parse_here_documents(),
   1770-2069 parse_here_document() (the literal part; regex lines are the
   subject of OutModel.v), libbuild2/script/lexer.cxx 40-66, 111-158 (modes
   here_line_single and here_line_double), libbuild2/parser.cxx 11020-11098
   (saving and replaying of tokens). *)
From Verif Require Import Base.

(* What a line consists of: characters and expansions ([$x], [(...)]), each
   with its text as written.  Simplifications: escape sequences are taken as
   already undone and an expansion does not extend over several lines. *)
Inductive item := Ch (c : ascii) | Ex (raw : bytes).

(* libbuild2/token.hxx 22-80: a word, a newline, and, as one token, all the
   tokens of an expansion. *)
Inductive tok := W (v : bytes) | N | X (raw : bytes).

(* What comes out: the text and the lines after the end marker, or one of the
   failures: no end marker (1994), a line that is not indented (2014),
   an expansion that fails (inside parse_names()), the assertion (1837). *)
Inductive hres (A : Type) := HOk (a : A) | HMissing | HUnindented | HExpand | HAssert.
Arguments HOk {A}. Arguments HMissing {A}. Arguments HUnindented {A}.
Arguments HExpand {A}. Arguments HAssert {A}.

(* libbuild2/script/lexer.cxx 111-158 next_line(): in mode here_line_single
   only the newline is special; in here_line_double [$] and [(] are, too.
   Spaces are not skipped (libbuild2/lexer.cxx 1049-1052). *)
Definition put (c : ascii) (ts : list tok) : list tok :=
  match ts with
  | W v :: r => W (c :: v) :: r
  | _ => W [c] :: ts
  end.

Fixpoint puts (s : bytes) (ts : list tok) : list tok :=
  match s with [] => ts | c :: r => put c (puts r ts) end.

Fixpoint line_toks (lit : bool) (l : list item) : list tok :=
  match l with
  | [] => []
  | Ch c :: r => put c (line_toks lit r)
  | Ex e :: r => if lit then puts e (line_toks lit r) else X e :: line_toks lit r
  end.

(* std::string::find_first_not_of (" \t"). *)
Fixpoint first_nonblank (v : bytes) : option nat :=
  match v with
  | [] => None
  | c :: r => if ceqb c SP || ceqb c TAB
              then option_map S (first_nonblank r)
              else Some 0
  end.

(* libbuild2/script/parser.cxx 1818-1845: is this word the end marker with,
   perhaps, an indentation in front?  The length of the indentation. *)
Definition end_marker (em v : bytes) : option nat :=
  if length em <=? length v then
    let n := length v - length em in
    if beqb (skipn n v) em then
      match first_nonblank v with
      | None => Some n
      | Some k => if n <=? k then Some n else None
      end
    else None
  else None.

(* 1811-1991, pre-parsing: lines are read and their tokens saved until the one
   with the end marker.  The input is the list of lines that end in a newline;
   text after the last newline cannot be an end marker (1820) and is left
   out. *)
Fixpoint pre_lines (lit : bool) (em : bytes) (ls : list (list item))
  : hres (list tok * bytes * list (list item)) :=
  match ls with
  | [] => HMissing
  | l :: r =>
      let ts := line_toks lit l in
      let more :=
        match pre_lines lit em r with
        | HOk (saved, sp, rest) => HOk (ts ++ N :: saved, sp, rest)
        | f => f
        end in
      match ts with
      | [W v] => match end_marker em v with
                 | Some n => HOk ([W v; N], firstn n v, r)
                 | None => more
                 end
      | _ => more
      end
  end.

(* 1996-2034: the fix up of the saved tokens.  [start]: at the first token of
   a line. *)
Fixpoint fix_up (sp : bytes) (start : bool) (ts : list tok) : hres (list tok) :=
  match ts with
  | [] => HOk []
  | t :: r =>
      let keep s t' := match fix_up sp s r with
                       | HOk r' => HOk (t' :: r')
                       | f => f
                       end in
      match t with
      | N => keep true N
      | W v =>
          if start then
            if beqb (firstn (length sp) v) sp then
              if length v =? length sp then fix_up sp false r
              else keep false (W (skipn (length sp) v))
            else HUnindented
          else keep false t
      | X _ => if start then HUnindented else keep false t
      end
  end.

Definition strip_saved (sp : bytes) (ts : list tok) : hres (list tok) :=
  match sp with [] => HOk ts | _ => fix_up sp true ts end.

Section Play.
(* The names an expansion yields, if it succeeds. *)
Context (val : bytes -> option (list bytes)).

(* 1868-1889: names joined by spaces. *)
Fixpoint join (ns : list bytes) : bytes :=
  match ns with
  | [] => []
  | [n] => n
  | n :: r => n ++ SP :: join r
  end.

(* libbuild2/parser.cxx 8990-9022, 9940-10045: adjacent words and expansions
   are concatenated; an expansion with more than one name cannot be.
   Simplification: concatenation of typed values is not modelled. *)
Fixpoint concat_toks (ts : list tok) : option bytes :=
  match ts with
  | [] => Some []
  | W v :: r => option_map (app v) (concat_toks r)
  | X e :: r =>
      match val e with
      | Some [] => concat_toks r
      | Some [v] => option_map (app v) (concat_toks r)
      | _ => None
      end
  | N :: r => concat_toks r
  end.

(* 1853-1889: the string of a line. *)
Definition expand (ts : list tok) : option bytes :=
  match ts with
  | [X e] => option_map join (val e)
  | _ => concat_toks ts
  end.

(* 1891-1902. *)
Definition add_line (rs : option bytes) (s : bytes) : option bytes :=
  match rs with
  | None => Some s
  | Some t => Some (t ++ NL :: s)
  end.

(* 2038-2051: the final newline. *)
Definition finish (nonl : bool) (rs : option bytes) : bytes :=
  if nonl then match rs with Some t => t | None => [] end
  else match rs with Some t => t ++ [NL] | None => [NL] end.

(* 1811-1991, 2036-2069 on the saved tokens.  [cur]: the tokens of the current
   line so far. *)
Fixpoint play (em : bytes) (nonl : bool) (cur : list tok) (rs : option bytes)
         (ts : list tok) : hres bytes :=
  match ts with
  | [] => HMissing
  | N :: r =>
      let more := match expand cur with
                  | Some s => play em nonl [] (add_line rs s) r
                  | None => HExpand
                  end in
      match cur with
      | [W v] => match end_marker em v with
                 | Some 0 => HOk (finish nonl rs)
                 | Some _ => HAssert
                 | None => more
                 end
      | _ => more
      end
  | t :: r => play em nonl (cur ++ [t]) rs r
  end.

(* Both stages of one here-document. *)
Definition here_document (em : bytes) (nonl lit : bool) (ls : list (list item))
  : hres (bytes * list (list item)) :=
  match pre_lines lit em ls with
  | HOk (saved, sp, rest) =>
      match strip_saved sp saved with
      | HOk ts =>
          match play em nonl [] None ts with
          | HOk s => HOk (s, rest)
          | HMissing => HMissing | HUnindented => HUnindented
          | HExpand => HExpand | HAssert => HAssert
          end
      | HMissing => HMissing | HUnindented => HUnindented
      | HExpand => HExpand | HAssert => HAssert
      end
  | HMissing => HMissing | HUnindented => HUnindented
  | HExpand => HExpand | HAssert => HAssert
  end.

(* A here-document of a command (libbuild2/script/parser.hxx 94-113
   here_doc): its end marker, whether the final newline is suppressed
   (modifier [:]) and whether it is literal. *)
Record hdoc := HDoc { hend : bytes; hnonl : bool; hlit : bool }.

(* 1688-1767 parse_here_documents(): in the order they were mentioned.
   Simplification: each document goes through both stages before the next is
   read, where the code reads all the script first; a failure is thus one of
   the document it occurs in. *)
Fixpoint here_documents (ds : list hdoc) (ls : list (list item))
  : hres (list bytes * list (list item)) :=
  match ds with
  | [] => HOk ([], ls)
  | d :: r =>
      match here_document (hend d) (hnonl d) (hlit d) ls with
      | HOk (s, rest) =>
          match here_documents r rest with
          | HOk (ss, rest') => HOk (s :: ss, rest')
          | f => f
          end
      | HMissing => HMissing | HUnindented => HUnindented
      | HExpand => HExpand | HAssert => HAssert
      end
  end.
End Play.
