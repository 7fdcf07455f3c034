(* What it means for a C/C++ translation unit to consist of tokens: a grammar of tokens and
   comments that is independent of the lexer. *)
From Verif Require Import Base CcModel.
Local Open Scope N_scope.

(* Line splices: a backslash and an end of line, which is LF, CRLF or CR (also repeated
   CRs). *)
Inductive splice : bytes -> Prop :=
| sp_lf crs : (forall c, In c crs -> c = CR) -> splice (BS :: crs ++ [NL])
| sp_cr crs : (forall c, In c crs -> c = CR) -> splice (BS :: CR :: crs).
Inductive splices : bytes -> Prop :=
| sps_nil : splices []
| sps_cons x y : splice x -> splices y -> splices (x ++ y).
(* src is text with line splices inserted. *)
Inductive spliced : bytes -> bytes -> Prop :=
| spd_nil sp : splices sp -> spliced [] sp
| spd_char c text sp src : splices sp -> spliced text src -> spliced (c :: text) (sp ++ c :: src).

(* Tokens. *)
Definition all (f : ascii -> bool) (s : bytes) : Prop := forall c, In c s -> f c = true.
Definition letter (c : ascii) : bool := ceqb c "_" || alpha c.
Inductive suffixed : bytes -> Prop :=
| sf_nil : suffixed []
| sf_id c s : letter c = true -> all ident s -> suffixed (c :: s).
(* The characters of a literal in quotes q. *)
Inductive quoted_body (q : ascii) : bytes -> Prop :=
| qb_nil : quoted_body q []
| qb_char c s : c <> q -> c <> BS -> c <> NL -> quoted_body q s -> quoted_body q (c :: s)
| qb_escape c s : c <> NL -> quoted_body q s -> quoted_body q (BS :: c :: s).
(* The characters of a number after the first digit. *)
Inductive number_rest : bytes -> Prop :=
| nr_nil : number_rest []
| nr_char c s : ends_number c = false -> number_rest s -> number_rest (c :: s)
| nr_sign e c s : exponent e = true -> c = "+"%char \/ c = "-"%char -> number_rest s -> number_rest (e :: c :: s).
Definition encoding (s : bytes) : Prop := In s [b ""; b "u8"; b "u"; b "L"; b "U"].
Definition raw_close (d : bytes) : bytes := ")"%char :: d ++ [DQ].
Definition punctuators : list bytes :=
  [b "#"; b "("; b ")"; b "["; b "]"; b ","; b "?"; b "~"; b "\"; b ".*"; b "...";
   b "="; b "=="; b "!"; b "!="; b "*"; b "*="; b "/"; b "/="; b "%"; b "%="; b "^"; b "^=";
   b "<="; b "<<"; b "<<="; b ">="; b ">>"; b ">>="; b "+"; b "++"; b "+="; b "-"; b "--"; b "-="; b "->"; b "->*";
   b "&"; b "&&"; b "&="; b "|"; b "||"; b "|="].
Definition special_chars : bytes := b "#()[],?~\;{}.=!*/%^<>+-&|:'""".
Inductive is_token : ttype -> bytes -> Prop :=
| it_dot : is_token Dot (b ".")
| it_semi : is_token Semi (b ";")
| it_colon : is_token Colon (b ":")
| it_scope : is_token Scope (b "::")
| it_less : is_token Less (b "<")
| it_greater : is_token Greater (b ">")
| it_lbrace : is_token LBrace (b "{")
| it_rbrace : is_token RBrace (b "}")
| it_punctuation s : In s punctuators -> is_token Punctuation s
| it_identifier c s : ident c = true -> digit c = false -> all ident s -> is_token Identifier (c :: s)
| it_number c s : digit c = true -> number_rest s -> is_token Number (c :: s)
| it_fraction c s : digit c = true -> number_rest s -> is_token Number ("."%char :: c :: s)
| it_character e s f : encoding e -> quoted_body SQ s -> suffixed f -> is_token Character (e ++ [SQ] ++ s ++ [SQ] ++ f)
| it_string e s f : encoding e -> quoted_body DQ s -> suffixed f -> is_token Str (e ++ [DQ] ++ s ++ [DQ] ++ f)
| it_raw e d s f :
    encoding e -> (forall c, In c d -> c <> "("%char /\ c <> ")"%char /\ c <> BS /\ c <> SP) ->
    (forall x y, s ++ raw_close d = x ++ raw_close d ++ y -> y = []) -> suffixed f ->
    is_token Str (e ++ b "R" ++ [DQ] ++ d ++ ["("%char] ++ s ++ raw_close d ++ f)
| it_other c : ident c = false -> ~ In c special_chars -> c <> NL -> blank c = false -> is_token Other [c].

(* Whether the character after the token would make it longer (or make it a comment). *)
Definition lastc (s : bytes) : ascii := last s NUL.
Definition longer (t : ttype) (s : bytes) (c : ascii) : bool :=
  match t with
  | Identifier => ident c || (ceqb c SQ && existsb (beqb s) [b "u8"; b "u"; b "L"; b "U"])
                  || (ceqb c DQ && existsb (beqb s) [b "u8"; b "u"; b "L"; b "U"; b "R"; b "u8R"; b "uR"; b "LR"; b "UR"])
  | Number => negb (ends_number c) || (exponent (lastc s) && (ceqb c "+" || ceqb c "-"))
  | Character => if ceqb (lastc s) SQ then letter c else ident c
  | Str => if ceqb (lastc s) DQ then letter c else ident c
  | Other | Semi | LBrace | RBrace | Scope | Eos => false
  | Dot => ceqb c "*" || digit c
  | Colon => ceqb c ":"
  | Less => ceqb c "<" || ceqb c "="
  | Greater => ceqb c ">" || ceqb c "="
  | Punctuation =>
      if existsb (beqb s) [b "="; b "!"; b "*"; b "%"; b "^"; b "<<"; b ">>"] then ceqb c "="
      else if beqb s (b "/") then ceqb c "=" || ceqb c "/" || ceqb c "*"
      else if beqb s (b "+") then ceqb c "+" || ceqb c "="
      else if beqb s (b "-") then ceqb c "-" || ceqb c "=" || ceqb c ">"
      else if beqb s (b "->") then ceqb c "*"
      else if beqb s (b "&") then ceqb c "&" || ceqb c "="
      else if beqb s (b "|") then ceqb c "|" || ceqb c "="
      else false
  end.
(* The source continues with the character, possibly after line splices. *)
Definition continues (src : bytes) (o : option ascii) (src' : bytes) : Prop :=
  exists sp, splices sp /\ src = sp ++ src' /\ hd_error src' = o.
Definition ends (t : ttype) (s src : bytes) : Prop :=
  match t with
  | Semi | LBrace | RBrace | Scope | Other => True
  | _ =>
      exists o src', continues src o src' /\
        match o with
        | None => True
        | Some c =>
            longer t s c = false /\
            (* A dot is not followed by two dots. *)
            (t = Dot -> c = "."%char -> exists o' src'', continues (tl src') o' src'' /\ o' <> Some "."%char)
        end
  end.

(* Comments, without the newline that ends the first kind. *)
Inductive comment : bytes -> Prop :=
| cm_line s : ~ In NL s -> comment (b "//" ++ s)
| cm_block s : (forall x y, s ++ b "*/" = x ++ b "*/" ++ y -> y = []) -> comment (b "/*" ++ s ++ b "*/").

(* The position: the physical line and, if there was a line directive, the logical line and
   also the file. Tokens belong to the logical line if there is one. *)
Record pos := mkpos { pline : N; plog : option N; pfile : bytes * bool }.
Definition adv1 (p : pos) (c : ascii) : pos := if ceqb c NL then mkpos (pline p + 1) (bump (plog p)) (pfile p) else p.
Definition adv (s : bytes) (p : pos) : pos := fold_left adv1 s p.
Definition cur (p : pos) : N := match plog p with Some l => l | None => pline p end.

(* A file name in a line directive and what it stands for. *)
Inductive file_body : bytes -> bytes -> Prop :=
| fb_nil : file_body [] []
| fb_char c s t : c <> DQ -> c <> BS -> c <> NL -> file_body s t -> file_body (c :: s) (c :: t)
| fb_escape c s t : In c [BS; SQ; DQ] -> file_body s t -> file_body (BS :: c :: s) (c :: t).
(* The file that it sets and what it contributes to the checksum: nothing if it is the same or
   is a directory. *)
Definition set_pfile (s : bytes) (f : bytes * bool) : (bytes * bool) * bytes :=
  if beqb (fst f) s then (f, [])
  else let f := if special s then (s, false) else to_path s in (f, if snd f then [] else fst f).

(* Where we are in a preprocessor directive: none, after #, after #line, after the line number
   and in the rest. *)
Inductive part := Plain | Hash | LineWord | LineNumber | Tail.
Definition word (t : ttype) (s : bytes) (w : string) : bool := match t with Identifier => beqb s (b w) | _ => false end.
Definition next_part (preprocessed : bool) (m : part) (t : ttype) (s : bytes) : option part :=
  match m with
  | Plain => Some (if beqb s (b "#") then Hash else Plain)
  | Hash => if word t s "line" then Some LineWord
            else if preprocessed && word t s "include" then None
            else if digit (hd NUL s) then None
            else Some Tail
  | LineWord | LineNumber => None
  | Tail => Some Tail
  end.
Definition after_newline (m : part) : option part := match m with LineWord | LineNumber => None | _ => Some Plain end.
(* There is no file name after the line number. *)
Definition no_file (src : bytes) : Prop :=
  match src with
  | [] => True
  | c :: src' =>
      c <> DQ /\ blank c = false /\
      (c = "/"%char -> exists o src'', continues src' o src'' /\ o <> Some "/"%char /\ o <> Some "*"%char)
  end.

(* What is to be hashed: for each token its line and text and, for line directives, the file if
   it changes. *)
Inductive item := Text (l : N) (s : bytes) | File (s : bytes).
Definition item_bytes (i : item) : bytes := match i with Text l s => le 8 l ++ s | File s => s end.
Definition bytes_of (h : list item) : bytes := concat (map item_bytes h).

(* The source consists of these tokens (other than those of preprocessor directives) and this
   is what is to be hashed. *)
Inductive reads (preprocessed : bool) : part -> pos -> bytes -> list item -> list (ttype * bytes * N) -> Prop :=
| r_end m p : m <> LineWord -> m <> LineNumber -> reads preprocessed m p [] [] []
| r_splices m p sp src h ts : splices sp -> reads preprocessed m (adv sp p) src h ts -> reads preprocessed m p (sp ++ src) h ts
| r_blank m p c src h ts : blank c = true -> reads preprocessed m p src h ts -> reads preprocessed m p (c :: src) h ts
| r_newline m m' p src h ts :
    after_newline m = Some m' ->
    reads preprocessed m' (adv1 p NL) src h ts -> reads preprocessed m p (NL :: src) h ts
| r_comment m p text s src h ts :
    comment text -> spliced text s ->
    (* A comment of the first kind extends to the end of the line. *)
    (firstn 2 text = b "//" -> exists o src', continues src o src' /\ (o = None \/ o = Some NL)) ->
    reads preprocessed m (adv s p) src h ts -> reads preprocessed m p (s ++ src) h ts
| r_token m m' t text p s l src h ts :
    is_token t text -> next_part preprocessed m t text = Some m' ->
    spliced text s -> ends t text src ->
    (* The line is that of the first character or, perhaps, that after line splices that follow
       this character. *)
    (exists sp sp' src', splices sp /\ splices sp' /\ s ++ src = sp ++ hd NUL text :: sp' ++ src' /\ l = cur (adv (sp ++ sp') p)) ->
    reads preprocessed m' (adv s p) src h ts ->
    reads preprocessed m p (s ++ src) (Text l text :: h)
      (match m, m' with Plain, Plain => (t, match t with Identifier => text | _ => [] end, l) :: ts | _, _ => ts end)
| r_number m text p s src h ts :
    m = Hash \/ m = LineWord ->
    text <> [] -> all digit text -> spliced text s -> number_of text < u64 ->
    (exists o src', continues src o src' /\ match o with Some c => digit c = false | None => True end) ->
    reads preprocessed LineNumber (let q := adv s p in mkpos (pline q) (Some ((number_of text + (u64 - 1)) mod u64)) (pfile q)) src h ts ->
    reads preprocessed m p (s ++ src) h ts
| r_file body name p s src f k h ts :
    file_body body name -> name <> [] -> spliced ([DQ] ++ body ++ [DQ]) s ->
    set_pfile name (pfile p) = (f, k) ->
    reads preprocessed Tail (let q := adv s p in mkpos (pline q) (plog q) f) src h ts ->
    reads preprocessed LineNumber p (s ++ src) (File k :: h) ts
| r_no_file p src h ts : no_file src -> reads preprocessed Tail p src h ts -> reads preprocessed LineNumber p src h ts.
Definition begin (name : bytes) : pos := mkpos 1 None (to_path name).

(* What can be told from what is hashed: the line and text of each token, except that the file
   of a line directive is taken for a continuation of the text. *)
Fixpoint records (h : list item) : bytes * list (N * bytes) :=
  match h with
  | [] => ([], [])
  | Text l s :: h => let '(k, r) := records h in ([], (l, s ++ k) :: r)
  | File s :: h => let '(k, r) := records h in (s ++ k, r)
  end.
(* The bytes 0 and 0xFF do not occur in (UTF-8) text. *)
Definition texty (s : bytes) : Prop := forall c, In c s -> c <> NUL /\ c <> "255"%char.
(* The lines that are hashed are less than 2^32 or wrap around (# 0). *)
Definition line_fits (l : N) : Prop := l < 2 ^ 32 \/ l = u64 - 1.
Definition fits (h : list item) : Prop := forall l s, In (Text l s) h -> line_fits l.

(* There are no line splices in the source. *)
Fixpoint unspliced (s : bytes) : bool :=
  match s with
  | c :: s' => negb (ceqb c BS && match s' with d :: _ => ceqb d NL || ceqb d CR | [] => false end) && unspliced s'
  | [] => true
  end.

(* White space and comments. *)
Inductive layout : bytes -> Prop :=
| ly_nil : layout []
| ly_blank c g : blank c = true -> layout g -> layout (c :: g)
| ly_newline g : layout g -> layout (NL :: g)
| ly_line s g : ~ In NL s -> layout g -> layout (b "//" ++ s ++ NL :: g)
| ly_block s g : (forall x y, s ++ b "*/" = x ++ b "*/" ++ y -> y = []) -> layout g -> layout (b "/*" ++ s ++ b "*/" ++ g).
(* The source that consists of these tokens, each after the layout, and the layout at the end. *)
Fixpoint source (ps : list (bytes * (ttype * bytes))) (g : bytes) : bytes :=
  match ps with
  | [] => g
  | (g0, (_, text)) :: ps => g0 ++ text ++ source ps g
  end.
Fixpoint laid (ps : list (bytes * (ttype * bytes))) (g : bytes) : Prop :=
  match ps with
  | [] => layout g
  | (g0, (t, text)) :: ps => layout g0 /\ is_token t text /\ text <> b "#" /\ ends t text (source ps g) /\ laid ps g
  end.
(* The tokens and the lines that they start on, given the line that we are on. *)
Definition newlines (s : bytes) : N := N.of_nat (count_occ ascii_dec s NL).
Fixpoint placed (l : N) (ps : list (bytes * (ttype * bytes))) : list (ttype * bytes * N) :=
  match ps with
  | [] => []
  | (g, (t, text)) :: ps => (t, text, l + newlines g) :: placed (l + newlines g + newlines text) ps
  end.
