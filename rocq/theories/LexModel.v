(* Model of the buildfile lexer, libbuild2/lexer.{hxx,cxx}.

   The input is the sequence of characters that the character scanner
   (butl::char_scanner, not part of this repository) delivers: valid UTF-8 and
   with \r\n already replaced with \n; in particular, there are no NUL characters.
   Line and column numbers are not modelled except for whether the next character
   is the first of its line. The foreign mode (ad hoc recipes) is not modelled.
   A failure (invalid input) is None. *)
From Verif Require Import Base.

Definition SQ : ascii := "'"%char.
Definition DQ : ascii := """"%char.
Definition BSL : ascii := "\"%char.

(* lexer.hxx:88-108 without single_quoted, which only exists during word (). *)
Inductive lmode := Normal | Cmdvar | Varname | Value | Values | Case_patterns | Switch_expressions | Attributes | Attribute_value | Subscript
  | Eval | Double_quoted | Foreign | Buildspec.

Definition lmode_eqb (x y : lmode) : bool :=
  match x, y with
  | Normal, Normal | Cmdvar, Cmdvar | Varname, Varname | Value, Value | Values, Values | Case_patterns, Case_patterns
  | Switch_expressions, Switch_expressions | Attributes, Attributes | Attribute_value, Attribute_value | Subscript, Subscript
  | Eval, Eval | Double_quoted, Double_quoted | Foreign, Foreign | Buildspec, Buildspec => true
  | _, _ => false
  end.
Definition among (m : lmode) (l : list lmode) : bool := existsb (lmode_eqb m) l.

(* lexer::state, lexer.hxx:222-250. The escapes: None is NULL (everything can be
   escaped). special: the names passed as the mode data to the variable mode. The
   quotes flag is true in all the modes here. *)
Record lst := mkst {
  md : lmode; lsb : bool; lsb_unsep : bool; spair : ascii; sspace : bool; snewline : bool; escs : option bytes; special : bytes
}.
Definition set_lsb (x : bool) (y : bool) (s : lst) : lst := mkst (md s) x y (spair s) (sspace s) (snewline s) (escs s) (special s).

(* sep_first and sep_second, lexer.cxx:78-181 *)
Definition nlb : bytes := [NL].
Definition seps (m : lmode) : bytes * bytes :=
  match m with
  | Normal | Cmdvar => (b ":<>=+? $(){}#" ++ [TAB; NL], b "    ==         ")
  | Value => (b " $(){}#" ++ [TAB; NL], b "         ")
  | Values => (b " $(){},#" ++ [TAB; NL], b "          ")
  | Switch_expressions => (b " $(){},:#" ++ [TAB; NL], b "           ")
  | Case_patterns => (b " $(){},|:#" ++ [TAB; NL], b "            ")
  | Attributes => (b " $()=,]#" ++ [TAB; NL], b "          ")
  | Attribute_value => (b " $(),]#" ++ [TAB; NL], b "         ")
  | Subscript => (b " $()]#" ++ [TAB; NL], b "        ")
  | Eval => (b ":<>=!&|?,` $(){}#" ++ [TAB; NL], b "   = &             ")
  | Buildspec => (b " $(){}," ++ [TAB; NL], b "         ")
  | Varname | Double_quoted | Foreign => ([], [])
  end.

(* lexer::mode (), lexer.cxx:61-184. The escapes of the current mode are inherited
   if not specified: see the callers. nl: the mode data of buildspec. *)
Definition mode_state (m : lmode) (ps : ascii) (esc : option bytes) (sp : bytes) (nl : bool) : lst :=
  mkst m (among m [Normal; Cmdvar]) false ps (negb (among m [Foreign])) (match m with Buildspec => nl | _ => true end) esc sp.

(* lexer.cxx:186-205 and 207-226 *)
Definition push_mode (s : lst) (stk : list lst) : list lst :=
  match stk with
  | q :: stk' => if among (md q) [Double_quoted] && negb (among (md s) [Eval; Varname]) then q :: s :: stk' else s :: stk
  | [] => [s]
  end.
Definition expire_mode (stk : list lst) : list lst :=
  match stk with
  | q :: t :: stk' => if among (md q) [Double_quoted] then q :: stk' else t :: stk'
  | _ => []
  end.

(* token_type; token.hxx. The value of a multi_lcbrace or a pair separator is in
   its token. *)
Inductive ttype := TEos | TNewline | TWord | TEscape | TPair | TColon | TDollar | TQuestion | TComma | TPercent | TBacktick
  | TLParen | TRParen | TLCBrace | TRCBrace | TMultiLCBrace | TLSBrace | TRSBrace | TLABrace | TRABrace
  | TAssign | TPrepend | TAppend | TDefault | TEqual | TNotEqual | TLess | TLessEqual | TGreater | TGreaterEqual
  | TLogOr | TLogAnd | TLogNot | TBitOr.
Inductive qtype := Unquoted | Single | Double | Mixed.
Record tok := mktok { tt : ttype; tv : bytes; tsep : bool; tq : qtype; tqcomp : bool; tqfirst : bool }.

Definition plain (t : ttype) (v : bytes) (sep : bool) : tok := mktok t v sep Unquoted false false.

(* strchr (), which also finds the terminating NUL. *)
Definition strchr (l : bytes) (c : ascii) : bool := existsb (ceqb c) l || ceqb c NUL.
Definition mem (l : bytes) (c : ascii) : bool := existsb (ceqb c) l.

(* <cctype> in libbutl: alpha (), alnum () *)
Definition code (c : ascii) : nat := nat_of_ascii c.
Definition between (lo hi : ascii) (c : ascii) : bool := (code lo <=? code c) && (code c <=? code hi).
Definition alpha (c : ascii) : bool := between "a"%char "z"%char c || between "A"%char "Z"%char c.
Definition alnum (c : ascii) : bool := alpha c || between "0"%char "9"%char c.

(* lexer.cxx:891-916: the separator sequences. *)
Fixpoint sep_seq (f s : bytes) (c : ascii) (nx : option ascii) : bool :=
  match f, s with
  | x :: f', y :: s' =>
      (ceqb x c && (ceqb y SP || match nx with Some d => ceqb d y | None => false end)) || sep_seq f' s' c nx
  | _, _ => false
  end.
Definition is_sep (st : lst) (c : ascii) (s : bytes) : bool :=
  ceqb c (spair st) || sep_seq (fst (seps (md st))) (snd (seps (md st))) c (hd_error s).

(* lexer.cxx:808-811: whether a backslash followed by s is an escape sequence. *)
Definition escape_applies (st : lst) (s : bytes) : bool :=
  match escs st with
  | None => true
  | Some e => match s with [] => false | p :: _ => negb (beqb e []) && strchr e p end
  end.

(* The state pushed for a double-quoted fragment, lexer.cxx:923-934 *)
Definition dq_state : lst := mkst Double_quoted false false NUL false true (Some (b "$()""\" ++ [NL])) [].

(* lexer.cxx:873-887: where a variable name ends. *)
Definition var_done (st : lst) (first empty : bool) (c : ascii) (s : bytes) : bool :=
  negb (ceqb c "_"%char) && negb (if empty then alpha c else alnum c) &&
  (negb (ceqb c "."%char) || match s with [] => true | p :: _ => negb (alpha p || ceqb p "_"%char) end).
Definition simple_escape (c : ascii) : bool := mem (b "'""?\0abfnrtv") c.

(* The quoting state of a word. *)
Record quo := mkq { qt : qtype; qcomp : bool; qfirst : bool }.
(* append (), lexer.cxx:736-747 *)
Definition q_append (dq escaped empty : bool) (q : quo) : quo :=
  mkq (qt q) (if negb dq && qcomp q then false else qcomp q) (qfirst q || (empty && (escaped || dq))).
(* lexer.cxx:945-966 *)
Definition q_single (empty : bool) (q : quo) : quo :=
  match qt q with
  | Unquoted => mkq Single empty (qfirst q || empty)
  | Single => mkq Single false (qfirst q || empty)
  | Double | Mixed => mkq Mixed false (qfirst q || empty)
  end.
(* lexer.cxx:987-1009 *)
Definition q_double (empty : bool) (q : quo) : quo :=
  match qt q with
  | Unquoted => mkq Double empty (qfirst q || empty)
  | Double => mkq Double false (qfirst q || empty)
  | Single | Mixed => mkq Mixed false (qfirst q || empty)
  end.

(* word (), lexer.cxx:715-1040, from the loop on. cur is *st (and m its mode), stk
   is state_, sq: in a single-quoted fragment, acc: the lexeme reversed. *)
Fixpoint word_loop (stk : list lst) (cur : lst) (sq first : bool) (acc : bytes) (q : quo) (sep : bool) (s : bytes)
  : option (tok * list lst * bytes) :=
  let empty := match acc with [] => true | _ => false end in
  let dq := among (md cur) [Double_quoted] in
  let var := among (md cur) [Varname] in
  let finish q' := Some (mktok TWord (rev acc) sep (qt q') (qcomp q') (qfirst q'), if var then tl stk else stk, s) in
  match s with
  | [] => if sq || dq then None else finish q
  | c :: s' =>
      if sq then
        if ceqb c SQ then word_loop stk cur false false acc q sep s'
        else word_loop stk cur true false (c :: acc) q sep s'
      else if ceqb c BSL && var then
        if negb first then finish q
        else match s' with
             | [] => None
             | d :: s'' => if simple_escape d then Some (mktok TEscape [d] sep (qt q) (qcomp q) (qfirst q), tl stk, s'') else None
             end
      else if ceqb c BSL && escape_applies cur s' then
        match s' with
        | [] => None
        | p :: s'' => if ceqb p NL then word_loop stk cur false false acc q sep s''
                      else word_loop stk cur false false (p :: acc) (q_append dq true empty q) sep s''
        end
      else if dq then
        if ceqb c "$"%char || ceqb c "("%char then finish (mkq (qt q) false (qfirst q))
        else if ceqb c DQ then
          match tl stk with
          | t :: stk' => word_loop (t :: stk') t false false acc q sep s'
          | [] => None
          end
        else word_loop stk cur false false (c :: acc) (q_append dq false empty q) sep s'
      else if var then
        if first && mem (special cur) c then
          Some (mktok TWord [c] sep (qt q) (qcomp q) (qfirst q), tl stk, s')
        else if var_done cur first empty c s' then finish q
        else word_loop stk cur false false (c :: acc) (q_append dq false empty q) sep s'
      else if is_sep cur c s' then finish q
      else if ceqb c SQ then word_loop stk cur true false acc (q_single empty q) sep s'
      else if ceqb c DQ then word_loop (dq_state :: stk) dq_state false false acc (q_double empty q) sep s'
      else word_loop stk cur false false (c :: acc) (q_append dq false empty q) sep s'
  end.

Definition word (stk : list lst) (cur : lst) (sep : bool) (s : bytes) : option (tok * list lst * bytes) :=
  word_loop stk cur false true [] (mkq (if among (md cur) [Double_quoted] then Double else Unquoted) false false) sep s.

(* The rest after a comment, lexer.cxx:1090-1138; s is what follows the #.

   First the body of a multi-line comment, until a # that is followed by a
   backslash and the end of line. *)
Definition ml_mark (s : bytes) : bool :=
  match s with
  | c :: s' => ceqb c BSL && match s' with [] => true | d :: _ => ceqb d NL end
  | [] => false
  end.
Fixpoint ml_body (s : bytes) : option bytes :=
  match s with
  | [] => None
  | c :: s' => if ceqb c "#"%char && ml_mark s' then Some (tl s') else ml_body s'
  end.
Fixpoint to_newline (s : bytes) : bytes :=
  match s with
  | [] => []
  | c :: s' => if ceqb c NL then s else to_newline s'
  end.
Definition comment (s : bytes) : option bytes := if ml_mark s then ml_body (tl s) else Some (to_newline s).

(* skip_spaces (), lexer.cxx:1042-1159. The result: first, second and the rest.
   The fuel is for the comments; see lex_fuel. *)
Fixpoint skip_loop (fuel : nat) (nl : bool) (r start : bool) (s : bytes) : option (bool * bytes) :=
  match fuel with
  | 0 => None
  | S n =>
    match s with
    | [] => Some (r, [])
    | c :: s' =>
        if ceqb c SP || ceqb c TAB then skip_loop n nl true start s'
        else if ceqb c NL then
          if negb nl then skip_loop n nl true start s'
          else if start then skip_loop n nl false start s'
          else Some (r, s)
        else if ceqb c "#"%char then
          match comment s' with Some s'' => skip_loop n nl true start s'' | None => None end
        else if ceqb c BSL then
          match s' with
          | d :: s'' => if ceqb d NL then skip_loop n nl r start s'' else Some (r, s)
          | [] => Some (r, s)
          end
        else Some (r, s)
    end
  end.

(* The lexer: state_, whether the next character is the first of its line, sep_,
   and the input. *)
Record lexer := mklex { stack : list lst; bol : bool; sepf : bool; input : bytes }.

(* The input is now s. *)
Definition advance (stk : list lst) (s : bytes) (l : lexer) : lexer :=
  let k := length (input l) - length s in
  mklex stk (match k with 0 => bol l | S k' => ceqb (nth k' (input l) NUL) NL end) (sepf l) s.

Definition skip_spaces (st : lst) (l : lexer) : option (bool * bool * lexer) :=
  let l0 := mklex (stack l) (bol l) false (input l) in
  if negb (sspace st) then Some (sepf l, false, l0)
  else match skip_loop (S (length (input l))) (snewline st) (sepf l) (bol l) (input l) with
       | Some (r, s) => Some (r, bol l, advance (stack l) s l0)
       | None => None
       end.

(* peek_chars (), lexer.cxx:20-59: what the parser uses to look ahead. *)
Definition peek_chars (l : lexer) : option ((ascii * ascii * bool) * lexer) :=
  match stack l with
  | [] => None
  | st :: _ =>
    match skip_spaces st l with
    | Some (r, _, l1) => let c0 := nth 0 (input l1) NUL in let c1 := nth 1 (input l1) NUL in
                      Some ((c0, c1, r), mklex (stack l1) (bol l1) r (input l1))
    | None => None
    end
  end.

Fixpoint lcbraces (s : bytes) : bytes * bytes :=
  match s with
  | c :: s' => if ceqb c "{"%char then (c :: fst (lcbraces s'), snd (lcbraces s')) else ([], s)
  | [] => ([], [])
  end.

Definition value_like (m : lmode) : bool := among m [Value; Values; Switch_expressions; Case_patterns].

Definition ret (t : tok) (stk : list lst) (s : bytes) (l : lexer) : option (tok * lexer) := Some (t, advance stk s l).
Definition ret_word (l : lexer) (w : option (tok * list lst * bytes)) : option (tok * lexer) :=
  match w with Some (t, stk, s) => ret t stk s l | None => None end.

(* next () in the modes that it handles itself, lexer.cxx:255-489. st: the top
   state, sep and first: the result of skip_spaces (), l: the lexer after it. *)
Definition next_simple (st : lst) (sep first : bool) (l : lexer) : option (tok * lexer) :=
  let m := md st in
  let st' := set_lsb false (lsb_unsep st) st in
  let stk := st' :: tl (stack l) in
  match input l with
  | [] => ret (plain TEos [] sep) stk [] l
  | c :: s =>
      let nx := hd_error s in
      let is x := ceqb c x in
      let nx_is x := match nx with Some d => ceqb d x | None => false end in
      let tok1 t := ret (plain t [] sep) stk s l in
      let tok2 t := ret (plain t [] sep) stk (tl s) l in
      let w := ret_word l (word stk st' sep (c :: s)) in
      if lsb st && is "["%char && (negb (lsb_unsep st) || negb sep) then tok1 TLSBrace
      else if is (spair st) then ret (plain TPair [c] sep) stk s l
      else if is NL then
        let stk1 := if value_like m then tl stk else stk in
        let stk2 := match stk1 with t :: r => if among (md t) [Normal] then set_lsb true false t :: r else stk1 | [] => [] end in
        ret (plain TNewline [] true) stk2 s l
      else if is "$"%char then tok1 TDollar
      else if is ")"%char then tok1 TRParen
      else if is "("%char then ret (plain TLParen [] (sep || (among m [Buildspec] && (length stk <=? 3)))) stk s l
      else if among m [Normal] && first && is "%"%char then tok1 TPercent
      else if among m [Normal] && first && is "{"%char && nx_is "{"%char then
        let (v, s') := lcbraces (c :: s) in ret (plain TMultiLCBrace v sep) stk s' l
      else if negb (among m [Attributes; Attribute_value; Subscript]) && is "{"%char then tok1 TLCBrace
      else if negb (among m [Attributes; Attribute_value; Subscript]) && is "}"%char then tok1 TRCBrace
      else if among m [Attributes] && is "="%char then tok1 TAssign
      else if among m [Attributes; Attribute_value; Subscript] && is "]"%char then ret (plain TRSBrace [] sep) (tl stk) s l
      else if among m [Normal; Cmdvar; Switch_expressions; Case_patterns] && is ":"%char then tok1 TColon
      else if among m [Normal; Cmdvar] && is "="%char then if nx_is "+"%char then tok2 TPrepend else tok1 TAssign
      else if among m [Normal; Cmdvar] && is "+"%char && nx_is "="%char then tok2 TAppend
      else if among m [Normal; Cmdvar] && is "?"%char && nx_is "="%char then tok2 TDefault
      else if among m [Normal; Cmdvar] && is "<"%char then tok1 TLABrace
      else if among m [Normal; Cmdvar] && is ">"%char then tok1 TRABrace
      else if among m [Buildspec; Values; Switch_expressions; Case_patterns; Attributes; Attribute_value] && is ","%char then tok1 TComma
      else if among m [Case_patterns] && is "|"%char then tok1 TBitOr
      else w
  end.

(* next_eval (), lexer.cxx:491-594 *)
Definition next_eval (st : lst) (sep : bool) (l : lexer) : option (tok * lexer) :=
  let st' := set_lsb false (lsb_unsep st) st in
  let stk := st' :: tl (stack l) in
  match input l with
  | [] => None
  | c :: s =>
      let nx := hd_error s in
      let is x := ceqb c x in
      let nx_is x := match nx with Some d => ceqb d x | None => false end in
      let tok1 t := ret (plain t [] sep) stk s l in
      let tok2 t := ret (plain t [] sep) stk (tl s) l in
      let w := ret_word l (word stk st' sep (c :: s)) in
      if lsb st && is "["%char && (negb (lsb_unsep st) || negb sep) then tok1 TLSBrace
      else if is (spair st) then ret (plain TPair [c] sep) stk s l
      else if is NL then None
      else if is ":"%char then tok1 TColon
      else if is "{"%char then tok1 TLCBrace
      else if is "}"%char then tok1 TRCBrace
      else if is "$"%char then tok1 TDollar
      else if is "?"%char then tok1 TQuestion
      else if is ","%char then tok1 TComma
      else if is "`"%char then tok1 TBacktick
      else if is "("%char then tok1 TLParen
      else if is ")"%char then ret (plain TRParen [] sep) (tl stk) s l
      else if is "|"%char then if nx_is "|"%char then tok2 TLogOr else tok1 TBitOr
      else if is "&"%char && nx_is "&"%char then tok2 TLogAnd
      else if is "<"%char then if nx_is "="%char then tok2 TLessEqual else tok1 TLess
      else if is ">"%char then if nx_is "="%char then tok2 TGreaterEqual else tok1 TGreater
      else if is "="%char && nx_is "="%char then tok2 TEqual
      else if is "!"%char then if nx_is "="%char then tok2 TNotEqual else tok1 TLogNot
      else w
  end.

(* next_quoted (), lexer.cxx:596-621 *)
Definition next_quoted (st : lst) (l : lexer) : option (tok * lexer) :=
  match input l with
  | [] => None
  | c :: s =>
      if ceqb c "$"%char then ret (mktok TDollar [] false Double false false) (stack l) s l
      else if ceqb c "("%char then ret (mktok TLParen [] false Double false false) (stack l) s l
      else ret_word l (word (stack l) st false (c :: s))
  end.

(* lexer.cxx:228-253. The lexer must be in one of the modes (the stack is not
   empty) and not in the foreign mode. *)
Definition next (l : lexer) : option (tok * lexer) :=
  match stack l with
  | [] => None
  | st :: _ =>
    match md st with
    | Foreign => None
    | Double_quoted => next_quoted st l
    | Eval => match skip_spaces st l with Some (sep, _, l1) => next_eval st sep l1 | None => None end
    | _ => match skip_spaces st l with Some (sep, first, l1) => next_simple st sep first l1 | None => None end
    end
  end.
