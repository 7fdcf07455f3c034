(* Model of how names are parsed, libbuild2/parser.cxx:7809-7946 (append_name (),
   splice_names ()), 8357-8545 (parse_names_trailer ()), 8550-10200 (parse_names ()),
   and of how strings are converted to names and back, variable.cxx:650-718,
   variable.txx:134-169 and 527-590, variable.hxx:897.

   The tokens of the value are a list that ends with a newline or eos. Modelled is
   the parsing of literal names, name groups and pairs when not pre-parsing and not
   chunking, in the expand mode for patterns. Variable expansions, evaluation
   contexts, concatenations with them, patterns (or what may be a pattern) and
   crosses ({a b}{x y}) are not modelled; if there is one then the result is None,
   the same as if the parsing fails.

   What is not part of this code: valid says whether a string is a valid project
   name (butl::project_name), exact whether it is the exact representation of a
   directory (dir_path::exact), and mkdir makes a directory of a string, None being
   invalid_path (dir_path ()). *)
From Verif Require Import Base LexModel NameModel.

Section Parse.
Context (valid : bytes -> bool) (exact : bytes -> bool) (mkdir : bytes -> option bytes).

Fixpoint last_index (f : ascii -> bool) (s : bytes) : option nat :=
  match s with
  | [] => None
  | c :: s' => match last_index f s' with Some k => Some (S k) | None => if f c then Some 0 else None end
  end.
Definition is_name_sep (c : ascii) : bool := is_sepc c || ceqb c "%"%char.

(* append_name (), parser.cxx:7809-7830 *)
Definition append_name (ns : list name) (p : option bytes) (d t v : bytes) : option (list name) :=
  if is_empty d && is_empty v && negb (is_empty t) then None else Some (ns ++ [mkname p d t v NUL None]).
Definition or_empty (x : option bytes) : bytes := match x with Some y => y | None => [] end.

(* *dp / dir_path (d): fails if d is absolute. *)
Definition combine (dp : option bytes) (d : bytes) : option bytes :=
  match dp with
  | None => Some d
  | Some x => if starts_with "/"%char d then None else Some (x ++ d)
  end.

Definition last_pair (ns : list name) : bool := match rev ns with n :: _ => negb (ceqb (pair n) NUL) | [] => false end.
Definition set_last_pair (c : ascii) (ns : list name) : list name :=
  match rev ns with
  | n :: r => rev (mkname (proj n) (dir n) (type n) (value n) c (pattern n) :: r)
  | [] => []
  end.

(* If a second half of a pair, add another first half unless this is the first
   instance. *)
Definition again (pairn : nat) (ns : list name) : list name :=
  if negb (pairn =? 0) && negb (pairn =? length ns) then ns ++ [nth (pairn - 1) ns (simple_name [])] else ns.

(* splice_names () with no project, directory and type, 7838-7946 *)
Fixpoint splice (pairn : nat) (r : list name) (ns : list name) : option (list name) :=
  match r with
  | [] => Some ns
  | n :: r' =>
      if negb (pairn =? 0) && negb (ceqb (pair n) NUL) then None
      else match append_name (again pairn ns) (proj n) (dir n) (type n) (value n) with
           | Some ns' => splice pairn r' (set_last_pair (pair n) ns')
           | None => None
           end
  end.
Definition splice_names (pairn : nat) (r ns : list name) : option (list name) :=
  if pairn =? 0 then Some (ns ++ r)
  else match r with [] => Some (removelast ns) | _ => splice pairn r ns end.

(* The project of a word, 9024-9073: the project, if any, and the rest of the word
   and the position of its last separator. *)
Definition take_project (quoted : bool) (pp : option bytes) (v : bytes) : option (option bytes * bytes * option nat) :=
  let pos := last_index is_name_sep v in
  match pos with
  | None => Some (pp, v, None)
  | Some k =>
      match last_index (ceqb "%"%char) v with
      | None => Some (pp, v, Some k)
      | Some q =>
          let p := firstn q v in
          if negb (is_empty p) && negb (valid p) then (if quoted then Some (pp, v, Some k) else None)
          else match pp with
               | Some _ => None
               | None => Some (Some p, skipn (S q) v, if k =? q then None else Some (k - S q))
               end
      end
  end.

(* Whether this can be a pattern, 9228-9330 (path_pattern () is only called for
   these). *)
Definition maybe_pattern (curly : bool) (pp : option bytes) (t : tok) (v : bytes) : bool :=
  match pp with
  | Some _ => false
  | None =>
      (negb (tqfirst t) && rc v) ||
      (match tq t with Unquoted => existsb (mem (b "*?[")) v | _ => false end) ||
      (negb (tqfirst t) && curly && starts_with "+"%char v)
  end.

Definition is_tt (x : ttype) (t : tok) : bool :=
  match x, tt t with
  | TWord, TWord | TLCBrace, TLCBrace | TRCBrace, TRCBrace | TPair, TPair | TDollar, TDollar | TLParen, TLParen
  | TNewline, TNewline | TEos, TEos => true
  | _, _ => false
  end.

(* An unseparated word, expansion or evaluation context: a concatenation. *)
Definition concat_next (rest : list tok) : bool :=
  match rest with
  | t :: _ => negb (tsep t) && (is_tt TWord t || is_tt TDollar t || is_tt TLParen t)
  | [] => false
  end.
Definition group_next (rest : list tok) : bool :=
  match rest with t :: _ => negb (tsep t) && is_tt TLCBrace t | [] => false end.

(* The body of a name group up to and including }, 8390-8430 and 8431-8533, given
   how to parse the names in it. toks: what is after {. *)
Definition group (body : list tok -> list name -> option (list name * list tok))
  (cross : bool) (pairn : nat) (ns : list name) (toks : list tok) : option (list name * nat * list tok) :=
  let pairn' := if (pairn =? 0) && negb (length ns =? 0) && last_pair ns then length ns else pairn in
  match body toks [] with
  | Some (r, t :: rest) =>
      if negb (is_tt TRCBrace t) then None
      else if cross && group_next rest then None
      else match splice_names pairn' r ns with
           | Some ns' => Some (ns', length ns' - length ns, rest)
           | None => None
           end
  | _ => None
  end.

(* parse_names (). The first of toks is the current token. The result: the names
   and the tokens, the first of which is the one that is not part of the names.
   curly: inside of {}. *)
Fixpoint loop (fuel : nat) (first : bool) (count : nat) (curly cross : bool) (pairn : nat) (pp dp tp : option bytes)
  (toks : list tok) (ns : list name) : option (list name * list tok) :=
  match fuel with
  | 0 => None
  | S n =>
    match toks with
    | [] => None
    | t :: rest =>
        let go count' rest' ns' := loop n false count' curly cross pairn pp dp tp rest' ns' in
        let body curly_pp d ty ts r := loop n true 0 true false 0 curly_pp d ty ts r in
        let finish ns' := if last_pair ns' then append_name ns' pp (or_empty dp) (or_empty tp) [] else Some ns' in
        let ending ns' := match finish ns' with Some x => Some (x, toks) | None => None end in
        if is_tt TWord t then
          if concat_next rest then None
          else match take_project (match tq t with Unquoted => false | _ => true end) pp (tv t) with
               | None => None
               | Some (pp1, v, pos) =>
                   let is_dir := match pos with Some k => k =? (length v - 1) | None => false end in
                   if group_next rest then
                     if negb is_dir && match tp with Some _ => true | None => false end then None
                     else if curly && negb (tqfirst t) && beqb v (b "+") then None
                     else
                       let dt := match pos with
                                 | None => Some (dp, Some v)
                                 | Some k =>
                                     match mkdir (firstn (S k) v) with
                                     | None => None
                                     | Some d =>
                                         match combine dp d with
                                         | None => None
                                         | Some d' => Some (Some d', if is_dir then tp else Some (skipn (S k) v))
                                         end
                                     end
                                 end in
                       match dt with
                       | None => None
                       | Some (dp1, tp1) =>
                           match group (body pp1 dp1 tp1) cross pairn ns (tl rest) with
                           | Some (ns', count', rest') => go count' rest' ns'
                           | None => None
                           end
                       end
                   else if maybe_pattern curly pp1 t v then None
                   else
                     let ns1 := again pairn ns in
                     if is_dir && exact v && negb (is_empty v) then
                       match combine dp v with
                       | Some d => match append_name ns1 pp1 d (or_empty tp) [] with Some ns' => go 1 rest ns' | None => None end
                       | None => None
                       end
                     else match append_name ns1 pp1 (or_empty dp) (or_empty tp) v with Some ns' => go 1 rest ns' | None => None end
               end
        else if is_tt TLCBrace t then
          match group (body pp dp tp) cross pairn ns rest with
          | Some (ns', count', rest') => go count' rest' ns'
          | None => None
          end
        else if is_tt TDollar t || is_tt TLParen t then None
        else if is_tt TPair t then
          if negb (pairn =? 0) || last_pair ns then None
          else
            let lhs := if tsep t || (count =? 0) then append_name ns pp (or_empty dp) (or_empty tp) []
                       else if 1 <? count then None else Some ns in
            match lhs with
            | None => None
            | Some ns1 =>
                let ns2 := set_last_pair (hd NUL (tv t)) ns1 in
                if match rest with t' :: _ => tsep t' | [] => false end
                then match append_name ns2 pp (or_empty dp) (or_empty tp) [] with Some ns3 => go 0 rest ns3 | None => None end
                else go (if tsep t || (count =? 0) then 1 else count) rest ns2
            end
        else if negb first then ending ns
        else if is_tt TRCBrace t then
          match append_name (again pairn ns) pp (or_empty dp) (or_empty tp) [] with Some ns' => ending ns' | None => None end
        else None
    end
  end.

(* parse_value () for a variable value, 6848-6868, and that it extends to the end
   of the line. *)
Definition parse_value (toks : list tok) : option (list name) :=
  match toks with
  | t :: _ =>
      if is_tt TNewline t || is_tt TEos t then Some []
      else match loop (S (length toks)) true 0 false true 0 None None None toks [] with
           | Some (ns, t' :: _) => if is_tt TNewline t' || is_tt TEos t' then Some ns else None
           | _ => None
           end
  | [] => None
  end.
End Parse.

(* The tokens up to and including the end of line. *)
Fixpoint lex_line (fuel : nat) (l : lexer) : option (list tok) :=
  match fuel with
  | 0 => None
  | S n =>
      match next l with
      | Some (t, l') =>
          match tt t with
          | TNewline | TEos => Some [t]
          | _ => match lex_line n l' with Some ts => Some (t :: ts) | None => None end
          end
      | None => None
      end
  end.

(* The lexer in the value mode right after the variable assignment, with [ being
   recognized (next_with_attributes ()). base: the states below. *)
Definition value_state : lst := mkst Value true false "@"%char true true None [].
Definition value_lexer (base : list lst) (s : bytes) : lexer := mklex (value_state :: base) false false s.

(* value_traits<string>::convert () of one name, variable.cxx:650-692 *)
Definition to_string1 (n : name) : option bytes :=
  match pattern n with
  | Some _ => None
  | None =>
      if negb (is_empty (type n)) then None
      else
        let s := if is_empty (dir n) then value n else dir n ++ value n in
        Some (match proj n with Some p => p ++ b "%" ++ s | None => s end)
  end.
(* ... of a pair, 694-717 *)
Definition to_string2 (n r : name) : option bytes :=
  match to_string1 n, to_string1 r with
  | Some x, Some y => Some (x ++ b "@" ++ y)
  | _, _ => None
  end.

(* vector_append<string> (), variable.txx:527-579 *)
Fixpoint to_strings (ns : list name) : option (list bytes) :=
  match ns with
  | [] => Some []
  | n :: ns' =>
      if ceqb (pair n) NUL then
        match to_string1 n, to_strings ns' with Some x, Some l => Some (x :: l) | _, _ => None end
      else match ns' with
           | r :: ns'' =>
               if negb (ceqb (pair n) "@"%char) then None
               else match to_string2 n r, to_strings ns'' with Some x, Some l => Some (x :: l) | _, _ => None end
           | [] => None
           end
  end.
(* simple_assign<string> (), variable.txx:134-169 *)
Definition to_string_value (ns : list name) : option bytes :=
  match ns with
  | [] => Some []
  | [n] => to_string1 n
  | _ => None
  end.

(* value_traits<string>::reverse (), variable.hxx:897; the value of a string
   variable is reduced to no names if it is empty (simple_reverse (),
   variable.txx:243-256). *)
Definition of_strings (l : list bytes) : list name := map simple_name l.
Definition of_string_value (v : bytes) : list name := if is_empty v then [] else [simple_name v].
