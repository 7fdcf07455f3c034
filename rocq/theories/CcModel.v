(* Model of the C/C++ lexer that calculates the checksum of a translation unit:
   libbuild2/cc/lexer.{hxx,cxx}.

   Simplified: scanning of the buffer directly (lexer.cxx:445-478, 716-732, 900-916, 1058-1069,
   1089-1100, 1137-1157) is getting the characters one by one, the column is only compared
   with 1 and t.column, t.position and t.file are omitted. The checksum is the sequence of
   bytes that are hashed. *)
From Verif Require Import Base.
Local Open Scope N_scope.

Definition CR : ascii := "013"%char.
Definition FF : ascii := "012"%char.
Definition VT : ascii := "011"%char.
Definition DQ : ascii := """"%char.
Definition SQ : ascii := "'"%char.
Definition BS : ascii := "\"%char.

(* xchar: the character (or eos), its line and whether the column is 1. *)
Record xchar := mkx { ch : option ascii; xline : N; xfirst : bool }.
Definition is (x : xchar) (c : ascii) : bool := match ch x with Some y => ceqb y c | None => false end.
Definition digit (c : ascii) : bool := let n := N_of_ascii c in (48 <=? n) && (n <=? 57).
Definition alpha (c : ascii) : bool := let n := N_of_ascii c in ((65 <=? n) && (n <=? 90)) || ((97 <=? n) && (n <=? 122)).
(* char_flags, 9-28 *)
Definition ident (c : ascii) : bool := digit c || alpha c || ceqb c "_".

(* The scanner: the rest of the stream, ungetb_, unpeekc_, line, whether the column is 1,
   log_line_ (unsigned 64-bit), log_file_ (name or path, with whether it is a directory) and cs_
   (in reverse). *)
Definition u64 : N := 2 ^ 64.
Record scan := mkscan { rest : bytes; back : option xchar; held : option xchar; line : N; col1 : bool; log : option N; file : bytes * bool; cs : bytes }.
Definition bump (l : option N) : option N := match l with Some n => Some ((n + 1) mod u64) | None => None end.

(* peek (true), 48-96: escaped newlines. m is where we are in it. *)
Inductive mode := Start | Slash (x : xchar) | Return.
Fixpoint unescape (m : mode) (r : bytes) (st : scan) : xchar * scan :=
  let at_ r l c g := mkscan r (back st) (held st) l c g (file st) (cs st) in
  let hold x r := (x, mkscan r (back st) (Some x) (line st) (col1 st) (log st) (file st) (cs st)) in
  match r with
  | [] =>
      match m with
      | Slash x => hold x r
      | _ => (mkx None (line st) (col1 st), at_ r (line st) (col1 st) (log st))
      end
  | c :: r' =>
      let start := if ceqb c BS then unescape (Slash (mkx (Some c) (line st) (col1 st))) r' (at_ r' (line st) false (log st))
                   else (mkx (Some c) (line st) (col1 st), at_ r (line st) (col1 st) (log st)) in
      let newline := unescape Start r' (at_ r' (line st + 1) true (bump (log st))) in
      let return_ := unescape Return r' (at_ r' (line st) false (log st)) in
      match m with
      | Start => start
      | Slash x => if ceqb c CR then return_ else if ceqb c NL then newline else hold x r
      | Return => if ceqb c CR then return_ else if ceqb c NL then newline else start
      end
  end.
Definition peek (e : bool) (st : scan) : xchar * scan :=
  match back st with
  | Some x => (x, st)
  | None =>
      match held st with
      | Some x => (x, st)
      | None => if e then unescape Start (rest st) st
                else (mkx (hd_error (rest st)) (line st) (col1 st), st)
      end
  end.
(* get (const xchar&), 124-134 and char_scanner::get () of libbutl. *)
Definition take (x : xchar) (st : scan) : scan :=
  match back st with
  | Some _ => mkscan (rest st) None (held st) (line st) (col1 st) (log st) (file st) (cs st)
  | None =>
      match held st with
      | Some _ => mkscan (rest st) None None (line st) (col1 st) (log st) (file st) (cs st)
      | None =>
          match ch x with
          | None => st
          | Some c => if ceqb c NL then mkscan (tl (rest st)) None None (line st + 1) true (bump (log st)) (file st) (cs st)
                      else mkscan (tl (rest st)) None None (line st) false (log st) (file st) (cs st)
          end
      end
  end.
(* get (bool), 98-122 *)
Definition get (e : bool) (st : scan) : xchar * scan := let '(x, st) := peek e st in (x, take x st).
(* unget () of libbutl *)
Definition unget (x : xchar) (st : scan) : scan := mkscan (rest st) (Some x) (held st) (line st) (col1 st) (log st) (file st) (cs st).
(* cs_.append () *)
Definition append (s : bytes) (st : scan) : scan := mkscan (rest st) (back st) (held st) (line st) (col1 st) (log st) (file st) (rev s ++ cs st).
Definition char (x : xchar) : bytes := match ch x with Some c => [c] | None => [] end.
(* geth (), 136-149. What is hashed at the end of the stream (which is an error) is omitted. *)
Definition takeh (x : xchar) (st : scan) : scan := append (char x) (take x st).
Definition geth (e : bool) (st : scan) : xchar * scan := let '(x, st) := get e st in (x, append (char x) st).

(* The functions below return None if they fail. The number of steps is another reason but
   that given to lex is enough. *)

(* skip_spaces (), 1032-1169 *)
Definition blank (c : ascii) : bool := ceqb c SP || ceqb c TAB || ceqb c CR || ceqb c FF || ceqb c VT.
(* 1083-1101 *)
Fixpoint line_comment (n : nat) (st : scan) : option (xchar * scan) :=
  match n with
  | O => None
  | S n => let '(c, st) := get true st in
           match ch c with
           | None => Some (c, st)
           | Some x => if ceqb x NL then Some (c, st) else line_comment n st
           end
  end.
(* 1120-1159 *)
Fixpoint block_comment (n : nat) (st : scan) : option scan :=
  match n with
  | O => None
  | S n => let '(c, st) := get true st in
           match ch c with
           | None => None
           | Some x =>
               if ceqb x "*" then let '(c, st) := peek true st in if is c "/" then Some (take c st) else block_comment n st
               else block_comment n st
           end
  end.
Fixpoint spaces (n : nat) (nl : bool) (c : xchar) (first : bool) (st : scan) : option (xchar * bool * scan) :=
  match n with
  | O => None
  | S n =>
      let next first st := let '(c, st) := get true st in spaces n nl c first st in
      match ch c with
      | None => Some (c, first, st)
      | Some x =>
          if ceqb x NL then if nl then next true st else Some (c, first, st)
          else if blank x then next first st
          else if ceqb x "/" then
            let '(p, st) := peek true st in
            if is p "/" then
              match line_comment n (take p st) with
              | Some (c, st) => if nl then next true st else Some (c, first, st)
              | None => None
              end
            else if is p "*" then
              match block_comment n (take p st) with Some st => next first st | None => None end
            else Some (c, first, st)
          else Some (c, first, st)
      end
  end.
Definition skip_spaces (n : nat) (nl : bool) (st : scan) : option (xchar * bool * scan) :=
  let '(c, st) := get true st in spaces n nl c (xfirst c) st.

(* number_literal (), 558-661 *)
Definition ends_number (c : ascii) : bool :=
  existsb (ceqb c) [SP; NL; TAB; CR; FF; VT; "#"; ";"; "{"; "}"; "("; ")"; "["; "]"; ","; "?"; "~"; "="; "!"; "*"; "/"; "%"; "^"; ">"; "<"; "&"; "|"; ":"; "+"; "-"; DQ; BS; "@"; "$"; "`"]%char.
Definition exponent (c : ascii) : bool := existsb (ceqb c) ["e"; "E"; "p"; "P"]%char.
Fixpoint number_literal (n : nat) (st : scan) : option scan :=
  match n with
  | O => None
  | S n =>
      let '(c, st) := peek true st in
      match ch c with
      | None => Some st
      | Some x =>
          if ends_number x then Some st
          else if exponent x then
            let '(c, st) := peek true (takeh c st) in
            number_literal n (if is c "+" || is c "-" then takeh c st else st)
          else number_literal n (takeh c st)
      end
  end.
(* literal_suffix (), 808-816 and the check before calling it *)
Definition isid (x : xchar) : bool := match ch x with Some c => ident c | None => false end.
Fixpoint suffix_rest (n : nat) (st : scan) : option scan :=
  match n with
  | O => None
  | S n => let '(c, st) := peek true st in if isid c then suffix_rest n (takeh c st) else Some st
  end.
Definition suffix (n : nat) (st : scan) : option scan :=
  let '(c, st) := peek true st in
  if match ch c with Some x => ceqb x "_" || alpha x | None => false end then suffix_rest n (takeh c st) else Some st.
(* char_literal (), 663-692 and string_literal (), 694-741 *)
Fixpoint quoted (n : nat) (q p : ascii) (st : scan) : option scan :=
  match n with
  | O => None
  | S n =>
      let '(c, st) := geth true st in
      match ch c with
      | None => None
      | Some x =>
          if ceqb x NL then None
          else if ceqb x q && negb (ceqb p BS) then suffix n st
          else quoted n q (if ceqb x BS && ceqb p BS then NUL else x) st
      end
  end.
(* raw_string_literal (), 743-806. The delimiter is in reverse. *)
Fixpoint raw_delimiter (n : nat) (d : bytes) (st : scan) : option (bytes * scan) :=
  match n with
  | O => None
  | S n =>
      let '(c, st) := geth true st in
      match ch c with
      | None => None
      | Some x => if ceqb x ")" || ceqb x BS || ceqb x SP then None else if ceqb x "(" then Some (DQ :: d, st) else raw_delimiter n (x :: d) st
      end
  end.
Fixpoint raw_rest (n : nat) (d : bytes) (i : nat) (st : scan) : option scan :=
  match n with
  | O => None
  | S n =>
      let '(c, st) := geth false st in
      match ch c with
      | None => None
      | Some x =>
          let i := if negb (ceqb x (nth i d NUL)) && negb (i =? 0)%nat then 0%nat else i in
          if ceqb x (nth i d NUL) then if (S i =? length d)%nat then suffix n st else raw_rest n d (S i) st
          else raw_rest n d i st
      end
  end.
Definition raw_string_literal (n : nat) (st : scan) : option scan :=
  match raw_delimiter n [")"%char] st with
  | Some (d, st) => raw_rest n (rev d) 0 st
  | None => None
  end.

(* cs_.append (uint64_t) on a little-endian machine *)
Fixpoint le (k : nat) (n : N) : bytes := match k with O => [] | S k => ascii_of_N (n mod 256) :: le k (n / 256) end.

Inductive ttype := Eos | Dot | Semi | Colon | Scope | Less | Greater | LBrace | RBrace | Punctuation | Identifier | Number | Character | Str | Other.
Record token := mktoken { type : ttype; first : bool; value : bytes; tline : N }.

(* The rest of an identifier, 440-479, returns the value in reverse and the character that
   follows. *)
Fixpoint identifier (n : nat) (id : bytes) (st : scan) : option (bytes * xchar * scan) :=
  match n with
  | O => None
  | S n => let '(c, st) := peek true st in
           match ch c with
           | Some x => if ident x then identifier n (x :: id) (takeh c st) else Some (id, c, st)
           | None => Some (id, c, st)
           end
  end.
(* 484-523: whether the identifier before the quote is a literal prefix, and for a raw
   string. *)
Definition literal_prefix (id : bytes) (dq : bool) : bool * bool :=
  let n := length id in
  let at_ i c := (i <? n)%nat && ceqb (nth i id NUL) c in
  let wide i := if dq && at_ i "R"%char then ((S i =? n)%nat, true) else ((i =? n)%nat, false) in
  if at_ 0%nat "u"%char then wide (if at_ 1%nat "8"%char then 2 else 1)%nat
  else if at_ 0%nat "L"%char || at_ 0%nat "U"%char then wide 1%nat
  else if at_ 0%nat "R"%char then if dq then ((1 =? n)%nat, true) else ((0 =? n)%nat, false)
  else ((0 =? n)%nat, false).

(* next () for a token other than eos, with ignore_pp being false, 171-554. *)
Definition next_token (n : nat) (c : xchar) (first : bool) (st : scan) : option (token * scan) :=
  let l := match log st with Some l => l | None => xline c end in
  let st := append (le 8 l ++ char c) st in
  let tok t v st := Some (mktoken t first v l, st) in
  let literal t (r : option scan) := match r with Some st => tok t [] st | None => None end in
  match ch c with
  | None => None
  | Some x =>
      if existsb (ceqb x) ["#"; "("; ")"; "["; "]"; ","; "?"; "~"; BS]%char then tok Punctuation [] st
      else if ceqb x ";" then tok Semi [] st
      else if ceqb x "{" then tok LBrace [] st
      else if ceqb x "}" then tok RBrace [] st
      else if ceqb x "." then
        let '(p, st) := peek true st in
        if is p "*" then tok Punctuation [] (takeh p st)
        else if match ch p with Some y => digit y | None => false end then literal Number (number_literal n st)
        else if is p "." then
          let '(q, st) := peek true (take p st) in
          if is q "." then tok Punctuation [] (takeh q (append (char p) st))
          else tok Dot [] (unget p st)
        else tok Dot [] st
      else if existsb (ceqb x) ["="; "!"; "*"; "/"; "%"; "^"]%char then
        let '(p, st) := peek true st in
        tok Punctuation [] (if is p "=" then takeh p st else st)
      else if ceqb x "<" || ceqb x ">" then
        let '(p, st) := peek true st in
        if is p x then
          let '(p, st) := peek true (takeh p st) in
          tok Punctuation [] (if is p "=" then takeh p st else st)
        else if is p "=" then tok Punctuation [] (takeh p st)
        else tok (if ceqb x "<" then Less else Greater) [] st
      else if ceqb x "+" || ceqb x "-" then
        let '(p, st) := peek true st in
        if is p x || is p "=" then tok Punctuation [] (takeh p st)
        else if ceqb x "-" && is p ">" then
          let '(p, st) := peek true (takeh p st) in
          tok Punctuation [] (if is p "*" then takeh p st else st)
        else tok Punctuation [] st
      else if ceqb x "&" || ceqb x "|" then
        let '(p, st) := peek true st in
        tok Punctuation [] (if is p x || is p "=" then takeh p st else st)
      else if ceqb x ":" then
        let '(p, st) := peek true st in
        if is p ":" then tok Scope [] (takeh p st) else tok Colon [] st
      else if digit x then literal Number (number_literal n st)
      else if ident x then
        match identifier n [x] st with
        | None => None
        | Some (id, c, st) =>
            let id := rev id in
            if is c SQ || is c DQ then
              let '(consumed, raw) := literal_prefix id (is c DQ) in
              if consumed then
                let st := takeh c st in
                if is c SQ then literal Character (quoted n SQ SQ st)
                else if raw then literal Str (raw_string_literal n st)
                else literal Str (quoted n DQ DQ st)
              else tok Identifier id st
            else tok Identifier id st
        end
      else if ceqb x SQ then literal Character (quoted n SQ SQ st)
      else if ceqb x DQ then literal Str (quoted n DQ DQ st)
      else tok Other [] st
  end.

(* line_directive (), 818-1030. *)
(* 837-838: the digits, in reverse *)
Fixpoint digits (n : nat) (s : bytes) (st : scan) : option (bytes * scan) :=
  match n with
  | O => None
  | S n => let '(c, st) := peek true st in
           match ch c with
           | Some x => if digit x then digits n (x :: s) (take c st) else Some (s, st)
           | None => Some (s, st)
           end
  end.
(* stoull () *)
Definition number_of (s : bytes) : N := fold_left (fun n c => n * 10 + (N_of_ascii c - 48)) s 0.
(* 863-917: the file, in reverse *)
Fixpoint file_name (n : nat) (p : ascii) (s : bytes) (st : scan) : option (bytes * scan) :=
  match n with
  | O => None
  | S n =>
      if ceqb p DQ then Some (s, st)
      else
        let '(c, st) := get true st in
        match ch c with
        | None => None
        | Some x =>
            if ceqb x NL then None
            else if ceqb p BS then if ceqb x BS || ceqb x SQ || ceqb x DQ then file_name n NUL (x :: s) st else None
            else if ceqb x BS || ceqb x DQ then file_name n x s st
            else file_name n x (x :: s) st
        end
  end.
(* path, to_directory () of libbutl: trailing directory separators are not part of string (),
   except for the root. *)
Fixpoint strip (s : bytes) : bytes := match s with c :: s' => if ceqb c "/" then strip s' else s | [] => [] end.
Definition to_path (s : bytes) : bytes * bool :=
  match rev s with
  | c :: s' => if ceqb c "/" then (match strip s' with [] => ["/"%char] | s' => rev s' end, true) else (s, false)
  | [] => (s, false)
  end.
(* 919-980. Special names (in <>) are kept together with paths: the two are distinguished by
   the look. *)
Definition special (s : bytes) : bool := match s with c :: _ => ceqb c "<" && ceqb (last s NUL) ">" | [] => false end.
Definition set_file (s : bytes) (st : scan) : option scan :=
  match s with
  | [] => None
  | _ => if beqb (fst (file st)) s then Some st
         else let f := if special s then (s, false) else to_path s in
              let st := mkscan (rest st) (back st) (held st) (line st) (col1 st) (log st) f (cs st) in
              Some (if snd f then st else append (fst f) st)
  end.
Definition line_directive (n : nat) (c : xchar) (st : scan) : option scan :=
  match digits n (char c) st with
  | None => None
  | Some (s, st) =>
      let i := number_of (rev s) in
      if u64 <=? i then None
      else
        let st := mkscan (rest st) (back st) (held st) (line st) (col1 st) (Some ((i + (u64 - 1)) mod u64)) (file st) (cs st) in
        match skip_spaces n false st with
        | None => None
        | Some (c, _, st) =>
            if is c DQ then match file_name n NUL [] st with Some (s, st) => set_file (rev s) st | None => None end
            else Some (unget c st)
        end
  end.
(* 210-267: the line of a preprocessor directive. preprocessed is preprocessed_. *)
Fixpoint directive (n : nat) (preprocessed first : bool) (st : scan) : option scan :=
  match n with
  | O => None
  | S n =>
      match skip_spaces n false st with
      | None => None
      | Some (c, _, st) =>
          match ch c with
          | None => Some st
          | Some x =>
              if ceqb x NL then Some st
              else if first && digit x then
                match line_directive n c st with Some st => directive n preprocessed false st | None => None end
              else
                match next_token n c false st with
                | None => None
                | Some (t, st) =>
                    if first && match type t with Identifier => true | _ => false end then
                      if beqb (value t) (b "line") then
                        match skip_spaces n false st with
                        | None => None
                        | Some (c, _, st) =>
                            if match ch c with Some y => digit y | None => false end then
                              match line_directive n c st with Some st => directive n preprocessed false st | None => None end
                            else None
                        end
                      else if preprocessed && beqb (value t) (b "include") then None
                      else directive n preprocessed false st
                    else directive n preprocessed false st
                end
          end
      end
  end.
(* next (), 153-556: with ignore_pp being true. *)
Fixpoint next (n : nat) (preprocessed : bool) (st : scan) : option (token * scan) :=
  match n with
  | O => None
  | S n =>
      match skip_spaces n true st with
      | None => None
      | Some (c, first, st) =>
          match ch c with
          | None => Some (mktoken Eos first [] (match log st with Some l => l | None => xline c end), st)
          | Some x =>
              if ceqb x "#" then
                let l := match log st with Some l => l | None => xline c end in
                match directive n preprocessed true (append (le 8 l ++ char c) st) with
                | Some st => next n preprocessed st
                | None => None
                end
              else next_token n c first st
          end
      end
  end.
(* Calling next () until eos, then checksum (). *)
Fixpoint lex_all (n : nat) (preprocessed : bool) (st : scan) : option (list token * scan) :=
  match n with
  | O => None
  | S n =>
      match next n preprocessed st with
      | None => None
      | Some (t, st) =>
          match type t with
          | Eos => Some ([], st)
          | _ => match lex_all n preprocessed st with Some (l, st) => Some (t :: l, st) | None => None end
          end
      end
  end.
Definition start (name s : bytes) : scan := mkscan s None None 1 true None (to_path name) [].
Definition lex (preprocessed : bool) (name s : bytes) : option (list token * bytes) :=
  match lex_all (3 * length s + 5)%nat preprocessed (start name s) with
  | Some (l, st) => Some (l, rev (cs st))
  | None => None
  end.
