(* Model of the parser of C/C++ module declarations and imports: libbuild2/cc/parser.{hxx,cxx}.

   Simplified: the tokens are those before eos and are all there in advance (the lexer is in
   CcModel.v). Where a function leaves the current token, it returns the rest of the tokens
   starting with it. Diagnostics and locations are omitted: None is failure. *)
From Verif Require Import Base CcModel.

(* compiler_type (guess.hxx) of the compiler that has done the preprocessing *)
Inductive compiler := Gcc | Clang | Msvc | Icc.
(* unit_type and import_type, types.hxx:44-62. Header units are not returned by the parser. *)
Inductive unit_type := NonModular | ModuleIntf | ModuleImpl | ModuleIntfPart | ModuleImplPart.
Inductive import_type := ImportIntf | ImportPart.
(* module_import, types.hxx:64-70, without the score *)
Record import := mkimport { itype : import_type; iname : bytes; exported : bool }.
(* unit, types.hxx:74-84, and whether there is module_marker_ *)
Record unit_ := mkunit { utype : unit_type; uname : bytes; imports : list import; marker : bool }.
Definition no_unit : unit_ := mkunit NonModular [] [] false.

Definition is_type (x : ttype) (t : token) : bool :=
  match x, type t with
  | Identifier, Identifier | Dot, Dot | Colon, Colon | Semi, Semi | Less, Less | Greater, Greater | Str, Str => true
  | _, _ => false
  end.

(* The loops of parse_module_name (), 321-336 and parse_module_part (), 353-368. *)
Fixpoint dotted (n : bytes) (ts : list token) : option (bytes * list token) :=
  match ts with
  | [] => None
  | t :: ts1 =>
      if is_type Identifier t && negb (first t) then
        match ts1 with
        | d :: ts2 => if is_type Dot d && negb (first d) then dotted (n ++ value t ++ b ".") ts2 else Some (n ++ value t, ts1)
        | [] => Some (n ++ value t, ts1)
        end
      else None
  end.
(* parse_module_part (), 345-369. Enters with the colon. *)
Definition parse_module_part (n : bytes) (ts : list token) : option (bytes * list token) := dotted (n ++ b ":") (tl ts).
(* parse_module_name (), 313-343 *)
Definition on_line (x : ttype) (ts : list token) : bool := match ts with t :: _ => is_type x t && negb (first t) | [] => false end.
Definition parse_module_name (part : bool) (ts : list token) : option (bytes * bool * list token) :=
  match dotted [] ts with
  | None => None
  | Some (n, ts) =>
      if part && on_line Colon ts then match parse_module_part n ts with Some (n, ts) => Some (n, true, ts) | None => None end
      else Some (n, false, ts)
  end.
(* 196-205, 277-286: skipping attributes. Returns the tokens after the semicolon. *)
Fixpoint attributes (ts : list token) : option (list token) :=
  match ts with
  | [] => None
  | t :: ts => if is_type Semi t then if first t then None else Some ts
               else if first t then None else attributes ts
  end.
(* parse_module (), 175-214 *)
Definition parse_module (ex : bool) (ts : list token) (u : unit_) : option (list token * unit_) :=
  if negb ex && on_line Semi ts then Some (tl ts, mkunit (utype u) (uname u) (imports u) true)
  else
    match parse_module_name true ts with
    | None => None
    | Some (n, p, ts) =>
        match attributes ts with
        | None => None
        | Some ts =>
            match uname u with
            | [] => Some (ts, mkunit (if p then if ex then ModuleIntfPart else ModuleImplPart else if ex then ModuleIntf else ModuleImpl) n (imports u) (marker u))
            | _ => None
            end
        end
    end.
(* parse_header_name (), 371-394 *)
Fixpoint header_rest (ts : list token) : option (list token) :=
  match ts with
  | [] => None
  | t :: ts => if is_type Greater t then Some ts else if first t then None else header_rest ts
  end.
Definition parse_header_name (ts : list token) : option (list token) :=
  match ts with
  | t :: ts => if is_type Str t then Some ts else header_rest ts
  | [] => None
  end.
(* 256: the name up to the colon *)
Fixpoint before_colon (s : bytes) : bytes := match s with c :: s => if ceqb c ":" then [] else c :: before_colon s | [] => [] end.
(* 299-310 *)
Fixpoint add_import (i : import) (l : list import) : list import :=
  match l with
  | [] => [i]
  | j :: l => if beqb (iname j) (iname i) then mkimport (itype j) (iname j) (exported j || exported i) :: l else j :: add_import i l
  end.
(* parse_import (), 216-311. Enters with the token after import, which is one of these. *)
Definition parse_import (ex : bool) (ts : list token) (u : unit_) : option (list token * unit_) :=
  let add t (r : option (bytes * list token)) :=
    match r with
    | None => None
    | Some (n, ts) =>
        match attributes ts with
        | None => None
        | Some ts => Some (ts, mkunit (utype u) (uname u) (add_import (mkimport t n ex) (imports u)) (marker u))
        end
    end in
  if on_line Less ts || on_line Str ts then
    match parse_header_name ts with
    | None => None
    | Some ts => match attributes ts with None => None | Some ts => Some (ts, u) end
    end
  else if on_line Colon ts then
    match utype u with
    | ModuleIntf | ModuleImpl => add ImportPart (parse_module_part (uname u) ts)
    | ModuleIntfPart | ModuleImplPart => add ImportPart (parse_module_part (before_colon (uname u)) ts)
    | NonModular => None
    end
  else add ImportIntf (match parse_module_name false ts with Some (n, _, ts) => Some (n, ts) | None => None end).
(* 112-115 and 126-128 *)
Definition is_module (c : compiler) (id : bytes) : bool :=
  beqb id (b "module") || (match c with Msvc | Clang => true | _ => false end && beqb id (b "__preprocessed_module")).
Definition is_import (c : compiler) (id : bytes) : bool :=
  beqb id (b "import") || (match c with Clang => true | _ => false end && beqb id (b "__preprocessed_import")).
(* 112-139: after the optional export, with k for continuing. id is the current token. *)
Definition keyword (c : compiler) (k : list token -> unit_ -> option unit_) (ex : bool) (id : bytes) (ts : list token) (u : unit_) : option unit_ :=
  let go (r : option (list token * unit_)) := match r with Some (ts, u) => k ts u | None => None end in
  if is_module c id then
    if on_line Semi ts || on_line Identifier ts then go (parse_module ex ts u) else k ts u
  else if is_import c id then
    if on_line Less ts || on_line Colon ts || on_line Str ts || on_line Identifier ts then go (parse_import ex ts u) else k ts u
  else k ts u.
(* parse (), 17-148: the loop. bb is the balance. The number of steps is enough if it is more
   than the number of tokens. *)
Fixpoint parse_loop (n : nat) (c : compiler) (bb : nat) (ts : list token) (u : unit_) : option unit_ :=
  match n with
  | O => None
  | S n =>
      match ts with
      | [] => Some u
      | t :: ts =>
          match type t with
          | LBrace => parse_loop n c (S bb) ts u
          | RBrace => match bb with O => Some u | S bb => parse_loop n c bb ts u end
          | Identifier =>
              if (bb =? 0) && first t then
                if beqb (value t) (b "export") then
                  match ts with
                  | i :: ts' => if on_line Identifier ts then keyword c (parse_loop n c bb) true (value i) ts' u else parse_loop n c bb ts u
                  | [] => parse_loop n c bb ts u
                  end
                else keyword c (parse_loop n c bb) false (value t) ts u
              else parse_loop n c bb ts u
          | _ => parse_loop n c bb ts u
          end
      end
  end.
(* parse (), 17-173 *)
Definition parse_unit (c : compiler) (ts : list token) : option unit_ :=
  match parse_loop (S (length ts)) c 0 ts no_unit with
  | Some u => if marker u && match uname u with [] => true | _ => false end then None else Some u
  | None => None
  end.
