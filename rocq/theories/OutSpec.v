(* Specification: what lines an expression is for, and how it is written. *)
From Verif Require Import Base OutModel.

(* A line of the expression: text or an expression over characters. *)
Inductive lpat := PText (s : bytes) | PRegex (icase : bool) (s : bytes).
Definition line_ok (rmatch : bool -> bytes -> bytes -> bool) (p : lpat) (w : bytes) : Prop :=
  match p with PText s => w = s | PRegex ic s => rmatch ic s w = true end.

(* Sequences of lines. *)
Inductive expr := One (p : lpat) | AnyLine | Nothing | Cat (x y : expr) | Alt (x y : expr) | Opt (x : expr) | Star (x : expr) | Plus (x : expr).
Inductive iter {A} (P : list A -> Prop) : nat -> list A -> Prop :=
| iter_0 : iter P 0 []
| iter_S n u v : P u -> iter P n v -> iter P (S n) (u ++ v).
Fixpoint lang (rmatch : bool -> bytes -> bytes -> bool) (e : expr) (ws : list bytes) : Prop :=
  match e with
  | One p => exists w, ws = [w] /\ line_ok rmatch p w
  | AnyLine => exists w, ws = [w]
  | Nothing => ws = []
  | Cat x y => exists u v, ws = u ++ v /\ lang rmatch x u /\ lang rmatch y v
  | Alt x y => lang rmatch x ws \/ lang rmatch y ws
  | Opt x => ws = [] \/ lang rmatch x ws
  | Star x => exists n, iter (lang rmatch x) n ws
  | Plus x => exists n, iter (lang rmatch x) (S n) ws
  end.

(* As lines and operators. *)
Inductive item := ILine (p : lpat) | IOp (c : ascii).
Definition group (l : list item) : list item := IOp "(" :: l ++ [IOp ")"].
Fixpoint written (e : expr) : list item :=
  let atom := fun x => match x with One _ | AnyLine => written x | _ => group (written x) end in
  match e with
  | One p => [ILine p]
  | AnyLine => [IOp "."]
  | Nothing => []
  | Cat x y => written x ++ written y
  | Alt x y => group (written x ++ IOp "|" :: written y)
  | Opt x => atom x ++ [IOp "?"]
  | Star x => atom x ++ [IOp "*"]
  | Plus x => atom x ++ [IOp "+"]
  end.

(* What a line is written as. On Windows and if asked for, slashes are directory separators. An expression with the d flag has dots that are
   escaped and not the other way around. *)
Definition slashed (windows slash regex : bool) (s : bytes) : bytes :=
  if windows && slash then flat_map (fun c => if ceqb c "/" then (if regex then b "\\" else b "\") else [c]) s else s.
Inductive carries (windows : bool) (x : expected) : rline -> list item -> Prop :=
| carries_text s : carries windows x (mkrl false s [] []) [ILine (PText (slashed windows (x_slash x) false s))]
| carries_ops o : o <> [] -> carries windows x (mkrl false [] [] o) (map IOp o)
| carries_blank o fl : carries windows x (mkrl true [] fl o) (ILine (PText []) :: map IOp o)
| carries_regex s fl o icase d : s <> [] -> (icase = true <-> In "i"%char (x_flags x ++ fl)) -> (d = true <-> In "d"%char (x_flags x ++ fl)) ->
    carries windows x (mkrl true s fl o)
      (ILine (PRegex icase (let s := slashed windows (x_slash x) true s in if d then idot false false s else s)) :: map IOp o).

(* Lines of a text, without carriage returns at the ends. *)
Fixpoint join (l : list bytes) : bytes := match l with [] => [] | [x] => x | x :: l => x ++ NL :: join l end.
Definition stripped (r w : bytes) : Prop := exists n, r = w ++ repeat CR n /\ forall u, w <> u ++ [CR].
Definition lines_of (out : bytes) (ls : list bytes) : Prop :=
  out = [] /\ ls = [] \/ out <> [] /\ exists raw, out = join raw /\ raw <> [] /\ Forall (fun l => ~ In NL l) raw /\ Forall2 stripped raw ls.

(* Characters of an expression: dots, escaped dots and others, where dots in brackets are others. *)
Inductive unit_ := UDot | UEscDot | UOther (s : bytes).
Definition unit_text (u : unit_) : bytes := match u with UDot => b "." | UEscDot => b "\." | UOther s => s end.
Definition unit_swap (u : unit_) : unit_ := match u with UDot => UEscDot | UEscDot => UDot | UOther s => UOther s end.
Inductive units : bool -> bytes -> list unit_ -> Prop :=
| units_end c : units c [] []
| units_dot s us : units false s us -> units false (b "." ++ s) (UDot :: us)
| units_esc_dot s us : units false s us -> units false (b "\." ++ s) (UEscDot :: us)
| units_esc k x s us : k = true \/ x <> "."%char -> units k s us -> units k ("\"%char :: x :: s) (UOther ["\"%char; x] :: us)
| units_last k : units k (b "\") [UOther (b "\")]
| units_open s us : units true s us -> units false (b "[" ++ s) (UOther (b "[") :: us)
| units_close s us : units false s us -> units true (b "]" ++ s) (UOther (b "]") :: us)
| units_in x s us : x <> "\"%char -> x <> "]"%char -> units true s us -> units true (x :: s) (UOther [x] :: us)
| units_out x s us : x <> "\"%char -> x <> "["%char -> x <> "."%char -> units false s us -> units false (x :: s) (UOther [x] :: us).

(* Lines of an expression as in a document. *)
Inductive shape (intro : ascii) : bytes -> rline -> Prop :=
| shape_text ln : hd_error ln <> Some intro -> shape intro ln (mkrl false ln [] [])
| shape_ops o : o <> [] -> ~ In intro o -> shape intro (intro :: o) (mkrl false [] [] o)
| shape_blank o : shape intro (intro :: intro :: o) (mkrl true [] [] o)
| shape_regex v fl o : v <> [] -> ~ In intro v -> Forall (fun c => c = "d"%char \/ c = "i"%char) fl -> hd_error o <> Some "d"%char -> hd_error o <> Some "i"%char ->
    shape intro (intro :: v ++ intro :: fl ++ o) (mkrl true v fl o).

(* What is matched: lines of the output, but a blank line for a document that ends with one if the output is empty. *)
Inductive considered (x : expected) (out : bytes) : list bytes -> Prop :=
| considered_lines ls : lines_of out ls -> out <> [] \/ x_doc x = false \/ x_colon x = true -> considered x out ls
| considered_blank : out = [] -> x_doc x = true -> x_colon x = false -> considered x out [[]].
