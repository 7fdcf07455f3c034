(* What the user of here-documents relies on, without tokens. *)
From Verif Require Import Base HereModel.

Definition blank (c : ascii) : Prop := c = SP \/ c = TAB.

(* A line as a document reads it: a literal one has no expansions, only their
   text. *)
Fixpoint as_read (lit : bool) (l : list item) : list item :=
  match l with
  | [] => []
  | Ch c :: r => Ch c :: as_read lit r
  | Ex e :: r => (if lit then map Ch e else [Ex e]) ++ as_read lit r
  end.

(* The line that ends a document: the marker, indented with blanks. *)
Definition ends (lit : bool) (em ind : bytes) (l : list item) : Prop :=
  as_read lit l = map Ch (ind ++ em) /\ Forall blank ind.

(* Not such a line. *)
Definition no_end (lit : bool) (em : bytes) (l : list item) : Prop :=
  forall ind, ~ ends lit em ind l.

(* A line that is neither blank nor indented as the end marker is. *)
Definition unindented (lit : bool) (ind : bytes) (l : list item) : Prop :=
  as_read lit l <> [] /\ forall m, as_read lit l <> map Ch ind ++ m.

(* Lines and the same lines without the indentation; a blank line may lack
   it. *)
Inductive unindent (lit : bool) (ind : bytes) : list (list item) -> list (list item) -> Prop :=
| ui_nil : unindent lit ind [] []
| ui_blank l ls ms : as_read lit l = [] ->
    unindent lit ind ls ms -> unindent lit ind (l :: ls) ([] :: ms)
| ui_line l m ls ms : as_read lit l = map Ch ind ++ m ->
    unindent lit ind ls ms -> unindent lit ind (l :: ls) (m :: ms).

Section Values.
Context (val : bytes -> option (list bytes)).

(* Text and expansions of at most one name each, one after another. *)
Inductive mixed : list item -> bytes -> Prop :=
| mx_nil : mixed [] []
| mx_ch c l s : mixed l s -> mixed (Ch c :: l) (c :: s)
| mx_none e l s : val e = Some [] -> mixed l s -> mixed (Ex e :: l) s
| mx_one e v l s : val e = Some [v] -> mixed l s -> mixed (Ex e :: l) (v ++ s).

(* Names with a space between each two. *)
Inductive spaced : list bytes -> bytes -> Prop :=
| sp_nil : spaced [] []
| sp_one n : spaced [n] n
| sp_more n m r s : spaced (m :: r) s -> spaced (n :: m :: r) (n ++ [SP] ++ s).

(* The value of a line: an expansion on its own can have any number of
   names. *)
Inductive line_value : list item -> bytes -> Prop :=
| lv_alone e ns s : val e = Some ns -> spaced ns s -> line_value [Ex e] s
| lv_mixed l s : (forall e, l <> [Ex e]) -> mixed l s -> line_value l s.
End Values.

(* The text with these lines: a newline after each, without the last one if it
   is suppressed.  A document with no lines has the text of one with a single
   blank line. *)
Inductive text_of : bool -> list bytes -> bytes -> Prop :=
| tx_none nonl t : text_of nonl [[]] t -> text_of nonl [] t
| tx_last (nonl : bool) l : text_of nonl [l] (l ++ if nonl then [] else [NL])
| tx_more nonl l m ls t : text_of nonl (m :: ls) t ->
    text_of nonl (l :: m :: ls) (l ++ [NL] ++ t).

(* What a document with these lines, end line and the rest of the script comes
   to. *)
Inductive document (val : bytes -> option (list bytes)) (em : bytes) (nonl lit : bool)
  : list (list item) -> bytes -> list (list item) -> Prop :=
| document_intro ind ls ms vs e t rest :
    Forall (no_end lit em) ls -> ends lit em ind e ->
    unindent lit ind ls ms ->
    Forall2 (line_value val) ms vs ->
    text_of nonl vs t ->
    document val em nonl lit (ls ++ e :: rest) t rest.

(* Documents follow each other in the order they are mentioned. *)
Inductive documents (val : bytes -> option (list bytes))
  : list hdoc -> list (list item) -> list bytes -> list (list item) -> Prop :=
| ds_nil ls : documents val [] ls [] ls
| ds_cons d ds ls t rest ts rest' :
    document val (hend d) (hnonl d) (hlit d) ls t rest ->
    documents val ds rest ts rest' ->
    documents val (d :: ds) ls (t :: ts) rest'.

(* A line with an indentation added. *)
Definition indent (p : bytes) (l : list item) : list item := map Ch p ++ l.

(* Lines and the same lines indented, where a blank line can be left as it
   is. *)
Inductive indented (lit : bool) (p : bytes) : list (list item) -> list (list item) -> Prop :=
| id_nil : indented lit p [] []
| id_blank l ls ls' : as_read lit l = [] -> indented lit p ls ls' -> indented lit p (l :: ls) (l :: ls')
| id_line l ls ls' : as_read lit l <> [] -> indented lit p ls ls' ->
    indented lit p (l :: ls) (indent p l :: ls').
