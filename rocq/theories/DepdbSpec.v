(* What a dependency database is to its user: a list of lines plus whether it
   was properly closed; and what each call does to that list. Independent of
   stream positions, truncation and buffering. *)
From Verif Require Import Base.
From Verif Require Import DepdbModel.   (* only for [op] and [out] *)

(* [holds f ls closed]: the lines that the file format (depdb.hxx:35-47) makes
   readable in contents [f]. A line is readable if it is terminated by a
   newline and something follows; the end marker right after a line's newline
   ends the database and marks it as properly closed. *)
Inductive holds : bytes -> list bytes -> bool -> Prop :=
| holds_eof s : ~ In NL s -> holds s [] false
| holds_last l : ~ In NL l -> holds (l ++ [NL]) [] false
| holds_end l junk : ~ In NL l -> holds (l ++ NL :: NUL :: junk) [l] true
| holds_more l c s ls cl :
    ~ In NL l -> c <> NUL -> holds (c :: s) ls cl ->
    holds (l ++ NL :: c :: s) (l :: ls) cl.

(* A line that can be stored: no newline inside, no end marker in front. *)
Definition line_ok (l : bytes) : Prop := ~ In NL l /\ hd_error l <> Some NUL.

(* The abstract database. *)
Inductive adb :=
| AReading (kept : list bytes)        (* lines read and accepted *)
           (cur : option bytes)       (* line just read: can still be overwritten *)
           (rest : list bytes)        (* readable lines not read yet *)
           (closed : bool)            (* is there an end marker after them *)
| ASkipped (kept rest : list bytes)   (* everything accepted by skip() *)
| AWriting (done : list bytes)        (* complete lines *)
           (part : bytes).            (* line being written *)

Definition accept (kept : list bytes) (cur : option bytes) : list bytes :=
  match cur with Some l => kept ++ [l] | None => kept end.

Definition awrite (s : bytes) (nl : bool) (done : list bytes) (part : bytes) : adb :=
  if nl then AWriting (done ++ [part ++ s]) [] else AWriting done (part ++ s).

(* Lines that an overwrite at this point would keep. *)
Definition akeep (a : adb) : list bytes * bytes :=
  match a with
  | AReading kept _ _ _ => (kept, [])
  | ASkipped kept _ => (kept, [])
  | AWriting done part => (done, part)
  end.

Definition aread (a : adb) : option (option bytes * adb) :=
  match a with
  | AReading kept cur (l :: rest) cl => Some (Some l, AReading (accept kept cur) (Some l) rest cl)
  | AReading kept cur [] true => Some (None, AReading (accept kept cur) None [] true)
  | AReading kept cur [] false => Some (None, AWriting (accept kept cur) [])
  | ASkipped _ _ => None       (* not allowed: see C04 in DESIGN.md *)
  | AWriting done part => Some (None, AWriting done part)
  end.

(* skip() may report success only if the rest is properly closed. *)
Inductive askip : adb -> bool -> adb -> Prop :=
| askip_eof kept cur : askip (AReading kept cur [] true) true (AReading kept cur [] true)
| askip_again kept rest : askip (ASkipped kept rest) true (ASkipped kept rest)
| askip_ok kept cur l rest :
    askip (AReading kept cur (l :: rest) true) true (ASkipped (accept kept cur) (l :: rest))
| askip_bad kept cur rest cl :
    askip (AReading kept cur rest cl) false (AWriting (accept kept cur) []).

Inductive astep : adb -> op -> out -> adb -> Prop :=
| as_read a l a' : aread a = Some (l, a') -> astep a ORead (VLine l) a'
| as_expect_ok a v a' :
    aread a = Some (Some v, a') -> astep a (OExpect v) (VLine None) a'
| as_expect_bad a v l a' :
    aread a = Some (l, a') -> l <> Some v ->
    astep a (OExpect v) (VLine l) (awrite v true (fst (akeep a')) (snd (akeep a')))
| as_write a s nl : astep a (OWrite s nl) VUnit (awrite s nl (fst (akeep a)) (snd (akeep a)))
| as_mark a : astep a OMark VUnit (AWriting (fst (akeep a)) (snd (akeep a)))
| as_skip a r a' : askip a r a' -> astep a OSkip (VBool r) a'
| as_flush a : astep a OFlush VUnit a.

Inductive aruns : adb -> list op -> list out -> adb -> Prop :=
| ar_nil a : aruns a [] [] a
| ar_cons a o v a' os vs a'' :
    astep a o v a' -> aruns a' os vs a'' -> aruns a (o :: os) (v :: vs) a''.

(* Opening: the version line is the first line and is kept. *)
Inductive aopen : option bytes -> adb -> Prop :=
| ao_none : aopen None (AWriting [version] [])
| ao_ok f ls cl : holds f (version :: ls) cl -> aopen (Some f) (AReading [] (Some version) ls cl)
| ao_bad f ls cl : holds f ls cl -> hd_error ls <> Some version ->
                   aopen (Some f) (AWriting [version] []).

(* Lines the database has after close(). *)
Definition alines (a : adb) : list bytes :=
  match a with
  | AReading kept cur _ _ => accept kept cur
  | ASkipped kept rest => kept ++ rest
  | AWriting done _ => done
  end.

(* The caller terminated every line and wrote only storable lines. *)
Definition complete (a : adb) : Prop :=
  match a with AWriting done part => Forall line_ok done /\ part = [] | _ => True end.

(* Weaker: possibly in the middle of a line. *)
Definition storable (a : adb) : Prop :=
  match a with AWriting done part => Forall line_ok done /\ line_ok part | _ => True end.

(* Operation sequences in which nothing is read after a skip(). *)
Fixpoint legal (skipped : bool) (os : list op) : bool :=
  match os with
  | [] => true
  | (ORead | OExpect _) :: os' => negb skipped && legal skipped os'
  | (OWrite _ _ | OMark) :: os' => legal false os'
  | OSkip :: os' => legal true os'
  | OFlush :: os' => legal skipped os'
  end.

(* Sessions whose first access to the contents is not an overwrite of the line
   "just read" by the constructor, that is, of the version line. *)
Fixpoint starts_with_read (os : list op) : bool :=
  match os with
  | [] => true
  | (OFlush | OSkip) :: os' => starts_with_read os'
  | (OWrite _ _ | OMark) :: _ => false
  | _ => true
  end.

(* Sessions that do not use skip(). *)
Definition not_skipped_b (os : list op) : bool :=
  forallb (fun o => match o with OSkip => false | _ => true end) os.

(* Operations allowed on a read-only database (depdb.hxx:114-115). *)
Definition read_only_op (o : op) : bool :=
  match o with ORead | OSkip | OMark | OFlush => true | _ => false end.

(* No empty lines in (a tail of) a file. *)
Definition no_blank (s : bytes) : Prop := forall p q, s <> p ++ NL :: NL :: q.

(* Contents of a file that may not exist. *)
Definition contents (f : option bytes) : bytes := match f with Some c => c | None => [] end.

