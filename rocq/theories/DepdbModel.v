(* Model of the auxiliary dependency database, libbuild2/depdb.{hxx,ixx,cxx}.

   The file is a byte string. Stream buffering: bytes put to the output stream
   are kept, in order, in [wbuf] together with the file offset [wpos] at which
   the stream was opened; a crash leaves any prefix of them on disk (see
   [image]).

   Not modelled: I/O errors (the code calls fail, which aborts the session),
   the path, diagnostics, FreeBSD's mtime re-query. Modification times are
   modelled separately (DepdbTime*.v). *)
From Verif Require Import Base.

(* depdb.hxx:67 *)
Inductive state := Read | ReadEof | Write.

(* depdb.hxx:63-82 (depdb_base) and 329-330. *)
Record db := mkdb {
  st   : state;    (* state_ *)
  ro   : bool;     (* ro_ *)
  file : bytes;    (* file contents below the stream buffer *)
  gpos : nat;      (* input stream position: buf_->tellg () *)
  pos  : nat;      (* pos_ *)
  wpos : nat;      (* offset at which the output stream was opened *)
  wbuf : bytes     (* bytes put to the output stream since then *)
}.

Definition set_st s d := mkdb s (ro d) (file d) (gpos d) (pos d) (wpos d) (wbuf d).
Definition set_gpos g d := mkdb (st d) (ro d) (file d) g (pos d) (wpos d) (wbuf d).
Definition set_pos p d := mkdb (st d) (ro d) (file d) (gpos d) p (wpos d) (wbuf d).
Definition put (s : bytes) d :=
  mkdb (st d) (ro d) (file d) (gpos d) (pos d) (wpos d) (wbuf d ++ s).

(* Bytes [w] written over file [f] starting at offset [p]. *)
Definition overwrite (f : bytes) (p : nat) (w : bytes) : bytes :=
  firstn p f ++ w ++ skipn (p + length w) f.

(* What is on disk when the first [k] bytes put to the stream have reached the
   file (the OS applies them in order). *)
Definition image (d : db) (k : nat) : bytes :=
  match st d with
  | Write => if ro d then file d else overwrite (file d) (wpos d) (firstn k (wbuf d))
  | _ => file d
  end.

(* std::getline() over the unread bytes: the line and what follows its
   newline; None if the input ends before a newline (is_.fail() or is_.eof(),
   depdb.cxx:213-223). *)
Fixpoint getline (s : bytes) : option (bytes * bytes) :=
  match s with
  | [] => None
  | c :: s' =>
      if ceqb c NL then Some ([], s')
      else match getline s' with
           | Some (l, r) => Some (c :: l, r)
           | None => None
           end
  end.

(* depdb.cxx:136-196. The code asserts st <> Write: callers check. The
   truncation to pos_ never extends the file since pos_ is a stream position
   inside it. *)
Definition change (trunc : bool) (d : db) : db :=
  if ro d
  then set_st Write d
  else mkdb Write (ro d)
            (if trunc then firstn (pos d) (file d) else file d)
            (gpos d) (pos d) (pos d) [].

(* depdb.cxx:198-247 *)
Definition read_ (d0 : db) : option bytes * db :=
  let d := set_pos (gpos d0) d0 in
  match st d with
  | ReadEof => (None, d)
  | _ =>
    match getline (skipn (gpos d) (file d)) with
    | None => (None, change true d)
    | Some (_, []) => (None, change true d)          (* peek () == eof *)
    | Some (l, c :: _) =>
        let d' := set_gpos (gpos d + length l + 1) d in
        (Some l, if ceqb c NUL then set_st ReadEof d' else d')
    end
  end.

(* depdb.hxx:208-209 *)
Definition read (d : db) : option bytes * db :=
  match st d with Write => (None, d) | _ => read_ d end.

(* The do-while loop of depdb.cxx:265-276 over the unread bytes: Some n if the
   end marker was found having extracted n bytes, None if eof was reached.
   Note that the character after a newline is consumed without being tested
   for being itself a newline. *)
Fixpoint skip_scan (s : bytes) (n : nat) : option nat :=
  match s with
  | [] => None
  | c :: s' =>
      if ceqb c NL then
        match s' with
        | [] => None
        | c2 :: s'' => if ceqb c2 NUL then Some (n + 2) else skip_scan s'' (n + 2)
        end
      else skip_scan s' (n + 1)
  end.

(* depdb.cxx:249-287; None is the failed assertion (state is write). *)
Definition skip (d0 : db) : option (bool * db) :=
  match st d0 with
  | ReadEof => Some (true, d0)
  | Write => None
  | Read =>
      let d := set_pos (gpos d0) d0 in
      match skip_scan (skipn (gpos d) (file d)) 0 with
      | Some n => Some (true, set_st ReadEof (set_gpos (gpos d + n) d))
      | None => Some (false, change true d)
      end
  end.

(* depdb.cxx:289-329 (both overloads). None: writing to a read-only database,
   which is illegal (depdb.hxx:114-115) and would use a stream that was never
   constructed. *)
Definition write (s : bytes) (nl : bool) (d0 : db) : option db :=
  let d := match st d0 with Write => d0 | _ => change true d0 end in
  if ro d then None else Some (put (s ++ (if nl then [NL] else [])) d).

(* depdb.hxx:254-255: mark the previously read line as to be overwritten. *)
Definition mark (d : db) : db :=
  match st d with Write => d | _ => change true d end.

(* depdb.hxx:265-276 *)
Definition expect (v : bytes) (d : db) : option (option bytes * db) :=
  let (l, d1) := read d in
  let mismatch := match write v true d1 with
                  | Some d2 => Some (l, d2)
                  | None => None
                  end in
  match l with
  | Some x => if beqb x v then Some (None, d1) else mismatch
  | None => mismatch
  end.

Definition version : bytes := ["1"%char].

(* depdb.cxx:98-125 with depdb_base 18-96: open the file with contents [f]
   (None if it does not exist). *)
Definition open_db (rdonly : bool) (f : option bytes) : db :=
  match f with
  | None =>
      let d := mkdb Write rdonly [] 0 0 0 [] in
      if rdonly then d else put (version ++ [NL]) d
  | Some c =>
      let (l, d) := read_ (mkdb Read rdonly c 0 0 0 []) in
      let bad := if rdonly then mark d
                 else match write version true d with Some d' => d' | None => d end in
      match l with
      | Some x => if beqb x version then d else bad
      | None => bad
      end
  end.

(* The [touch] member, depdb.hxx:105: absent, timestamp_unknown, or a specific
   time (which only affects the modification time, not the contents). *)
Inductive touch := TNone | TNow | TAt.

(* Bytes on disk after the end marker is put and the stream closed. *)
Definition flushed (d : db) : bytes := image d (length (wbuf d)).

(* depdb.cxx:331-408: the state just before os_.close(), having put the end
   marker. In the read_eof state without a "now" touch nothing is written. *)
Definition closing (t : touch) (d : db) : db :=
  if ro d then d else
  match st d with
  | ReadEof =>
      match t with
      | TNow => put [NUL] (change false (set_pos (gpos d) d))
      | _ => d
      end
  | Read => put [NUL] (change true (set_pos (gpos d) d))
  | Write => put [NUL] d
  end.

Definition close_db (t : touch) (d : db) : bytes := flushed (closing t d).

(* depdb.cxx:427-456: the contents after the call and the reopen position. *)
Definition to_reopen (d : db) : db :=
  match st d with
  | Write => d
  | ReadEof => change false (set_pos (gpos d) d)
  | Read => change true (set_pos (gpos d) d)
  end.

Definition close_to_reopen (d : db) : bytes * nat :=
  let d' := to_reopen d in
  (flushed (put [NUL] d'), wpos d' + length (wbuf d')).

(* depdb.cxx:127-134, 72-80: reopen for writing at [p], without truncation. *)
Definition reopen (f : bytes) (p : nat) : db := mkdb Write false f 0 p p [].

(* A session: any sequence of API calls after opening. *)
Inductive op :=
| ORead
| OExpect (v : bytes)
| OWrite (s : bytes) (nl : bool)
| OMark
| OSkip
| OFlush.

Inductive out := VLine (l : option bytes) | VBool (x : bool) | VUnit.

(* flush (depdb.ixx:17-29) has no effect on the abstract contents: a crash may
   leave any prefix of the output with or without it. *)
Definition step (d : db) (o : op) : option (db * out) :=
  match o with
  | ORead => let (l, d') := read d in Some (d', VLine l)
  | OExpect v =>
      match expect v d with Some (l, d') => Some (d', VLine l) | None => None end
  | OWrite s nl =>
      match write s nl d with Some d' => Some (d', VUnit) | None => None end
  | OMark => Some (mark d, VUnit)
  | OSkip => match skip d with Some (r, d') => Some (d', VBool r) | None => None end
  | OFlush => Some (d, VUnit)
  end.

Fixpoint run (d : db) (os : list op) : option (db * list out) :=
  match os with
  | [] => Some (d, [])
  | o :: os' =>
      match step d o with
      | None => None
      | Some (d', v) =>
          match run d' os' with
          | None => None
          | Some (d'', vs) => Some (d'', v :: vs)
          end
      end
  end.
