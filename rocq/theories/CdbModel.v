(* Model of compilation databases: libbuild2/cc/compiledb.hxx, compiledb.cxx: filter () 38-262, compiledb_file 612-1130,
   compiledb_stdout 368-609; its use by compile_rule::apply (), libbuild2/cc/compile-rule.cxx 1231-1373, and
   compile_rule::perform_update () 7809-7816 (see CdbSpec.v).

   Serialization of an entry and parsing of its `output` member are those of libbutl and are given, and so are the command lines (with
   paths made absolute) and whether a path is in a directory. Calls are atomic (they hold the mutex; pre () and post () are serial). Not
   modelled: errors of input/output, tracing. *)
From Verif Require Import Base.

Notation key := bytes (only parsing).   (* the path of output *)
Notation text := bytes (only parsing).  (* the line of an entry *)

Section Cdb.
Context {cmd : Type}.
Context (ser : bytes -> cmd -> option bytes).      (* the line for an output and its command, unless it is not valid *)
Context (out_of : bytes -> option bytes).          (* the first member, output, of a line *)
Context (under : bytes -> bytes -> bool).          (* path_traits::sub () with arguments swapped *)

(* compiledb.hxx 225-231 *)
Inductive status := Absent | Present | Changed | Missing.
Record entry := mkentry { e_status : status; e_json : bytes }.

(* std::unordered_map; the order of entries is not of importance. *)
Definition db := list (bytes * entry).
Fixpoint find {A} (k : bytes) (d : list (bytes * A)) : option A :=
  match d with [] => None | (k', e) :: d => if beqb k' k then Some e else find k d end.
Fixpoint set (k : bytes) (e : entry) (d : db) : db :=
  match d with [] => [] | (k', e') :: d => if beqb k' k then (k', e) :: d else (k', e') :: set k e d end.

(* Lines as read by getline () until eof (). *)
Fixpoint lines_from (cur : bytes) (s : bytes) : list bytes :=
  match s with
  | [] => match cur with [] => [] | _ => [cur] end
  | c :: s => if ceqb c NL then cur :: lines_from [] s else lines_from (cur ++ [c]) s
  end.
Definition lines (s : bytes) : list bytes := lines_from [] s.

(* The reading of the top-level array, 667-735. *)
Inductive rstate := RFirst | RSecond | RNext | RLast | REnd.

Definition ends_with_comma (l : bytes) : bool := match rev l with c :: _ => ceqb c "," | [] => false end.

(* An entry, 693-703 and 722-732. *)
Definition read_entry (l : bytes) (acc : list (bytes * bytes)) : option (rstate * list (bytes * bytes)) :=
  let (s, l) := if ends_with_comma l then (RNext, removelast l) else (RLast, l) in
  match out_of l with
  | None => None
  | Some op => match find op acc with Some _ => None | None => Some (s, acc ++ [(op, l)]) end
  end.

Fixpoint read_lines (s : rstate) (ls : list bytes) (acc : list (bytes * bytes)) : option (list (bytes * bytes)) :=
  match ls with
  | [] => match s with REnd => Some acc | _ => None end
  | l :: ls =>
    match s with
    | RFirst => if beqb l (b "[") then read_lines RSecond ls acc else None
    | RSecond =>
      if beqb l (b "]") then read_lines REnd ls acc
      else match read_entry l acc with Some (s, acc) => read_lines s ls acc | None => None end
    | RNext => match read_entry l acc with Some (s, acc) => read_lines s ls acc | None => None end
    | RLast => if beqb l (b "]") then read_lines REnd ls acc else None
    | REnd => None
    end
  end.
Definition read (s : bytes) : option (list (bytes * bytes)) := read_lines RFirst (lines s) [].

(* The writing, 1024-1109. *)
Fixpoint write_entries (first : bool) (l : list bytes) : bytes :=
  match l with
  | [] => if first then b "]" ++ [NL] else [NL] ++ b "]" ++ [NL]
  | e :: l => (if first then [] else b "," ++ [NL]) ++ e ++ write_entries false l
  end.
Definition write (l : list bytes) : bytes := b "[" ++ [NL] ++ write_entries true l.

(* The object and the file. *)
Inductive mode := Closed | Open | Failed.
Record st := mkst { s_mode : mode; s_nesting : nat; s_db : db; s_absent : nat; s_changed : bool; s_file : option bytes }.

(* What post () is called with: a nested context, an outer action (pre-operation), the directories that are updated, whether the
   operation has failed, match only, and updating during initial load. *)
Record fin := mkfin { p_nested : bool; p_outer : bool; p_dirs : list bytes; p_failed : bool; p_match_only : bool; p_load : bool }.

Inductive event := Pre | Match (k : bytes) (changed : bool) | Exec (k : bytes) (c : cmd) | Post (p : fin).

(* 621-745. None: an assertion fails. *)
Definition pre (s : st) : option st :=
  match s_mode s with
  | Failed => None
  | m =>
    let s := mkst m (S (s_nesting s)) (s_db s) (s_absent s) (s_changed s) (s_file s) in
    if negb (s_nesting s =? 1) then Some s
    else
      match m with
      | Closed =>
        match s_file s with
        | None => Some (mkst Open 1 (s_db s) (length (s_db s)) false None)
        | Some f =>
          match read f with
          | Some l => let d := s_db s ++ map (fun e => (fst e, mkentry Absent (snd e))) l in
                      Some (mkst Open 1 d (length d) false (Some f))
          | None => Some (mkst Failed 1 (s_db s) (s_absent s) (s_changed s) (s_file s))
          end
        end
      | _ => Some s
      end
  end.

(* 747-803: also whether to force the update. *)
Definition match_ (s : st) (k : bytes) (changed : bool) : option (st * bool) :=
  match s_mode s with
  | Closed => None
  | Failed => Some (s, false)
  | Open =>
    match find k (s_db s) with
    | Some e =>
      match e_status e with
      | Present | Changed => if changed then None else Some (s, false)
      | Absent =>
        let e := mkentry (if changed then Changed else Present) (e_json e) in
        Some (mkst Open (s_nesting s) (set k e (s_db s)) (pred (s_absent s))
                   (s_changed s || match e_status e with Changed => true | _ => false end) (s_file s), false)
      | Missing => None
      end
    | None => Some (mkst Open (s_nesting s) (s_db s ++ [(k, mkentry Missing [])]) (s_absent s) true (s_file s), true)
    end
  end.

(* 805-895 *)
Definition execute (s : st) (k : bytes) (c : cmd) : option st :=
  match s_mode s with
  | Closed => None
  | Failed => Some s
  | Open =>
    match find k (s_db s) with
    | None => None
    | Some e =>
      match e_status e with
      | Absent => None
      | Present => Some s
      | Changed | Missing =>
        match ser k c with
        | Some j => Some (mkst Open (s_nesting s) (set k (mkentry Changed j) (s_db s)) (s_absent s) (s_changed s) (s_file s))
        | None => Some (mkst Failed (s_nesting s) (s_db s) (s_absent s) (s_changed s) (s_file s))
        end
      end
    end
  end.

(* 968-1010: absent entries to be dropped. *)
Definition stale (p : fin) (x : bytes * entry) : bool :=
  match e_status (snd x) with Absent => existsb (fun d => under d (fst x)) (p_dirs p) | _ => false end.
(* 1046-1090 *)
Definition reset (p : fin) (x : bytes * entry) : bytes * entry :=
  match e_status (snd x) with
  | Absent | Missing => x
  | Present | Changed => (fst x, mkentry (if p_nested p || p_load p then Present else Absent) (e_json (snd x)))
  end.
Definition is_missing (x : bytes * entry) : bool := match e_status (snd x) with Missing => true | _ => false end.
Definition is_reset (p : fin) (x : bytes * entry) : bool :=
  match e_status (snd x) with Present | Changed => negb (p_nested p || p_load p) | _ => false end.

(* 897-1128 *)
Definition post (s : st) (p : fin) : option st :=
  match s_nesting s with
  | 0 => None
  | S (S n) => Some (mkst (s_mode s) (S n) (s_db s) (s_absent s) (s_changed s) (s_file s))
  | 1 =>
    match s_mode s with
    | Closed => None
    | Failed => Some (mkst Failed 0 (s_db s) (s_absent s) (s_changed s) (s_file s))
    | Open =>
      let prune := negb (p_failed p) && negb (p_nested p) && negb (p_outer p) && negb (s_absent s =? 0) in
      let kept := if prune then filter (fun x => negb (stale p x)) (s_db s) else s_db s in
      let dropped := length (s_db s) - length kept in
      let absent := negb (dropped =? 0) in
      if existsb is_missing kept && negb (p_failed p || p_match_only p) then None
      else
        let u := s_changed s || absent in
        let file := if u then Some (write (map (fun x => e_json (snd x)) (filter (fun x => negb (is_missing x)) kept))) else s_file s in
        Some (mkst (if p_failed p then Failed else Open) 0 (map (reset p) kept)
                   (s_absent s - dropped + length (filter (is_reset p) kept)) (if p_failed p then s_changed s else false) file)
    end
  end.

Definition step (s : st) (e : event) : option st :=
  match e with
  | Pre => pre s
  | Match k c => match match_ s k c with Some (s, _) => Some s | None => None end
  | Exec k c => execute s k c
  | Post p => post s p
  end.
Fixpoint run (s : st) (es : list event) : option st :=
  match es with [] => Some s | e :: es => match step s e with Some s => run s es | None => None end end.

(* The build system is started: 616-620. *)
Definition start (file : option bytes) : st := mkst Closed 0 [] 0 false file.

(* compiledb_stdout, 368-609: what is printed. The state: 163-166. *)
Inductive omode := OInit | OEmpty | OFull | OFailed.
Record ost := mkost { o_mode : omode; o_nesting : nat; o_out : bytes }.

Definition ostep (s : ost) (e : event) : option ost :=
  match e with
  | Pre =>
    match o_mode s with
    | OFailed => None
    | m =>
      if negb (o_nesting s =? 0) then Some (mkost m (S (o_nesting s)) (o_out s))
      else match m with
           | OInit => Some (mkost OEmpty 1 (o_out s ++ b "[" ++ [NL]))
           | _ => Some (mkost m 1 (o_out s))
           end
    end
  | Match _ _ => Some s
  | Exec k c =>
    match o_mode s with
    | OInit => None
    | OFailed => Some s
    | m =>
      let sep := match m with OFull => b "," ++ [NL] | _ => [] end in
      match ser k c with
      | Some j => Some (mkost OFull (o_nesting s) (o_out s ++ sep ++ j))
      | None => Some (mkost OFailed (o_nesting s) (o_out s ++ sep))
      end
    end
  | Post p =>
    match o_nesting s with
    | 0 => None
    | S (S n) => Some (mkost (o_mode s) (S n) (o_out s))
    | 1 =>
      match o_mode s with
      | OInit => None
      | OFailed => Some (mkost OFailed 0 (o_out s))
      | m =>
        if p_nested p && negb (p_failed p) then Some (mkost m 0 (o_out s))
        else Some (mkost OInit 0 (o_out s ++ (match m with OFull => [NL] | _ => [] end) ++ b "]" ++ [NL]))
      end
    end
  end.
Fixpoint orun (s : ost) (es : list event) : option ost :=
  match es with [] => Some s | e :: es => match ostep s e with Some s => orun s es | None => None end end.
End Cdb.

(* filter () 38-262, for the database with this name. *)
Section Filter.
Context {ttype : Type}.
Context (tname : ttype -> bytes).                    (* target_type::name *)
Context (is_a : ttype -> bytes -> option bool).      (* derived from the type found by this name; none if unknown *)
Context (is_obj is_bmi is_hbmi is_m : ttype -> bool).

(* 52-76: in reverse, the first name match. *)
Fixpoint name_filter (name : bytes) (f : list (option bytes * bool)) : bool :=
  match f with
  | [] => false
  | (n, v) :: f => if match n with None => true | Some n => beqb n name end then v else name_filter name f
  end.

Definition applies (name : bytes) (n : option bytes) : bool := match n with None => true | Some n => beqb n name end.

(* 135-187 and 220-245: in reverse, until matches. None: unknown target type. *)
Fixpoint type_filter (test : bytes -> option bool) (name : bytes) (f : list (option bytes * bytes)) : option bool :=
  match f with
  | [] => Some false
  | (n, t) :: f =>
    if negb (applies name n) then type_filter test name f
    else match test t with None => None | Some true => Some true | Some false => type_filter test name f end
  end.

Definition output_test (t : ttype) (n : bytes) : option bool :=
  if beqb (tname t) n || beqb n (b "target") then Some true
  else if beqb n (b "obj") then Some (is_obj t)
  else if beqb n (b "bmi") then Some (is_bmi t)
  else if beqb n (b "hbmi") then Some (is_hbmi t)
  else is_a t n.

(* 232-237: note that `S` stands for the type m. *)
Definition input_test (t : ttype) (n : bytes) : option bool :=
  if beqb (tname t) n || beqb n (b "target") then Some true
  else if beqb n (b "S") then Some (is_m t)
  else is_a t n.

(* names: those of the databases of the amalgamation, 84-101. Filters that are not specified are none. *)
Definition filter_entry (name : bytes) (names : list bytes) (nf : option (list (option bytes * bool)))
  (of_ if_ : option (list (option bytes * bytes))) (ot it : ttype) : option bool :=
  match nf with
  | None => Some false
  | Some nf =>
    if negb (name_filter name (rev nf)) then Some false
    else if negb (existsb (beqb name) names) then Some false
    else
      match match of_ with None => Some true | Some f => type_filter (output_test ot) name (rev f) end with
      | Some true => match if_ with None => Some true | Some f => type_filter (input_test it) name (rev f) end
      | r => r
      end
  end.
End Filter.
