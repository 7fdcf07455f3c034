(* Model of the in rule, libbuild2/in/rule.{hxx,cxx}: substitution and update.

   The dependency database is that of DepdbModel.v. Not modelled: derived rules (hooks and
   flags), diagnostics, I/O errors, permissions, Windows. *)
From Coq Require Import DecimalString.
From Verif Require Import Base DepdbModel.

Definition CR : ascii := "013"%char.

(* replace_newlines (), rule.hxx:142-159. find () is string::find () from a position. *)
Fixpoint find (c : ascii) (s : bytes) : option nat :=
  match s with
  | [] => None
  | x :: s => if ceqb x c then Some 0 else match find c s with Some n => Some (S n) | None => None end
  end.
Definition find_from (c : ascii) (p : nat) (s : bytes) : option nat :=
  match find c (skipn p s) with Some n => Some (p + n) | None => None end.
Definition replace (s : bytes) (p n : nat) (v : bytes) : bytes := firstn p s ++ v ++ skipn (p + n) s.
(* The number of steps is enough if it is more than twice the number of characters. *)
Fixpoint replace_loop (k : nat) (nl : bytes) (p : nat) (v : bytes) : bytes :=
  match k with
  | O => v
  | S k =>
      match find_from NL p v with
      | None => v
      | Some p =>
          let '(p, n) := if negb (p =? 0) && ceqb (nth (p - 1) v NUL) CR then (p - 1, 2) else (p, 1) in
          replace_loop k nl (p + n) (replace v p n nl)
      end
  end.
Definition replace_newlines (nl v : bytes) : bytes := replace_loop (S (2 * length v)) nl 0 v.

(* What is set for the target, rule.cxx:102-132, and the variables that are visible from it.
   The value of a variable is NULL or is converted to a string, which may fail. *)
Inductive variable := Undefined | Null | String (s : option bytes).
Record setup := mksetup { sym : ascii; strict : bool; smap : bytes -> option (option bytes); null : option bytes; var : bytes -> variable }.

(* lookup (), rule.cxx:637-699. None is failure. *)
Definition lookup (e : setup) (n : bytes) : option bytes :=
  match smap e n with
  | Some (Some v) => Some v
  | Some None => null e
  | None =>
      match var e n with
      | Undefined => None
      | Null => null e
      | String s => s
      end
  end.
(* alpha () and alnum () of libbutl *)
Definition between (a z : ascii) (c : ascii) : bool := (nat_of_ascii a <=? nat_of_ascii c) && (nat_of_ascii c <=? nat_of_ascii z).
Definition alpha (c : ascii) : bool := between "a" "z" c || between "A" "Z" c.
Definition alnum (c : ascii) : bool := alpha c || between "0" "9" c.
(* 615-631: the fragment that can be a variable name *)
Fixpoint variable_name (f : bool) (n : bytes) : bool :=
  match n with
  | [] => true
  | c :: n =>
      if ceqb c "_" || (if f then alpha c else alnum c) then variable_name false n
      else if ceqb c "." && negb (match n with [] => true | _ => false end) then variable_name false n
      else false
  end.
(* substitute (), 601-635 *)
Inductive result := Fail | Ignore | Value (v : bytes).
Definition substitute (e : setup) (n : bytes) : result :=
  if negb (strict e) && negb (variable_name true n) then Ignore
  else match lookup e n with Some v => Value v | None => Fail end.

(* process (), 482-563. 507-518: finding the other end; the name is in reverse and without the
   erased symbols. *)
Fixpoint other_end (st : bool) (y : ascii) (name s : bytes) : bytes * option bytes :=
  match s with
  | [] => (name, None)
  | c :: s1 =>
      if ceqb c y then
        match s1 with
        | c2 :: s2 => if st && ceqb c2 y then other_end st y (y :: name) s2 else (name, Some s1)
        | [] => (name, Some s1)
        end
      else other_end st y (c :: name) s1
  end.
(* The characters before b are final: the result is what follows. Returns the substitutions
   that have been made, with their values, and the result, unless failed. The number of steps is
   enough if it is more than the number of characters. *)
Definition put_text (t : bytes) (r : list (bytes * bytes) * option bytes) : list (bytes * bytes) * option bytes :=
  (fst r, match snd r with Some o => Some (t ++ o) | None => None end).
Fixpoint process (k : nat) (e : setup) (nl s : bytes) : list (bytes * bytes) * option bytes :=
  match k with
  | O => ([], None)
  | S k =>
      match s with
      | [] => ([], Some [])
      | c :: r =>
          if ceqb c (sym e) then
            match other_end (strict e) (sym e) [] r with
            | (_, None) => if strict e then ([], None) else ([], Some s)
            | ([], Some r) => put_text [sym e] (process k e nl (if strict e then r else sym e :: r))
            | (name, Some r) =>
                let name := rev name in
                match substitute e name with
                | Fail => ([], None)
                | Ignore => put_text (sym e :: name ++ [sym e]) (process k e nl r)
                | Value v => let '(l, o) := put_text (replace_newlines nl v) (process k e nl r) in ((name, v) :: l, o)
                end
            end
          else put_text [c] (process k e nl r)
      end
  end.

(* 386-424 and 426-438: the lines of the file with their endings. getline () of the standard
   library returns what is before the newline or the end, unless there is nothing. *)
Fixpoint to_newline (s : bytes) : bytes * option bytes :=
  match s with
  | [] => ([], None)
  | c :: s => if ceqb c NL then ([], Some s) else let (l, r) := to_newline s in (c :: l, r)
  end.
Definition ending (l : bytes) : bytes * bytes :=
  match rev l with
  | c :: r => if ceqb c CR then (rev r, [CR; NL]) else (l, [NL])
  | [] => (l, [NL])
  end.
Fixpoint process_lines (k : nat) (e : setup) (ln : nat) (nl s : bytes) : list (nat * bytes * bytes) * option bytes :=
  match k with
  | O => ([], None)
  | S k =>
      match s with
      | [] => ([], Some nl)
      | _ =>
          let (l, r) := to_newline s in
          let (l, nl') := ending l in
          let (subs, o) := process (S (length l)) e nl' l in
          let subs := map (fun '(n, v) => (ln, n, v)) subs in
          match o with
          | None => (subs, None)
          | Some o =>
              let (subs', o') := process_lines k e (S ln) nl' (match r with Some r => r | None => [] end) in
              (subs ++ subs', match o' with Some o' => Some ((if ln =? 1 then [] else nl) ++ o ++ o') | None => None end)
          end
      end
  end.
Definition process_file (e : setup) (s : bytes) : list (nat * bytes * bytes) * option bytes := process_lines (S (length s)) e 1 [NL] s.

(* The rule id, and the hash of a value as a string. *)
Section Update.
Context (id : bytes) (hash : bytes -> bytes).

(* 577-591: <ln> <name> <hash> *)
Definition dec (n : nat) : bytes := list_ascii_of_string (NilEmpty.string_of_uint (Nat.to_uint n)).
Definition record (s : nat * bytes * bytes) : bytes := let '(ln, n, v) := s in dec ln ++ SP :: n ++ SP :: hash v.
(* 228-254. Simplified: the number is digits (not also what else strtoull () accepts) and there
   are no flags. *)
Definition is_digit (c : ascii) : bool := between "0" "9" c.
Fixpoint skip_digits (s : bytes) : bytes := match s with c :: s' => if is_digit c then skip_digits s' else s | [] => [] end.
(* At the last space. *)
Fixpoint last_space (s : bytes) : option (bytes * bytes) :=
  match s with
  | [] => None
  | c :: s =>
      match last_space s with
      | Some (x, y) => Some (c :: x, y)
      | None => if ceqb c SP then Some ([], s) else None
      end
  end.
Definition parse_record (s : bytes) : option (bytes * bytes) :=
  match skip_digits s with
  | c :: s => if ceqb c SP then match last_space s with Some ([], _) | None => None | Some (n, h) => Some (n, h) end else None
  | [] => None
  end.

(* 221-291: checking the recorded variables. The result is dd_skip and the database; None is
   failure (or failed assertion). *)
Fixpoint check (k : nat) (e : setup) (n : nat) (d : db) : option (nat * db) :=
  match k with
  | O => None
  | S k =>
      match st d with
      | Read =>
          match read d with
          | (None, d) => Some (n, d)
          | (Some s, d) =>
              match parse_record s with
              | None => Some (n, mark d)
              | Some (name, h) =>
                  match substitute e name with
                  | Value v => if beqb (hash v) h then check k e (S n) d else Some (n, mark d)
                  | Fail | Ignore => None
                  end
              end
          end
      | _ => Some (n, d)
      end
  end.

(* 149-181: what is expected. The path of the .in file is part of the action. *)
Definition mode (e : setup) : bytes := if strict e then b "strict" else b "lax".
Definition head (e : setup) (path : bytes) : list bytes := [id ++ b " 1"; [sym e]; mode e; path].
Fixpoint expects (vs : list bytes) (d : db) : option db :=
  match vs with
  | [] => Some d
  | v :: vs => match expect v d with Some (_, d) => expects vs d | None => None end
  end.
Definition writing (d : db) : bool := match st d with Write => true | _ => false end.
Fixpoint writes (ls : list bytes) (d : db) : option db :=
  match ls with
  | [] => Some d
  | l :: ls => match write l true d with Some d => writes ls d | None => None end
  end.

(* perform_update (), 93-461, without the times. f is the contents of the database, s is the
   contents of the .in file and newer is whether the target is older than the .in file or the
   database (or does not exist), which is known before opening the database except for its time. *)
Inductive outcome :=
| Failed                               (* nothing is changed *)
| UpToDate (d : db)
| Updating (d : db) (out : option bytes). (* the database with everything written, the output unless failed *)
Definition perform_update (e : setup) (path : bytes) (f : option bytes) (newer : bool) (s : bytes) : outcome :=
  match expects (head e path) (open_db false f) with
  | None => Failed
  | Some d =>
      let upd n d :=
        let (subs, o) := process_file e s in
        match writes (map record (skipn n subs)) d with Some d => Updating d o | None => Failed end in
      if newer || writing d then upd 0 (if writing d then d else mark (snd (read d)))
      else
        match check (S (length (match f with Some c => c | None => [] end))) e 0 d with
        | None => Failed
        | Some (n, d) => if writing d then upd n d else UpToDate d
        end
  end.

(* The file system: .in files, the output and the database with modification times. The clock
   advances between any two changes. *)
Record world := mkworld { ins : bytes -> option (bytes * nat); tgt : option (bytes * nat); dd : option (bytes * nat); clock : nat }.
Definition older (t : option (bytes * nat)) (m : nat) : bool := match t with None => true | Some (_, mt) => mt <? m end.
(* execute_prerequisites (), 136, and 184-185 *)
Definition newer (w : world) (m : nat) : bool := older (tgt w) m || match dd w with Some (_, m) => older (tgt w) m | None => true end.
Definition set_ins p x w := mkworld (fun q => if beqb q p then x else ins w q) (tgt w) (dd w) (S (clock w)).

(* An update that has not been interrupted, 386-461: the database is closed first. *)
Definition update (e : setup) (path : bytes) (w : world) : option world :=
  match ins w path with
  | None => None
  | Some (s, m) =>
      match perform_update e path (match dd w with Some (f, _) => Some f | None => None end) (newer w m) s with
      | Failed => None
      | UpToDate d => Some (mkworld (ins w) (tgt w) (match dd w with Some (_, m) => Some (close_db TNone d, m) | None => None end) (clock w))
      | Updating d None => None
      | Updating d (Some o) => Some (mkworld (ins w) (Some (o, S (S (clock w)))) (Some (close_db TNone d, S (clock w))) (S (S (clock w))))
      end
  end.
(* One that has been interrupted or has failed: the first k bytes have been written to the
   database and the output may be anything, but is older than the database if that has been
   closed. *)
Inductive interrupted (e : setup) (path : bytes) (w : world) : world -> Prop :=
| int_writing s m d o k t : ins w path = Some (s, m) ->
    perform_update e path (match dd w with Some (f, _) => Some f | None => None end) (newer w m) s = Updating d o ->
    older t (S (S (clock w))) = true ->
    interrupted e path w (mkworld (ins w) t (Some (image d k, S (clock w))) (S (clock w)))
| int_closing s m d o k t : ins w path = Some (s, m) ->
    perform_update e path (match dd w with Some (f, _) => Some f | None => None end) (newer w m) s = Updating d (Some o) ->
    older t (S (clock w)) = true ->
    interrupted e path w (mkworld (ins w) t (Some (image (closing TNone d) k, S (clock w))) (S (clock w))).

(* What can happen, where allowed are the setups and .in files used. *)
Inductive step (allowed : setup -> bytes -> Prop) : world -> world -> Prop :=
| s_edit p s w : step allowed w (set_ins p (Some (s, S (clock w))) w)       (* an .in file is written *)
| s_remove p w : step allowed w (set_ins p None w)
| s_clean w : step allowed w (mkworld (ins w) None (dd w) (clock w))        (* the output is removed *)
| s_forget w : step allowed w (mkworld (ins w) (tgt w) None (clock w))      (* the database is removed *)
| s_update e path w w' : allowed e path -> update e path w = Some w' -> step allowed w w'
| s_interrupted e path w w' : allowed e path -> interrupted e path w w' -> step allowed w w'.
Inductive steps (allowed : setup -> bytes -> Prop) : world -> world -> Prop :=
| steps_none w : steps allowed w w
| steps_more w w1 w2 : steps allowed w w1 -> step allowed w1 w2 -> steps allowed w w2.
End Update.
