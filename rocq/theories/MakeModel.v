(* Model of the make dependency declaration parser,
   libbuild2/make-parser.{hxx,cxx}, and of the loop its callers use
   (libbuild2/adhoc-rule-buildscript.cxx:1579-1627; the same loop is in
   build/script/parser.cxx:3175-3297 and cc/predefs-rule.cxx:1503-1525).

   A position in a line is represented by the unread suffix of the line
   (position p of a line of size n is the suffix of length n - p). The drive
   letter case (#ifdef _WIN32) is not modelled. Paths are kept as strings
   (path's constructor is not modelled). *)
From Verif Require Import Base.

Definition BS : ascii := "\"%char.
Definition COLON : ascii := ":"%char.
Definition DOLLAR : ascii := "$"%char.
Definition HASH : ascii := "#"%char.

(* make-parser.cxx:71 with strchr(): note that strchr() also finds the
   terminating NUL. *)
Definition escapable (c : ascii) : bool :=
  ceqb c BS || ceqb c SP || ceqb c COLON || ceqb c HASH || ceqb c NUL.

Fixpoint skip_sp (s : bytes) : bytes :=
  match s with
  | c :: s' => if ceqb c SP then skip_sp s' else s
  | [] => []
  end.

Definition cons1 (c : ascii) (r : bytes * bytes) : bytes * bytes := (c :: fst r, snd r).

(* The scan loop, make-parser.cxx:96-146: the word and what follows it. *)
Fixpoint scan (s : bytes) : bytes * bytes :=
  match s with
  | [] => ([], [])
  | c :: s' =>
      if ceqb c SP || ceqb c COLON then ([], s)
      else match s' with
           | [] => if ceqb c BS then ([], s) else ([c], [])
           | d :: s'' =>
               if ceqb c BS then
                 if escapable d then cons1 d (scan s'') else cons1 c (scan s')
               else if ceqb c DOLLAR && ceqb d DOLLAR then cons1 c (scan s'')
               else cons1 c (scan s')
           end
  end.

(* make-parser.cxx:73-165: the word, whether this is the end of the
   declaration, and the unread suffix. *)
Definition next_word (s : bytes) : bytes * bool * bytes :=
  let (w, r) := scan (skip_sp s) in
  match skip_sp r with
  | [] => (w, true, [])
  | [c] => (w, false, if ceqb c BS then [] else [c])
  | r' => (w, false, r')
  end.

(* make-parser.hxx:28 and 48 *)
Inductive state := Begin | Targets | Prereqs | End.
Inductive type := Target | Prereq.

(* make-parser.cxx:11-64. None is fail (an invalid declaration) or the failed
   assertion (called in the End state). *)
Definition next (st : state) (s : bytes) : option (state * (type * bytes) * bytes) :=
  match st with
  | End => None
  | _ =>
    let t := match st with Prereqs => Prereq | _ => Target end in
    match next_word s with (w, e, r) =>
      let st1 :=
        if e then
          match st, w with
          | Begin, [] => Some Begin
          | Prereqs, _ => Some End
          | _, _ => None
          end
        else
          match st, w with
          | Begin, _ :: _ => Some Targets
          | _, _ => Some st
          end in
      match st1 with
      | None => None
      | Some st1 =>
          match r with
          | c :: r' =>
              if ceqb c COLON then
                match st1 with
                | Begin | Prereqs => None
                | _ => Some (match r' with [] => End
                             | _ => match st1 with End => End | _ => Prereqs end end,
                             (t, w), r')
                end
              else Some (st1, (t, w), r)
          | [] => Some (st1, (t, w), r)
          end
      end
    end
  end.

(* The do-while loop over one line (adhoc-rule-buildscript.cxx:1592-1622):
   collect the non-empty results until pos == l.size (). The fuel is the
   number of iterations. *)
Fixpoint line_loop (fuel : nat) (st : state) (s : bytes) : option (state * list (type * bytes)) :=
  match fuel with
  | 0 => None
  | S fuel =>
      match next st s with
      | None => None
      | Some (st', (t, w), r) =>
          let x := match w with [] => [] | _ => [(t, w)] end in
          match r with
          | [] => Some (st', x)
          | _ => match line_loop fuel st' r with
                 | None => None
                 | Some (st'', xs) => Some (st'', x ++ xs)
                 end
          end
      end
  end.

Definition parse_line (st : state) (l : bytes) := line_loop (S (length l)) st l.

(* The loop over lines (adhoc-rule-buildscript.cxx:1581-1626): the results and
   the remaining lines. None: invalid or incomplete declaration. *)
Fixpoint parse_lines (st : state) (ls : list bytes) : option (list (type * bytes) * list bytes) :=
  match ls with
  | [] => None
  | l :: ls' =>
      match parse_line st l with
      | None => None
      | Some (st', xs) =>
          match st' with
          | End => Some (xs, ls')
          | _ => match parse_lines st' ls' with
                 | None => None
                 | Some (ys, r) => Some (xs ++ ys, r)
                 end
          end
      end
  end.

Definition parse (ls : list bytes) := parse_lines Begin ls.
