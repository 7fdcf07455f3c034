(* Model of target::split_name () and target::combine_name (), libbuild2/target.cxx:
   297-482 and 492-585.

   Both go over the name from right to left. Here they take the reversed string and
   the number k of dots that have just been seen (to the right), so that a sequence
   of dots is handled when what is to the left of it is known. The position of the
   first dot in the sequence is then the length of what remains. *)
From Verif Require Import Base.

Definition DOT : ascii := "."%char.
Definition is_dot (c : ascii) : bool := ceqb c DOT.
(* path::traits_type::is_separator () on POSIX. *)
Definition is_sep (c : ascii) : bool := ceqb c "/"%char.
Definition dots (k : nat) : bytes := repeat DOT k.

(* The variables of split_name (), target.cxx:345-349: the position and the length
   of the extension dot(s). *)
Record scan_st := mkscan { edp : option (nat * nat); escaped : bool; dot_only : bool }.

(* target.cxx:363-394: a sequence of k dots at position i. None: fail. *)
Definition run (k i : nat) (s : scan_st) : option scan_st :=
  if k =? 0 then Some s
  else if k =? 3 then
    match edp s with
    | Some (_, 3) => None
    | _ => Some (mkscan (Some (i, 3)) (escaped s) (dot_only s))
    end
  else if k =? 1 then
    match edp s with
    | None => Some (mkscan (Some (i, 1)) (escaped s) (dot_only s))
    | Some _ => Some s
    end
  else if Nat.even k then Some (mkscan (edp s) true (dot_only s))
  else None.

(* target.cxx:359-407. Also returns p, the beginning of the leaf. *)
Fixpoint scan (k : nat) (rs : bytes) (s : scan_st) : option (scan_st * nat) :=
  match rs with
  | [] => match run k 0 s with Some s' => Some (s', 0) | None => None end
  | c :: r =>
      if is_dot c then scan (S k) r s
      else
        match run k (length rs) s with
        | None => None
        | Some s' => if is_sep c then Some (s', length rs) else scan 0 r (mkscan (edp s') (escaped s') false)
        end
  end.

(* target.cxx:462-471. None: the assertion. *)
Definition unescape_run (k : nat) : option bytes :=
  if k =? 0 then Some []
  else if k =? 1 then Some (dots 1)
  else if Nat.even k then Some (dots (k - k / 2)) else None.
(* target.cxx:446-474, left to right, k dots having just been seen. *)
Fixpoint unescape (k : nat) (s : bytes) : option bytes :=
  match s with
  | [] => unescape_run k
  | c :: s' =>
      if is_dot c then unescape (S k) s'
      else match unescape_run k, unescape 0 s' with
           | Some x, Some y => Some (x ++ c :: y)
           | _, _ => None
           end
  end.

Inductive outcome := Failed | Asserted | Split (v : bytes) (e : option bytes).

Definition last_is (f : ascii -> bool) (s : bytes) : bool := match rev s with c :: _ => f c | [] => false end.

(* target.cxx:297-482 *)
Definition split_name (v : bytes) : outcome :=
  match v with
  | [] => Asserted
  | _ =>
      match scan 0 (rev v) (mkscan None false true) with
      | None => Failed
      | Some (s, p) =>
          if dot_only s then Failed
          else
            let leading := match edp s with Some (i, _) => i =? p | None => false end in
            if leading && match edp s with Some (_, 3) => true | _ => false end then Failed
            else
              let n := length v in
              let (r, v') :=
                match (if leading then None else edp s) with
                | Some (i, w) =>
                    ((if negb (i =? n - w) then Some (skipn (i + w) v) else if w =? 1 then Some [] else None), firstn i v)
                | None => ((if last_is is_dot v then Some [] else None), v)
                end in
              if negb (escaped s) then Split v' r
              else
                match unescape 0 (skipn p v'), (match r with Some x => match unescape 0 x with Some y => Some (Some y) | None => None end | None => Some None end) with
                | Some x, Some r' => Split (firstn p v' ++ x) r'
                | _, _ => Asserted
                end
      end
  end.

(* target.cxx:525-546: what a sequence of k dots becomes and whether it can be taken
   for an extension dot. n: the length of the string; rs: what is to the left. *)
Definition escape_run (nm : bool) (n k : nat) (rs : bytes) : bytes * bool :=
  if k =? 0 then ([], false)
  else
    let trailing := nm && (length rs =? n - 1) in
    let esc := negb (k =? 1) || trailing in
    let ext := (k =? 1) && negb trailing && negb (nm && match rs with [] => true | c :: _ => is_sep c end) in
    (dots (if esc then k + k else k), ext).
(* target.cxx:514-560. None: the assertion. *)
Fixpoint escape_loop (nm : bool) (n k : nat) (rs : bytes) : option (bytes * bool) :=
  match rs with
  | [] => Some (escape_run nm n k [])
  | c :: r =>
      if is_dot c then escape_loop nm n (S k) r
      else
        let (d, x) := escape_run nm n k rs in
        if is_sep c then (if nm then Some (d ++ rs, x) else None)
        else match escape_loop nm n 0 r with
             | Some (o, y) => Some (d ++ c :: o, x || y)
             | None => None
             end
  end.
(* target.cxx:503-561 *)
Definition escape (nm : bool) (s : bytes) : option (bytes * bool) :=
  match escape_loop nm (length s) 0 (rev s) with
  | Some (o, x) => Some (rev o, x)
  | None => None
  end.

(* target.cxx:492-585. None: an assertion. *)
Definition combine_name (v : bytes) (e : option bytes) (de : bool) : option bytes :=
  match escape true v with
  | None => None
  | Some (v', ed) =>
      if last_is is_dot v' then
        match e with Some (_ :: _) => None | _ => Some v' end
      else
        match e with
        | Some x => match escape false x with Some (x', f) => Some (v' ++ dots (if f then 3 else 1) ++ x') | None => None end
        | None => Some (if de && ed then v' ++ dots 3 else v')
        end
  end.
