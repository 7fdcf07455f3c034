(* Model of names: libbuild2/name.{hxx,ixx,cxx}.

   A directory (butl::dir_path) is modelled by its representation: the string that
   was used to construct it, with a trailing separator. The empty string is the
   empty path. A project name (butl::project_name) is modelled by its string. A
   stream is modelled by the text written to it, with the stream verbosity being
   at least 1 for paths (so that diag_relative () and relative () do not apply),
   which is the default and what is used for saving the configuration. *)
From Verif Require Import Base LexModel.

(* name.hxx:43 *)
Inductive ptype := PPath | PRegex | PSubst.

(* name.hxx:41-50; no pair is NUL. *)
Record name := mkname { proj : option bytes; dir : bytes; type : bytes; value : bytes; pair : ascii; pattern : option ptype }.

Definition simple_name (v : bytes) : name := mkname None [] [] v NUL None.
Definition is_empty (x : bytes) : bool := match x with [] => true | _ => false end.
(* name.hxx:90-91 *)
Definition name_empty (n : name) : bool := is_empty (dir n) && is_empty (value n).

(* name.hxx:223-228 *)
Inductive quote_mode := QNone | QNormal | QEffective.

(* name.cxx:105-115 and 122-127; a NUL pair terminates the string early, which is
   after all the other characters. *)
Definition nsc (pr : ascii) : bytes := b "{}[]$() " ++ [TAB; NL] ++ b "#\""%" ++ (if ceqb pr NUL then [] else [pr]).
Definition pc : bytes := b "*?".
Definition esc (pr : ascii) : bytes := b "{}$( " ++ [TAB; NL] ++ b "#""" ++ (if ceqb pr NUL then [] else [pr]).
Definition in_dq : bytes := b "\$(""".

(* name.cxx:117-120 *)
Definition rc (v : bytes) : bool :=
  match v with
  | c :: d :: _ => (ceqb c "~"%char || ceqb c "^"%char) && negb (ceqb d NUL) && negb (alnum d)
  | _ => false
  end.
(* name.cxx:129-140 *)
Fixpoint ec (pr : ascii) (v : bytes) : bool :=
  match v with
  | [] => false
  | c :: v' => strchr (esc pr) c || (ceqb c BSL && match v' with d :: _ => ceqb d BSL | [] => false end) || ec pr v'
  end.

Definition escaped (e : bool) (q : ascii) : bytes := if e then [BSL; q] else [q].
Definition dq_body (v : bytes) : bytes := flat_map (fun c => if strchr in_dq c then [BSL; c] else [c]) v.
Definition starts_with (c : ascii) (v : bytes) : bool := match v with d :: _ => ceqb d c | [] => false end.

(* write_string, name.cxx:87-203 *)
Definition write_string (q : quote_mode) (pr : ascii) (e : bool) (v : bytes) (pat : option ptype) (curly : bool) : bytes :=
  let intro := match pat with Some PRegex => b "~" | Some PSubst => b "^" | _ => [] end in
  let q_none := match q with QNone => true | _ => false end in
  let q_normal := match q with QNormal => true | _ => false end in
  let q_effective := match q with QEffective => true | _ => false end in
  let no_pat := match pat with None => true | _ => false end in
  intro ++
  (if negb q_none && mem v SQ then escaped e DQ ++ dq_body v ++ escaped e DQ
   else if (q_normal && (existsb (mem (nsc pr)) v || (no_pat && existsb (mem pc) v))) || (q_effective && ec pr v)
        then escaped e SQ ++ v ++ escaped e SQ
   else if q_normal && match pat with None | Some PPath => true | _ => false end && ((starts_with "+"%char v && curly) || rc v)
        then (if e then [BSL] else []) ++ [BSL] ++ v
   else v).

(* butl::dir_path::directory () and leaf (), in terms of the representation: cut
   after the last separator that is not the trailing one. *)
Definition is_sepc (c : ascii) : bool := ceqb c "/"%char.
Fixpoint cut_last (s : bytes) : bytes * bytes :=
  match s with
  | [] => ([], [])
  | c :: s' =>
      let (d, l) := cut_last s' in
      match d with
      | [] => if is_sepc c && negb (is_empty s') then ([c], l) else ([], c :: l)
      | _ => (c :: d, l)
      end
  end.
Definition directory (d : bytes) : bytes := fst (cut_last d).
Definition leaf (d : bytes) : bytes := snd (cut_last d).

(* to_stream (), name.cxx:82-314 *)
Definition print_name (q : quote_mode) (pr : ascii) (e : bool) (n : name) : bytes :=
  let ws v pat curly := write_string q pr e v pat curly in
  let quoted := match q with QNone => false | _ => true end in
  if quoted && name_empty n then (if e then [BSL; SQ; BSL; SQ] else [SQ; SQ])
  else
    (match proj n with Some p => ws p None false ++ b "%" | None => [] end) ++
    let d := negb (is_empty (dir n)) in
    let v := negb (is_empty (value n)) in
    let t := negb (is_empty (type n)) in
    if quoted && d && v && negb t && match pattern n with None => true | _ => false end then ws (dir n ++ value n) None false
    else
      let pd := if v then dir n else if t then directory (dir n) else [] in
      let curly := t || (negb d && negb v) in
      (if is_empty pd then [] else ws pd None false) ++
      (if curly then (if t then ws (type n) None false else []) ++ b "{" else []) ++
      (if v then ws (value n) (pattern n) curly
       else if d then
         if negb (is_empty pd) then ws (leaf (dir n)) (pattern n) curly else ws (dir n) (pattern n) curly
       else []) ++
      (if curly then b "}" else []).

(* name.cxx:316-336 *)
Fixpoint print_names (q : quote_mode) (pr : ascii) (e : bool) (ns : list name) : bytes :=
  match ns with
  | [] => []
  | n :: ns' =>
      print_name q pr e n ++
      (if negb (ceqb (pair n) NUL) then [pair n] else match ns' with [] => [] | _ => [SP] end) ++
      print_names q pr e ns'
  end.

(* std::string::compare (): bytes as unsigned. *)
Fixpoint scompare (x y : bytes) : comparison :=
  match x, y with
  | [], [] => Eq
  | [], _ => Lt
  | _, [] => Gt
  | a :: x', c :: y' => match Nat.compare (code a) (code c) with Eq => scompare x' y' | r => r end
  end.

Definition then_ (r : comparison) (f : comparison) : comparison := match r with Eq => f | _ => r end.
(* std::optional's operator<: absent is less. *)
Definition ocompare {A} (f : A -> A -> comparison) (x y : option A) : comparison :=
  match x, y with
  | None, None => Eq
  | None, Some _ => Lt
  | Some _, None => Gt
  | Some a, Some c => f a c
  end.
(* char is signed. *)
Definition schar (c : ascii) : Z := let n := Z.of_nat (code c) in if (n <? 128)%Z then n else (n - 256)%Z.
Definition pcode (p : ptype) : nat := match p with PPath => 0 | PRegex => 1 | PSubst => 2 end.

(* name::compare (), name.ixx:6-39. How project names and directories are compared
   is not part of this code. *)
Definition compare (cp cd : bytes -> bytes -> comparison) (x y : name) : comparison :=
  then_ (ocompare cp (proj x) (proj y))
 (then_ (cd (dir x) (dir y))
 (then_ (scompare (type x) (type y))
 (then_ (scompare (value x) (value y))
 (then_ (Z.compare (schar (pair x)) (schar (pair y)))
        (ocompare (fun p r => Nat.compare (pcode p) (pcode r)) (pattern x) (pattern y)))))).
