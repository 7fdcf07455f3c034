(* Model of the expansion of name patterns: libbuild2/parser.cxx, expand_name_pattern () (7949-8352), together with
   the amendment of patterns by target types: libbuild2/target.txx, target_pattern_fix () (21-53) and
   target_pattern_var () (86-121), libbuild2/target.cxx, dir_pattern () (1671-1694), buildfile_target_pattern ()
   (1867-1897) and buildscript_target_pattern () (1928-1952).

   Simplified: the start directory, the type and the project of the result are left out, as are the splicing of names
   that follows and the failure if there is no project to tell what buildfiles are called. Searching the filesystem and matching paths (libbutl) are parameters. Paths are POSIX. *)
From Verif Require Import Base SplitModel.

(* Target types by what they do with patterns. *)
Inductive kind :=
| Untyped                       (* none or without a pattern function *)
| Dirs                          (* dir{} and fsdir{} *)
| Ext (x : option bytes)        (* fixed, or that of the variable extension, or the default one *)
| Special (name x : bytes).     (* buildfile{} and buildscript{} *)

(* A pattern with its sign: true for inclusion. *)
Definition item := (bool * bytes)%type.
(* A path that is found: intermediate directories with pattern components that matched them, the path itself and its
   pattern component. *)
Record hit := mkhit { between : list (bytes * bytes); found : bytes; component : bytes }.
(* An element of the result: the path, the extension and whether it is amended (the pair flags; parser.cxx 8000-8022). *)
Record entry := mkentry { path : bytes; ext : option bytes; amended : bool }.

Inductive amendment := Bad | Broken | Amended (v : bytes) (e : option bytes) (a : bool).
(* Amend the pattern (parser.cxx 8233-8255 and pattern functions with r = false). *)
Definition amend (k : kind) (v : bytes) : amendment :=
  let split f := match split_name v with Failed => Bad | Asserted => Broken | Split v e => f v e end in
  match k with
  | Untyped => if last_is is_sep v then Amended v None false else split (fun v e => Amended v e false)
  | Dirs => if last_is is_sep v then Amended v None false else Amended (v ++ ["/"%char]) None true
  | Ext x =>
      split (fun v e =>
      match e, x with
      | None, Some x => Amended v (Some x) true
      | _, _ => Amended v e false
      end)
  | Special name x =>
      split (fun v e =>
      match e with
      | None => if beqb v name then Amended v None false else Amended v (Some x) true
      | Some _ => Amended v e false
      end)
  end.
(* The pattern to search for (parser.cxx 8267-8275): the extension is put back. *)
Definition with_ext (v : bytes) (e : option bytes) : bytes :=
  match e with Some (c :: x) => v ++ DOT :: c :: x | _ => v end.

Section Search.
Context (search : bytes -> list hit) (recursions : bytes -> nat) (is_pattern : bytes -> bool) (matches : bytes -> bytes -> bool)
        (buildignore : bytes -> bool) (has_ext : bytes -> bool).

(* The last component of a path without the trailing slash. *)
Fixpoint until_sep (s : bytes) : bytes := match s with [] => [] | c :: r => if is_sep c then [] else c :: until_sep r end.
Definition leaf (m : bytes) : bytes := rev (until_sep (match rev m with c :: r => if is_sep c then r else c :: r | [] => [] end)).
Definition starts_dot (s : bytes) : bool := match s with c :: _ => is_dot c | [] => false end.
(* process () (parser.cxx 8074-8104) *)
Definition ignored (m p : bytes) : bool := (negb (starts_dot p) && starts_dot (leaf m)) || (last_is is_sep m && buildignore m).
Definition kept (e : option bytes) (h : hit) : bool :=
  forallb (fun mp => negb (ignored (fst mp) (snd mp))) (between h) && negb (ignored (found h) (component h))
  && match e with Some [] => negb (has_ext (found h)) | _ => true end.

(* include_match () (parser.cxx 8026-8037) *)
Definition include_match (r : list entry) (n : entry) : list entry := if existsb (fun m => beqb (path n) (path m)) r then r else r ++ [n].
(* include_pattern () (parser.cxx 8041-8159): without the search for duplicates if there cannot be any *)
Definition include_pattern (r : list entry) (p : bytes) (e : option bytes) (a : bool) : list entry :=
  let ns := map (fun h => mkentry (found h) e a) (filter (kept e) (search p)) in
  if match r with [] => recursions p <=? 1 | _ => false end then r ++ ns else fold_left include_match ns r.
(* exclude_match () (parser.cxx 8161-8173): the first one *)
Fixpoint exclude_match (r : list entry) (m : bytes) : list entry :=
  match r with [] => [] | n :: r => if beqb m (path n) then r else n :: exclude_match r m end.
(* exclude_pattern () (parser.cxx 8175-8184) *)
Definition exclude_pattern (r : list entry) (p : bytes) : list entry := filter (fun n => negb (matches (path n) p)) r.

Inductive expansion := Invalid | Assertion | Names (dir : bool) (ns : list bytes).

(* The loop (parser.cxx 8186-8301). dir: not known before the first pattern. *)
Fixpoint items (k : kind) (dir : option bool) (is : list item) (r : list entry) : option (option (bool * list entry)) :=
  match is with
  | [] => match dir with Some d => Some (Some (d, r)) | None => None end
  | (s, v) :: is =>
      if match v with [] => true | _ => false end then Some None (* empty pattern *)
      else
        match amend k v with
        | Bad => Some None
        | Broken => None
        | Amended v e a =>
            let d := last_is is_sep v in
            if match dir with Some d' => negb (Bool.eqb d d') | None => false end then Some None
            else if match e with Some (c :: x) => is_pattern (c :: x) | _ => false end then Some None
            else
              let v := with_ext v e in
              let r :=
                if (s : bool) || match dir with None => true | _ => false end then include_pattern r v e a
                else if is_pattern v then exclude_pattern r v
                else exclude_match r v in
              items k (Some (match dir with Some d' => d' | None => d end)) is r
        end
  end.
(* Remove the extension and reverse the amendment (parser.cxx 8303-8348 and pattern functions with r = true). None: an
   assertion. *)
Definition finish (dir : bool) (n : entry) : option bytes :=
  if dir then Some (if amended n then removelast (path n) else path n)
  else
    let v := match ext n with Some (c :: x) => firstn (length (path n) - length (c :: x) - 1) (path n) | _ => path n end in
    if amended n then
      match ext n with
      | Some _ => combine_name v None true
      | None => None
      end
    else combine_name v (ext n) false.
Fixpoint finish_all (dir : bool) (r : list entry) : option (list bytes) :=
  match r with
  | [] => Some []
  | n :: r => match finish dir n, finish_all dir r with Some x, Some xs => Some (x :: xs) | _, _ => None end
  end.
Definition expand (k : kind) (is : list item) : expansion :=
  match items k None is [] with
  | None => Assertion
  | Some None => Invalid
  | Some (Some (dir, r)) => match finish_all dir r with Some ns => Names dir ns | None => Assertion end
  end.
End Search.
