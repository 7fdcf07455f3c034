(* Model of searching for the target of a prerequisite: search (), libbuild2/algorithm.cxx:58-80,
   target_search (), file_search () and alias_search (), target.cxx:1170-1195 and 1336-1357, and
   search.cxx, by several threads.

   Simplified: directories are lists of components; absolute ones are normalized. Sections under
   the mutex of the set of targets are atomic (see TsetModel.v) and of the targets equal to a key
   the first is found. Extensions are not fixed by target types. Neither files nor scopes change
   in the match phase. Not modelled: dir_search () and imports. *)
From Verif Require Import Base.

Definition path := list bytes.
(* A normalized directory: absolute or relative, with the number of leading ".."; Rel 0 [] is
   the empty one. *)
Inductive dir_arg := Abs (d : path) | Rel (up : nat) (l : path).
(* /= and normalize () *)
Definition join (p : path) (up : nat) (l : path) : path := firstn (length p - up) p ++ l.
Fixpoint path_eqb (x y : path) : bool :=
  match x, y with [], [] => true | a :: x, c :: y => beqb a c && path_eqb x y | _, _ => false end.
(* path::sub () *)
Definition sub (d p : path) : bool := path_eqb (firstn (length p) d) p.

Record project := mkproj { out_root : path; src_root : path }.
(* A scope: its project and its directory relative to the root. *)
Record scope := mkscope { s_proj : project; s_rel : path }.
Definition out_path (s : scope) : path := out_root (s_proj s) ++ s_rel s.
Definition src_path (s : scope) : path := src_root (s_proj s) ++ s_rel s.
Definition out_eq_src (s : scope) : bool := path_eqb (out_path s) (src_path s).
(* out_src (), scope.ixx:233-239 *)
Definition out_src (d : path) (p : project) : path := out_root p ++ skipn (length (src_root p)) d.

(* prerequisite_key without the project *)
Inductive out_arg := OEmpty | OAbs (d : path) | ORel (up : nat) (l : path).
Record prereq := mkpk { k_type : nat; k_dir : dir_arg; k_out : out_arg; k_name : bytes; k_ext : option bytes; k_scope : scope }.

(* A target: its key and whether it is declared at least implicitly. *)
Record base := mkb { b_type : nat; b_dir : path; b_out : option path; b_name : bytes }.
Record entry := mkentry { e_base : base; e_ext : option bytes; e_explicit : bool }.
Definition opath_eqb (x y : option path) : bool := match x, y with Some x, Some y => path_eqb x y | None, None => true | _, _ => false end.
Definition base_eqb (x y : base) : bool :=
  (b_type x =? b_type y) && path_eqb (b_dir x) (b_dir y) && opath_eqb (b_out x) (b_out y) && beqb (b_name x) (b_name y).
(* operator== (target_key, target_key) *)
Definition key_eqb (t : entry) (k : base) (x : option bytes) : bool :=
  base_eqb (e_base t) k && match e_ext t, x with Some e, Some x => beqb e x | _, _ => true end.
Definition set_ext (x : option bytes) (t : entry) : entry :=
  match e_ext t with None => mkentry (e_base t) x (e_explicit t) | Some _ => t end.
(* target_set::find (), which also sets the extension *)
Fixpoint find (ts : list entry) (k : base) (x : option bytes) : option (list entry * nat) :=
  match ts with
  | [] => None
  | t :: ts =>
      if key_eqb t k x then Some (set_ext x t :: ts, 0)
      else match find ts k x with Some (ts, i) => Some (t :: ts, S i) | None => None end
  end.
(* target_set::insert () *)
Definition insert (ts : list entry) (k : base) (x : option bytes) : list entry * nat :=
  match find ts k x with Some r => r | None => (ts ++ [mkentry k x false], length ts) end.

Inductive tkind := KFile | KTarget | KAlias.
Inductive result := Target (i : nat) | Failed.
Inductive stage := InOut | InSrc | OnDisk | Create | Done (r : result).

Section Search.
(* target_type::search, default_extension, whether there is a file (directory, name and
   extension) and whether a directory is only in src: the scopes found for it have no out one,
   search.cxx:254-262. *)
Context (kind : nat -> tkind) (default_ext : nat -> scope -> bytes -> option bytes).
Context (file_exists : path -> bytes -> bytes -> bool) (src_only : path -> bool).

(* The directory and out of search_existing_target (), 28-74 *)
Definition given_dir (k : prereq) : path :=
  match k_dir k with
  | Abs d => d
  | Rel up l => join (match k_out k with OEmpty => out_path (k_scope k) | _ => src_path (k_scope k) end) up l
  end.
(* 51-74 and 177-200 *)
Definition given_out (k : prereq) (d : path) : option path :=
  let drop o := if path_eqb o d then None else Some o in
  match k_out k with
  | OEmpty => None
  | OAbs o => drop o
  | ORel up l => drop (join (out_path (k_scope k)) up l)
  end.
Definition given (k : prereq) : base := mkb (k_type k) (given_dir k) (given_out k (given_dir k)) (k_name k).
(* 76-98: in the src tree if out is undetermined *)
Definition try_src (k : prereq) : bool :=
  match k_out k, k_dir k with OEmpty, Rel _ _ => negb (out_eq_src (k_scope k)) | _, _ => false end.
Definition file_dir (k : prereq) : path :=
  match k_dir k with Abs d => d | Rel up l => join (src_path (k_scope k)) up l end.
Definition in_src (k : prereq) : base := mkb (k_type k) (file_dir k) (Some (given_dir k)) (k_name k).
(* search_existing_file (), 108-234: what to insert if there is a file *)
Definition on_disk (k : prereq) : option (base * bytes) :=
  let s := k_scope k in
  let f := file_dir k in
  if sub f (src_root (s_proj s)) then
    match match k_ext k with Some e => Some e | None => default_ext (k_type k) s (k_name k) end with
    | Some e =>
        if file_exists f (k_name k) e then
          Some (mkb (k_type k) f (match k_out k with OEmpty => if out_eq_src s then None else Some (out_src f (s_proj s)) | _ => given_out k f end) (k_name k), e)
        else None
    | None => None
    end
  else None.
(* create_new_target (), 236-285, with the directory the same as in search_existing_target () *)
Definition can_create (k : prereq) : bool :=
  match k_out k with
  | OEmpty => match k_dir k with Abs d => negb (src_only d) | Rel _ _ => true end
  | _ => false
  end.
Definition explicit (ts : list entry) (i : nat) : bool := match nth_error ts i with Some t => e_explicit t | None => false end.
Definition step (ts : list entry) (k : prereq) (st : stage) : list entry * stage :=
  match st with
  | InOut =>
      match find ts (given k) (k_ext k) with
      | Some (ts, i) => (ts, Done (match kind (k_type k) with KAlias => if explicit ts i then Target i else Failed | _ => Target i end))
      | None => (ts, match kind (k_type k) with KAlias => Done Failed | KTarget => Create | KFile => if try_src k then InSrc else OnDisk end)
      end
  | InSrc =>
      match find ts (in_src k) (k_ext k) with
      | Some (ts, i) => (ts, Done (Target i))
      | None => (ts, OnDisk)
      end
  | OnDisk =>
      match on_disk k with
      | Some (b, e) => let (ts, i) := insert ts b (Some e) in (ts, Done (Target i))
      | None => (ts, Create)
      end
  | Create => if can_create k then let (ts, i) := insert ts (given k) (k_ext k) in (ts, Done (Target i)) else (ts, Done Failed)
  | Done r => (ts, Done r)
  end.

(* The targets and the searches. One is started or takes its next step. *)
Record state := mkstate { targets : list entry; searches : list (prereq * stage) }.
Inductive action := Start (k : prereq) | Step (i : nat).
Fixpoint set_nth (l : list (prereq * stage)) (i : nat) (x : prereq * stage) : list (prereq * stage) :=
  match l, i with [], _ => [] | _ :: l, O => x :: l | y :: l, S i => y :: set_nth l i x end.
Definition act (s : state) (a : action) : state :=
  match a with
  | Start k => mkstate (targets s) (searches s ++ [(k, InOut)])
  | Step i =>
      match nth_error (searches s) i with
      | Some (k, st) => let (ts, st) := step (targets s) k st in mkstate ts (set_nth (searches s) i (k, st))
      | None => s
      end
  end.
Definition run (ts : list entry) (l : list action) : state := fold_left act l (mkstate ts []).
End Search.
