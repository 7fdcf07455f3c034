(* Model of importation: libbuild2/file.cxx: find_subprojects () 944-1051, the amalgamation and subprojects parts of bootstrap_src ()
   1185-1436, import_search () 2468-2884, import_load () 2889-3377; libbuild2/context.hxx: import_cache 788-810.

   Directories are lists of names, outermost first. What the file system, bootstrap and export files contain is given: whether a directory
   is a root, the names of projects, the projects at directories and what they export, values of variables. Not modelled: metadata
   extraction, exemplar contexts, importation of buildfiles, loading of buildfiles by ad hoc imports. *)
From Verif Require Import Base.

Notation dir := (list bytes) (only parsing).
Fixpoint dir_eqb (a c : list bytes) : bool :=
  match a, c with [], [] => true | x :: a, y :: c => beqb x y && dir_eqb a c | _, _ => false end.
(* dir_path::sub () *)
Fixpoint sub (d r : list bytes) : bool :=
  match r, d with [], _ => true | y :: r, x :: d => beqb x y && sub d r | _ :: _, [] => false end.

(* std::map *)
Fixpoint get {A} (k : bytes) (m : list (bytes * A)) : option A :=
  match m with [] => None | (k', v) :: m => if beqb k' k then Some v else get k m end.

(* Subprojects. *)
Section Sub.
Context (is_out is_src : list bytes -> bool).
(* find_project_name () 842-942: of a directory, that is the source root or not. None: fails. *)
Context (pname : list bytes -> bool -> option bytes).

Record dentry := mkdentry { de_name : bytes; de_dir : bool }.
Definition hidden (n : bytes) : bool := match n with [] => true | c :: _ => ceqb c "." end.
(* 1014-1023: surrogate names. *)
Definition key_of (n : bytes) (d : bytes) : bytes := match n with [] => d ++ b "/" | _ => n end.

(* 944-1051 *)
Fixpoint scan (root : list bytes) (out : bool) (es : list dentry) (m : list (bytes * list bytes)) : option (list (bytes * list bytes)) :=
  match es with
  | [] => Some m
  | e :: es =>
    if hidden (de_name e) || negb (de_dir e) then scan root out es m
    else
      let sd := root ++ [de_name e] in
      let o := out && is_out sd in
      if negb (o || is_src sd) then scan root out es m
      else
        match pname sd (negb o && is_src sd) with
        | None => None
        | Some n =>
          let k := key_of n (de_name e) in
          match get k m with
          | None => scan root out es (m ++ [(k, [de_name e])])
          | Some d1 => if dir_eqb [de_name e] d1 then scan root out es m else None
          end
        end
  end.

(* 1320-1345. The listing of the output directory is empty if it does not exist. *)
Definition discover (out_root src_root : list bytes) (oes ses : list dentry) : option (list (bytes * list bytes)) :=
  match scan out_root true oes [] with
  | None => None
  | Some m => if dir_eqb out_root src_root then Some m else scan src_root false ses m
  end.

(* 1346-1433: the value of the variable, with names found if not specified. Empty names are not allowed. *)
Context (pname_at : list bytes -> option bytes).
Definition bad_dir (d : list bytes) : bool := match d with [] => true | _ => existsb (fun n => beqb n (b ".") || beqb n (b "..")) d end.
Definition posix (d : list bytes) : bytes := match d with [] => [] | x :: d => fold_left (fun a c => a ++ b "/" ++ c) d x end.
Fixpoint listed (l : list (option bytes * list bytes)) (m : list (bytes * list bytes)) : option (list (bytes * list bytes)) :=
  match l with
  | [] => Some m
  | (n, d) :: l =>
    if match n with Some [] => true | _ => false end || bad_dir d then None
    else
      match match n with Some n => Some n | None => option_map (fun n => key_of n (posix d)) (pname_at d) end with
      | None => None
      | Some k => listed l (match get k m with Some _ => m | None => m ++ [(k, d)] end)
      end
  end.
End Sub.

(* The amalgamation of a project, 1185-1292, as a directory: set is the value of the variable (none if not set or null, empty is no
   amalgamation), ars the outer root scope and whether it is a simple project, enc the innermost enclosing project in the file system.
   The outer None: fails. *)
Definition amalgamation (set_ : option (list bytes)) (ars : option (list bytes * bool)) (enc : option (list bytes)) : option (option (list bytes)) :=
  match set_ with
  | Some [] => Some None
  | Some d => match ars with Some (ad, _) => if sub d ad then Some (Some d) else None | None => Some (Some d) end
  | None =>
    let fall := match ars with Some (ad, simple) => if simple then None else Some ad | None => None end in
    match enc with
    | Some d =>
      if match ars with None => true | Some (ad, _) => negb (dir_eqb d ad) && sub d ad end then Some (Some d) else Some fall
    | None => Some fall
    end
  end.

(* A root scope: output directory, name (empty if none), subprojects, whether amalgamated. *)
Record root := mkroot { r_out : list bytes; r_name : bytes; r_subs : list (bytes * list bytes); r_amalg : bool }.

(* A path: absolute or not; a directory if the leaf is empty. *)
Record path := mkpath { p_abs : bool; p_dir : list bytes; p_leaf : bytes }.
Definition p_empty (p : path) : bool := match p_abs p, p_dir p, p_leaf p with false, [], [] => true | _, _, _ => false end.
Definition to_directory (p : path) : bool := match p_leaf p with [] => true | _ => false end.
Definition is_false (p : path) : bool := negb (p_abs p) && dir_eqb (p_dir p) [] && beqb (p_leaf p) (b "false").

(* A target, without project. *)
Record tgt := mktgt { t_abs : bool; t_dir : list bytes; t_type : option bytes; t_value : bytes }.
Definition t_directory (t : tgt) : bool :=
  match t_type t, t_value t, t_abs t, t_dir t with None, [], true, _ => true | None, [], false, _ :: _ => true | _, _, _, _ => false end.

Section Search.
Context (cfg : bytes -> option (option path)).       (* config variables; null is Some None *)
Context (import_build2 : option (list bytes)).       (* import.build2, if defined and not null *)
Context (var_of sanitize : bytes -> bytes).          (* project_name::variable (), sanitize_identifier () *)
Context (icase_eq : bytes -> bytes -> bool).
Context (path_based : option bytes -> option bool).  (* of the target type; none if unknown *)

Inductive looked := LUndef | LNull | LPath (p : path) | LFail.
(* 2617-2644 *)
Definition lookup (opt : bool) (v : bytes) (exe : bool) : looked :=
  match cfg v with
  | None => LUndef
  | Some None => if opt then LNull else LFail
  | Some (Some p) =>
    if p_empty p then LFail
    else if negb exe || to_directory p || negb (is_false p) then LPath p
    else if opt then LNull else LFail
  end.

Inductive found :=
| Failed
| Null                                               (* empty name *)
| Phase2 (proj : bytes) (t : tgt)                    (* no directory *)
| Outside (proj : option bytes) (t : tgt)            (* empty directory *)
| At (proj : option bytes) (t : tgt) (d : list bytes).

(* 2666-2694 *)
Definition adhoc_lookup (opt : bool) (proj : bytes) (t : tgt) : looked :=
  let projv := var_of proj in
  let n := b "config.import." ++ projv in
  let valv := sanitize (t_value t) in
  let p :=
    match t_type t with
    | Some ty =>
      let e := beqb ty (b "exe") in
      let p := if e && icase_eq projv valv then lookup opt (b "config." ++ projv) e else LUndef in
      match p with LUndef => lookup opt (n ++ b "." ++ valv ++ b "." ++ sanitize ty) e | _ => p end
    | None => LUndef
    end in
  match p with LUndef => lookup opt (n ++ b "." ++ valv) false | _ => p end.

(* 2847-2876: the chain of roots, innermost first. *)
Fixpoint nearest (first : bool) (proj : bytes) (rs : list root) : option (list bytes) :=
  match rs with
  | [] => None
  | r :: rs =>
    if negb first && beqb (r_name r) proj then Some (r_out r)
    else match get proj (r_subs r) with
         | Some d => Some (r_out r ++ d)
         | None => if r_amalg r then nearest false proj rs else None
         end
  end.

(* 2468-2884. The importing base, the chain of roots. *)
Definition search (base : list bytes) (rs : list root) (proj : option bytes) (t : tgt) (opt subp : bool) : found :=
  match proj with
  | None =>
    let t := if t_directory t && negb (t_abs t) then mktgt true (base ++ t_dir t) (t_type t) (t_value t) else t in
    if t_abs t then At None t (t_dir t)
    else match rs with
         | r :: _ => match r_name r with [] => Failed | pn => At (Some pn) t (r_out r) end
         | [] => Failed
         end
  | Some [] => Phase2 [] t
  | Some proj =>
    if t_abs t then Failed
    else
      match match t_value t with [] => LUndef | _ => adhoc_lookup opt proj t end with
      | LFail => Failed
      | LNull => Null
      | LPath p =>
        let t := mktgt (p_abs p) (p_dir p) (t_type t) (if to_directory p then t_value t else p_leaf p) in
        if negb (p_abs p) then Outside (Some proj) t
        else match path_based (t_type t) with
             | None => Failed
             | Some false => Outside (Some proj) t
             | Some true => Outside None t
             end
      | LUndef =>
        match cfg (b "config.import." ++ var_of proj) with
        | Some None => Phase2 proj t
        | Some (Some p) => if p_empty p then Phase2 proj t else At (Some proj) t (p_dir p)
        | None =>
          match (if beqb proj (b "build2") then import_build2 else None) with
          | Some [] => Phase2 proj t
          | Some d => At (Some proj) t d
          | None => match (if subp then nearest true proj rs else None) with Some d => At (Some proj) t d | None => Phase2 proj t end
          end
        end
      end
  end.
End Search.

(* Loading, 2889-3377. *)
Section Load.
Context {result : Type}.
Context (fwd : list bytes -> list bytes).                      (* 2961-2966: source root to output root, if forwarded *)
Context (proj_at : list bytes -> option root).                 (* bootstrap; none if fails *)
Context (export : root -> tgt -> N -> option result).          (* the export stub, with version of metadata; none if fails *)

(* 794-810 *)
Definition key := (list bytes * tgt * N)%type.
Definition opt_eqb (a c : option bytes) : bool := match a, c with None, None => true | Some a, Some c => beqb a c | _, _ => false end.
Definition tgt_eqb (a c : tgt) : bool :=
  Bool.eqb (t_abs a) (t_abs c) && dir_eqb (t_dir a) (t_dir c) && opt_eqb (t_type a) (t_type c) && beqb (t_value a) (t_value c).
Definition key_eqb (a c : key) : bool :=
  dir_eqb (fst (fst a)) (fst (fst c)) && tgt_eqb (snd (fst a)) (snd (fst c)) && N.eqb (snd a) (snd c).
Definition cache := list (key * result).
Fixpoint cached (k : key) (c : cache) : option result :=
  match c with [] => None | (k', r) :: c => if key_eqb k' k then Some r else cached k c end.

(* 3013-3213: in a directory, with the one to cache for, if the result is already known. The loop is bounded by fuel. *)
Fixpoint load_at (fuel : nat) (c : cache) (proj : bytes) (t : tgt) (meta : N) (out : list bytes) (kout : list bytes) : option (result * cache) :=
  match fuel with
  | 0 => None
  | S fuel =>
    match cached (out, t, meta) c with
    | Some r => Some (r, c)
    | None =>
      match proj_at out with
      | None => None
      | Some r =>
        if beqb (r_name r) proj then
          match export r t meta with Some v => Some (v, ((kout, t, meta), v) :: c) | None => None end
        else
          match get proj (r_subs r) with
          | Some d => load_at fuel c proj t meta (r_out r ++ d) out
          | None => None
          end
      end
    end
  end.
Record import := mkimport { i_proj : bytes; i_out : list bytes; i_tgt : tgt; i_meta : N }.
Definition load (fuel : nat) (c : cache) (x : import) : option (result * cache) :=
  load_at fuel c (i_proj x) (i_tgt x) (i_meta x) (fwd (i_out x)) (fwd (i_out x)).

(* Imports of a process, in order. *)
Fixpoint loads (fuel : nat) (c : cache) (xs : list import) : option (list result) :=
  match xs with
  | [] => Some []
  | x :: xs =>
    match load fuel c x with
    | Some (r, c) => match loads fuel c xs with Some rs => Some (r :: rs) | None => None end
    | None => None
    end
  end.
End Load.
