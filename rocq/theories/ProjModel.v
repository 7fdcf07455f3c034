(* Model of locating the project and the buildfile of a target specified on the command line: b/b.cxx, main () 1090-1345 and
   1581-1615; libbuild2/file.cxx, exists () 75-145, is_src_root () 147-153, is_out_root () 155-159, find_src_root () 161-173,
   find_out_root () 175-189, find_buildfile () 191-244, find_plausible_buildfile () 246-286, create_root () 442-492, bootstrap_fwd ()
   672-694, bootstrap_out () 741-775, the naming in bootstrap_pre () 1439-1456 and bootstrap_src () 1068-1090.

   Directories are absolute and normalized. What buildfiles contain is given: the values of src_root and out_root and the subprojects
   discovered. Not modelled: diagnostics, relative values in these files (they are rejected), figuring out the directory from the name
   of the target (1090-1125), meta-operations and operations. *)
From Verif Require Import Base.

(* A directory, the innermost component first. The root directory has none. *)
Notation dir := (list bytes).

Fixpoint path_eqb (p q : dir) : bool :=
  match p, q with [], [] => true | x :: p, y :: q => beqb x y && path_eqb p q | _, _ => false end.

(* dir_path::leaf (r): the part below r. *)
Definition leaf (d r : dir) : option dir :=
  if (length r <=? length d) && path_eqb (skipn (length d - length r) d) r then Some (firstn (length d - length r) d) else None.
(* dir_path::sub () *)
Definition sub (d r : dir) : bool := match leaf d r with Some _ => true | None => false end.
(* dir_path::directory (l): without l at the end. *)
Definition without (d l : dir) : option dir := if path_eqb (firstn (length l) d) l then Some (skipn (length l) d) else None.

(* The file system. The bool is the naming scheme: whether alternative (build2/ and .build2). *)
Record fs := mkfs
  { f_home : dir;
    f_boot : bool -> dir -> bool;                      (* build/bootstrap.build *)
    f_bootdir : bool -> dir -> bool;                   (* build/bootstrap/ *)
    f_srcroot : bool -> dir -> option dir;             (* build/bootstrap/src-root.build and the value of src_root *)
    f_outroot : bool -> dir -> option dir;             (* build/bootstrap/out-root.build and the value of out_root *)
    f_dir : dir -> bool;                               (* the directory exists *)
    f_file : dir -> bool;                              (* the file exists *)
    f_implied : dir -> bool;                           (* dir::check_implied () *)
    f_subs : dir -> dir -> list dir }.                 (* subprojects of out_root with src_root *)

Definition buildfile_name (a : bool) : dir := [if a then b "build2file" else b "buildfile"].

Section Locate.
Context (F : fs).

Definition flag (f : bool -> dir -> bool) (a : bool) (d : dir) : option unit := if f a d then Some tt else None.

(* exists () 75-145: what there is and the naming scheme. *)
Definition exists_ {A} (f : bool -> dir -> option A) (d : dir) (altn : option bool) : option A * option bool :=
  match altn with
  | Some a => (f a d, altn)
  | None =>
    match f true d with
    | Some x => (Some x, Some true)
    | None => match f false d with Some x => (Some x, Some false) | None => (None, None) end
    end
  end.

Definition is_src_root (d : dir) (altn : option bool) : bool * option bool :=
  let (x, a) := exists_ (flag (f_boot F)) d altn in (match x with Some _ => true | None => false end, a).
Definition is_out_root (d : dir) (altn : option bool) : bool * option bool :=
  let (x, a) := exists_ (f_srcroot F) d altn in (match x with Some _ => true | None => false end, a).

Fixpoint find_src_root (d : dir) (altn : option bool) : option dir * option bool :=
  match d with
  | [] => (None, altn)
  | _ :: p =>
    if path_eqb d (f_home F) then (None, altn)
    else
      let (s, altn) := is_src_root d altn in
      if s then (Some d, altn) else find_src_root p altn
  end.

(* The second: also src_root. *)
Fixpoint find_out_root (d : dir) (altn : option bool) : option (dir * bool) * option bool :=
  match d with
  | [] => (None, altn)
  | _ :: p =>
    if path_eqb d (f_home F) then (None, altn)
    else
      let (s, altn) := is_src_root d altn in
      if s then (Some (d, true), altn)
      else
        let (o, altn) := is_out_root d altn in
        if o then (Some (d, false), altn) else find_out_root p altn
  end.

(* The --buildfile option: not specified, `-`, a path. *)
Inductive bname := Default | Stdin | Named (n : dir).

(* Where a search of buildfile has come to. *)
Inductive found := Found (f : dir) | FoundStdin | NotFound | OutOfFuel.

(* 206-233: the file in d, whether it exists, and the naming scheme. *)
Definition probe (d : dir) (altn : option bool) (n : option dir) : dir * bool * option bool :=
  match n, altn with
  | Some n, _ => (n ++ d, f_file F (n ++ d), altn)
  | None, Some a => (buildfile_name a ++ d, f_file F (buildfile_name a ++ d), altn)
  | None, None =>
    if f_file F (buildfile_name true ++ d) then (buildfile_name true ++ d, true, Some true)
    else if f_file F (buildfile_name false ++ d) then (buildfile_name false ++ d, true, Some false)
    else (buildfile_name false ++ d, false, None)
  end.

(* 202-241; p is empty at first. Fuel is for the loop. directory () of the root directory is taken to be itself. *)
Fixpoint find_loop (fuel : nat) (sd root : dir) (altn : option bool) (n : option dir) (p : option dir) : found * option bool :=
  match fuel with
  | 0 => (OutOfFuel, altn)
  | S fuel =>
    let '(f, e, altn) := probe (match p with None => sd | Some p => tl p end) altn n in
    if e then (Found f, altn)
    else if path_eqb (tl f) root then (NotFound, altn)
    else find_loop fuel sd root altn n (Some (tl f))
  end.

Definition find_buildfile (fuel : nat) (sd root : dir) (altn : option bool) (n : bname) : found * option bool :=
  match n with
  | Stdin => (FoundStdin, altn)
  | Named n => find_loop fuel sd root altn (Some n) None
  | Default => find_loop fuel sd root altn None None
  end.

(* What is known about a target once located. *)
Inductive buildfile := BImplied | BStdin | BFile (f : dir).
Record location := mkloc
  { l_out_root : dir; l_src_root : dir; l_out_base : dir; l_src_base : dir; l_forwarded : bool; l_altn : bool; l_buildfile : buildfile }.

Inductive outcome := Located (l : location) | Fails | Diverges.

(* A target: its out_base, src_base if specified, and whether it is a directory. *)
Record spec := mkspec { t_out : dir; t_src : option dir; t_is_dir : bool }.

(* Root scopes that have been bootstrapped: src_root and the naming scheme. *)
Definition known := list (dir * (dir * bool)).
Fixpoint lookup (k : known) (d : dir) : option (dir * bool) :=
  match k with [] => None | (e, v) :: k => if path_eqb e d then Some v else lookup k d end.

(* out_root, src_root, out_base, src_base, forwarded, naming. *)
Record roots := mkroots { r_out : dir; r_src : option dir; r_out_base : dir; r_src_base : option dir; r_fwd : bool; r_altn : option bool }.
Inductive rooted := Roots (r : roots) | RFails | RDiverges.

(* 1103-1228 *)
Definition find_roots (fuel : nat) (n : bname) (t : spec) : rooted :=
  let out_base := t_out t in
  match t_src t with
  | Some src_base =>
    if negb (f_dir F src_base) then RFails
    else if negb (path_eqb out_base src_base) && sub out_base src_base then RFails
    else
      match find_src_root src_base None with
      | (None, altn) => Roots (mkroots out_base (Some src_base) out_base (Some src_base) false altn)
      | (Some src_root, altn) =>
        match leaf src_base src_root with
        | None => RFails
        | Some l =>
          match without out_base l with
          | None => RFails
          | Some out_root => Roots (mkroots out_root (Some src_root) out_base (Some src_base) false altn)
          end
        end
      end
  | None =>
    match find_out_root out_base None with
    | (Some (src_root, true), altn) =>
      let (v, altn) := exists_ (f_outroot F) src_root altn in    (* bootstrap_fwd () *)
      let out_root := match v with Some d => d | None => src_root end in
      if path_eqb src_root out_root then Roots (mkroots out_root (Some src_root) out_base None false altn)
      else
        match leaf out_base src_root with
        | None => RFails
        | Some l => Roots (mkroots out_root (Some src_root) (l ++ out_root) None true altn)
        end
    | (Some (out_root, false), altn) => Roots (mkroots out_root None out_base None false altn)
    | (None, altn) =>
      match find_buildfile fuel out_base out_base altn n with
      | (NotFound, _) => RFails
      | (OutOfFuel, _) => RDiverges
      | (_, altn) => Roots (mkroots out_base (Some out_base) out_base (Some out_base) false altn)
      end
    end
  end.

(* 1230-1327: src_root and the naming scheme. *)
Definition bootstrap (k : known) (r : roots) : option (dir * bool) :=
  match lookup k (r_out r) with
  | Some (s, a) =>
    if match r_src r with Some s' => negb (path_eqb s' s) | None => false end then None      (* create_root () 477-489 *)
    else match r_altn r with
         | Some a' => if Bool.eqb a' a then Some (s, a) else None
         | None => Some (s, a)
         end
  | None =>
    let (v, altn) := exists_ (f_srcroot F) (r_out r) (r_altn r) in                           (* bootstrap_out () *)
    match (match r_src r with Some s => Some s | None => v end) with
    | None => None
    | Some s =>
      let (_, altn) := exists_ (flag (f_bootdir F)) (r_out r) altn in                        (* bootstrap_pre () *)
      let (_, altn) := exists_ (flag (f_boot F)) s altn in                                   (* bootstrap_src () *)
      Some (s, match altn with Some a => a | None => false end)
    end
  end.

(* 1330-1360 and 1592-1615 *)
Definition finish (fuel : nat) (n : bname) (t : spec) (r : roots) (src_root : dir) (altn : bool) : outcome :=
  match leaf (r_out_base r) (r_out r) with
  | None => Fails
  | Some l =>
    let src_base := match r_src_base r with Some s => s | None => l ++ src_root end in
    if match r_src_base r with Some _ => false | None => negb (f_dir F src_base) end then Fails
    else if existsb (fun s => sub (r_out_base r) (s ++ r_out r)) (f_subs F (r_out r) src_root) then Fails
    else
      let done b := Located (mkloc (r_out r) src_root (r_out_base r) src_base (r_fwd r) altn b) in
      match find_buildfile fuel src_base src_base (Some altn) n with
      | (Found f, _) => done (BFile f)
      | (FoundStdin, _) => done BStdin
      | (OutOfFuel, _) => Diverges
      | (NotFound, _) =>
        (* find_plausible_buildfile () *)
        if t_is_dir t && f_dir F src_base && f_implied F src_base then done BImplied
        else if path_eqb src_base src_root then Fails
        else
          match find_buildfile fuel (tl src_base) src_root (Some altn) n with
          | (Found f, _) =>
            match leaf (tl f) src_root with                                                  (* out_src () *)
            | Some l => Located (mkloc (r_out r) src_root (l ++ r_out r) (tl f) (r_fwd r) altn (BFile f))
            | None => Fails
            end
          | (FoundStdin, _) => done BStdin
          | (NotFound, _) => Fails
          | (OutOfFuel, _) => Diverges
          end
      end
  end.

Definition locate (fuel : nat) (n : bname) (k : known) (t : spec) : outcome :=
  match find_roots fuel n t with
  | RFails => Fails
  | RDiverges => Diverges
  | Roots r => match bootstrap k r with None => Fails | Some (s, a) => finish fuel n t r s a end
  end.

(* The loop over targets, 1071-...: bootstrapped once. *)
Fixpoint locate_all (fuel : nat) (n : bname) (k : known) (ts : list spec) : list outcome :=
  match ts with
  | [] => []
  | t :: ts =>
    let o := locate fuel n k t in
    o :: match o with
         | Located l => locate_all fuel n ((l_out_root l, (l_src_root l, l_altn l)) :: k) ts
         | _ => []
         end
  end.
End Locate.
