(* Model of backlinks of forwarded configurations: libbuild2/algorithm.cxx: update_backlink () 2243-2368 with 2131-2205, try_rmbacklink ()
   2206-2241, clean_backlink () 2370-2408, struct backlink 2414-2449, backlink_test () 2451-2559, backlink_collect () 2561-2672,
   backlink_update_post () 2680-2777, backlink_clean_pre () 2779-2793, execute_impl () 2795-2906.

   A file system has entries at absolute paths, which are lists of names; the contents of files are by inode. Not modelled: directories as
   members (fsdir), targets that are symbolic links themselves, permissions and timestamps, diagnostics. *)
From Verif Require Import Base ImpModel.

Inductive entry := Dir | File (inode : nat) | Sym (target : list bytes).
Record fs := mkfs { ent : list bytes -> option entry; cont : nat -> nat; fresh : nat }.
Definition put (f : fs) (p : list bytes) (e : option entry) : fs := mkfs (fun q => if dir_eqb q p then e else ent f q) (cont f) (fresh f).
Definition read (f : fs) (p : list bytes) : option nat :=
  match ent f p with
  | Some (File i) => Some (cont f i)
  | Some (Sym t) => match ent f t with Some (File i) => Some (cont f i) | _ => None end
  | _ => None
  end.
Definition is_dir (f : fs) (d : list bytes) : bool := match d with [] => true | _ => match ent f d with Some Dir => true | _ => false end end.

(* algorithm.hxx 1130-1137 *)
Inductive mode := Link | Symbolic | Hard | Copy | Overwrite.
Definition is_over (m : mode) : bool := match m with Overwrite => true | _ => false end.
Record backlink := mkbl { b_target : list bytes; b_link : list bytes; b_mode : mode }.

(* A step and whether it has failed. *)
Definition result := (bool * fs)%type.
Definition andthen (r : result) (k : fs -> result) : result := let (ok, f) := r in if ok then k f else (false, f).

Section Env.
Context (sym_ok : bool).                  (* whether symbolic links can be made *)

(* try_rmfile (): nothing if there is none, an error if a directory. *)
Definition rm (f : fs) (p : list bytes) : result := match ent f p with Some Dir => (false, f) | Some _ => (true, put f p None) | None => (true, f) end.
(* 2206-2241 *)
Definition rmbacklink (f : fs) (x : backlink) : result := if is_over (b_mode x) then (true, f) else rm f (b_link x).

(* Of libbutl: the directory must exist and the entry must not, or for a copy must be a file. *)
Definition make (f : fs) (l : list bytes) (e : entry) : result :=
  if is_dir f (removelast l) && match ent f l with None => true | Some _ => false end then (true, put f l (Some e)) else (false, f).
Definition mksym (f : fs) (p l : list bytes) : result := if sym_ok then make f l (Sym p) else (false, f).
Definition mkhard (f : fs) (p l : list bytes) : result := match ent f p with Some (File i) => make f l (File i) | _ => (false, f) end.
Definition cpfile (f : fs) (p l : list bytes) : result :=
  match read f p with
  | None => (false, f)
  | Some c =>
    match ent f l with
    | Some (File i) => (true, mkfs (ent f) (fun j => if j =? i then c else cont f j) (fresh f))
    | None => if is_dir f (removelast l) then (true, mkfs (ent (put f l (Some (File (fresh f))))) (fun j => if j =? fresh f then c else cont f j) (S (fresh f))) else (false, f)
    | Some _ => (false, f)
    end
  end.

(* 2243-2368 *)
Definition update_backlink (f : fs) (x : backlink) : result :=
  andthen (rmbacklink f x) (fun f =>
    match read f (b_target x) with
    | None => (true, f)
    | Some _ =>
      match b_mode x with
      | Link => if sym_ok then mksym f (b_target x) (b_link x) else mkhard f (b_target x) (b_link x)
      | Symbolic => mksym f (b_target x) (b_link x)
      | Hard => mkhard f (b_target x) (b_link x)
      | Copy | Overwrite => cpfile f (b_target x) (b_link x)
      end
    end).

(* mkdir -p. n: names left. *)
Fixpoint mkdir_p (n : nat) (f : fs) (d : list bytes) : result :=
  match n with
  | 0 => (true, f)
  | S n' => andthen (mkdir_p n' f d) (fun f => match ent f (firstn n d) with None => (true, put f (firstn n d) (Some Dir)) | Some Dir => (true, f) | Some _ => (false, f) end)
  end.

Fixpoint update_all (f : fs) (xs : list backlink) : result :=
  match xs with [] => (true, f) | x :: xs => andthen (update_backlink f x) (fun f => update_all f xs) end.
(* 2680-2777, if not failed. The directory is that of the first one. *)
Definition update_post (dry : bool) (f : fs) (xs : list backlink) : result :=
  match xs with
  | [] => (true, f)
  | x :: _ =>
    let d := removelast (b_link x) in
    andthen (mkdir_p (length d) f d) (fun f => if dry then (true, f) else update_all f xs)
  end.
(* ~backlink (): errors are ignored. *)
Definition drop (f : fs) (xs : list backlink) : fs := fold_left (fun f x => snd (rmbacklink f x)) xs f.

(* Execution of a target for update, 2795-2906: f is the file system after the recipe, with whether it has succeeded. *)
Definition update (dry ok : bool) (f : fs) (xs : list backlink) : result :=
  let r := if ok then update_post dry f xs else (false, f) in
  if fst r then r else (false, if dry then snd r else drop (snd r) xs).

(* 2370-2408, 2779-2793; the file system functions do nothing in the dry run. It is then the recipe that is executed. *)
Fixpoint clean (dry : bool) (f : fs) (xs : list backlink) : result :=
  match xs with [] => (true, f) | x :: xs => if dry then (true, f) else andthen (rmbacklink f x) (fun f => clean dry f xs) end.
End Env.

(* 2451-2498: the value as names, None if not simple. None: it fails; a mode and whether to print, if any. *)
Definition parse_mode (v : bytes) (gm : option mode) : option (option mode) :=
  if beqb v (b "true") then Some (Some Link)
  else if beqb v (b "symbolic") then Some (Some Symbolic)
  else if beqb v (b "hard") then Some (Some Hard)
  else if beqb v (b "copy") then Some (Some Copy)
  else if beqb v (b "overwrite") then Some (Some Overwrite)
  else if beqb v (b "false") then Some None
  else if beqb v (b "group") then match gm with Some m => Some (Some m) | None => None end
  else None.
Definition test_value (ns : list (option bytes)) (gm : option mode) : option (option (mode * bool)) :=
  match ns with
  | [Some v] => match parse_mode v gm with Some (Some m) => Some (Some (m, true)) | Some None => Some None | None => None end
  | [Some v; Some w] =>
    match parse_mode v gm with
    | None => None
    | Some m =>
      if beqb w (b "true") then Some (match m with Some m => Some (m, true) | None => None end)
      else if beqb w (b "false") then Some (match m with Some m => Some (m, false) | None => None end)
      else None
    end
  | _ => None
  end.

(* 2501-2559 *)
Definition test_target (plain in_out eligible in_project out_eq_src forwarded : bool) (v : option (list (option bytes))) : option (option mode) :=
  if negb plain || negb in_out || negb eligible || negb in_project || out_eq_src || negb forwarded then Some None
  else
    match v with
    | None => Some None
    | Some ns => match test_value ns None with None => None | Some None => Some None | Some (Some (m, p)) => if p then Some (Some m) else None end
    end.

(* 2561-2672: members with path, unless unreal, and own value. The target itself (if a file) is with the mode of the target. *)
Definition link_of (src out : list bytes) (p : list bytes) (m : mode) : backlink := mkbl p (src ++ skipn (length out) p) m.
Fixpoint collect_members (src out : list bytes) (m : mode) (ms : list (option (list bytes) * option (list (option bytes)))) : option (list backlink) :=
  match ms with
  | [] => Some []
  | (None, _) :: ms => collect_members src out m ms
  | (Some p, v) :: ms =>
    match match v with None => Some (Some (m, true)) | Some ns => test_value ns (Some m) end, collect_members src out m ms with
    | Some (Some (m', _)), Some l => Some (link_of src out p m' :: l)
    | Some None, Some l => Some l
    | _, _ => None
    end
  end.
Definition collect (src out : list bytes) (m : mode) (self : option (list bytes)) (ms : list (option (list bytes) * option (list (option bytes)))) : option (list backlink) :=
  match collect_members src out m ms with
  | Some l => Some (match self with Some p => [link_of src out p m] | None => [] end ++ l)
  | None => None
  end.
