(* Model of cleanups of scripts: libbuild2/script/script.cxx: environment::clean () 772-798; libbuild2/script/run.cxx: registration by
   commands 1882-1903, redirects 2352-2472 and builtins 3003-3143, clean () 3507-3745; libbuild2/test/script/runner.cxx: leave () 89-142.

   Paths are absolute and normalized: lists of names, outermost first. Not modelled: symbolic links (as files), errors other than those of
   the kinds of entries, the .buildignore file of the root directory. Registration of special files is not modelled, their removal is. *)
From Verif Require Import Base ImpModel.

(* The file system: entries, true for directories. The root directory is not one. *)
Definition fs := list (list bytes * bool).
Fixpoint look (f : fs) (p : list bytes) : option bool :=
  match f with [] => None | (q, k) :: f => if dir_eqb q p then Some k else look f p end.
Definition isdir (f : fs) (p : list bytes) : bool := match p with [] => true | _ => match look f p with Some true => true | _ => false end end.
Definition rm (f : fs) (p : list bytes) : fs := filter (fun e => negb (dir_eqb (fst e) p)) f.
Definition inside (p d : list bytes) : bool := sub p d && negb (dir_eqb p d).
Definition has_entries (f : fs) (d : list bytes) : bool := existsb (fun e => inside (fst e) d) f.

(* script.hxx 266-293. A path and whether it ends with a separator. *)
Inductive ctype := Always | Maybe | Never.
Record cleanup := mkcleanup { c_type : ctype; c_path : list bytes; c_dir : bool }.

(* path_pattern () of libbutl *)
Definition wild (n : bytes) : bool := existsb (fun c => ceqb c "*" || ceqb c "?" || ceqb c "[") n.
Definition is_pattern (p : list bytes) : bool := existsb wild p.

Section Env.
Context (pm : list bytes -> list bytes -> bool).   (* whether the path matches the pattern (path_search () of libbutl) *)
Context (cwd : list bytes).                        (* current directory of the process: work *)
Context (wdir : list bytes) (sandbox : option (list bytes)) (default_cleanup : bool).

Inductive status := Ok (f : fs) | NotExist | NotEmpty | Error.

(* 3514-3576 *)
Definition rmfile (f : fs) (p : list bytes) : status :=
  match look f p with None => NotExist | Some true => Error | Some false => Ok (rm f p) end.
Definition rmdir (f : fs) (d : list bytes) : status :=
  if sub cwd d then NotEmpty
  else match look f d with
       | None => NotExist
       | Some false => Error
       | Some true => if has_entries f d then NotEmpty else Ok (rm f d)
       end.
Definition rmdir_r (f : fs) (d : list bytes) (self : bool) : status :=
  if sub cwd d then NotEmpty
  else match look f d with
       | None => NotExist
       | Some false => Error
       | Some true => Ok (filter (fun e => negb (if self then sub (fst e) d else inside (fst e) d)) f)
       end.

(* Entries that match, the innermost first: path_search (), with the search being depth-first. *)
Fixpoint insert (p : list bytes) (l : list (list bytes)) : list (list bytes) :=
  match l with [] => [p] | q :: l => if length q <=? length p then p :: q :: l else q :: insert p l end.
Definition found (f : fs) (pat : list bytes) (dir : bool) : list (list bytes) :=
  fold_right insert [] (map fst (filter (fun e => pm pat (fst e) && Bool.eqb (snd e) dir) f)).

(* 3617-3672. None: it fails. *)
Definition rm_found (recursive dir : bool) (f : fs) (p : list bytes) : option fs :=
  match (if dir then if recursive then rmdir_r f p (negb (dir_eqb p wdir)) else rmdir f p else rmfile f p) with
  | Ok f => Some f
  | NotExist => Some f
  | NotEmpty | Error => None
  end.
Fixpoint rm_all (recursive dir : bool) (f : fs) (ps : list (list bytes)) : option fs :=
  match ps with
  | [] => Some f
  | p :: ps => match rm_found recursive dir f p with Some f => rm_all recursive dir f ps | None => None end
  end.

(* 3593-3744, one of the cleanups *)
Definition clean1 (f : fs) (c : cleanup) : option fs :=
  match c_type c with
  | Never => Some f
  | t =>
    let maybe := match t with Maybe => true | _ => false end in
    let recursive := negb (c_dir c) && beqb (last (c_path c) []) (b "***") in
    let p := if recursive then removelast (c_path c) else c_path c in
    let dir := recursive || c_dir c in
    if is_pattern p then
      let l := found f p dir in
      match rm_all recursive dir f l with
      | None => None
      | Some f => match l with _ :: _ => Some f | [] => if maybe then Some f else None end
      end
    else if dir then
      match (if recursive then rmdir_r f p (negb (dir_eqb p wdir)) else rmdir f p) with
      | Ok f => Some f
      | NotExist => if maybe then Some f else None
      | _ => None
      end
    else
      match rmfile f p with
      | Ok f => Some f
      | NotExist => if maybe then Some f else None
      | _ => None
      end
  end.

(* 3580-3591 *)
Fixpoint clean_special (f : fs) (ps : list (list bytes)) : option fs :=
  match ps with
  | [] => Some f
  | p :: ps => match rmfile f p with Ok f => clean_special f ps | _ => None end
  end.
Fixpoint clean_all (f : fs) (cs : list cleanup) : option fs :=
  match cs with [] => Some f | c :: cs => match clean1 f c with Some f => clean_all f cs | None => None end end.
(* 3507-3745 *)
Definition clean (f : fs) (special : list (list bytes)) (cs : list cleanup) : option fs :=
  match clean_special f special with Some f => clean_all f (rev cs) | None => None end.

(* Registration, script.cxx 772-798. *)
Definition in_sandbox (p : list bytes) : bool := match sandbox with Some s => sub p s | None => true end.
Fixpoint set_type (cs : list cleanup) (t : ctype) (p : list bytes) : list cleanup :=
  match cs with
  | [] => []
  | c :: cs => if dir_eqb (c_path c) p then mkcleanup t (c_path c) (c_dir c) :: cs else c :: set_type cs t p
  end.
Definition register (cs : list cleanup) (c : cleanup) (implicit : bool) : list cleanup :=
  if negb (in_sandbox (c_path c)) then cs
  else if existsb (fun x => dir_eqb (c_path x) (c_path c)) cs then if implicit then cs else set_type cs (c_type c) (c_path c)
  else cs ++ [c].

Record env := mkenv { e_fs : fs; e_cs : list cleanup }.

Inductive step :=
| Create (p : list bytes) (dir nc : bool)          (* cp, ln, mkdir, touch; nc: --no-cleanup *)
| Redirect (p : list bytes) (append : bool)        (* > or >+ *)
| Move (from to : list bytes) (nc force : bool)    (* mv *)
| Remove (p : list bytes) (force : bool)           (* rm -r, rmdir *)
| Cleanup (t : ctype) (p : list bytes) (dir : bool).

(* rename () *)
Definition moved (from to p : list bytes) : list bytes := if sub p from then to ++ skipn (length from) p else p.
Definition rename (f : fs) (from to : list bytes) : option fs :=
  match look f from with
  | None => None
  | Some k =>
    match to with
    | [] => None
    | _ =>
      if sub to from || negb (isdir f (removelast to)) then None
      else
        let f' := map (fun e => (moved from to (fst e), snd e)) (rm f to) in
        match look f to with
        | None => Some f'
        | Some false => if k then None else Some f'
        | Some true => if k && negb (has_entries f to) then Some f' else None
        end
    end
  end.

(* None: it fails. *)
Definition exec (e : env) (s : step) : option env :=
  match s with
  | Create p dir nc =>                             (* 3014-3028 *)
    let enabled := default_cleanup && negb nc in
    match look (e_fs e) p with
    | Some k => if dir || k then None else Some e
    | None =>
      match p with
      | [] => None
      | _ =>
        if negb (isdir (e_fs e) (removelast p)) then None
        else Some (mkenv ((p, dir) :: e_fs e) (if enabled then register (e_cs e) (mkcleanup Always p dir) true else e_cs e))
      end
    end
  | Redirect p append =>                           (* 2413-2468 *)
    let cs := if append || negb default_cleanup then e_cs e else register (e_cs e) (mkcleanup Always p false) true in
    match look (e_fs e) p with
    | Some true => None
    | Some false => Some (mkenv (e_fs e) cs)
    | None =>
      match p with
      | [] => None
      | _ => if negb (isdir (e_fs e) (removelast p)) then None else Some (mkenv ((p, false) :: e_fs e) cs)
      end
    end
  | Move from to nc force =>                       (* 3036-3124 *)
    if negb (in_sandbox from) && negb force || sub wdir from || sub wdir to then None
    else
      match rename (e_fs e) from to with
      | None => None
      | Some f =>
        if default_cleanup && negb nc then
          let cs := filter (fun c => negb (sub (c_path c) from)) (e_cs e) in
          let ms := filter (fun c => sub (c_path c) from) (e_cs e) in
          let move := match look (e_fs e) to with None => in_sandbox to | Some _ => false end in
          Some (mkenv f (cs ++ if move then map (fun c => mkcleanup (c_type c) (moved from to (c_path c)) (c_dir c)) ms else []))
        else Some (mkenv f (e_cs e))
      end
  | Remove p force =>                              (* 3129-3146 *)
    if negb (in_sandbox p) && negb force || sub wdir p then None
    else match look (e_fs e) p with
         | None => None
         | Some _ => Some (mkenv (filter (fun x => negb (sub (fst x) p)) (e_fs e)) (e_cs e))
         end
  | Cleanup t p dir =>                             (* 1886-1903 *)
    let wc := let l := last p [] in beqb l (b "*") || beqb l (b "**") || beqb l (b "***") in
    if in_sandbox (if wc then removelast p else p) then Some (mkenv (e_fs e) (register (e_cs e) (mkcleanup t p dir) false)) else None
  end.

Fixpoint exec_all (e : env) (ss : list step) : option env :=
  match ss with [] => Some e | s :: ss => match exec e s with Some e => exec_all e ss | None => None end end.

(* A scope of a testscript: the working directory is created, the commands executed, and then it must be empty after the cleanups:
   runner.cxx 48-142. *)
Definition scope (f : fs) (ss : list step) : option fs :=
  match look f wdir with
  | Some _ => None
  | None =>
    match wdir with
    | [] => None
    | _ =>
      if negb (isdir f (removelast wdir)) then None
      else
        match exec_all (mkenv ((wdir, true) :: f) []) ss with
        | None => None
        | Some e =>
          match clean (e_fs e) [] (e_cs e) with
          | None => None
          | Some f => match rmdir f wdir with Ok f => Some f | _ => None end
          end
        end
    end
  end.
End Env.
