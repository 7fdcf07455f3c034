(* Model of installing and uninstalling files: libbuild2/install/rule.cxx, install_d () (1003-1097), install_f ()
   (1099-1172), install_l () (1174-1275), perform_install () (1277-1391), uninstall_d () (1393-1516),
   uninstall_f () and uninstall_l () (1518-1665), perform_uninstall () (1667-1774), resolve () and
   resolve_subdir () (751-886), as well as filter_entry (), libbuild2/install/utility.cxx:42-295.

   Simplified: a component of a path is a number and so are the contents of a file. Symlinks are files. A
   directory, unlike a file, has no contents and modes are not modelled. Both operations are executed serially
   (operation.cxx:362-370) so what is modelled is a sequence of targets; the order is a parameter. *)
From Verif Require Import Base.

Definition comp := nat.
(* An absolute and normalized path: components from the root of the filesystem. *)
Definition path := list comp.
Definition path_dec : forall p q : path, {p = q} + {p <> q} := list_eq_dec Nat.eq_dec.
Definition path_eqb (p q : path) : bool := if path_dec p q then true else false.

(* The filesystem: directories and files with contents. *)
Inductive node := Dir | File (c : nat).
Definition fs := list (path * node).
Definition look (s : fs) (p : path) : option node :=
  match p with
  | [] => Some Dir (* the root *)
  | _ => match List.find (fun e => path_eqb (fst e) p) s with Some e => Some (snd e) | None => None end
  end.
Definition is_dir (s : fs) (p : path) : bool := match look s p with Some Dir => true | _ => false end.
Definition is_file (s : fs) (p : path) : bool := match look s p with Some (File _) => true | _ => false end.
Definition remove (s : fs) (p : path) : fs := filter (fun e => negb (path_eqb (fst e) p)) s.
Definition add (s : fs) (p : path) (n : node) : fs := (p, n) :: remove s p.
Definition inside (p q : path) : bool := match q with [] => false | _ => path_eqb (removelast q) p end.
Definition empty (s : fs) (p : path) : bool := negb (existsb (fun e => inside p (fst e)) s).

(* An operation succeeds, fails with diagnostics, fails an assertion and never ends. *)
Inductive outcome (A : Type) := Ok (x : A) | Fail | Assert | Endless.
Arguments Ok {A}. Arguments Fail {A}. Arguments Assert {A}. Arguments Endless {A}.
Definition bind {A B} (x : outcome A) (f : A -> outcome B) : outcome B :=
  match x with Ok x => f x | Fail => Fail | Assert => Assert | Endless => Endless end.
Fixpoint each {A} (f : A -> fs -> outcome fs) (xs : list A) (s : fs) : outcome fs :=
  match xs with [] => Ok s | x :: xs => bind (f x s) (each f xs) end.

(* install -d: creates missing parents too. *)
Fixpoint make (done todo : path) (s : fs) : outcome fs :=
  match todo with
  | [] => Ok s
  | x :: todo =>
      let p := done ++ [x] in
      match look s p with
      | Some Dir => make p todo s
      | Some (File _) => Fail
      | None => make p todo (add s p Dir)
      end
  end.
(* install SRC DST and ln -sf SRC DST: if DST is a directory, then that's where it goes. *)
Definition write (s : fs) (p : path) (c : nat) : outcome fs :=
  match p with
  | [] => Fail
  | _ => if is_dir s (removelast p) && negb (is_dir s p) then Ok (add s p (File c)) else Fail
  end.
Definition copy (s : fs) (src : comp) (dst : path) (c : nat) : outcome fs :=
  if is_dir s dst then write s (dst ++ [src]) c else write s dst c.

(* A filesystem entry of a target: its name in the installation directory, what it is copied from, whether the
   name is passed to the program or just the directory and what the filter says about it. *)
Inductive kind := Regular | Symlink.
Record item := mkitem { leaf : comp; src : comp; named : bool; type : kind; data : nat }.
(* Directories from resolve () (at least one), the file itself and what install_extra () adds (install_post () in
   general). *)
Record target := mktarget { first : path; more : list path; main : item; extras : list item }.
Definition last_dir (t : target) : path := List.last (more t) (first t).

Section Model.
Context (dry_run : bool) (chroot : path) (filter_dir : path -> bool) (filter_file : path -> comp -> kind -> bool).
(* Directories that can't be removed. *)
Context (locked : path -> bool).

(* The number is the limit of recursion. *)
Fixpoint install_d (n : nat) (base d : path) (s : fs) : outcome fs :=
  if dry_run || negb (filter_dir d) then Ok s
  else if is_dir s (chroot ++ d) then Ok s
  else
    bind (if path_eqb d base then Ok s
          else match d, n with
               | [], _ => Assert (* there is no parent *)
               | _, O => Endless
               | _, S n => let pd := removelast d in if path_eqb pd base then Ok s else install_d n base pd s
               end)
      (make [] (chroot ++ d)).
Definition install_item (dir : path) (i : item) (s : fs) : outcome fs :=
  if filter_file dir (leaf i) (type i) then
    if dry_run then Ok s
    else copy s (src i) (if named i then chroot ++ dir ++ [leaf i] else chroot ++ dir) (data i)
  else Ok s.
(* Each directory with the one before it. *)
Definition steps (t : target) : list (path * path) := combine (first t :: first t :: more t) (first t :: more t).
Definition install_target (t : target) (s : fs) : outcome fs :=
  bind (each (fun x => install_d (length (snd x)) (fst x) (snd x)) (steps t) s) (fun s =>
  bind (install_item (last_dir t) (main t) s) (fun s =>
  each (install_item (last_dir t)) (extras t) s)).
Definition install (ts : list target) (s : fs) : outcome fs := each install_target ts s.

Fixpoint uninstall_d (n : nat) (base d : path) (s : fs) : outcome fs :=
  if dry_run || negb (filter_dir d) then Ok s
  else
    let p := chroot ++ d in
    let continue s :=
      if path_eqb d base then Ok s
      else match d, n with
           | [], _ => Assert
           | _, O => Endless
           | _, S n => let pd := removelast d in if path_eqb pd base then Ok s else uninstall_d n base pd s
           end in
    if is_dir s p then
      if empty s p && negb (locked p) && negb (path_eqb p []) then continue (remove s p) else Ok s
    else continue s.
Definition uninstall_item (dir : path) (i : item) (s : fs) : outcome fs :=
  if filter_file dir (leaf i) (type i) then
    let p := chroot ++ dir ++ [leaf i] in
    if is_file s p && negb dry_run then Ok (remove s p) else Ok s
  else Ok s.
Definition uninstall_target (t : target) (s : fs) : outcome fs :=
  bind (each (uninstall_item (last_dir t)) (extras t) s) (fun s =>
  bind (uninstall_item (last_dir t) (main t) s) (fun s =>
  each (fun x => uninstall_d (length (snd x)) (fst x) (snd x)) (rev (steps t)) s)).
Definition uninstall (ts : list target) (s : fs) : outcome fs := each uninstall_target ts s.
End Model.

(* install.* variables. A directory is absolute or starts with a name; it can have '..' (None). *)
Inductive dir_path := Absolute (p : list (option comp)) | Relative (name : comp) (p : list (option comp)).
(* dir_path::normalize () of an absolute path: there is nothing above the root. *)
Fixpoint normalize (done : path) (p : list (option comp)) : option path :=
  match p with
  | [] => Some done
  | Some x :: p => normalize (done ++ [x]) p
  | None :: p => match done with [] => None | _ => normalize (removelast done) p end
  end.
Section Resolve.
(* install.NAME and the subdirectory of the target according to install.NAME.subdirs. *)
Context (value : comp -> option dir_path) (subdir : comp -> path).
Definition add_subdir (rs : path * list path) (d : path) : path * list path :=
  match d with [] => rs | _ => (fst rs, snd rs ++ [List.last (snd rs) (fst rs) ++ d]) end.
Fixpoint resolve (n : nat) (d : dir_path) : outcome (path * list path) :=
  match d with
  | Absolute p => match normalize [] p with Some p => Ok (p, []) | None => Fail end
  | Relative name p =>
      match value name with
      | None => Fail
      | Some dn =>
          match n with
          | O => Endless
          | S n =>
              bind (resolve n dn) (fun rs =>
              let rs := add_subdir rs (subdir name) in
              match normalize (List.last (snd rs) (fst rs)) p with
              | Some p => Ok (fst rs, snd rs ++ [p])
              | None => Fail
              end)
          end
      end
  end.
End Resolve.

(* config.install.filter. A pattern of a component tells what it matches (a wildcard or not). *)
Inductive key := Simple (pat : comp -> bool) | Directory (d : list (comp -> bool)) | Entry (d : list (comp -> bool)) (pat : comp -> bool).
Record rule := mkrule { what : key; value : bool; only_symlinks : bool }.
(* dir_path::sub () and path_sub () *)
Fixpoint sub (base : path) (d : list (comp -> bool)) : bool :=
  match d, base with
  | [], _ => true
  | p :: d, x :: base => p x && sub base d
  | _ :: _, [] => false
  end.
(* The entry is a directory (base) if there is no leaf; a simple name does not match it. The root is also counted
   as a component. *)
Fixpoint filter_rules (negate : bool) (base : path) (l : option (comp * kind)) (limit : nat) (rs : list rule) : bool :=
  match rs with
  | [] => negb negate
  | r :: rs =>
      let continue := filter_rules negate base l limit rs in
      let match_leaf pat := match l with Some (x, _) => pat x | None => false end in
      let found := if negate then negb (value r) else value r in
      if only_symlinks r && negb (match l with Some (_, Symlink) => true | _ => false end) then continue
      else
        match what r with
        | Simple pat => if match_leaf pat then found else continue
        | Directory d =>
            if S (length d) <=? limit then continue
            else if negb (sub base d) then continue
            else if value r then filter_rules negate base l (S (length d)) rs
            else found
        | Entry d pat => if sub base d && match_leaf pat then found else continue
        end
  end.
Definition filter_entry (negate : bool) (rs : list rule) (base : path) (l : option (comp * kind)) : bool := filter_rules negate base l 0 rs.
