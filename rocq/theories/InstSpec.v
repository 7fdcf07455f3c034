(* What is installed and what is left after uninstalling. *)
From Verif Require Import Base InstModel.

(* p is q or one of its parents. *)
Definition leads (p q : path) : Prop := exists r, q = p ++ r.
Definition leadsb (p q : path) : bool := path_eqb (firstn (length p) q) p.
(* The parent of anything is a directory. *)
Definition sane (s : fs) : Prop := forall p x n, look s (p ++ [x]) = Some n -> look s p = Some Dir.
Definition vacant (s : fs) (p : path) : Prop := forall x, look s (p ++ [x]) = None.

(* Where the files of a target go. *)
Definition dest (t : target) : path := List.last (more t) (first t).
(* Each directory is inside the one before it: there are no '..'. *)
Fixpoint chain (d : path) (ds : list path) : Prop := match ds with [] => True | x :: ds => leads d x /\ chain x ds end.
Definition ordered (t : target) : Prop := chain (first t) (more t).
(* A file that is installed into a directory keeps its name. *)
Definition item_ok (i : item) : Prop := named i = false -> src i = leaf i.
Definition target_ok (t : target) : Prop := ordered t /\ Forall item_ok (main t :: extras t).

Section Spec.
Context (chroot : path) (filter_file : path -> comp -> kind -> bool).
Definition selected (t : target) : list item := filter (fun i => filter_file (dest t) (leaf i) (type i)) (main t :: extras t).
Definition item_path (t : target) (i : item) : path := chroot ++ dest t ++ [leaf i].
(* What is written, in this order, and what there is at the end. *)
Definition writes (ts : list target) : list (path * nat) := flat_map (fun t => map (fun i => (item_path t i, data i)) (selected t)) ts.
Definition last_write (ws : list (path * nat)) (p : path) : option nat :=
  fold_left (fun r w => if path_eqb (fst w) p then Some (snd w) else r) ws None.
(* Directories that are needed. *)
Definition needed (ts : list target) (p : path) : bool := existsb (fun t => leadsb p (chroot ++ dest t)) ts.
Definition expected (s : fs) (ts : list target) (p : path) : option node :=
  match last_write (writes ts) p with
  | Some c => Some (File c)
  | None => match look s p with Some n => Some n | None => if needed ts p then Some Dir else None end
  end.
(* There are no files where there should be directories and the other way around. *)
Record free (s : fs) (ts : list target) : Prop := {
  free_dirs : forall p, needed ts p = true -> is_file s p = false;
  free_files : forall p c, In (p, c) (writes ts) -> is_dir s p = false;
  free_both : forall p c, In (p, c) (writes ts) -> needed ts p = false }.

(* Directories of a target, from the first to the last. *)
Definition within (t : target) (d : path) : Prop := leads (first t) d /\ leads d (dest t).
(* The first directory of a target is not inside one that is removed if empty because of another target. *)
Definition rooted (ts : list target) : Prop := forall t t' d x, In t ts -> In t' ts -> within t d -> ~ leads (d ++ [x]) (first t').
Definition same_targets (ts ts' : list target) : Prop := forall t, In t ts <-> In t ts'.
End Spec.

(* The value of install.* variables, by definition. *)
(* From one directory to another, None is '..'. *)
Inductive goes : path -> list (option comp) -> path -> Prop :=
| goes_stay d : goes d [] d
| goes_in d x p q : goes (d ++ [x]) p q -> goes d (Some x :: p) q
| goes_up d x p q : goes d p q -> goes (d ++ [x]) (None :: p) q.
Section Resolve.
Context (value : comp -> option dir_path) (subdir : comp -> path).
(* The absolute directory where it starts and what it is. *)
Inductive means : dir_path -> path -> path -> Prop :=
| means_absolute p q : goes [] p q -> means (Absolute p) q q
| means_relative name p d f q r : value name = Some d -> means d f q -> goes (q ++ subdir name) p r -> means (Relative name p) f r.
Definition plain (d : dir_path) : Prop := match d with Absolute p => True | Relative _ p => ~ In None p end.
End Resolve.

(* config.install.filter *)
(* The first components of the directory match. *)
Definition beneath (base : path) (d : list (comp -> bool)) : Prop := exists p r, base = p ++ r /\ Forall2 (fun pat x => pat x = true) d p.
Section Filter.
Context (base : path) (l : option (comp * kind)).
Definition matches (r : rule) : Prop :=
  (only_symlinks r = true -> exists x, l = Some (x, Symlink)) /\
  match what r with
  | Simple pat => exists x k, l = Some (x, k) /\ pat x = true
  | Directory d => beneath base d
  | Entry d pat => beneath base d /\ exists x k, l = Some (x, k) /\ pat x = true
  end.
Definition components (r : rule) : option nat := match what r with Directory d => Some (length d) | _ => None end.
(* This directory is included, with what is inside depending on sub-filters, that is, those for more components. *)
Definition passes (r : rule) (n : nat) : Prop := matches r /\ value r = true /\ components r = Some n.
(* The i-th rule says what to do. *)
Definition decides (rs : list rule) (i : nat) (r : rule) : Prop :=
  nth_error rs i = Some r /\ matches r /\
  (forall n, components r = Some n -> value r = false /\ forall j r' m, j < i -> nth_error rs j = Some r' -> passes r' m -> m < n).
Definition outcome_is (negate : bool) (rs : list rule) (v : bool) : Prop :=
  (exists i r, decides rs i r /\ (forall j r', j < i -> ~ decides rs j r') /\ v = xorb negate (value r)) \/
  ((forall i r, ~ decides rs i r) /\ v = negb negate).
End Filter.
