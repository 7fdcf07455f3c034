(* Model of the map of scopes, libbuild2/scope.cxx:1100-1233, and of project-related navigation,
   libbuild2/scope.ixx:5-145.

   Simplified: a (normalized) directory path is the list of its components, which are numbers. A scope is
   referred to by the directory it has been inserted with. Whether a project can be amalgamated is given.
   The prefix map (libbutl, not part of the code) is the sorted list of keys. *)
From Verif Require Import Base.

Definition dir := list nat.
Definition dir_eqb (x y : dir) : bool := if list_eq_dec Nat.eq_dec x y then true else false.
(* Whether y is x or in it (dir_path_map: with the empty path being the prefix of any). *)
Fixpoint sub (x y : dir) : bool :=
  match x, y with
  | [], _ => true
  | a :: x, b :: y => (a =? b) && sub x y
  | _ :: _, [] => false
  end.
(* The order of keys: parents go first (compare_prefix in libbutl). *)
Fixpoint less (x y : dir) : bool :=
  match x, y with
  | [], _ :: _ => true
  | a :: x, b :: y => (a <? b) || ((a =? b) && less x y)
  | _, [] => false
  end.

(* scope::parent_ and scope::root_ *)
Record scope := mkscope { parent : option dir; root : option dir }.
(* The keys, the owned out scopes and the references for src paths. *)
Record scope_map := mkmap { keys : list dir; out : dir -> option scope; src : dir -> list dir }.

Definition set_out (m : scope_map) (k : dir) (s : scope) : scope_map :=
  mkmap (keys m) (fun d => if dir_eqb d k then Some s else out m d) (src m).
Fixpoint insert_key (k : dir) (ks : list dir) : list dir :=
  match ks with
  | [] => [k]
  | k' :: ks' => if dir_eqb k k' then ks else if less k k' then k :: ks else k' :: insert_key k ks'
  end.
(* map_.emplace () *)
Definition emplace (m : scope_map) (k : dir) : scope_map := mkmap (insert_key k (keys m)) (out m) (src m).
(* map_.find_sub () without the first, which is the key itself. *)
Definition find_sub (m : scope_map) (k : dir) : list dir := filter (fun c => sub k c && negb (dir_eqb k c)) (keys m).
(* The directories this one is in, itself first. *)
Definition sups (k : dir) : list dir := map (fun n => firstn n k) (rev (seq 0 (S (length k)))).
(* scope_map::find_out (), 1198-1213. None: the assertion fails. *)
Definition find_out (m : scope_map) (k : dir) : option dir :=
  List.find (fun d => existsb (dir_eqb d) (keys m) && match out m d with Some _ => true | None => false end) (sups k).
(* scope_map::find (), 1215-1233: the out scope, if any (otherwise skipped), and the references. *)
Definition find (m : scope_map) (k : dir) : option (list dir) :=
  match List.find (fun d => existsb (dir_eqb d) (keys m)) (sups k) with
  | Some d =>
      match (match out m d with Some _ => [d] | None => [] end) ++ src m d with
      | [] => None
      | r => Some r
      end
  | None => None
  end.

Definition opt_eqb (x y : option dir) : bool :=
  match x, y with Some x, Some y => dir_eqb x y | None, None => true | _, _ => false end.
(* The loop in scope_map::insert_out (), 1131-1150. None: null pointer dereference. *)
Fixpoint adopt (m : scope_map) (k : dir) (rt : bool) (cs : list dir) (p : option dir) : option (scope_map * option dir) :=
  match cs with
  | [] => Some (m, p)
  | c :: cs =>
      match out m c with
      | None => adopt m k rt cs p
      | Some sc =>
          let p := match p with None => parent sc | Some _ => p end in
          match (if rt then match p with Some q => option_map (fun sq => opt_eqb (root sc) (root sq)) (out m q) | None => None end else Some false) with
          | None => None
          | Some no_root =>
              let r := if no_root then Some k else root sc in
              let q := if opt_eqb p (parent sc) then Some k else parent sc in
              adopt (set_out m c (mkscope q r)) k rt cs p
          end
      end
  end.
(* The loop at 1170-1176. *)
Fixpoint upgrade (m : scope_map) (k : dir) (old : option dir) (cs : list dir) : scope_map :=
  match cs with
  | [] => m
  | c :: cs =>
      match out m c with
      | Some sc => upgrade (if opt_eqb (root sc) old then set_out m c (mkscope (parent sc) (Some k)) else m) k old cs
      | None => upgrade m k old cs
      end
  end.
(* scope_map::insert_out (), 1103-1179 *)
Definition insert_out (m : scope_map) (k : dir) (rt : bool) : option scope_map :=
  let m := emplace m k in
  match out m k with
  | None =>
      let m := set_out m k (mkscope None None) in
      match (if 1 <? length (keys m) then
               match adopt m k rt (find_sub m k) None with
               | Some (m, Some p) => Some (m, Some p)
               | Some (m, None) => match find_out m (removelast k) with Some p => Some (m, Some p) | None => None end
               | None => None
               end
             else Some (m, None)) with
      | Some (m, p) =>
          Some (set_out m k (mkscope p (if rt then Some k else match p with Some p => match out m p with Some sp => root sp | None => None end | None => None end)))
      | None => None
      end
  | Some s =>
      if rt && negb (opt_eqb (root s) (Some k)) then
        let m := upgrade m k (root s) (find_sub m k) in
        Some (set_out m k (mkscope (parent s) (Some k)))
      else Some m
  end.
(* scope_map::insert_src (), 1181-1195 *)
Definition insert_src (m : scope_map) (s k : dir) : scope_map :=
  let m := emplace m k in mkmap (keys m) (out m) (fun d => if dir_eqb d k then src m d ++ [s] else src m d).

(* What can be done to the map, after the global scope has been created (create_global_scope (),
   context.cxx:34-41). *)
Inductive op := Out (k : dir) (rt : bool) | Src (s k : dir).
Definition apply_op (m : scope_map) (o : op) : option scope_map :=
  match o with Out k rt => insert_out m k rt | Src s k => Some (insert_src m s k) end.
Fixpoint run (m : scope_map) (os : list op) : option scope_map :=
  match os with
  | [] => Some m
  | o :: os => match apply_op m o with Some m => run m os | None => None end
  end.
Definition empty : scope_map := mkmap [] (fun _ => None) (fun _ => []).

(* Navigation. *)
Section Projects.
Context (m : scope_map) (amalgamatable : dir -> bool).
(* p->parent_->root_; None: null pointer dereference *)
Definition parent_root (k : dir) : option (option dir) :=
  match out m k with
  | Some s => match parent s with Some p => option_map root (out m p) | None => None end
  | None => None
  end.
(* scope::weak_scope (), scope.ixx:111-131, the loop. As each next one is further out, the length of the
   path is enough for fuel. *)
Fixpoint weak_loop (fuel : nat) (r : dir) : option dir :=
  match fuel with
  | O => None
  | S fuel =>
      if amalgamatable r then
        match parent_root r with Some (Some r') => weak_loop fuel r' | Some None => Some r | None => None end
      else Some r
  end.
(* None: as above; Some None: not in a project *)
Definition weak_scope (k : dir) : option (option dir) :=
  match out m k with
  | Some s => match root s with Some r => option_map Some (weak_loop (S (length r)) r) | None => Some None end
  | None => None
  end.
(* scope::sub_root (), 133-147 *)
Fixpoint sub_root_loop (fuel : nat) (t pr : dir) : option bool :=
  match fuel with
  | O => None
  | S fuel =>
      if amalgamatable pr then
        match parent_root pr with
        | Some (Some pr') => if dir_eqb pr' t then Some true else sub_root_loop fuel t pr'
        | Some None => Some false
        | None => None
        end
      else Some false
  end.
Definition sub_root (t r : dir) : option bool := sub_root_loop (S (length r)) t r.
(* scope::parent_scope (), 22-35, with the global scope being that with the empty path *)
Definition parent_scope (k : dir) : option dir :=
  match out m k with
  | Some s => if opt_eqb (root s) (Some k) && negb (amalgamatable k) then Some [] else parent s
  | None => None
  end.
End Projects.
