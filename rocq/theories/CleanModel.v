(* Model of clean: libbuild2/algorithm.cxx, clean_extra () 4575-4650, perform_clean_extra () 4652-4808, perform_clean_group_extra ()
   4810-4871 and reverse_execute_members () 4278-4325; libbuild2/rule.cxx, fsdir_rule::perform_clean () 377-397 and alias_rule;
   libbuild2/filesystem.txx, rmfile () and rmdir (), filesystem.cxx, rmdir_r (); the count of dependents in execute_impl () (see
   C25) with execution_mode::last.

   Simplified: directories that are extra are removed in one step. Diagnostics, target states (see C09), dry run and symbolic links
   are not modelled. The suffix of an extra is what remains after the dashes (clean_extra () passes the length from before they were
   skipped, so that bytes after the terminator are also appended; they do not matter to the system calls). *)
From Verif Require Import Base.

Notation path := (list bytes).
Definition path_eqb (p q : path) : bool := if list_eq_dec (list_eq_dec ascii_dec) p q then true else false.
Definition mem (p : path) (l : list path) : bool := existsb (path_eqb p) l.
Fixpoint under (d p : path) : bool :=
  match d, p with [], _ => true | x :: d, y :: p => beqb x y && under d p | _ :: _, [] => false end.
Definition inside (d p : path) : bool := match p with [] => false | _ => path_eqb (removelast p) d end.
Record fs := mkfs { files : list path; dirs : list path }.
Definition without (p : path) (l : list path) : list path := filter (fun q => negb (path_eqb p q)) l.

(* algorithm.hxx 1055-1088; dir: the extra ends with a slash. *)
Inductive extra := Absolute (p : path) (dir : bool) | Suffix (dashes : nat) (suffix : bytes) (dir : bool).
Record member := mkmember { mpath : option path; mextras : list extra }.
(* A target that has been matched. path is None if it is unreal, clean is the value of the variable. The group path is dir / name. *)
Inductive target :=
| FileT (fp : option path) (es : list extra) (ms : list member) (clean : bool)
| GroupT (gp : path) (es : list extra) (ms : list path) (clean : bool)
| DirT (d : path)
| AliasT.
(* Prerequisite targets are positions in the graph. *)
Record node := mknode { what : target; pre : list nat }.
Notation graph := (list node).

Inductive op := RmFile (p : path) | RmTree (d : path) | RmDir (d : path).
Inductive status := Waiting | Running (os : list op) | Released | Failed.
Record state := mkstate { sfs : fs; drops : list nat; counts : nat -> nat; stat : nat -> status }.
Definition set {A} (f : nat -> A) (i : nat) (x : A) : nat -> A := fun j => if Nat.eqb j i then x else f j.
Definition occ (l : list nat) (i : nat) : nat := count_occ Nat.eq_dec l i.

Section Clean.
(* path::base () of the last component; what cannot be removed; the working directory; --keep-going. *)
Context (base : bytes -> bytes) (denied : path -> bool) (work : path) (keep_going : bool).

(* clean_extra () 4594-4611 *)
Definition derive (fp : path) (e : extra) : path * bool :=
  match e with
  | Absolute p d => (p, d)
  | Suffix n s d => (removelast fp ++ [Nat.iter n base (List.last fp []) ++ s], d)
  end.
Definition extra_op (fp : path) (e : extra) : op := let (p, d) := derive fp e in if d then RmTree p else RmFile p.
(* What the recipe removes, in this order. *)
Definition recipe (t : target) : list op :=
  match t with
  | FileT fp es ms clean =>
      (match fp with Some p => map (extra_op p) es | None => [] end) ++
      flat_map (fun m => match mpath m with
                         | Some p => map (extra_op p) (mextras m) ++ (if clean then [RmFile p] else [])
                         | None => [] end) ms ++
      (match fp with Some p => if clean then [RmFile p] else [] | None => [] end)
  | GroupT gp es ms clean => map (extra_op gp) es ++ (if clean then map RmFile (rev ms) else [])
  | DirT d => [RmDir d]
  | AliasT => []
  end.

(* filesystem.txx 9-112, filesystem.cxx 184-216; None: failed. *)
Definition perform (o : op) (s : fs) : option fs :=
  match o with
  | RmFile p => if denied p || mem p (dirs s) then None else Some (mkfs (without p (files s)) (dirs s))
  | RmTree d =>
      if under d work then Some s
      else if denied d || mem d (files s) then None
      else Some (mkfs (filter (fun q => negb (under d q)) (files s)) (filter (fun q => negb (under d q)) (dirs s)))
  | RmDir d =>
      if under d work then Some s
      else if mem d (files s) then None
      else if mem d (dirs s) && negb (existsb (inside d) (files s ++ dirs s))
           then if denied d then None else Some (mkfs (files s) (without d (dirs s)))
           else Some s
  end.

Inductive step (g : graph) : state -> state -> Prop :=
(* execute_impl (): a dependent is done with the target; the last one executes it. *)
| S_drop s l i r n : drops s = l ++ i :: r -> nth_error g i = Some n ->
    step g s (mkstate (sfs s) (l ++ r) (set (counts s) i (pred (counts s i)))
                (if Nat.eqb (counts s i) 1 then set (stat s) i (Running (recipe (what n))) else stat s))
| S_op s i o os x : stat s i = Running (o :: os) -> perform o (sfs s) = Some x ->
    step g s (mkstate x (drops s) (counts s) (set (stat s) i (Running os)))
| S_fail s i o os : stat s i = Running (o :: os) -> perform o (sfs s) = None ->
    step g s (mkstate (sfs s) (drops s) (counts s) (set (stat s) i Failed))
(* reverse_execute_prerequisites () *)
| S_release s i n : stat s i = Running [] -> nth_error g i = Some n ->
    step g s (mkstate (sfs s) (drops s ++ rev (pre n)) (counts s) (set (stat s) i Released))
(* Targets are not executed after a failure unless asked to keep going. *)
| S_abandon s l i r j : drops s = l ++ i :: r -> keep_going = false -> stat s j = Failed ->
    step g s (mkstate (sfs s) (l ++ r) (counts s) (stat s)).
Inductive execution (g : graph) : state -> state -> Prop :=
| E_refl s : execution g s s
| E_step s s' s'' : execution g s s' -> step g s' s'' -> execution g s s''.

(* target::opstate::dependents after match: the top-level targets and everyone who has it as a prerequisite. *)
Definition dependents (g : graph) (tops : list nat) (i : nat) : nat := occ tops i + list_sum (map (fun n => occ (pre n) i) g).
Definition start (g : graph) (tops : list nat) (s : fs) : state := mkstate s tops (dependents g tops) (fun _ => Waiting).
End Clean.
