(* How libraries have to be arranged. *)
From Verif Require Import Base LibModel.

Section Spec.
Context (G : nat -> library).

(* What a library uses. A shared library can't say how what it depends on is linked. *)
Definition uses (l : nat) : list dep :=
  if static (G l) then deps (G l)
  else map (fun d => match d with Use t _ => Use t (default_whole (G t)) | Simple ns => Simple ns end) (deps (G l)).
Definition dep_tag (d : dep) : tag := match d with Use l w => lib_tag l w | Simple ns => name_tag ns end.
(* t is used by d, directly or indirectly. *)
Inductive used : dep -> tag -> Prop :=
| used_itself d : used d (dep_tag d)
| used_further l w d t : In d (uses l) -> used d t -> used (Use l w) t.
(* What is used by a prerequisite. *)
Inductive needed : prerequisite -> tag -> Prop :=
| needs_itself l w t : used (Use l w) t -> needed (Lib l w true) t
| needs_deps l w d t : In d (uses l) -> used d t -> needed (Lib l w false) t.

(* The command line is a sequence of blocks: what has been linked for what. *)
Definition block : Type := tag * list arg.
(* One library depends on another. *)
Definition depends (x y : nat) : Prop := exists w, In (Use y w) (deps (G x)).
Inductive reaches : nat -> nat -> Prop :=
| reach_1 x y : depends x y -> reaches x y
| reach_s x y z : depends x y -> reaches y z -> reaches x z.
(* A utility library is part of another one that is also linked. *)
Definition contained (ts : list tag) (l : nat) : Prop :=
  utility (G l) = true /\ exists x w, utility (G x) = false /\ reaches x l /\ In (lib_tag x w) ts.
(* What is linked for a library (ts is what all the blocks are for). *)
Definition proper (ts : list tag) (b : block) : Prop :=
  match fst b with
  | Library l => snd b = (if exports (G l) then options (G l) else []) ++ elements (G l) \/
                 (contained ts l /\ snd b = if exports (G l) then options (G l) else [])
  | Whole l => snd b = elements (G l) \/ (contained ts l /\ snd b = [])
  | Name ns | Long ns => snd b = ns
  end.
Definition library_of (t : tag) : option nat := match t with Library l | Whole l => Some l | _ => None end.
(* Has nothing to link, neither itself nor anything it uses. *)
Definition nothing (t : tag) : Prop := exists l, t = Library l /\ binless (G l) = true.
(* What must not be repeated: everything except whole archives and options of more than two elements. *)
Definition single (t : tag) : bool := match t with Library _ | Name _ => true | Whole _ | Long _ => false end.
Record arranged (ps : list prerequisite) (bs : list block) : Prop := {
  (* no duplicates *)
  once : NoDup (filter single (map fst bs));
  (* everything needed, and nothing else *)
  all : forall t, In t (map fst bs) <-> exists p, In p ps /\ needed p t;
  contents : Forall (proper (map fst bs)) bs;
  (* what a library uses comes after it *)
  order : forall t l d xs b1 b2, bs = b1 ++ (t, xs) :: b2 -> library_of t = Some l -> In d (uses l) -> ~ nothing (dep_tag d) -> In (dep_tag d) (map fst b2) }.

Definition is_lib (p : prerequisite) : Prop := match p with Lib _ _ _ => True | Object _ => False end.
(* Libraries are arranged between object files. *)
Inductive line : list prerequisite -> list arg -> Prop :=
| line_libs ps bs : Forall is_lib ps -> arranged ps bs -> line ps (concat (map snd bs))
| line_object ps x ls xs bs : line ps xs -> Forall is_lib ls -> arranged ls bs -> line (ps ++ Object x :: ls) (xs ++ x :: concat (map snd bs)).

(* No library that exports options is linked as a whole archive (or without itself). *)
Definition plain (ps : list prerequisite) : Prop :=
  (forall l d, In d (uses l) -> forall t, d = Use t true -> exports (G t) = false) /\
  (forall l w self, In (Lib l w self) ps -> w = true \/ self = false -> exports (G l) = false).

(* No cycles below a library (and no infinite chains). *)
Definition acyclic (l : nat) : Prop := Acc (fun y x => depends x y) l.
End Spec.
Section Indirect.
Context (G : nat -> library).
(* What recursively-binless means (link-rule.cxx:1612-1700): there is also nothing to link in what such a library uses. *)
Definition hollow (t : tag) : Prop := exists l, library_of t = Some l /\ binless (G l) = true.
Definition consistent : Prop := forall l d, binless (G l) = true -> In d (uses G l) -> hollow (dep_tag d).
(* Whatever a library uses, directly or indirectly, comes after it. *)
Definition all_after (bs : list block) : Prop :=
  forall t l d u xs b1 b2, bs = b1 ++ (t, xs) :: b2 -> library_of t = Some l -> In d (uses G l) -> used G d u -> ~ hollow u -> In u (map fst b2).
(* Libraries are numbered below n. *)
Definition finite (n : nat) : Prop := forall l t w, l < n -> In (Use t w) (deps (G l)) -> t < n.
End Indirect.
