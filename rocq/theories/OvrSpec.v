(* What overriding a variable from the command line means. *)
From Verif Require Import Base VarModel OvrModel.

Fixpoint indexed {X} (n : nat) (l : list X) : list (nat * X) :=
  match l with [] => [] | x :: l' => (n, x) :: indexed (S n) l' end.
(* The number of the scope with this identity. *)
Fixpoint position (a : nat) (chain : list oscope) : nat :=
  match chain with [] => 0 | s :: outer => if osid s =? a then 0 else S (position a outer) end.

Section Spec.
Context {V N : Type} (w : oops V N) (sub : nat -> nat -> bool) (ovrs : list (override N)) (chain : list oscope).

(* An override (with its number on the command line) in a scope (with its number in
   the chain). *)
Record place := mkplace { where_ : nat; in_scope_ : oscope; which : nat; what : override N }.
Definition has (c : place) : option (option N) := oval (what c) (osid (in_scope_ c)).
(* All of them, the innermost scopes first and, in the same scope, in the order of the
   command line or in the reverse order. *)
Definition by_order : list place :=
  flat_map (fun i => map (fun j => mkplace (fst i) (snd i) (fst j) (snd j)) (indexed 0 ovrs)) (indexed 0 chain).
Definition by_latest : list place :=
  flat_map (fun i => map (fun j => mkplace (fst i) (snd i) (fst j) (snd j)) (rev (indexed 0 ovrs))) (indexed 0 chain).

(* Does the override apply to a value that is in this variable map and comes from
   this project? Overrides of the whole amalgamation apply to any value, those of the
   project do not apply to values in its subprojects, and those of the scope apply
   only to values in this scope. *)
Definition applies_to (c : place) (m : mapid) (proj : option nat) : bool :=
  match ovis (what c) with
  | OGlobal => true
  | OProject => match oroot (in_scope_ c), proj with Some rs, Some p => negb (sub rs p) | _, _ => true end
  | OScope => mapid_eqb m (MScope (osid (in_scope_ c)))
  end.

(* The original: whether it is in the scope with this number or more inner, and the
   project it comes from. *)
Definition reached (x : orig V) (i : nat) : bool :=
  match vars x with
  | MTarget _ => true
  | MScope a | MPattern a _ => existsb (fun s => osid s =? a) (firstn (S i) chain)
  end.
Definition project_of (x : orig V) : option nat :=
  match vars x with
  | MTarget _ => match chain with s :: _ => oroot s | [] => None end
  | MScope a | MPattern a _ => match List.find (fun s => osid s =? a) chain with Some s => oroot s | None => None end
  end.

(* The value that is prefixed and suffixed is the innermost assignment, the latest one
   in the same scope, unless it doesn't apply to the original that is not
   outer to it. If there is none then it is the original, if any. *)
Definition assignment (o : option (orig V)) (c : place) : bool :=
  match kind (what c), has c with
  | KAssign, Some _ => match o with Some x => negb (reached x (where_ c)) || applies_to c (vars x) (project_of x) | None => true end
  | _, _ => false
  end.
Inductive stem_is := IsOverride (c : place) | IsOriginal (x : orig V) | IsNothing.
Definition the_stem (o : option (orig V)) : stem_is :=
  match List.find (assignment o) by_latest with
  | Some c => IsOverride c
  | None => match o with Some x => IsOriginal x | None => IsNothing end
  end.

(* The prefixes and suffixes to consider, in order: all of them except those that are
   in the scope of the assignment and are not after it on the command line. *)
Definition affix (c : place) : bool := match kind (what c), has c with KAssign, _ | _, None => false | _, Some _ => true end.
Definition superseded (st : stem_is) (c : place) : bool :=
  match st with IsOverride a => (osid (in_scope_ c) =? osid (in_scope_ a)) && (which c <=? which a) | _ => false end.
Definition the_affixes (st : stem_is) : list place := filter (fun c => affix c && negb (superseded st c)) by_order.

(* Adding them, one by one. *)
Definition add_affix (v : V) (c : place) : V :=
  match has c with
  | Some (Some n) => match kind (what c) with KPrefix => prepend w v n | _ => append w v n end
  | _ => v
  end.
Definition stem_value (st : stem_is) : V :=
  match st with
  | IsOverride c => copy w (match has c with Some n => Some (of_names w n) | None => None end)
  | IsOriginal x => copy w (Some (value x))
  | IsNothing => copy w None
  end.

(* 1. When there are no overrides of the scope. Those that apply are the ones that
   apply to the project of the stem or, if there is none, of the innermost and first
   prefix or suffix. *)
Definition stem_project (st : stem_is) : option nat :=
  match st with
  | IsOverride c => oroot (in_scope_ c)
  | IsOriginal x => project_of x
  | IsNothing => match the_affixes st with c :: _ => oroot (in_scope_ c) | [] => None end
  end.
Definition in_project (p : option nat) (c : place) : bool :=
  match ovis (what c), oroot (in_scope_ c), p with OProject, Some rs, Some q => negb (sub rs q) | _, _, _ => true end.
Definition the_value (o : option (orig V)) : V :=
  let st := the_stem o in fold_left add_affix (filter (in_project (stem_project st)) (the_affixes st)) (stem_value st).

(* 2. In general, but without a target. What has been put together so far is
   located where its innermost part is and belongs to the project of its first part
   (the stem if there is one). at_: this location, as the number of the scope. *)
Definition applies_at (c : place) (at_ : option (nat * option nat)) : bool :=
  match at_ with
  | None => true
  | Some (i, p) => match ovis (what c) with OScope => where_ c =? i | _ => in_project p c end
  end.
Fixpoint put_together (v : V) (at_ : option (nat * option nat)) (cs : list place) : V * option (nat * option nat) :=
  match cs with
  | [] => (v, at_)
  | c :: cs' =>
      if applies_at c at_ then
        put_together (add_affix v c) (Some (match at_ with Some (i, p) => (Nat.min i (where_ c), p) | None => (where_ c, oroot (in_scope_ c)) end)) cs'
      else put_together v at_ cs'
  end.
Definition stem_at (st : stem_is) : option (nat * option nat) :=
  match st with
  | IsOverride c => Some (where_ c, oroot (in_scope_ c))
  | IsOriginal x => Some (match vars x with MScope a => position a chain | _ => 0 end, project_of x)
  | IsNothing => None
  end.
Definition the_value_and_place (o : option (orig V)) : V * option (nat * option nat) :=
  let st := the_stem o in put_together (stem_value st) (stem_at st) (the_affixes st).
End Spec.
Arguments place : clear implicits. Arguments stem_is : clear implicits.

(* The scopes are those of a file system directory and its parents: they are
   different and a directory outside of any project has only such parents. *)
Fixpoint good_chain (chain : list oscope) : Prop :=
  match chain with
  | [] => True
  | s :: outer => (forall t, In t outer -> osid t <> osid s) /\ (oroot s = None -> forall t, In t outer -> oroot t = None) /\ good_chain outer
  end.
(* The original is in a scope of the chain or, if it is for a target, specific to the
   target. Depths 1 and 2 mean that it is the target or, if NULL, the innermost scope, see
   C34_target_own and others. *)
Definition good_orig {V} (target : bool) (chain : list oscope) (x : orig V) : Prop :=
  match vars x with
  | MTarget _ => target = true /\ (depth x = 1 \/ depth x = 2)
  | MScope a => exists n s, nth_error chain n = Some s /\ osid s = a /\ (if target then depth x <= 2 -> n = 0 else depth x = S n)
  | MPattern a _ => target = true /\ exists n s, nth_error chain n = Some s /\ osid s = a /\ (depth x <= 2 -> n = 0)
  end.

(* A lookup: the scope (with its parents), the original, and whether it's for a
   target. *)
Record request {V : Type} := mkrequest { from : list oscope; original : option (orig V); for_target : bool }.
Arguments request : clear implicits. Arguments mkrequest {V}. Arguments from {V}. Arguments original {V}. Arguments for_target {V}.
Definition good_request {V} (r : request V) : Prop :=
  good_chain (from r) /\ forall x, original r = Some x -> good_orig (for_target r) (from r) x.
(* Lookups in the same build: a scope always has the same parents, the same version of
   the same variable is the same value, and the same target is in the same scope. *)
Definition consistent {V} (rs : list (request V)) : Prop :=
  forall r q, In r rs -> In q rs ->
    (forall a s c a' s' c', from r = a ++ s :: c -> from q = a' ++ s' :: c' -> osid s = osid s' -> s = s' /\ c = c') /\
    (forall x y, original r = Some x -> original q = Some y -> vars x = vars y -> version x = version y -> value x = value y) /\
    (forall x y t, original r = Some x -> original q = Some y -> vars x = MTarget t -> vars y = MTarget t -> from r = from q).
