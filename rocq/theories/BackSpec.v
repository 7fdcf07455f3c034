(* Specification: what there is at the links. *)
From Verif Require Import Base BackModel.

(* Backlinks of a target: links are different from each other and from targets, and one is not in another. *)
Definition below (p d : list bytes) : Prop := exists s, p = d ++ s.
Definition sane (xs : list backlink) : Prop :=
  NoDup (map b_link xs) /\ (forall x, In x xs -> b_link x <> []) /\
  (forall x y, In x xs -> In y xs -> b_link x <> b_target y) /\
  (forall x y, In x xs -> In y xs -> ~ below (removelast (b_link y)) (b_link x)) /\
  (forall x y, In x xs -> In y xs -> ~ below (removelast (b_link x)) (b_target y)).
(* Targets are regular files if anything; a file to be copied over is a file of its own if anything. *)
Definition regular (f : fs) (xs : list backlink) : Prop :=
  (forall x, In x xs -> match ent f (b_target x) with None | Some (File _) => True | _ => False end) /\
  (forall p i, ent f p = Some (File i) -> i < fresh f) /\
  (forall x, In x xs -> b_mode x = Overwrite -> match ent f (b_link x) with
     | None => True | Some (File i) => forall q, q <> b_link x -> ent f q <> Some (File i) | _ => False end).

(* The link is current: it is what the mode says, and reads as the target, if there is one; there is nothing otherwise (or a copy of before if not
   to be removed). sym_ok: symbolic links can be made. *)
Definition kind (sym_ok : bool) (f : fs) (x : backlink) : Prop :=
  let symbolic := ent f (b_link x) = Some (Sym (b_target x)) in
  let hard := exists i, ent f (b_target x) = Some (File i) /\ ent f (b_link x) = Some (File i) in
  let copy := exists i, ent f (b_link x) = Some (File i) /\ ent f (b_target x) <> Some (File i) in
  match b_mode x with
  | Link => if sym_ok then symbolic else hard
  | Symbolic => symbolic
  | Hard => hard
  | Copy | Overwrite => copy
  end.
Definition current (sym_ok : bool) (f : fs) (x : backlink) : Prop :=
  match read f (b_target x) with
  | Some c => read f (b_link x) = Some c /\ kind sym_ok f x
  | None => b_mode x = Overwrite \/ ent f (b_link x) = None
  end.
Definition gone (f : fs) (x : backlink) : Prop := ent f (b_link x) = None \/ ent f (b_link x) = Some Dir.

(* What a value means. *)
Inductive says : bytes -> option mode -> option mode -> Prop :=
| says_true gm : says (b "true") gm (Some Link)
| says_symbolic gm : says (b "symbolic") gm (Some Symbolic)
| says_hard gm : says (b "hard") gm (Some Hard)
| says_copy gm : says (b "copy") gm (Some Copy)
| says_overwrite gm : says (b "overwrite") gm (Some Overwrite)
| says_false gm : says (b "false") gm None
| says_group m : says (b "group") (Some m) (Some m).
Inductive value : list (option bytes) -> option mode -> option (mode * bool) -> Prop :=
| value_one v gm m : says v gm m -> value [Some v] gm (match m with Some m => Some (m, true) | None => None end)
| value_two v gm m (p : bool) : says v gm m -> value [Some v; Some (if p then b "true" else b "false")] gm (match m with Some m => Some (m, p) | None => None end).
