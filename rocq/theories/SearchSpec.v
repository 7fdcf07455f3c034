(* What a prerequisite refers to in a project and which target it should be resolved to, given
   the targets that are declared. *)
From Verif Require Import Base SearchModel.

Section Spec.
Context (P : project) (kind : nat -> tkind) (default_ext : nat -> scope -> bytes -> option bytes).
Context (file_exists : path -> bytes -> bytes -> bool) (src_only : path -> bool).
(* The extension of a target with the type, directory and name. *)
Context (ext_of : nat -> path -> bytes -> bytes).
(* The targets declared before the searches. *)
Context (T0 : list entry).

Definition in_source : Prop := out_root P = src_root P.
Definition declared (b : base) : Prop := exists t, In t T0 /\ e_base t = b.
Definition declared_explicitly (b : base) : Prop := exists t, In t T0 /\ e_base t = b /\ e_explicit t = true.
Definition ext_for (b : base) : bytes := ext_of (b_type b) (b_dir b) (b_name b).
Definition has_file (b : base) : Prop := file_exists (b_dir b) (b_name b) (ext_for b) = true.
(* The target of a file in the directory pos of the src tree. *)
Definition source (ty : nat) (pos : path) (n : bytes) (b : base) : Prop :=
  (in_source /\ b = mkb ty (src_root P ++ pos) None n) \/ (~ in_source /\ b = mkb ty (src_root P ++ pos) (Some (out_root P ++ pos)) n).

Definition of_project (s : scope) : Prop := s_proj s = P.
(* pos is the directory ../../l, with that many "..", from the directory of the scope. *)
Definition relative_to (s : scope) (up : nat) (l pos : path) : Prop := s_proj s = P /\ exists x y, s_rel s = x ++ y /\ length y = up /\ pos = x ++ l.
(* The target as written (for a relative directory in the out tree), the one of the source
   file, if any, and whether it is undetermined which one is meant. *)
Inductive refers : prereq -> base -> option base -> bool -> Prop :=
| ref_relative ty up l n x s pos b : relative_to s up l pos -> source ty pos n b ->
    refers (mkpk ty (Rel up l) OEmpty n x s) (mkb ty (out_root P ++ pos) None n) (Some b) true
| ref_absolute ty pos n x s b : of_project s -> source ty pos n b ->
    refers (mkpk ty (Abs (src_root P ++ pos)) OEmpty n x s) (mkb ty (src_root P ++ pos) None n) (Some b) false
| ref_other ty d n x s : of_project s -> (forall pos, d <> src_root P ++ pos) ->
    refers (mkpk ty (Abs d) OEmpty n x s) (mkb ty d None n) None false
| ref_out ty up l up' l' n x s pos pos' : relative_to s up l pos -> relative_to s up' l' pos' -> src_root P ++ pos <> out_root P ++ pos' ->
    refers (mkpk ty (Rel up l) (ORel up' l') n x s) (mkb ty (src_root P ++ pos) (Some (out_root P ++ pos')) n) (Some (mkb ty (src_root P ++ pos) (Some (out_root P ++ pos')) n)) false.

(* A new target may be created: not with the out directory specified, which means that it is
   in the src tree, and not for an absolute directory there. *)
Definition allowed (k : prereq) : Prop := k_out k = OEmpty /\ forall d, k_dir k = Abs d -> src_only d = false.
(* Which target it should be resolved to; None is an error. *)
Inductive resolves (k : prereq) : option base -> Prop :=
| res_written g s u : refers k g s u -> kind (k_type k) <> KAlias -> declared g -> resolves k (Some g)
| res_source g b u : refers k g (Some b) u -> kind (k_type k) = KFile -> ~ declared g -> (u = true /\ declared b) \/ has_file b -> resolves k (Some b)
| res_new g s u : refers k g s u -> kind (k_type k) <> KAlias -> ~ declared g ->
    (kind (k_type k) = KFile -> forall b, s = Some b -> (u = true -> ~ declared b) /\ ~ has_file b) -> allowed k -> resolves k (Some g)
| res_error g s u : refers k g s u -> kind (k_type k) <> KAlias -> ~ declared g ->
    (kind (k_type k) = KFile -> forall b, s = Some b -> (u = true -> ~ declared b) /\ ~ has_file b) -> ~ allowed k -> resolves k None
| res_alias g s u : refers k g s u -> kind (k_type k) = KAlias -> declared_explicitly g -> resolves k (Some g)
| res_no_alias g s u : refers k g s u -> kind (k_type k) = KAlias -> ~ declared_explicitly g -> resolves k None.

(* Extensions: the same for the same target, and known for files. *)
Definition ext_ok (b : base) (x : option bytes) : Prop := x = None \/ x = Some (ext_for b).
(* An absolute directory in the out tree is only used for what is declared or has no
   counterpart in the src tree. *)
Definition regular (k : prereq) : Prop :=
  exists g s u, refers k g s u /\ ext_ok g (k_ext k) /\
  (kind (k_type k) = KFile -> k_ext k = None -> default_ext (k_type k) (k_scope k) (k_name k) = Some (ext_for g)) /\
  (kind (k_type k) = KFile -> ~ in_source -> forall pos, k_dir k = Abs (out_root P ++ pos) ->
     declared g \/ forall b, source (k_type k) pos (k_name k) b -> ~ declared b /\ ~ has_file b).
Record project_ok : Prop := {
  ok_trees : ~ in_source -> forall x y, out_root P ++ x <> src_root P ++ y;
  ok_out : forall x, src_only (out_root P ++ x) = false;
  ok_ext : forall ty x n, ext_of ty (out_root P ++ x) n = ext_of ty (src_root P ++ x) n;
  ok_declared : NoDup (map e_base T0) /\ forall t, In t T0 -> ext_ok (e_base t) (e_ext t) }.
Definition all_regular (l : list action) : Prop := forall k, In (Start k) l -> regular k.
End Spec.
