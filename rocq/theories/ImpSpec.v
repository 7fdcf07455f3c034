(* What is imported, without the order of search and the cache. *)
From Verif Require Import Base ImpModel.

(* A subdirectory that is a project, with its name (or the surrogate one). *)
Section Sub.
Context (is_out is_src : list bytes -> bool) (pname : list bytes -> bool -> option bytes).
Definition visible (e : dentry) : Prop := de_dir e = true /\ de_name e <> [] /\ forall n, de_name e <> "."%char :: n.
Definition named (sd : list bytes) (src : bool) (d : bytes) (k : bytes) : Prop :=
  exists n, pname sd src = Some n /\ (n <> [] /\ k = n \/ n = [] /\ k = d ++ b "/").
(* In a listing of the output root (out) or source root; in the output root a configured project is not looked at as a source one. *)
Definition project_in (r : list bytes) (out : bool) (es : list dentry) (sd : list bytes) (src : bool) (d : bytes) : Prop :=
  exists e, In e es /\ visible e /\ d = de_name e /\ sd = r ++ [d] /\
    (out = true /\ is_out sd = true /\ src = false \/ (out = false \/ is_out sd = false) /\ is_src sd = true /\ src = true).
Definition subdir (out_root src_root : list bytes) (oes ses : list dentry) (sd : list bytes) (src : bool) (d : bytes) : Prop :=
  project_in out_root true oes sd src d \/ out_root <> src_root /\ project_in src_root false ses sd src d.
Definition subproject (out_root src_root : list bytes) (oes ses : list dentry) (k : bytes) (d : list bytes) : Prop :=
  exists sd src n, d = [n] /\ subdir out_root src_root oes ses sd src n /\ named sd src n k.
End Sub.

(* A root has the project: it is it (unless it is the one importing) or has it as a subproject. *)
Definition has (first : bool) (proj : bytes) (r : root) (d : list bytes) : Prop :=
  first = false /\ r_name r = proj /\ d = r_out r \/
  (first = true \/ r_name r <> proj) /\ exists s, get proj (r_subs r) = Some s /\ d = r_out r ++ s.

(* The project in a directory or, failing that, a subproject. *)
Section Load.
Context {result : Type}.
Context (fwd : list bytes -> list bytes) (proj_at : list bytes -> option root) (export : root -> tgt -> N -> option result).

Inductive resolves (proj : bytes) : list bytes -> root -> Prop :=
| ResHere out r : proj_at out = Some r -> r_name r = proj -> resolves proj out r
| ResSub out r d r' : proj_at out = Some r -> r_name r <> proj -> get proj (r_subs r) = Some d -> resolves proj (r_out r ++ d) r' ->
    resolves proj out r'.
Definition imports (x : import) (v : result) : Prop :=
  exists r, resolves (i_proj x) (fwd (i_out x)) r /\ export r (i_tgt x) (i_meta x) = Some v.

(* The directories on the way. *)
Inductive visits (proj : bytes) : list bytes -> list bytes -> Prop :=
| VisHere out : visits proj out out
| VisSub out r d o : proj_at out = Some r -> r_name r <> proj -> get proj (r_subs r) = Some d -> visits proj (r_out r ++ d) o ->
    visits proj out o.
(* The same target is not imported from different projects by way of the same directory. *)
Definition unambiguous (xs : list import) : Prop :=
  forall x y o, In x xs -> In y xs -> visits (i_proj x) (fwd (i_out x)) o -> visits (i_proj y) (fwd (i_out y)) o ->
    i_tgt x = i_tgt y -> i_meta x = i_meta y -> i_proj x = i_proj y.
(* Subprojects are what they are called. *)
Definition consistent (proj : bytes) : Prop :=
  forall out r d r', proj_at out = Some r -> get proj (r_subs r) = Some d -> proj_at (r_out r ++ d) = Some r' -> r_name r' = proj.
End Load.
