(* What it means to be the project and the buildfile of a target, in terms of directories only. *)
From Verif Require Import Base ProjModel.

(* d is r or a directory somewhere below. *)
Definition inside (d r : dir) : Prop := exists l, d = l ++ r.

(* r is d or an outer directory, not the root of the file system, with the home directory neither r nor on the way. *)
Definition reachable (home d r : dir) : Prop := inside d r /\ r <> [] /\ forall m, inside d m -> inside m r -> m <> home.

(* The innermost such directory satisfying P. *)
Definition innermost (P : dir -> Prop) (home d r : dir) : Prop :=
  reachable home d r /\ P r /\ forall m, reachable home d m -> P m -> inside r m.
Definition none (P : dir -> Prop) (home d : dir) : Prop := forall m, reachable home d m -> ~ P m.

(* A source root directory has bootstrap.build, an output root directory has src-root.build, in either naming. *)
Definition src_dir (F : fs) (d : dir) : Prop := exists a, f_boot F a d = true.
Definition out_dir (F : fs) (d : dir) : Prop := exists a v, f_srcroot F a d = Some v.
Definition project_dir (F : fs) (d : dir) : Prop := src_dir F d \/ out_dir F d.

(* The file name without directories: the one specified or the default for the naming scheme. *)
Definition simple_name (n : bname) (altn : bool) (c : bytes) : Prop :=
  n = Default /\ [c] = buildfile_name altn \/ n = Named [c].

(* Not a path with directories. *)
Definition simple (n : bname) : Prop := match n with Named n => length n = 1 | _ => True end.
