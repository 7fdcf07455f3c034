(* What clean should remove and what it should leave alone. *)
From Verif Require Import Base CleanModel.

Section Spec.
Context (base : bytes -> bytes) (work : path).

(* Files and directory trees of a target. The file itself is only removed if the clean variable is not false. *)
Inductive OwnFile : target -> path -> Prop :=
| O_file p es ms : OwnFile (FileT (Some p) es ms true) p
| O_extra p es ms c e q : In e es -> derive base p e = (q, false) -> OwnFile (FileT (Some p) es ms c) q
| O_member fp es ms m p : In m ms -> mpath m = Some p -> OwnFile (FileT fp es ms true) p
| O_member_extra fp es ms c m p e q : In m ms -> mpath m = Some p -> In e (mextras m) -> derive base p e = (q, false) -> OwnFile (FileT fp es ms c) q
| O_group gp es ms p : In p ms -> OwnFile (GroupT gp es ms true) p
| O_group_extra gp es ms c e q : In e es -> derive base gp e = (q, false) -> OwnFile (GroupT gp es ms c) q.
Inductive OwnTree : target -> path -> Prop :=
| T_extra p es ms c e q : In e es -> derive base p e = (q, true) -> OwnTree (FileT (Some p) es ms c) q
| T_member_extra fp es ms c m p e q : In m ms -> mpath m = Some p -> In e (mextras m) -> derive base p e = (q, true) -> OwnTree (FileT fp es ms c) q
| T_group_extra gp es ms c e q : In e es -> derive base gp e = (q, true) -> OwnTree (GroupT gp es ms c) q.

Context (g : graph).
(* Targets in the graph say it should be removed. *)
Definition Claimed (p : path) : Prop :=
  exists n, In n g /\ (OwnFile (what n) p \/ exists d, OwnTree (what n) d /\ prefix d p /\ ~ prefix d work).
Definition Directory (d : path) : Prop := exists n, In n g /\ what n = DirT d.
Definition Has (s : fs) (p : path) : Prop := In p (files s) \/ In p (dirs s).

(* What stays: everything else, and directories of the graph that have the working directory or something that stays in them. *)
Inductive Kept (s : fs) : path -> Prop :=
| K_other p : ~ Claimed p -> ~ Directory p -> Kept s p
| K_work p : ~ Claimed p -> prefix p work -> Kept s p
| K_inside p x : ~ Claimed p -> Has s (p ++ [x]) -> Kept s (p ++ [x]) -> Kept s p.

(* Prerequisites are in the graph, there are no cycles (C61), every target has a dependent or is a top-level one, and there is one
   target for a directory (C63). *)
Definition Graph (tops : list nat) : Prop :=
  (forall n i, In n g -> In i (pre n) -> i < length g) /\ (forall i, In i tops -> i < length g) /\
  (exists rank : nat -> nat, forall i n j, nth_error g i = Some n -> In j (pre n) -> rank j < rank i) /\
  (forall i, i < length g -> In i tops \/ exists n, In n g /\ In i (pre n)) /\
  (forall i j n m d, nth_error g i = Some n -> nth_error g j = Some m -> what n = DirT d -> what m = DirT d -> i = j).
(* inject_fsdir (): if the directory of something a target has is in the graph, then it is a prerequisite. *)
Definition Injected : Prop :=
  forall n d x m i, In n g -> (OwnFile (what n) (d ++ [x]) \/ OwnTree (what n) (d ++ [x]) \/ what n = DirT (d ++ [x])) ->
    nth_error g i = Some m -> what m = DirT d -> In i (pre n).
(* Files of targets are not directories and directories are not files. *)
Definition Typed (s : fs) : Prop :=
  forall n, In n g -> (forall p, OwnFile (what n) p -> ~ In p (dirs s)) /\ (forall d, OwnTree (what n) d -> ~ In d (files s)) /\
                      (forall d, what n = DirT d -> ~ In d (files s)).
End Spec.
(* Everything is in a directory. *)
Definition Tree (s : fs) : Prop := forall p x, Has s (p ++ [x]) -> p = [] \/ In p (dirs s).
Definition Ended (s : state) : Prop := drops s = [] /\ forall i os, stat s i <> Running os.
