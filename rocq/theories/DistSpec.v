(* What a distribution is to have. *)
From Verif Require Import Base ImpModel DistModel.

Definition under (p d : list bytes) : Prop := exists s, p = d ++ s.

(* Targets reached from the root one by prerequisites within the project, and those there are, in terms of each other only: no order. *)
Section Reach.
Context (out_root : list bytes) (tdir : nat -> list bytes) (prereqs : nat -> list prereq) (enters : nat -> list nat) (ks : list nat) (root : nat).
Definition used (p : prereq) : Prop := p_posthoc p = false /\ p_proj p = false.
Inductive reached : nat -> Prop :=
| r_root : reached root
| r_via t p x : reached t -> In p (prereqs t) -> used p -> names p x -> under (tdir x) out_root -> reached x
with names : prereq -> nat -> Prop :=
| n_other p : p_file p = false -> names p (p_out p)
| n_target p : p_file p = true -> declared (p_out p) -> names p (p_out p)
| n_source p x : p_file p = true -> p_src p = Some x -> names p x
with declared : nat -> Prop :=
| d_known x : In x ks -> declared x
| d_enters t x : reached t -> In x (enters t) -> declared x
| d_named t p x : reached t -> In p (prereqs t) -> used p -> names p x -> declared x.
(* No file is both a source file and a target. *)
Definition one_of : Prop := forall t p x, reached t -> In p (prereqs t) -> p_src p = Some x -> declared (p_out p) -> p_out p = x.
End Reach.

(* Source files are included unless dist is false, those in out only if it is set, and others never. *)
Section Which.
Context (src_root out_root : list bytes) (tdir : nat -> list bytes) (dist : nat -> dval).
Definition included (t : nat) : Prop :=
  under (tdir t) src_root /\ dist t <> DFalse \/ under (tdir t) out_root /\ ~ under (tdir t) src_root /\ dist t <> DFalse /\ dist t <> DNull.
(* A file of its own or a member of a group that is included. *)
Context (is_file see_through : nat -> bool) (group : nat -> option nat) (members : nat -> option (list nat)).
Definition distributed (ks : list nat) (t : nat) : Prop :=
  is_file t = true /\ included t /\
  (In t ks /\ see_through t = false /\ (forall g, group t = Some g -> see_through g = false) \/
   exists g ms, In g ks /\ see_through g = true /\ dist g <> DFalse /\ dist g <> DNull /\ members g = Some ms /\ In t ms).
End Which.

(* Files in a directory, in subdirectories and those linked, except for what is ignored. *)
Section There.
Context (ls : list bytes -> list (bytes * ent)).
Inductive there : list bytes -> list bytes -> Prop :=
| t_here d n : In (n, EFile) (ls d) -> ignored n = false -> there d (d ++ [n])
| t_in d n e f : In (n, e) (ls d) -> e <> EFile -> ignored n = false -> there (d ++ [n]) f -> there d f.
End There.
