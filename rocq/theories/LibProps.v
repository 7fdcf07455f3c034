(* C64: the order of libraries on the linker's command line. *)
From Verif Require Import Base LibModel LibSpec LibProofs.
From Coq Require Import Permutation.

(* Libraries for examples: 0 is a shared library, 1 and 2 are static and both use 3, which uses -lm; 4 is
   binless; 5 is a utility library and 6 is linked as a whole archive. *)
Definition ex (l : nat) : library :=
  match l with
  | 0 => mklib false false false false true [50] [10] [Use 1 false; Use 3 false; Simple [99]]
  | 1 => mklib true false false false true [51] [11] [Use 3 false; Use 4 false]
  | 2 => mklib true false false false false [] [12] [Use 3 false; Use 1 false; Use 6 true]
  | 3 => mklib true false false false true [53] [13] [Simple [99]; Simple [97; 98]]
  | 4 => mklib false false false true false [] [] []
  | 5 => mklib true true false false false [] [15] [Use 2 false; Use 4 false]
  | 6 => mklib true false true false false [] [16] [Use 5 false]
  | _ => mklib false false false true false [] [] []
  end.
(* The same without the cycle 2, 6, 5. *)
Definition ex2 (l : nat) : library := match l with 5 => mklib true true false false false [] [15] [Use 1 false; Use 4 false] | _ => ex l end.
Definition ps : list prerequisite := [Lib 1 false true; Object 100; Lib 0 false true; Lib 2 false true; Lib 1 false true; Lib 6 true true; Object 101; Lib 3 false true].
Lemma ex2_plain : plain ex2 ps.
Proof.
  split.
  - intros l d I t ->. do 8 (destruct l as [| l]; [cbn in I; intuition (try discriminate); match goal with H : Use _ _ = Use _ _ |- _ => injection H as <- end; reflexivity |]). cbn in I. tauto.
  - intros l w self I [-> | ->]; cbn in I; intuition (try discriminate); match goal with H : Lib _ _ _ = Lib _ _ _ |- _ => injection H as <- end; reflexivity.
Qed.

(* Between object files every library and option that is needed is there, without duplicates, has its
   options and elements and comes before what it uses. *)
Theorem C64_line G fuel ps s : plain G ps -> link G fuel ps initial = Ok s -> line G ps (args s).
Proof. intros P E. pose proof (linked_ok G fuel ps P) as H. rewrite E in H. tauto. Qed.
Print Assumptions C64_line.
Definition result (r : outcome state) : option (list arg) := match r with Ok s => Some (args s) | _ => None end.
Example C64_line_ex : plain ex2 ps /\ result (link ex2 8 ps initial) =
  Some [51; 11; 53; 13; 99; 97; 98; 100; 50; 10; 12; 16; 16; 51; 11; 53; 13; 99; 97; 98; 101; 53; 13; 99; 97; 98].
Proof. split; [exact ex2_plain | vm_compute; reflexivity]. Qed.

(* Also indirectly. *)
Theorem C64_after G ps bs : consistent G -> arranged G ps bs -> all_after G bs.
Proof. apply arranged_after. Qed.
Print Assumptions C64_after.
Lemma line_arranged G ps xs : line G ps xs -> Forall is_lib ps -> exists bs, arranged G ps bs.
Proof.
  intros [qs bs L A | qs x ls ys bs _ _ _] F; [eauto |]. apply Forall_app in F as (_ & F). inversion F as [| ? ? C]. destruct C.
Qed.
Example C64_after_ex : consistent ex2 /\ exists bs, arranged ex2 [Lib 2 false true] bs /\ used ex2 (Use 6 true) (Name [99]) /\ ~ hollow ex2 (Name [99]).
Proof.
  split; [| assert (P : plain ex2 [Lib 2 false true]); [| pose proof (C64_line ex2 8 [Lib 2 false true]) as H; destruct (link ex2 8 [Lib 2 false true] initial) as [s | | |] eqn: E]].
  - intros l d B I. do 8 (destruct l as [| l]; [cbn in B; try discriminate; cbn in I; tauto |]). cbn in I. tauto.
  - split; [apply ex2_plain |]. intros l w self [E | []] [W | W]; injection E as <- <- <-; discriminate.
  - specialize (H s P eq_refl). clear E. apply line_arranged in H as (bs & H); [| repeat constructor]. exists bs. split; [auto |].
    split; [| intros (l & C & _); discriminate].
    eapply (used_further ex2 6 true (Use 5 false)); [cbn; auto |]. eapply (used_further ex2 5 false (Use 1 false)); [cbn; auto |].
    eapply (used_further ex2 1 false (Use 3 false)); [cbn; auto |]. eapply (used_further ex2 3 false (Simple [99])); [cbn; auto |]. apply (used_itself ex2 (Simple [99])).
  - exfalso. vm_compute in E. discriminate.
  - exfalso. vm_compute in E. discriminate.
  - exfalso. vm_compute in E. discriminate.
Qed.

(* A dependency cycle is diagnosed and nothing else is. *)
Theorem C64_cycle_sound G fuel ps l : plain G ps -> link G fuel ps initial = Cycle l -> reaches G l l.
Proof. intros P E. pose proof (linked_ok G fuel ps P) as H. rewrite E in H. auto. Qed.
Print Assumptions C64_cycle_sound.
Theorem C64_cycle_found G fuel ps s l w self : plain G ps -> link G fuel ps initial = Ok s -> In (Lib l w self) ps -> acyclic G l.
Proof. intros P E I. pose proof (linked_ok G fuel ps P) as H. rewrite E in H. destruct H as (_ & _ & H). eauto. Qed.
Print Assumptions C64_cycle_found.
Lemma acyclic_reaches G l : acyclic G l -> ~ reaches G l l.
Proof.
  intro A. induction A as [l _ IH]. intro R.
  assert (N : forall x y, reaches G x y -> exists z, depends G x z /\ (z = y \/ reaches G z y)) by (intros x y []; eauto).
  destruct (N l l R) as (z & D & [-> | Z]); [exact (IH l D R) |]. apply (IH z D). eapply reaches_trans; eauto.
Qed.
Theorem C64_cycle_none G fuel ps s l w self : plain G ps -> link G fuel ps initial = Ok s -> In (Lib l w self) ps -> ~ reaches G l l.
Proof. intros P E I. eapply acyclic_reaches, C64_cycle_found; eauto. Qed.
Print Assumptions C64_cycle_none.
Example C64_cycle_ex : (match link ex 8 [Lib 0 false true; Lib 2 false true] initial with Cycle l => Some l | _ => None end) = Some 2 /\
  plain ex [Lib 0 false true; Lib 2 false true].
Proof.
  split; [vm_compute; reflexivity |]. split.
  - intros l d I t ->. do 8 (destruct l as [| l]; [cbn in I; intuition (try discriminate); match goal with H : Use _ _ = Use _ _ |- _ => injection H as <- end; reflexivity |]). cbn in I. tauto.
  - intros l w self I [-> | ->]; cbn in I; intuition (try discriminate).
Qed.

(* It always finishes: with n libraries, a chain of dependencies longer than n is a cycle. *)
Theorem C64_terminates G n ps : finite G n -> (forall l w self, In (Lib l w self) ps -> l < n) -> link G (S n) ps initial <> Exhausted.
Proof. intros F B. apply (link_finishes G n (S n) F); auto. Qed.
Print Assumptions C64_terminates.
Example C64_terminates_ex : finite ex 7 /\ (forall l w self, In (Lib l w self) ps -> l < 7).
Proof.
  split.
  - intros l t w L I. do 7 (destruct l as [| l]; [cbn in I; intuition (try discriminate); match goal with H : Use _ _ = Use _ _ |- _ => injection H as <- _ end; lia |]). lia.
  - intros l w self I. cbn in I. intuition (try discriminate); match goal with H : Lib _ _ _ = Lib _ _ _ |- _ => injection H as <- _ _ end; lia.
Qed.

(* Moving arguments around never reads or writes outside of them. *)
Theorem C64_safe G fuel ps : plain G ps -> link G fuel ps initial <> Undefined.
Proof. intros P E. pose proof (linked_ok G fuel ps P) as H. rewrite E in H. auto. Qed.
Print Assumptions C64_safe.
Example C64_safe_ex : plain ex2 ps.
Proof. exact ex2_plain. Qed.

(* But this isn't the case if a library that exports options is linked as a whole archive: what has been
   added for it is left without an end. *)
Definition ex3 (l : nat) : library :=
  match l with
  | 0 => mklib true false false false true [50] [10] []
  | 1 => mklib true false false false true [] [11] []
  | 2 => mklib true false false false true [] [12] [Use 1 false]
  | 3 => mklib true false false false true [] [13] [Use 0 false]
  | _ => mklib true false false false true [] [] []
  end.
Theorem C64_undefined_refuted : exists G n ps, finite G n /\ (forall l w self, In (Lib l w self) ps -> l < n) /\ (forall l, ~ reaches G l l) /\
  (forall p, In p ps -> exists l w, p = Lib l w true) /\ link G (S n) ps initial = Undefined.
Proof.
  exists ex3, 4, [Lib 1 false true; Lib 0 true true; Lib 1 false true; Lib 0 false true].
  assert (D : forall x y, depends ex3 x y -> y < x).
  { intros x y (w & I). do 4 (destruct x as [| x]; [cbn in I; intuition (try discriminate); match goal with H : Use _ _ = Use _ _ |- _ => injection H as <- _ end; lia |]). cbn in I. tauto. }
  split. { intros l t w L I. assert (t < l) by (apply D; exists w; auto). lia. }
  split. { intros l w self I. cbn in I. intuition (try discriminate); match goal with H : Lib _ _ _ = Lib _ _ _ |- _ => injection H as <- _ _ end; lia. }
  split. { intros l R. assert (H : forall x y, reaches ex3 x y -> y < x) by (induction 1 as [x y E | x y z E _ IH]; apply D in E; lia). apply H in R. lia. }
  split. { intros p I. cbn in I. intuition subst; eauto. }
  vm_compute. reflexivity.
Qed.
Print Assumptions C64_undefined_refuted.
(* Or if what is needed by libraries is asked for but not the libraries themselves. *)
Theorem C64_undefined_without_refuted : exists G n ps, finite G n /\ (forall l w self, In (Lib l w self) ps -> l < n) /\ (forall l, ~ reaches G l l) /\
  (forall p, In p ps -> exists l, p = Lib l false false) /\ link G (S n) ps initial = Undefined.
Proof.
  exists ex3, 4, [Lib 2 false false; Lib 0 false false; Lib 2 false false; Lib 3 false false].
  assert (D : forall x y, depends ex3 x y -> y < x).
  { intros x y (w & I). do 4 (destruct x as [| x]; [cbn in I; intuition (try discriminate); match goal with H : Use _ _ = Use _ _ |- _ => injection H as <- _ end; lia |]). cbn in I. tauto. }
  split. { intros l t w L I. assert (t < l) by (apply D; exists w; auto). lia. }
  split. { intros l w self I. cbn in I. intuition (try discriminate); match goal with H : Lib _ _ _ = Lib _ _ _ |- _ => injection H as <- _ _ end; lia. }
  split. { intros l R. assert (H : forall x y, reaches ex3 x y -> y < x) by (induction 1 as [x y E | x y z E _ IH]; apply D in E; lia). apply H in R. lia. }
  split. { intros p I. cbn in I. intuition subst; eauto. }
  vm_compute. reflexivity.
Qed.
Print Assumptions C64_undefined_without_refuted.

(* What is hashed to detect changes is what is linked, as a set. *)
Theorem C64_hashed G fuel ps s : link G fuel ps initial = Ok s -> Permutation (args s) (hashed s).
Proof. intro E. eapply (link_same G fuel ps initial); [apply Permutation_refl | exact E]. Qed.
Print Assumptions C64_hashed.
Example C64_hashed_ex : result (link ex2 8 ps initial) <> None.
Proof. vm_compute. discriminate. Qed.
(* But in the order libraries are first seen, so that a different command line may go unnoticed. *)
Theorem C64_order_hashed_refuted : exists G1 G2 fuel ps s1 s2, plain G1 ps /\ plain G2 ps /\ (forall l, elements (G1 l) = elements (G2 l)) /\
  link G1 fuel ps initial = Ok s1 /\ link G2 fuel ps initial = Ok s2 /\ hashed s1 = hashed s2 /\ args s1 <> args s2.
Proof.
  exists (fun l => mklib true false false false false [] [l] []), (fun l => mklib true false false false false [] [l] (if l =? 1 then [Use 0 false] else [])), 3, [Lib 0 false true; Lib 1 false true].
  do 2 eexists. split; [| split; [| split; [| split; [vm_compute; reflexivity | split; [vm_compute; reflexivity |]]]]].
  - split; cbn; [tauto | auto].
  - split; cbn; auto.
  - auto.
  - vm_compute. split; [reflexivity | discriminate].
Qed.
Print Assumptions C64_order_hashed_refuted.
