(* Proofs about loading of imported projects. *)
From Verif Require Import Base ImpModel ImpSpec ImpProofs.

Section Load.
Context {result : Type}.
Context (fwd : list bytes -> list bytes) (proj_at : list bytes -> option root) (export : root -> tgt -> N -> option result).
Notation resolves := (resolves proj_at).
Notation visits := (visits proj_at).
Notation imports := (imports fwd proj_at export).
Notation load_at := (load_at proj_at export).
Notation load := (load fwd proj_at export).
Notation loads := (loads fwd proj_at export).
Notation unambiguous := (unambiguous fwd proj_at).

Lemma tgt_eqb_eq a c : tgt_eqb a c = true <-> a = c.
Proof.
  destruct a as [a1 a2 a3 a4], c as [c1 c2 c3 c4]. unfold tgt_eqb. cbn. rewrite !andb_true_iff, Bool.eqb_true_iff, dir_eqb_eq, beqb_eq.
  assert (O : opt_eqb a3 c3 = true <-> a3 = c3).
  { destruct a3, c3; cbn; rewrite ?beqb_eq; split; congruence. }
  rewrite O. split; [intros [[[-> ->] ->] ->]; reflexivity | intros E; injection E as -> -> -> ->; auto].
Qed.
Lemma key_eqb_eq a c : key_eqb a c = true <-> a = c.
Proof.
  destruct a as [[a1 a2] a3], c as [[c1 c2] c3]. unfold key_eqb. cbn. rewrite !andb_true_iff, dir_eqb_eq, tgt_eqb_eq, N.eqb_eq.
  split; [intros [[-> ->] ->]; reflexivity | intros E; injection E as -> -> ->; auto].
Qed.
Lemma cached_in k (c : cache) v : cached (result := result) k c = Some v -> In (k, v) c.
Proof.
  induction c as [|[k' v'] c IH]; cbn; [discriminate|]. destruct (key_eqb k' k) eqn:E; [|auto].
  apply key_eqb_eq in E. intros Q. injection Q as ->. left. congruence.
Qed.

Lemma resolves_fun proj out r r' : resolves proj out r -> resolves proj out r' -> r = r'.
Proof.
  induction 1 as [out r A B|out r d q A B C D IH]; intros H; inversion H; subst; try congruence.
  apply IH. match goal with E : proj_at out = Some ?x |- _ => assert (x = r) by congruence; subst x end. congruence.
Qed.
Lemma visits_resolves proj out o r : visits proj out o -> resolves proj o r -> resolves proj out r.
Proof. induction 1 as [|out r0 d o A B C D IH]; intros H; [exact H|]. eapply ResSub; eauto. Qed.
Lemma visits_trans proj a c d : visits proj a c -> visits proj c d -> visits proj a d.
Proof. induction 1 as [|out r0 d0 o A B C D IH]; intros H; [exact H|]. eapply VisSub; eauto. Qed.
Lemma resolves_visits proj out o r : resolves proj out r -> visits proj out o -> resolves proj o r.
Proof.
  intros R V. induction V as [|out r0 d o A B C D IH]; [exact R|]. apply IH. inversion R; subst; [congruence|].
  match goal with E : proj_at out = Some ?x |- _ => assert (x = r0) by congruence; subst x end. congruence.
Qed.

(* Entries of the cache are imports made, by a directory on the way. *)
Definition sound (hs : list import) (c : cache) : Prop :=
  forall o t m v, In ((o, t, m), v) c -> exists y, In y hs /\ visits (i_proj y) (fwd (i_out y)) o /\ i_tgt y = t /\ i_meta y = m /\ imports y v.

Lemma load_at_sound hs x : unambiguous hs -> In x hs -> forall fuel c out kout v c', sound hs c ->
  visits (i_proj x) (fwd (i_out x)) out -> visits (i_proj x) (fwd (i_out x)) kout ->
  load_at fuel c (i_proj x) (i_tgt x) (i_meta x) out kout = Some (v, c') -> imports x v /\ sound hs c'.
Proof.
  intros U X. induction fuel as [|fuel IH]; intros c out kout v c' SD V K; cbn [ImpModel.load_at]; [discriminate|].
  destruct (cached (out, i_tgt x, i_meta x) c) as [v0|] eqn:E.
  - intros Q. injection Q as -> ->. split; [|exact SD]. apply cached_in, SD in E as (y & Y & VY & T & M & (r & R & EX)).
    assert (P : i_proj x = i_proj y) by (apply (U x y out); congruence).
    exists r. rewrite <- T, <- M. split; [|exact EX]. eapply visits_resolves; [exact V|]. rewrite P. eapply resolves_visits; eauto.
  - destruct (proj_at out) as [r|] eqn:PA; [|discriminate]. destruct (beqb (r_name r) (i_proj x)) eqn:N.
    + apply beqb_eq in N. destruct (export r (i_tgt x) (i_meta x)) as [v1|] eqn:EX; [|discriminate]. intros Q. injection Q as -> <-.
      assert (I : imports x v). { exists r. split; [|exact EX]. eapply visits_resolves; [exact V|]. now apply ResHere. }
      split; [exact I|]. intros o t m w [Q|Q]; [|eauto]. injection Q as <- <- <- <-. exists x. auto.
    + assert (N' : r_name r <> i_proj x) by (intros Q; apply beqb_eq in Q; congruence).
      destruct (get (i_proj x) (r_subs r)) as [d|] eqn:G; [|discriminate]. apply IH; auto.
      eapply visits_trans; [exact V|]. eapply VisSub; eauto. constructor.
Qed.

Lemma loads_sound hs : unambiguous hs -> forall xs fuel c vs, incl xs hs -> sound hs c -> loads fuel c xs = Some vs -> Forall2 imports xs vs.
Proof.
  intros U. induction xs as [|x xs IH]; intros fuel c vs I SD; cbn [ImpModel.loads].
  - intros E. injection E as <-. constructor.
  - destruct (load fuel c x) as [[v c']|] eqn:E; [|discriminate]. destruct (loads fuel c' xs) as [vs'|] eqn:E2; [|discriminate].
    intros Q. injection Q as <-. apply (load_at_sound hs x U) in E as [A C]; [|apply I; now left|exact SD|constructor|constructor].
    constructor; [exact A|]. eapply IH; [|exact C|exact E2]. intros y Y. apply I. now right.
Qed.

Lemma load_complete hs x c v : unambiguous hs -> In x hs -> sound hs c -> consistent proj_at (i_proj x) -> imports x v ->
  exists c', load 2 c x = Some (v, c').
Proof.
  intros U X SD CN (r & R & EX). assert (H : exists w c', load 2 c x = Some (w, c')).
  { unfold ImpModel.load. cbn [ImpModel.load_at]. destruct (cached (fwd (i_out x), i_tgt x, i_meta x) c) as [w|]; [eauto|].
    inversion R as [o r0 A B|o r0 d r' A B C D]; subst.
    - rewrite A, <- B, beqb_refl, EX. eauto.
    - rewrite A, C. destruct (beqb (r_name r0) (i_proj x)) eqn:Q; [apply beqb_eq in Q; congruence|].
      destruct (cached (r_out r0 ++ d, i_tgt x, i_meta x) c) as [w|]; [eauto|].
      inversion D as [o1 r1 A1 B1|o1 r1 d1 r1' A1 B1 C1 D1]; subst; [|exfalso; apply B1; exact (CN _ _ _ _ A C A1)].
      rewrite A1, <- B1, beqb_refl, EX. eauto. }
  destruct H as (w & c' & H). exists c'. pose proof H as H'. unfold ImpModel.load in H'.
  apply (load_at_sound hs x U X) in H' as [(r' & R' & EX') _]; [|exact SD|constructor|constructor].
  rewrite (resolves_fun _ _ _ _ R' R) in EX'. rewrite H. congruence.
Qed.

Lemma loads_complete hs : unambiguous hs -> forall xs c vs, incl xs hs -> sound hs c -> (forall x, In x xs -> consistent proj_at (i_proj x)) ->
  Forall2 imports xs vs -> loads 2 c xs = Some vs.
Proof.
  intros U. induction xs as [|x xs IH]; intros c vs I SD CN F; inversion F as [|x0 v xs0 vs0 A B]; subst; cbn [ImpModel.loads]; [reflexivity|].
  destruct (load_complete hs x c v U) as (c' & E); auto; [apply I; now left | apply CN; now left|]. rewrite E.
  unfold ImpModel.load in E. apply (load_at_sound hs x U) in E as [_ C]; [|apply I; now left|exact SD|constructor|constructor].
  rewrite (IH c' vs0); auto; [intros y Y; apply I; now right | intros y Y; apply CN; now right].
Qed.
End Load.
