From Verif Require Import Base ImpModel DistModel DistSpec.
From Coq Require Import Lia Wellfounded.

Lemma mem_in n l : mem n l = true <-> In n l.
Proof.
  unfold mem. rewrite existsb_exists. split.
  - intros (x & I & E). apply Nat.eqb_eq in E. now subst.
  - intros I. exists n. split; [exact I | apply Nat.eqb_refl].
Qed.
Lemma mem_not n l : mem n l = false <-> ~ In n l.
Proof. rewrite <- mem_in. destruct (mem n l); split; congruence. Qed.
Lemma dir_eqb_iff a c : dir_eqb a c = true <-> a = c.
Proof.
  revert c. induction a as [|x a IH]; intros [|y c]; cbn; try (split; congruence). rewrite andb_true_iff, IH, beqb_eq. split; [intros [-> ->]; reflexivity | intros E; now injection E].
Qed.
Lemma sub_under p d : sub p d = true <-> under p d.
Proof.
  revert p. induction d as [|y d IH]; intros p; [split; [intros _; now exists p | intros _; now destruct p]|]. destruct p as [|x p]; cbn [sub].
  - split; [discriminate | intros (s & E); discriminate].
  - rewrite andb_true_iff, IH, beqb_eq. split; [intros [-> (s & ->)]; now exists s | intros (s & E); injection E as -> ->; split; [reflexivity | now exists s]].
Qed.

Section Match.
Context (out_root : list bytes) (tdir : nat -> list bytes) (prereqs : nat -> list prereq) (enters : nat -> list nat) (ks : list nat) (root : nat).
Notation matching := (matching out_root tdir prereqs enters).
Notation apply1 := (apply1 out_root tdir prereqs enters).
Notation again := (again out_root tdir prereqs enters).
Notation mstep := (mstep out_root tdir prereqs enters).
Notation msteps := (msteps out_root tdir prereqs enters).
Notation start := (start prereqs enters ks root).
Notation reached := (reached out_root tdir prereqs enters ks root).
Notation declared := (declared out_root tdir prereqs enters ks root).
Notation names := (names out_root tdir prereqs enters ks root).

(* What has been found for a prerequisite. *)
Definition done (s : mstate) (p : prereq) : Prop :=
  (exists x, (x = p_out p \/ p_file p = true /\ p_src p = Some x) /\ In x (known s) /\ (under (tdir x) out_root -> In x (matched s))) \/
  p_file p = true /\ p_outside p = true /\ p_src p = None.
Definition le (s s' : mstate) : Prop := incl (known s) (known s') /\ incl (matched s) (matched s').
Lemma done_le s s' p : le s s' -> done s p -> done s' p.
Proof. intros [K M] [(x & A & B & C)|D]; [left; exists x; auto | now right]. Qed.

Definition Inv (s : mstate) : Prop :=
  (forall t, In t (matched s) -> reached t /\ incl (enters t) (known s) /\
     forall p, In p (prereqs t) -> used p -> In p (pend s) \/ In p (post s) \/ done s p) /\
  (forall x, In x (known s) -> declared x) /\ incl ks (known s) /\ In root (matched s) /\
  (forall p, In p (pend s) -> exists t, reached t /\ In p (prereqs t)) /\
  (forall p, In p (post s) -> exists t, reached t /\ In p (prereqs t) /\ used p /\ p_file p = true /\ p_outside p = false).

Lemma inv_start : Inv start.
Proof.
  unfold DistModel.start. split; [|split; [|split; [|split; [|split]]]]; cbn.
  - intros t [<-|[]]. split; [constructor|]. split; [apply incl_appl, incl_refl | tauto].
  - intros x I. apply in_app_or in I as [I|I]; [eapply d_enters; [constructor | exact I] | now constructor].
  - apply incl_appr, incl_refl.
  - now left.
  - intros p I. exists root. split; [constructor | exact I].
  - contradiction.
Qed.

(* The target found for a prerequisite is entered and matched. *)
Lemma inv_found s p x t : Inv (mkm (known s) (matched s) (p :: pend s) (post s)) \/ Inv (mkm (known s) (matched s) (pend s) (p :: post s)) ->
  reached t -> In p (prereqs t) -> used p -> names p x -> (x = p_out p \/ p_file p = true /\ p_src p = Some x) -> Inv (matching (enter s x) x).
Proof.
  intros H R I U N NX.
  assert (H' : (forall t, In t (matched s) -> reached t /\ incl (enters t) (known s) /\
     forall q, In q (prereqs t) -> used q -> q = p \/ In q (pend s) \/ In q (post s) \/ done s q) /\
    (forall y, In y (known s) -> declared y) /\ incl ks (known s) /\ In root (matched s) /\
    (forall q, In q (pend s) -> exists t, reached t /\ In q (prereqs t)) /\
    (forall q, In q (post s) -> exists t, reached t /\ In q (prereqs t) /\ used q /\ p_file q = true /\ p_outside q = false)).
  { destruct H as [(A & B & C & D & E & F)|(A & B & C & D & E & F)]; cbn in *.
    - split; [|auto 10]. intros u V. destruct (A u V) as (A1 & A2 & A3). split; [exact A1|]. split; [exact A2|]. intros q Q W.
      destruct (A3 q Q W) as [[->|G]|[G|G]]; [now left | right; now left | right; right; now left | right; right; right; exact G].
    - split; [|auto 10]. intros u V. destruct (A u V) as (A1 & A2 & A3). split; [exact A1|]. split; [exact A2|]. intros q Q W.
      destruct (A3 q Q W) as [G|[[->|G]|G]]; [right; now left | now left | right; right; now left | right; right; right; exact G]. }
  clear H. destruct H' as (A & B & C & D & E & F).
  assert (DX : declared x) by (eapply d_named; eauto).
  unfold DistModel.matching, enter. cbn [known matched pend post]. destruct (sub (tdir x) out_root && negb (mem x (matched s))) eqn:M.
  - apply andb_true_iff in M as [M1 M2]. apply sub_under in M1. assert (RX : reached x) by (eapply r_via; eauto).
    assert (L : le s (mkm (enters x ++ x :: known s) (x :: matched s) (pend s ++ prereqs x) (post s))).
    { split; cbn; [intros y Y; apply in_or_app; right; now right | intros y Y; now right]. }
    split; [|split; [|split; [|split; [|split]]]]; cbn.
    + intros u [<-|V].
      * split; [exact RX|]. split; [apply incl_appl, incl_refl|]. intros q Q W. left. apply in_or_app. now right.
      * destruct (A u V) as (A1 & A2 & A3). split; [exact A1|]. split; [intros y Y; apply in_or_app; right; right; auto|]. intros q Q W.
        destruct (A3 q Q W) as [->|[G|[G|G]]]; [right; right; left; exists x; cbn | left; apply in_or_app; now left | right; now left | right; right; eapply done_le; eauto].
        split; [exact NX|]. split; [apply in_or_app; right; now left | now left].
    + intros y Y. apply in_app_or in Y as [Y|[<-|Y]]; [eapply d_enters; eauto | exact DX | auto].
    + intros y Y. apply in_or_app. right. right. auto.
    + now right.
    + intros q Q. apply in_app_or in Q as [Q|Q]; [auto | exists x; auto].
    + exact F.
  - assert (L : le s (mkm (x :: known s) (matched s) (pend s) (post s))) by (split; cbn; [intros y Y; now right | intros y Y; exact Y]).
    split; [|split; [|split; [|split; [|split]]]]; cbn.
    + intros u V. destruct (A u V) as (A1 & A2 & A3). split; [exact A1|]. split; [intros y Y; right; auto|]. intros q Q W.
      destruct (A3 q Q W) as [->|[G|[G|G]]]; [right; right; left; exists x; cbn | now left | right; now left | right; right; eapply done_le; eauto].
      split; [exact NX|]. split; [now left|]. intros O. apply sub_under in O. rewrite O in M. cbn in M. apply negb_false_iff in M. now apply mem_in.
    + intros y [<-|Y]; auto.
    + intros y Y. right. auto.
    + exact D.
    + exact E.
    + exact F.
Qed.

Lemma search_names s p x : (forall y, In y (known s) -> declared y) -> p_file p = true -> search (known s) p = Some x ->
  names p x /\ (x = p_out p \/ p_file p = true /\ p_src p = Some x).
Proof.
  intros K F. unfold search. destruct (mem (p_out p) (known s)) eqn:M.
  - intros E. injection E as <-. apply mem_in in M. split; [apply n_target; auto | now left].
  - intros E. split; [now apply n_source | auto].
Qed.
Lemma inv_pend s l1 p l2 : Inv s -> pend s = l1 ++ p :: l2 -> Inv (apply1 (mkm (known s) (matched s) (l1 ++ l2) (post s)) p).
Proof.
  intros H P. pose proof H as (A & B & C & D & E & F).
  assert (H1 : Inv (mkm (known s) (matched s) (p :: l1 ++ l2) (post s))).
  { assert (Q : forall q, In q (pend s) <-> In q (p :: l1 ++ l2)).
    { intros q. rewrite P. cbn. rewrite !in_app_iff. cbn. tauto. }
    split; [|split; [|split; [|split; [|split]]]]; try exact B; try exact C; try exact D; try exact F.
    - intros t T. destruct (A t T) as (A1 & A2 & A3). split; [exact A1|]. split; [exact A2|]. intros q I U. destruct (A3 q I U) as [G|G]; [left; cbn; now apply Q | now right].
    - intros q I. apply E, Q, I. }
  destruct (E p) as (t & R & I); [rewrite P; apply in_or_app; right; now left|].
  (* a prerequisite that is not used or needs nothing *)
  assert (DROP : (used p -> done s p) -> Inv (mkm (known s) (matched s) (l1 ++ l2) (post s))).
  { intros U. destruct H1 as (A' & B' & C' & D' & E' & F'). split; [|split; [|split; [|split; [|split]]]]; try exact B; try exact C; try exact D; try exact F.
    - intros u V. destruct (A' u V) as (A1 & A2 & A3). split; [exact A1|]. split; [exact A2|]. intros q Q W.
      destruct (A3 q Q W) as [[->|G]|G]; [right; right; apply (done_le s); [split; apply incl_refl | auto] | now left | now right].
    - intros q Q. apply E'. now right. }
  unfold DistModel.apply1. destruct (p_posthoc p) eqn:PH; [apply DROP; intros [U _]; congruence|].
  destruct (p_proj p) eqn:PJ; [apply DROP; intros [_ U]; congruence|]. assert (U : used p) by now split.
  destruct (p_file p) eqn:PF.
  - cbn [known]. destruct (search (known s) p) as [x|] eqn:SE.
    + destruct (search_names s p x B PF SE) as [N NX]. eapply (inv_found (mkm (known s) (matched s) (l1 ++ l2) (post s)) p x t); auto.
    + destruct (p_outside p) eqn:PO.
      * apply DROP. intros _. right. split; [exact PF|]. split; [exact PO|]. unfold search in SE. destruct (mem (p_out p) (known s)); [discriminate | exact SE].
      * destruct H1 as (A' & B' & C' & D' & E' & F'). split; [|split; [|split; [|split; [|split]]]]; try exact B; try exact C; try exact D; cbn.
        -- intros u V. destruct (A' u V) as (A1 & A2 & A3). split; [exact A1|]. split; [exact A2|]. intros q Q W.
           destruct (A3 q Q W) as [[->|G]|[G|G]]; [right; left; apply in_or_app; right; now left | now left | right; left; apply in_or_app; now left | right; right; exact G].
        -- intros q Q. apply E'. now right.
        -- intros q Q. apply in_app_or in Q as [Q|[<-|[]]]; [now apply F | exists t; auto].
  - eapply (inv_found (mkm (known s) (matched s) (l1 ++ l2) (post s)) p (p_out p) t); auto. now constructor.
Qed.
Lemma inv_post s p ps s' : Inv s -> pend s = [] -> post s = p :: ps -> again (mkm (known s) (matched s) [] ps) p = Some s' -> Inv s'.
Proof.
  intros H P Q. unfold DistModel.again. cbn [known]. destruct (search (known s) p) as [x|] eqn:SE; [|discriminate]. intros G. injection G as <-.
  pose proof H as (A & B & C & D & E & F). destruct (F p) as (t & R & I & U & PF & PO); [rewrite Q; now left|].
  destruct (search_names s p x B PF SE) as [N NX].
  apply (inv_found (mkm (known s) (matched s) [] ps) p x t); auto. right. cbn. rewrite <- Q, <- P. now destruct s.
Qed.
Lemma inv_step s s' : Inv s -> mstep s (Some s') -> Inv s'.
Proof. intros H M. inversion M as [l1 p l2 P Q | p ps P Q G]; subst; [eapply inv_pend; eauto | eapply inv_post; eauto]. Qed.
Lemma inv_steps s r : msteps s r -> Inv s -> forall s', r = Some s' -> Inv s'.
Proof. induction 1 as [s|s s1 r M _ IH|s _]; intros H s' E; [now injection E as <- | apply IH; [eapply inv_step; eauto | exact E] | discriminate]. Qed.

(* At the end. *)
Hypothesis outside_ok : forall t p, In p (prereqs t) -> p_outside p = true -> ~ under (tdir (p_out p)) out_root.
Scheme reached_min := Minimality for DistSpec.reached Sort Prop
  with names_min := Minimality for DistSpec.names Sort Prop
  with declared_min := Minimality for DistSpec.declared Sort Prop.
Combined Scheme reach_ind from reached_min, names_min, declared_min.

Lemma final_done s t p : Inv s -> finished s -> In t (matched s) -> In p (prereqs t) -> used p -> done s p.
Proof. intros (A & _) [P Q] T I U. destruct (A t T) as (_ & _ & A3). destruct (A3 p I U) as [G|[G|G]]; [rewrite P in G; contradiction | rewrite Q in G; contradiction | exact G]. Qed.

Lemma final_complete s : one_of out_root tdir prereqs enters ks root -> Inv s -> finished s ->
  (forall t, reached t -> reached t /\ In t (matched s)) /\
  (forall p x, names p x -> p_file p = false /\ x = p_out p \/ p_file p = true /\ x = p_out p /\ declared (p_out p) /\ In (p_out p) (known s) \/ p_file p = true /\ p_src p = Some x) /\
  (forall x, declared x -> declared x /\ In x (known s)).
Proof.
  intros ONE H FI. pose proof H as (A & B & C & D & _).
  assert (V : forall t p x, reached t -> In t (matched s) -> In p (prereqs t) -> used p ->
    p_file p = false /\ x = p_out p \/ p_file p = true /\ x = p_out p /\ declared (p_out p) /\ In (p_out p) (known s) \/ p_file p = true /\ p_src p = Some x ->
    In x (known s) /\ (under (tdir x) out_root -> In x (matched s))).
  { intros t p x R T I U N. destruct (final_done s t p H FI T I U) as [(y & Y & K & M)|(F & O & S)].
    - assert (x = y); [|subst; auto]. destruct N as [[F ->]|[(F & -> & DX & K')|[F SX]]].
      + destruct Y as [->|[F' _]]; [reflexivity | congruence].
      + destruct Y as [->|[_ SY]]; [reflexivity|]. exact (ONE t p y R I SY DX).
      + destruct Y as [->|[_ SY]]; [|congruence]. symmetry. apply (ONE t p x R I SX). now apply B.
    - destruct N as [[F' _]|[(_ & -> & _ & K')|[_ SX]]]; [congruence | | congruence]. split; [exact K' | intros Z; exfalso; eapply outside_ok; eauto]. }
  apply (reach_ind out_root tdir prereqs enters ks root
    (fun t => reached t /\ In t (matched s))
    (fun p x => p_file p = false /\ x = p_out p \/ p_file p = true /\ x = p_out p /\ declared (p_out p) /\ In (p_out p) (known s) \/ p_file p = true /\ p_src p = Some x)
    (fun x => declared x /\ In x (known s))).
  - split; [constructor | exact D].
  - intros t p x R [_ T] I U N NX O. split; [eapply r_via; eauto | eapply V; eauto].
  - auto.
  - intros p F DX [_ K]. auto 6.
  - auto.
  - intros x I. split; [now constructor | auto].
  - intros t x R [_ T] I. split; [eapply d_enters; eauto | destruct (A t T) as (_ & A2 & _); auto].
  - intros t p x R [_ T] I U N NX. split; [eapply d_named; eauto | eapply V; eauto].
Qed.
End Match.
