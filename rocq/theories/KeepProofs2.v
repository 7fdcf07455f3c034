(* Who waits for whom, what perform_execute () has done, progress and termination. *)
From Verif Require Import Base KeepModel KeepSpec KeepProofs.

Section Proofs.
Context (g : nat -> target) (kg : bool) (groups : list (list nat)).
Local Notation Inv := (Inv g kg groups).
Local Notation step := (step g kg).

(* A busy target is waited for by perform_execute () or by a busy target. *)
Definition child (x : stage) (q : list nat) (t : nat) : Prop := In t q \/ exists ps, x = Calling t ps.
Definition mchild (m : main) (t : nat) : Prop :=
  match m with Main _ _ x q _ _ _ => In t q \/ exists ps, x = MCalling t ps | Finished _ _ => False end.
Inductive owned (s : mstate) : nat -> Prop :=
| own_main t : mchild (mn s) t -> owned s t
| own_sub u x q t : st s u = Busy x q -> child x q t -> owned s u -> owned s t.
Definition is_busy (s : mstate) (t : nat) : Prop := exists x q, st s t = Busy x q.
Definition Owned (s : mstate) : Prop := forall t, is_busy s t -> owned s t.

Lemma busy_not_done s t : is_busy s t -> done s t -> False.
Proof. intros (x & q & B) (r & D). congruence. Qed.
Lemma owned_mono s s' : 
  (forall t, mchild (mn s) t -> is_busy s' t -> mchild (mn s') t) ->
  (forall u x q t, st s u = Busy x q -> child x q t -> is_busy s' t -> exists x' q', st s' u = Busy x' q' /\ child x' q' t) ->
  forall t, owned s t -> is_busy s' t -> owned s' t.
Proof.
  intros HM HS t O. induction O as [t M|u x q t B C O IH]; intros BU.
  - apply own_main. apply HM; assumption.
  - destruct (HS u x q t B C BU) as (x' & q' & B' & C'). eapply own_sub; [exact B' | exact C'|]. apply IH. exists x', q'. exact B'.
Qed.
(* A busy target that gives up only finished targets. *)
Lemma owned_upd s t x q v m l : Owned s -> st s t = Busy x q -> mn s = m ->
  (forall u, child x q u -> done s u \/ match v with Busy x' q' => child x' q' u | _ => False end) -> Owned (mk (upd (st s) t v) m l).
Proof.
  intros O B <- H u BU. assert (BU' : is_busy s u).
  { destruct BU as (x' & q' & E). cbn in E. unfold upd in E. destruct (Nat.eqb_spec u t) as [EU|]; [rewrite EU; exists x, q; exact B | exists x', q'; exact E]. }
  apply (owned_mono s); [cbn; auto | | apply O; exact BU' | exact BU].
  intros w y r z W C Z. cbn. unfold upd at 1. destruct (Nat.eqb_spec w t) as [EW|NE].
  - rewrite EW in W. assert (y = x /\ r = q) as [-> ->] by (split; congruence). destruct (H z C) as [(k & D)|V].
    + exfalso. destruct Z as (? & ? & Z). cbn in Z. unfold upd in Z. destruct (Nat.eqb_spec z t) as [EZ|]; [rewrite EZ in D; congruence | congruence].
    + destruct v as [|x' q'|]; try contradiction. exists x', q'. split; [reflexivity | exact V].
  - exists y, r. split; [exact W | exact C].
Qed.

Lemma call_le f p c f' : call g f p c f' -> (forall t x q, f t = Busy x q -> f' t = Busy x q) /\ (forall t r, f t = Executed r -> f' t = Executed r) /\
  (forall t x q, f' t = Busy x q -> f t = Busy x q \/ t = p /\ (c = Queued \/ c = Synchronous)).
Proof.
  intros C. destruct C as [A O|A O|A O|x q A|r A].
  4, 5: repeat split; auto.
  all: split; [intros t x q E; rewrite upd_ne; [exact E | intros ->; congruence]|]; split; [intros t r E; rewrite upd_ne; [exact E | intros ->; congruence]|].
  all: intros t x q E; unfold upd in E; destruct (Nat.eqb_spec t p) as [EU|]; [|left; exact E].
  - discriminate.
  - right. split; [exact EU | left; reflexivity].
  - right. split; [exact EU | right; reflexivity].
Qed.

(* After the wait. *)
Definition waited (x : stage) : bool := match x with Completing _ _ | Running _ => true | _ => false end.
Definition Waited (s : mstate) : Prop := forall t x q, st s t = Busy x q -> waited x = true -> Forall (done s) q.
Lemma step_done s s' t r : step s s' -> st s t = Executed r -> st s' t = Executed r.
Proof.
  intros S E. destruct S as
    [u p ps q c f s B C | u p ps q k s B P | u q s B W | u p ps k x q s B P | u p ps k q s B P | u k q s B | u k q s B | u q s B W
    | top grp p ps q todo fl pf c f s M C | top grp p ps q todo fl pf k s M P | top grp q todo fl pf s M W]; cbn; try exact E.
  1: destruct (call_le _ _ _ _ C) as (CB & CD & CN); unfold upd; destruct (Nat.eqb_spec t u) as [->|]; [congruence | apply CD; exact E].
  8: destruct (call_le _ _ _ _ C) as (CB & CD & CN); apply CD; exact E.
  all: unfold upd; destruct (Nat.eqb_spec t u) as [->|]; [congruence | exact E].
Qed.
Lemma done_step s s' q : step s s' -> Forall (done s) q -> Forall (done s') q.
Proof. intros S. apply Forall_impl. intros p (r & R). exists r. eapply step_done; eassumption. Qed.
Lemma waited_step s s' : Waited s -> step s s' -> Waited s'.
Proof.
  intros WS S. pose proof (fun q => done_step s s' q S) as D.
  assert (R : forall t x q, st s' t = Busy x q -> waited x = true -> (exists x', st s t = Busy x' q /\ waited x' = true) \/ Forall (done s) q).
  { destruct S as
    [u p ps q c f s B C | u p ps q k s B P | u q s B W | u p ps k x q s B P | u p ps k q s B P | u k q s B | u k q s B | u q s B W
    | top grp p ps q todo fl pf c f s M C | top grp p ps q todo fl pf k s M P | top grp q todo fl pf s M W]; cbn; intros t y r E V.
    1: destruct (call_le _ _ _ _ C) as (CB & CD & CN).
    9: destruct (call_le _ _ _ _ C) as (CB & CD & CN).
    1-8: unfold upd in E; destruct (Nat.eqb_spec t u) as [EU|]; [rewrite EU|].
    all: try (left; eexists; split; [exact E | exact V]).
    all: try discriminate.
    - exfalso. destruct c as [| | |k]; cbn in E; injection E as <- _; try discriminate. destruct k; cbn in V; [discriminate|]. destruct kg; discriminate.
    - destruct C as [A O|A O|A O|z w A|k A]; try (left; eexists; split; [exact E | exact V]).
      all: unfold upd in E; destruct (t =? p); [|left; eexists; split; [exact E | exact V]]; try discriminate; injection E as <- _; discriminate.
    - exfalso. injection E as <- _. destruct k; cbn in V; [discriminate|]. destruct kg; discriminate.
    - right. injection E as _ <-. apply forallb_done. exact W.
    - injection E as _ <-. left. eexists. split; [exact B | reflexivity].
    - injection E as <- _. discriminate.
    - injection E as _ <-. left. eexists. split; [exact B | reflexivity].
    - destruct C as [A O|A O|A O|z w A|k A]; try (left; eexists; split; [exact E | exact V]).
      all: unfold upd in E; destruct (t =? p); [|left; eexists; split; [exact E | exact V]]; try discriminate; injection E as <- _; discriminate. }
  intros t x q E V. destruct (R t x q E V) as [(x' & E' & V')|F]; apply D; [apply (WS t x' q E' V') | exact F].
Qed.

(* Nothing is busy once perform_execute () has waited. *)
Lemma quiet s : Owned s -> (forall t, mchild (mn s) t -> done s t) -> forall t, ~ is_busy s t.
Proof.
  intros O H t B. pose proof (O t B) as OT. induction OT as [t M|u x q t E C OU IH].
  - eapply busy_not_done; [exact B | apply H; exact M].
  - apply IH. exists x, q. exact E.
Qed.
Lemma owned_step s s' : Waited s -> Owned s -> step s s' -> Owned s'.
Proof.
  intros WS O S. destruct S as
    [t p ps q c f s B C | t p ps q r s B P | t q s B W | t p ps r x q s B P | t p ps r q s B P | t r q s B | t r q s B | t q s B W
    | top grp p ps q todo fl pf c f s M C | top grp p ps q todo fl pf r s M P | top grp q todo fl pf s M W].
  - destruct (call_le _ _ _ _ C) as (CB & CD & CN). intros u (x & r & BU). cbn in BU. unfold upd in BU. destruct (Nat.eqb_spec u t) as [EU|NE].
    + subst u. apply (owned_mono s).
      * cbn. auto.
      * intros w y k z W H Z. cbn. unfold upd at 1. destruct (Nat.eqb_spec w t) as [->|NW].
        -- assert (y = Starting (p :: ps) /\ k = q) as [-> ->] by (split; congruence). destruct c as [| | |r']; cbn; eexists; eexists; (split; [reflexivity|]); destruct H as [H|(? & H)]; try discriminate; left; cbn; auto.
        -- exists y, k. split; [apply CB; exact W | exact H].
      * apply O. exists (Starting (p :: ps)), q. exact B.
      * exists x, r. cbn. unfold upd. rewrite Nat.eqb_refl. exact BU.
    + assert (OM : owned s u -> owned (mk (upd f t (after_call kg c p ps q)) (mn s) (log s)) u).
      { intros OU. apply (owned_mono s); [cbn; auto | | exact OU | exists x, r; cbn; rewrite upd_ne; assumption].
        intros w y k z W H Z. cbn. unfold upd at 1. destruct (Nat.eqb_spec w t) as [->|NW].
        - assert (y = Starting (p :: ps) /\ k = q) as [-> ->] by (split; congruence). destruct c as [| | |r']; cbn; eexists; eexists; (split; [reflexivity|]); destruct H as [H|(? & H)]; try discriminate; left; cbn; auto.
        - exists y, k. split; [apply CB; exact W | exact H]. }
      destruct (CN u x r BU) as [BU'|[-> Q]]; [apply OM, O; exists x, r; exact BU'|].
      assert (OT : owned (mk (upd f t (after_call kg c p ps q)) (mn s) (log s)) t).
      { apply (owned_mono s); [cbn; auto | | apply O; exists (Starting (p :: ps)), q; exact B |].
        - intros w y k z W H Z. cbn. unfold upd at 1. destruct (Nat.eqb_spec w t) as [->|NW].
          + assert (y = Starting (p :: ps) /\ k = q) as [-> ->] by (split; congruence). destruct c as [| | |r']; cbn; eexists; eexists; (split; [reflexivity|]); destruct H as [H|(? & H)]; try discriminate; left; cbn; auto.
          + exists y, k. split; [apply CB; exact W | exact H].
        - destruct Q as [-> | ->]; eexists; eexists; cbn; rewrite upd_eq; reflexivity. }
      destruct Q as [-> | ->]; eapply own_sub; try exact OT; cbn; rewrite ?upd_eq; try reflexivity; [left; left; reflexivity | right; eexists; reflexivity].
  - eapply owned_upd; [exact O | exact B | reflexivity|]. intros u [H|(? & H)]; [right; left; exact H|]. injection H as <- _. left. exists r. exact P.
  - eapply owned_upd; [exact O | exact B | reflexivity|]. intros u [H|(? & H)]; [right; left; exact H | discriminate].
  - eapply owned_upd; [exact O | exact B | reflexivity|]. intros u [H|(? & H)]; [right; left; exact H | discriminate].
  - eapply owned_upd; [exact O | exact B | reflexivity|]. intros u [H|(? & H)]; [right; left; exact H | discriminate].
  - eapply owned_upd; [exact O | exact B | reflexivity|]. intros u [H|(? & H)]; [right; left; exact H | discriminate].
  - eapply owned_upd; [exact O | exact B | reflexivity|]. intros u [H|(? & H)]; [left | discriminate]. specialize (WS t _ q B eq_refl). rewrite Forall_forall in WS. apply WS. exact H.
  - eapply owned_upd; [exact O | exact B | reflexivity|]. intros u [H|(? & H)]; [left | discriminate]. apply forallb_done in W. rewrite Forall_forall in W. apply W. exact H.
  - destruct (call_le _ _ _ _ C) as (CB & CD & CN). intros u (x & r & BU). cbn in BU.
    assert (HM : forall t, mchild (mn s) t -> mchild (m_after kg top grp c p ps q todo fl pf) t).
    { intros t. rewrite M. cbn. intros [H|(? & H)]; [|discriminate]. destruct c as [| | |r']; cbn; auto. }
    destruct (CN u x r BU) as [BU'|[-> Q]].
    + apply (owned_mono s); [cbn; auto | | apply O; exists x, r; exact BU' | exists x, r; exact BU].
      intros w y k z W H Z. cbn. exists y, k. split; [apply CB; exact W | exact H].
    + apply own_main. cbn. destruct Q as [-> | ->]; cbn; [left; left; reflexivity | right; eexists; reflexivity].
  - intros u BU. apply (owned_mono s); [| | apply O; exact BU | exact BU].
    + intros t. rewrite M. cbn. intros [H|(? & H)] BT; [left; exact H|]. injection H as <- _. destruct BT as (? & ? & BT). cbn in BT. congruence.
    + intros w y k z W H Z. cbn. exists y, k. split; assumption.
  - intros u BU. exfalso. apply (quiet s O) with (t := u); [|exact BU]. rewrite M. cbn. intros t [H|(? & H)]; [|discriminate]. apply forallb_done in W. rewrite Forall_forall in W. apply W. exact H.
Qed.
End Proofs.
