(* What perform_execute () has done, progress and termination. *)
From Verif Require Import Base KeepModel KeepSpec KeepProofs KeepProofs2.

Section Proofs.
Context (g : nat -> target) (kg : bool) (groups : list (list nat)).
Local Notation Inv := (Inv g kg groups).
Local Notation step := (step g kg).

Definition bad (s : mstate) (l : list nat) : Prop := exists t, In t l /\ st s t = Executed None.
Definition flags (s : mstate) (fl pf : bool) : Prop := (fl = true -> bad s (hd [] groups)) /\ (pf = true -> bad s (concat (tl groups))).
Definition main_ok (s : mstate) : Prop :=
  match mn s with
  | Main top grp x q todo fl pf =>
      flags s fl pf /\
      (exists dn, groups = dn ++ grp :: todo /\ Forall (done s) (concat dn) /\ (if top then dn = [] /\ pf = false else dn <> []) /\
                  (pf = false -> Forall (good s) (concat (tl dn)))) /\
      Forall (started s) q /\
      (kg = false -> pf = true -> x = MStarting []) /\
      match x with
      | MStarting rest => (exists d, grp = d ++ rest /\ Forall (started s) d) \/ rest = [] /\ kg = false /\ (if top then fl else pf) = true
      | MCalling p rest => exists d, grp = d ++ p :: rest /\ Forall (started s) d /\ started s p
      end
  | Finished fl pf =>
      flags s fl pf /\ (forall t, ~ is_busy s t) /\
      (kg = false /\ (fl = true \/ pf = true) \/ Forall (done s) (concat groups) /\ (pf = false -> Forall (good s) (concat (tl groups))))
  end.

Lemma step_started s s' t : step s s' -> started s t -> started s' t.
Proof.
  unfold started. intros S E. destruct S as
    [u p ps q c f s B C | u p ps q k s B P | u q s B W | u p ps k x q s B P | u p ps k q s B P | u k q s B | u k q s B | u q s B W
    | top grp p ps q todo fl pf c f s M C | top grp p ps q todo fl pf k s M P | top grp q todo fl pf s M W]; cbn; try exact E.
  1: destruct (call_le g _ _ _ _ C) as (CB & CD & CN).
  9: destruct (call_le g _ _ _ _ C) as (CB & CD & CN).
  1-8: unfold upd; destruct (Nat.eqb_spec t u) as [->|]; [try destruct c; discriminate|].
  2-8: exact E.
  all: destruct (st s t) as [|x q'|r] eqn:F; [contradiction | rewrite (CB _ _ _ F); discriminate | rewrite (CD _ _ F); discriminate].
Qed.
Lemma started_step s s' l : step s s' -> Forall (started s) l -> Forall (started s') l.
Proof. intros S. apply Forall_impl. intros p. apply step_started. exact S. Qed.
Lemma good_step s s' l : step s s' -> Forall (good s) l -> Forall (good s') l.
Proof. intros S. apply Forall_impl. intros p (x & X). exists x. eapply step_done; eassumption. Qed.
Lemma bad_step s s' l : step s s' -> bad s l -> bad s' l.
Proof. intros S (t & I & E). exists t. split; [exact I | eapply step_done; eassumption]. Qed.
Lemma flags_step s s' fl pf : step s s' -> flags s fl pf -> flags s' fl pf.
Proof. intros S [A B]. split; intros H; eapply bad_step; eauto. Qed.

Lemma main_same s s' : step s s' -> mn s' = mn s -> (forall fl pf, mn s <> Finished fl pf) -> main_ok s -> main_ok s'.
Proof.
  intros S E NF. unfold main_ok. rewrite E. destruct (mn s) as [top grp x q todo fl pf|fl pf] eqn:M.
  - intros (F & (dn & EG & DN & T & G) & Q & KP & X). split; [eapply flags_step; eassumption|]. split.
    { exists dn. split; [exact EG|]. split; [eapply done_step; eassumption|]. split; [exact T|]. intros P. eapply good_step; eauto. }
    split; [eapply started_step; eassumption|]. split; [exact KP|].
    destruct x as [rest|p rest].
    + destruct X as [(d & ED & SD)|X]; [left; exists d; split; [exact ED | eapply started_step; eassumption] | right; exact X].
    + destruct X as (d & ED & SD & SP). exists d. split; [exact ED|]. split; [eapply started_step; eassumption | eapply step_started; eassumption].
  - intros (F & NB & X). destruct (NF fl pf eq_refl).
Qed.

Lemma concat_in (l : list (list nat)) x t : In x l -> In t x -> In t (concat l).
Proof. intros A B. apply in_concat. exists x. split; assumption. Qed.
Lemma in_groups dn grp todo t : groups = dn ++ grp :: todo -> In t grp -> In t (concat groups).
Proof. intros -> I. rewrite concat_app. cbn. apply in_app_iff. right. apply in_app_iff. left. exact I. Qed.
Lemma in_tl dn grp todo t : groups = dn ++ grp :: todo -> dn <> [] -> In t grp -> In t (concat (tl groups)).
Proof. intros -> N I. destruct dn as [|x dn]; [contradiction|]. cbn. rewrite concat_app. cbn. apply in_app_iff. right. apply in_app_iff. left. exact I. Qed.

(* The next list, or the end. *)
Lemma next_ok s dn grp todo fl pf l : groups = dn ++ grp :: todo -> Forall (done s) (concat (dn ++ [grp])) -> flags s fl pf -> (forall t, ~ is_busy s t) ->
  (pf = false -> Forall (good s) (concat (tl (dn ++ [grp])))) -> (kg = true \/ pf = false) -> main_ok (mk (st s) (next_list todo fl pf) l).
Proof.
  intros EG D F NB G K. unfold main_ok. destruct todo as [|x todo]; cbn.
  - split; [exact F|]. split; [exact NB|]. right. rewrite <- EG in D, G. split; [exact D | exact G].
  - split; [exact F|]. split.
    { exists (dn ++ [grp]). split; [rewrite <- app_assoc; exact EG|]. split; [exact D|]. split; [destruct dn; discriminate | exact G]. }
    split; [constructor|]. split; [intros K1 K2; destruct K; congruence|]. left. exists []. split; [reflexivity | constructor].
Qed.

Lemma started_quiet s l : (forall t, ~ is_busy s t) -> Forall (started s) l -> Forall (done s) l.
Proof. intros NB. apply Forall_impl. intros t S. unfold started in S. destruct (st s t) as [|x q|r] eqn:E; [contradiction | destruct (NB t); exists x, q; exact E | exists r; exact E]. Qed.

Lemma main_step s s' : Inv s -> Owned s -> step s s' -> main_ok s -> main_ok s'.
Proof.
  intros I O S OK. pose proof S as S0. destruct S as
    [u p ps q c f s B C | u p ps q k s B P | u q s B W | u p ps k x q s B P | u p ps k q s B P | u k q s B | u k q s B | u q s B W
    | top grp p ps q todo fl pf c f s M C | top grp p ps q todo fl pf k s M P | top grp q todo fl pf s M W].
  1-8: eapply main_same; [exact S0 | reflexivity | | exact OK]; intros fl pf E; unfold main_ok in OK; rewrite E in OK; destruct OK as (_ & NB & _); apply (NB u); eexists; eexists; exact B.
  - unfold main_ok in OK. rewrite M in OK. destruct OK as (F & (dn & EG & DN & T & G) & Q & KP & X).
    assert (exists d, grp = d ++ p :: ps /\ Forall (started s) d) as (d & ED & SD) by (destruct X as [X|[X _]]; [exact X | discriminate]).
    destruct (inv_call g kg groups s p c f I C) as (I' & L & SP & R & BU); [apply need_top; eapply in_groups; [exact EG | rewrite ED; apply in_elt]|].
    assert (PF : kg = false -> pf = false) by (intros K; destruct pf; [specialize (KP K eq_refl); discriminate | reflexivity]).
    assert (F' : forall m, flags (mk f m (log s)) fl pf) by (intros m; destruct F as [F1 F2]; split; intros H; [destruct (F1 H) as (t & T1 & T2) | destruct (F2 H) as (t & T1 & T2)]; exists t; (split; [exact T1 | apply (le_done _ _ L); exact T2])).
    assert (DN' : forall m, exists dn, groups = dn ++ grp :: todo /\ Forall (done (mk f m (log s))) (concat dn) /\ (if top then dn = [] /\ pf = false else dn <> []) /\ (pf = false -> Forall (good (mk f m (log s))) (concat (tl dn)))).
    { intros m. exists dn. split; [exact EG|]. split; [revert DN; apply Forall_impl; intros t (r & E); exists r; apply (le_done _ _ L); exact E|]. split; [exact T|].
      intros H. specialize (G H). revert G. apply Forall_impl. intros t (r & E). exists r. apply (le_done _ _ L). exact E. }
    assert (SD' : forall m, Forall (started (mk f m (log s))) d) by (intros m; revert SD; apply Forall_impl; intros t; apply (le_started _ _ L)).
    assert (Q' : forall m, Forall (started (mk f m (log s))) q) by (intros m; revert Q; apply Forall_impl; intros t; apply (le_started _ _ L)).
    assert (ED' : grp = (d ++ [p]) ++ ps) by (rewrite <- app_assoc; exact ED).
    assert (SDP : forall m, Forall (started (mk f m (log s))) (d ++ [p])) by (intros m; apply Forall_app; split; [apply SD' | repeat constructor; exact SP]).
    destruct c as [| | |r]; unfold main_ok; cbn [m_after mn].
    + split; [apply F'|]. split; [apply DN'|]. split; [constructor; [exact SP | apply Q']|]. split; [intros K1 K2; rewrite (PF K1) in K2; discriminate|]. left. exists (d ++ [p]). split; [exact ED' | apply SDP].
    + split; [apply F'|]. split; [apply DN'|]. split; [apply Q'|]. split; [intros K1 K2; rewrite (PF K1) in K2; discriminate|]. exists d. split; [exact ED|]. split; [apply SD' | exact SP].
    + split; [apply F'|]. split; [apply DN'|]. split; [apply Q'|]. split; [intros K1 K2; rewrite (PF K1) in K2; discriminate|]. left. exists (d ++ [p]). split; [exact ED' | apply SDP].
    + assert (BP : r = None -> forall m l, In p l -> bad (mk f m (log s)) l) by (intros -> m l IL; exists p; split; [exact IL | exact R]).
      assert (IG : In p grp) by (rewrite ED; apply in_elt).
      split.
      { destruct (F' (m_after kg top grp (Returned r) p ps q todo fl pf)) as [F1 F2]. split; intros H; apply orb_prop in H as [H|H].
        - apply F1; exact H.
        - apply andb_prop in H as [H1 H2]. subst top. destruct T as [-> _]. apply BP; [destruct r; [discriminate | reflexivity]|]. rewrite EG. exact IG.
        - apply F2; exact H.
        - apply andb_prop in H as [H1 H2]. apply negb_true_iff in H1. subst top. apply BP; [destruct r; [discriminate | reflexivity]|]. eapply in_tl; eassumption. }
      split.
      { destruct (DN' (m_after kg top grp (Returned r) p ps q todo fl pf)) as (dn' & E1 & E2 & E3 & E4). exists dn'. split; [exact E1|]. split; [exact E2|]. split.
        - destruct top; [|exact E3]. destruct E3 as [-> ->]. split; reflexivity.
        - intros H. apply orb_false_elim in H as [H _]. apply E4. exact H. }
      split; [apply Q'|]. split.
      * intros K1 K2. rewrite (PF K1) in K2. cbn in K2. apply andb_prop in K2 as [_ K2]. destruct r; [discriminate|]. cbn. rewrite K1. reflexivity.
      * destruct r as [y|]; cbn [m_return]; [left; exists (d ++ [p]); split; [exact ED' | apply SDP]|]. destruct kg eqn:K; [left; exists (d ++ [p]); split; [exact ED' | apply SDP]|].
        right. split; [reflexivity|]. split; [reflexivity|]. cbn. destruct top; cbn; rewrite orb_true_r; reflexivity.
  - unfold main_ok in OK. rewrite M in OK. destruct OK as (F & (dn & EG & DN & T & G) & Q & KP & (d & ED & SD & SP)).
    assert (PF : kg = false -> pf = false) by (intros K; destruct pf; [specialize (KP K eq_refl); discriminate | reflexivity]).
    assert (ED' : grp = (d ++ [p]) ++ ps) by (rewrite <- app_assoc; exact ED).
    assert (SDP : Forall (started s) (d ++ [p])) by (apply Forall_app; split; [exact SD | repeat constructor; exact SP]).
    assert (BP : k = None -> forall l, In p l -> bad s l) by (intros -> l IL; exists p; split; [exact IL | exact P]).
    assert (IG : In p grp) by (rewrite ED; apply in_elt).
    unfold main_ok; cbn [m_after mn]. split.
    { destruct F as [F1 F2]. split; intros H; apply orb_prop in H as [H|H].
      - apply F1; exact H.
      - apply andb_prop in H as [H1 H2]. subst top. destruct T as [-> _]. apply BP; [destruct k; [discriminate | reflexivity]|]. rewrite EG. exact IG.
      - apply F2; exact H.
      - apply andb_prop in H as [H1 H2]. apply negb_true_iff in H1. subst top. apply BP; [destruct k; [discriminate | reflexivity]|]. eapply in_tl; eassumption. }
    split.
    { exists dn. split; [exact EG|]. split; [exact DN|]. split.
      - destruct top; [|exact T]. destruct T as [-> ->]. split; reflexivity.
      - intros H. apply orb_false_elim in H as [H _]. apply G. exact H. }
    split; [exact Q|]. split.
    + intros K1 K2. rewrite (PF K1) in K2. cbn in K2. apply andb_prop in K2 as [_ K2]. destruct k; [discriminate|]. cbn. rewrite K1. reflexivity.
    + destruct k as [y|]; cbn [m_return]; [left; exists (d ++ [p]); split; [exact ED' | exact SDP]|]. destruct kg eqn:K; [left; exists (d ++ [p]); split; [exact ED' | exact SDP]|].
      right. split; [reflexivity|]. split; [reflexivity|]. cbn. destruct top; cbn; rewrite orb_true_r; reflexivity.
  - unfold main_ok in OK. rewrite M in OK. destruct OK as (F & (dn & EG & DN & T & G) & Q & KP & X).
    assert (NB : forall t, ~ is_busy s t).
    { apply (quiet s O). rewrite M. cbn. intros t [H|(? & H)]; [|discriminate]. apply forallb_done in W. rewrite Forall_forall in W. apply W. exact H. }
    assert (FIN : forall fl' pf', flags s fl' pf' -> kg = false -> fl' = true \/ pf' = true -> main_ok (mk (st s) (Finished fl' pf') (log s))).
    { intros fl' pf' F' K1 K2. unfold main_ok. cbn. split; [exact F'|]. split; [exact NB|]. left. split; assumption. }
    destruct top; unfold m_waited; cbn [mn].
    + destruct T as [-> ->]. destruct (negb fl || kg) eqn:NK.
      * apply (next_ok s [] grp todo fl false); try assumption; [| right; reflexivity]. cbn. rewrite app_nil_r. apply (started_quiet _ _ NB).
        destruct X as [(d & ED & SD)|(_ & K1 & K2)]; [rewrite app_nil_r in ED; subst d; exact SD|]. rewrite K1, K2 in NK. discriminate.
      * apply orb_false_elim in NK as [N1 N2]. apply negb_false_iff in N1. apply FIN; auto.
    + set (pf' := pf || existsb (fun t => is_failed (st s t)) grp).
      assert (F' : flags s fl pf').
      { destruct F as [F1 F2]. split; [exact F1|]. unfold pf'. intros H. apply orb_prop in H as [H|H]; [apply F2; exact H|]. apply existsb_exists in H as (t & I1 & I2).
        exists t. split; [eapply in_tl; eassumption|]. destruct (st s t) as [| |[|]]; try discriminate. reflexivity. }
      destruct (pf' && negb kg) eqn:NK.
      * apply andb_prop in NK as [N1 N2]. apply negb_true_iff in N2. apply FIN; auto.
      * assert (KO : kg = true \/ pf' = false) by (apply andb_false_elim in NK as [|NK]; [right; assumption | left; apply negb_false_iff in NK; exact NK]).
        assert (DG : Forall (done s) grp).
        { apply (started_quiet _ _ NB). destruct X as [(d & ED & SD)|(_ & K1 & K2)]; [rewrite app_nil_r in ED; subst d; exact SD|].
          exfalso. unfold pf' in KO. rewrite K2 in KO. destruct KO; [congruence | discriminate]. }
        apply (next_ok s dn grp todo fl pf'); try assumption.
        -- rewrite concat_app. apply Forall_app. split; [exact DN|]. cbn. rewrite app_nil_r. exact DG.
        -- intros H. unfold pf' in H. apply orb_false_elim in H as [H1 H2]. destruct dn as [|x dn]; [contradiction|]. cbn. rewrite concat_app. apply Forall_app. split; [apply G; exact H1|].
           cbn. rewrite app_nil_r. apply Forall_forall. intros t IT. rewrite Forall_forall in DG. destruct (DG t IT) as ([y|] & E); [exists y; exact E|].
           exfalso. apply Bool.not_true_iff_false in H2. apply H2. apply existsb_exists. exists t. split; [exact IT | rewrite E; reflexivity].
Qed.
End Proofs.
