(* Proofs about compilation databases: sessions. *)
From Coq Require Import Permutation.
From Verif Require Import Base CdbModel CdbSpec CdbProofs.

Section P.
Context {cmd : Type}.
Context (ser : bytes -> cmd -> option bytes) (out_of : bytes -> option bytes) (under : bytes -> bytes -> bool).
Context (ser_ok : forall k c j, ser k c = Some j -> line_ok out_of k j).
Notation event := (@event cmd).
Notation step := (step ser out_of under).
Notation run := (run ser out_of under).
Notation executed := (executed ser).
Notation valid := (@valid cmd ser).

Definition matchedb (k : bytes) (es : list event) : bool :=
  existsb (fun e => match e with Match k' _ => beqb k' k | _ => false end) es.
Definition changedb (k : bytes) (es : list event) : bool :=
  existsb (fun e => match e with Match k' c => beqb k' k && c | _ => false end) es.

Lemma matchedb_iff k es : matchedb k es = true <-> matched k es.
Proof.
  unfold matchedb, matched. rewrite existsb_exists. split.
  - intros (e & I & H). destruct e; try discriminate. apply beqb_eq in H. subst. eauto.
  - intros (c & I). exists (Match k c). split; [exact I | apply beqb_refl].
Qed.
Lemma changedb_iff k es : changedb k es = true <-> changed k es.
Proof.
  unfold changedb, changed. rewrite existsb_exists. split.
  - intros (e & I & H). destruct e; try discriminate. apply andb_true_iff in H as [H ->]. apply beqb_eq in H. now subst.
  - intros I. exists (Match k true). split; [exact I|]. now rewrite beqb_refl.
Qed.
Lemma matchedb_app k a c : matchedb k (a ++ c) = matchedb k a || matchedb k c.
Proof. apply existsb_app. Qed.
Lemma changedb_app k a c : changedb k (a ++ c) = changedb k a || changedb k c.
Proof. apply existsb_app. Qed.
Lemma executed_app k a c : executed k (a ++ c) = match executed k c with Some j => Some j | None => executed k a end.
Proof.
  induction a as [|e a IH]; cbn; [destruct (executed k c); reflexivity|].
  destruct e; auto. rewrite IH. destruct (executed k c); reflexivity.
Qed.

Lemma find_set k k' e (d : db) : find k (set k' e d) = if beqb k' k then match find k d with Some _ => Some e | None => None end else find k d.
Proof.
  induction d as [|[k2 e2] d IH]; cbn; [destruct (beqb k' k); reflexivity|]. destruct (beqb k2 k') eqn:E; cbn.
  - apply beqb_eq in E. subst. destruct (beqb k' k); reflexivity.
  - rewrite IH. destruct (beqb k2 k) eqn:F; [|reflexivity]. apply beqb_eq in F. subst.
    destruct (beqb k' k) eqn:G; [|reflexivity]. apply beqb_eq in G. subst. now rewrite beqb_refl in E.
Qed.
Lemma find_app {A} k (a c : list (bytes * A)) : find k (a ++ c) = match find k a with Some e => Some e | None => find k c end.
Proof. induction a as [|[k' e] a IH]; cbn; [reflexivity|]. destruct (beqb k' k); auto. Qed.
Lemma set_keys k e (d : db) : map fst (set k e d) = map fst d.
Proof. induction d as [|[k' e'] d IH]; cbn; [reflexivity|]. destruct (beqb k' k); cbn; congruence. Qed.

Definition is_absent (x : bytes * entry) : bool := match e_status (snd x) with Absent => true | _ => false end.
Definition cnt (d : db) : nat := length (filter is_absent d).
Arguments cnt : simpl never.
Definition one (e : entry) : nat := match e_status e with Absent => 1 | _ => 0 end.
Lemma cnt_cons x d : cnt (x :: d) = one (snd x) + cnt d.
Proof. unfold cnt, one. cbn. unfold is_absent at 1. destruct (e_status (snd x)); reflexivity. Qed.
Lemma cnt_app a c : cnt (a ++ c) = cnt a + cnt c.
Proof. unfold cnt. now rewrite filter_app, app_length. Qed.
Lemma cnt_set k e e0 d : find k d = Some e0 -> cnt (set k e d) + one e0 = cnt d + one e.
Proof.
  induction d as [|[k' e'] d IH]; cbn [find set]; [discriminate|]. destruct (beqb k' k).
  - intros E. injection E as ->. rewrite !cnt_cons. cbn. lia.
  - intros E. specialize (IH E). rewrite !cnt_cons. cbn. lia.
Qed.
Lemma cnt_zero d k e : cnt d = 0 -> find k d = Some e -> e_status e <> Absent.
Proof.
  intros Z F. apply find_in in F. induction d as [|x d IH]; [contradiction|]. rewrite cnt_cons in Z. destruct F as [->|F]; [|apply IH; [lia | auto]].
  cbn in Z. unfold one in Z. intros E. rewrite E in Z. discriminate.
Qed.

(* An entry during a session. *)
Definition KI (k : bytes) (old : option entry) (es : list event) (cur : option entry) : Prop :=
  match old, cur with
  | None, None => matchedb k es = false /\ executed k es = None
  | None, Some e =>
    matchedb k es = true /\ (e_status e = Missing /\ executed k es = None \/ e_status e = Changed /\ executed k es = Some (e_json e))
  | Some e0, Some e =>
    match e_status e with
    | Absent => e_status e0 = Absent /\ matchedb k es = false /\ changedb k es = false /\ executed k es = None /\ e_json e = e_json e0
    | Present => (e_status e0 = Present \/ matchedb k es = true) /\ changedb k es = false /\ e_json e = e_json e0
    | Changed => e_status e0 = Absent /\ changedb k es = true /\ e_json e = match executed k es with Some j => j | None => e_json e0 end
    | Missing => False
    end
  | Some _, None => False
  end.

Definition fresh (d : db) : Prop := forall k e, find k d = Some e -> (e_status e = Absent \/ e_status e = Present) /\ line_ok out_of k (e_json e).
Definition same (d d' : db) : Prop := forall k, option_map e_json (find k d) = option_map e_json (find k d').

Record Mid (d0 : db) (f : option bytes) (n : nat) (es : list event) (s : st) : Prop := {
  m_mode : s_mode s = Open;
  m_nest : s_nesting s = n;
  m_file : s_file s = f;
  m_keys : NoDup (map fst (s_db s));
  m_cnt : s_absent s = cnt (s_db s);
  m_ki : forall k, KI k (find k d0) es (find k (s_db s));
  m_same : s_changed s = false -> same d0 (s_db s);
  m_quiet : s_changed s = false -> forall k, changedb k es = false;
  m_line : forall k e, find k (s_db s) = Some e -> e_status e <> Missing -> line_ok out_of k (e_json e)
}.


Lemma KI_other k old es cur e : matchedb k [e] = false -> executed k [e] = None -> KI k old es cur -> KI k old (es ++ [e]) cur.
Proof.
  intros M E H. unfold KI in *. assert (C : changedb k [e] = false).
  { destruct (changedb k [e]) eqn:C; [|reflexivity]. apply changedb_iff in C. assert (matchedb k [e] = true) by (apply matchedb_iff; exists true; exact C). congruence. }
  rewrite matchedb_app, changedb_app, executed_app, M, C, E, !orb_false_r. exact H.
Qed.
Lemma neq_matched k k' c : beqb k' k = false -> matchedb k [Match k' c] = false.
Proof. intros H. cbn. now rewrite H. Qed.

Lemma step_mid d0 f n es s e s' n' : fresh d0 -> Mid d0 f n es s -> valid e -> n <> 0 -> depth n [e] = Some n' -> step s e = Some s' ->
  Mid d0 f n' (es ++ [e]) s' /\ n' <> 0.
Proof.
  intros FR M V NZ D E. destruct M as [M1 M2 M3 M4 M5 M6 M7 MQ M8]. destruct e as [|k c|k c|p]; cbn in D.
  - injection D as <-. split; [|auto]. cbn in E. unfold pre in E. rewrite M1 in E. cbn in E.
    destruct (s_nesting s) eqn:N; [congruence|]. cbn in E. injection E as <-. constructor; cbn; auto; try congruence.
    + intros k. apply KI_other; auto.
    + intros C k. rewrite changedb_app. cbn. now rewrite MQ.
  - injection D as <-. split; [|auto]. cbn in E. unfold match_ in E. rewrite M1 in E.
    destruct (find k (s_db s)) as [e|] eqn:F.
    + pose proof (M6 k) as K. rewrite F in K. destruct (e_status e) eqn:ES.
      * (* absent *) injection E as <-. cbn. destruct (find k d0) as [e0|] eqn:F0; [|cbn in K; rewrite ES in K; intuition discriminate].
        cbn in K. rewrite ES in K. destruct K as (K1 & K2 & K3 & K4 & K5).
        constructor; cbn; auto.
        -- rewrite set_keys. exact M4.
        -- pose proof (cnt_set k (mkentry (if c then Changed else Present) (e_json e)) e (s_db s) F) as Q. unfold one in Q. rewrite ES in Q.
           rewrite M5. destruct c; cbn in Q |- *; lia.
        -- intros k'. rewrite find_set. destruct (beqb k k') eqn:B.
           ++ apply beqb_eq in B. subst k'. rewrite F, F0. cbn.
              rewrite matchedb_app, changedb_app, executed_app. cbn. rewrite beqb_refl. cbn.
              destruct c; cbn; rewrite ?K3, ?K4, ?orb_true_r; auto.
           ++ apply KI_other; [now apply neq_matched | reflexivity | apply M6].
        -- intros C. apply orb_false_iff in C as [C C']. intros k'. rewrite find_set. destruct (beqb k k') eqn:B; [|apply M7; exact C].
           apply beqb_eq in B. subst k'. rewrite F, F0. cbn. now rewrite K5.
        -- intros C k'. apply orb_false_iff in C as [C C']. rewrite changedb_app, (MQ C). cbn. destruct c; [discriminate|]. now rewrite andb_false_r.
        -- intros k' e' F' S'. rewrite find_set in F'. destruct (beqb k k') eqn:B; [|eapply M8; eauto]. apply beqb_eq in B. subst k'.
           rewrite F in F'. injection F' as <-. cbn. apply M8 with (1 := F). congruence.
      * (* present *) destruct c; [discriminate|]. injection E as <-. constructor; cbn; auto.
        -- intros k'. destruct (beqb k k') eqn:B.
           ++ apply beqb_eq in B. subst k'. rewrite F. destruct (find k d0) as [e0|] eqn:F0; [|cbn in K; rewrite ES in K; intuition discriminate].
              cbn in K |- *. rewrite ES in K |- *. rewrite matchedb_app, changedb_app. cbn. rewrite beqb_refl. cbn.
              rewrite orb_true_r, orb_false_r. intuition auto.
           ++ apply KI_other; [now apply neq_matched | reflexivity | apply M6].
        -- intros C k'. rewrite changedb_app, (MQ C). cbn. now rewrite andb_false_r.
      * (* changed *) destruct c; [discriminate|]. injection E as <-. constructor; cbn; auto.
        -- intros k'. destruct (beqb k k') eqn:B.
           ++ apply beqb_eq in B. subst k'. rewrite F. destruct (find k d0) as [e0|] eqn:F0; cbn in K |- *; rewrite ES in K |- *;
              rewrite ?matchedb_app, ?changedb_app, executed_app; cbn; rewrite beqb_refl; cbn; rewrite ?orb_true_r, ?orb_false_r; intuition auto.
           ++ apply KI_other; [now apply neq_matched | reflexivity | apply M6].
        -- intros C k'. rewrite changedb_app, (MQ C). cbn. now rewrite andb_false_r.
      * discriminate.
    + injection E as <-. cbn. constructor; cbn; auto; try discriminate.
      * rewrite map_app. cbn. apply find_none in F. apply (Permutation_NoDup (Permutation_cons_append (map fst (s_db s)) k)).
        now constructor.
      * rewrite cnt_app, M5. cbn. unfold cnt. cbn. lia.
      * intros k'. rewrite find_app. cbn. destruct (beqb k k') eqn:B.
        -- apply beqb_eq in B. subst k'. rewrite F. pose proof (M6 k) as K. rewrite F in K. destruct (find k d0); [contradiction|].
           cbn in K |- *. rewrite matchedb_app, executed_app. cbn. rewrite beqb_refl, orb_true_r. destruct K as [_ ->]. auto.
        -- pose proof (M6 k') as K. apply (KI_other _ _ _ _ (Match k c)) in K; [|now apply neq_matched | reflexivity].
           destruct (find k' (s_db s)); exact K.
      * intros k' e' F' S'. rewrite find_app in F'. destruct (find k' (s_db s)) eqn:F2; [injection F' as <-; eapply M8; eauto|].
        cbn in F'. destruct (beqb k k'); [injection F' as <-; cbn in S'; congruence | discriminate].
  - injection D as <-. split; [|auto]. cbn in E. unfold execute in E. rewrite M1 in E.
    destruct (find k (s_db s)) as [e|] eqn:F; [|discriminate].
    assert (QN : s_changed s = false -> forall k', changedb k' (es ++ [Exec k c]) = false) by (intros C k'; rewrite changedb_app, (MQ C); reflexivity).
    pose proof (M6 k) as K. rewrite F in K. destruct (e_status e) eqn:ES; [discriminate| | |].
    + injection E as <-. constructor; auto. intros k'. destruct (beqb k k') eqn:B.
      * apply beqb_eq in B. subst k'. rewrite F. destruct (find k d0) as [e0|] eqn:F0; [|cbn in K; rewrite ES in K; intuition discriminate].
        cbn in K |- *. rewrite ES in K |- *. rewrite matchedb_app, changedb_app. cbn. rewrite !orb_false_r. exact K.
      * apply KI_other; [reflexivity | cbn; now rewrite B | apply M6].
    + cbn in V. destruct (ser k c) as [j|] eqn:J; [|congruence]. injection E as <-. constructor; cbn; auto.
      * rewrite set_keys. exact M4.
      * pose proof (cnt_set k (mkentry Changed j) e (s_db s) F) as Q. unfold one in Q. rewrite ES in Q. cbn in Q. lia.
      * intros k'. rewrite find_set. destruct (beqb k k') eqn:B.
        -- apply beqb_eq in B. subst k'. rewrite F. destruct (find k d0) as [e0|] eqn:F0; cbn in K |- *; rewrite ES in K;
           rewrite ?matchedb_app, ?changedb_app, executed_app; cbn; rewrite beqb_refl, J, ?orb_false_r; intuition auto.
        -- apply KI_other; [reflexivity | cbn; now rewrite B | apply M6].
      * intros C. exfalso. specialize (M7 C). destruct (find k d0) as [e0|] eqn:F0; cbn in K; rewrite ES in K.
        -- destruct K as (_ & K & _). rewrite (MQ C) in K. discriminate.
        -- specialize (M7 k). rewrite F, F0 in M7. discriminate.
      * intros k' e' F' S'. rewrite find_set in F'. destruct (beqb k k') eqn:B; [|eapply M8; eauto]. apply beqb_eq in B. subst k'.
        rewrite F in F'. injection F' as <-. cbn. eapply ser_ok. exact J.
    + cbn in V. destruct (ser k c) as [j|] eqn:J; [|congruence]. injection E as <-. constructor; cbn; auto.
      * rewrite set_keys. exact M4.
      * pose proof (cnt_set k (mkentry Changed j) e (s_db s) F) as Q. unfold one in Q. rewrite ES in Q. cbn in Q. lia.
      * intros k'. rewrite find_set. destruct (beqb k k') eqn:B.
        -- apply beqb_eq in B. subst k'. rewrite F. destruct (find k d0) as [e0|] eqn:F0; cbn in K |- *; rewrite ES in K; [contradiction|].
           rewrite matchedb_app, executed_app; cbn; rewrite beqb_refl, J, ?orb_false_r; intuition auto.
        -- apply KI_other; [reflexivity | cbn; now rewrite B | apply M6].
      * intros C. exfalso. specialize (M7 C). destruct (find k d0) as [e0|] eqn:F0; cbn in K; rewrite ES in K; [contradiction|].
        specialize (M7 k). rewrite F, F0 in M7. discriminate.
      * intros k' e' F' S'. rewrite find_set in F'. destruct (beqb k k') eqn:B; [|eapply M8; eauto]. apply beqb_eq in B. subst k'.
        rewrite F in F'. injection F' as <-. cbn. eapply ser_ok. exact J.
  - destruct n as [|[|n]]; try discriminate. injection D as <-. split; [|auto]. cbn in E. unfold post in E. rewrite M2 in E.
    injection E as <-. constructor; cbn; auto.
    + intros k. apply KI_other; auto.
    + intros C k. rewrite changedb_app, (MQ C). reflexivity.
Qed.
End P.
