(* Proofs about compilation databases: assertions, failures, being current, printing, filtering. *)
From Verif Require Import Base CdbModel CdbSpec CdbProofs CdbProofs2 CdbProofs3.

Section P.
Context {cmd : Type}.
Context (ser : bytes -> cmd -> option bytes) (out_of : bytes -> option bytes) (under : bytes -> bytes -> bool).
Context (ser_ok : forall k c j, ser k c = Some j -> line_ok out_of k j).
Notation event := (@event cmd).
Notation step := (step ser out_of under).
Notation run := (run ser out_of under).
Notation executed := (executed ser).
Notation Mid := (@Mid cmd ser out_of).
Notation fresh := (fresh out_of).
Notation valid := (@valid cmd ser).
Notation Ready := (Ready out_of).

Lemma start_ready f l : holds out_of f l -> Ready (fun _ => False) l (start f).
Proof. intros H. right. split; [auto|]. eauto. Qed.

Lemma start_pre f l : holds out_of f l -> exists s1, pre out_of (start f) = Some s1.
Proof.
  intros _. destruct f as [f|]; unfold pre; cbn -[read]; [destruct (read out_of f)|]; eauto.
Qed.

(* No assertion. *)
Lemma run_total d0 f (s0 : st) es : fresh d0 -> (forall k e, find k d0 = Some e -> e_status e = Absent) ->
  forall a c n s, es = a ++ c -> (forall a c k ch, es = a ++ Match k ch :: c -> ~ matched k a) ->
  (forall a c k x, es = a ++ Exec k x :: c -> matched k a) -> Mid d0 f n a s -> Forall valid c -> n <> 0 -> forall n', depth n c = Some n' ->
  exists s', run s c = Some s'.
Proof.
  intros FR AB a c. revert a. induction c as [|e c IH]; intros a n s E H1 H2 M V NZ n' D; [cbn; eauto|].
  inversion V as [|? ? V1 V2]; subst.
  assert (D1 : exists n1, depth n [e] = Some n1 /\ depth n1 c = Some n').
  { destruct e; cbn in D |- *; eauto. destruct n as [|[|n]]; try discriminate. eauto. }
  destruct D1 as (n1 & D1 & D2). assert (S1 : exists s1, step s e = Some s1).
  { pose proof M as [M1 M2 M3 M4 M5 M6 M7 MQ M8]. destruct e as [|k ch|k x|p]; cbn.
    - unfold pre. rewrite M1. cbn. destruct (s_nesting s); [congruence|]. cbn. eauto.
    - unfold match_. rewrite M1. specialize (M6 k). destruct (find k (s_db s)) as [e|] eqn:F; [|eauto].
      assert (NM : matchedb k a = false) by (destruct (matchedb k a) eqn:Q; [apply matchedb_iff in Q; now apply H1 with (1 := eq_refl) in Q | reflexivity]).
      destruct (find k d0) as [e0|] eqn:F0; cbn in M6; [|destruct M6; congruence]. pose proof (AB k e0 F0) as A.
      destruct (e_status e) eqn:ES; [eauto| | |contradiction].
      + destruct M6 as ([Q|Q] & _); congruence.
      + destruct M6 as (_ & Q & _). assert (matchedb k a = true); [|congruence]. apply matchedb_iff. exists true. now apply changedb_iff.
    - unfold execute. rewrite M1. specialize (M6 k). assert (Y : matchedb k a = true) by (apply matchedb_iff; eapply H2; reflexivity).
      destruct (find k (s_db s)) as [e|] eqn:F.
      + destruct (e_status e) eqn:ES; [|eauto|destruct (ser k x); eauto|destruct (ser k x); eauto]. destruct (find k d0); cbn in M6; rewrite ES in M6; [|intuition discriminate].
        destruct M6 as (_ & Q & _). congruence.
      + destruct (find k d0); cbn in M6; [contradiction|]. destruct M6. congruence.
    - cbn in D1. unfold post. rewrite M2. destruct n as [|[|n]]; try discriminate. eauto. }
  destruct S1 as (s1 & E1). cbn [CdbModel.run]. rewrite E1.
  destruct (step_mid ser out_of under ser_ok d0 f n a s e s1 n1 FR M V1 NZ D1 E1) as [M1 NZ1].
  apply (IH (a ++ [e]) n1 s1) with (n' := n'); auto. now rewrite <- app_assoc.
Qed.

Lemma session_total l f es p : holds out_of f l -> inner es -> Forall valid es -> calls_ok ser (fun k => find k l) es p ->
  exists s', run (start f) (Pre :: es ++ [Post p]) = Some s'.
Proof.
  intros H I V (C1 & C2 & C3). destruct (start_pre f l H) as (s1 & E1).
  destruct (pre_ready ser out_of (fun _ => False) l (start f) s1 (start_ready f l H) E1) as (d0 & M & FR & _ & T & SN).
  assert (AB : forall k e, find k d0 = Some e -> e_status e = Absent).
  { intros k e F. destruct (FR k e F) as [[A|A] _]; [exact A|]. apply (SN k e F) in A. contradiction. }
  destruct (run_total d0 _ s1 es FR AB [] es 1 s1 eq_refl C1 C2 M V (Nat.neq_succ_0 0) 1 I) as (s2 & E2).
  cbn [CdbModel.run CdbModel.step]. rewrite E1. rewrite run_app. rewrite E2. cbn [CdbModel.run CdbModel.step].
  pose proof (run_mid ser out_of under ser_ok d0 _ es 1 [] s1 s2 1 FR M V (Nat.neq_succ_0 0) I E2) as M2. cbn [app] in M2.
  destruct M2 as [N1 N2 N3 N4 N5 N6 N7 NQ N8]. unfold post. rewrite N1, N2.
  match goal with |- context [existsb is_missing ?x] => set (kept := x) end.
  destruct (existsb is_missing kept && negb (p_failed p || p_match_only p)) eqn:Q; [exfalso | eauto].
  apply andb_true_iff in Q as [Q1 Q2]. apply negb_true_iff, orb_false_iff in Q2 as [Q2 Q3].
  apply existsb_exists in Q1 as ([k e] & I1 & I2). unfold is_missing in I2. cbn in I2.
  assert (I3 : In (k, e) (s_db s2)).
  { unfold kept in I1. destruct (negb (p_failed p) && _ && _ && _); [now apply filter_In in I1 as [I1 _] | exact I1]. }
  apply (in_find _ _ _ N4) in I3. specialize (N6 k). rewrite I3 in N6. destruct (e_status e) eqn:ES; try discriminate.
  destruct (find k d0) as [e0|] eqn:F0; cbn in N6; rewrite ES in N6; [contradiction|]. destruct N6 as (Y & [[_ X]|[X _]]); [|discriminate].
  apply (C3 (conj Q2 Q3) k); [now apply matchedb_iff | rewrite T, F0; reflexivity | exact X].
Qed.

(* Failed. *)
Lemma step_failed s e s' : s_mode s = Failed -> step s e = Some s' -> s_mode s' = Failed /\ s_file s' = s_file s.
Proof.
  intros M E. destruct e; cbn in E.
  - unfold pre in E. rewrite M in E. discriminate.
  - unfold match_ in E. rewrite M in E. injection E as <-. auto.
  - unfold execute in E. rewrite M in E. injection E as <-. auto.
  - unfold post in E. rewrite M in E. destruct (s_nesting s) as [|[|n]]; try discriminate; injection E as <-; auto.
Qed.
Lemma run_failed es : forall s s', s_mode s = Failed -> run s es = Some s' -> s_file s' = s_file s.
Proof.
  induction es as [|e es IH]; intros s s' M E; cbn [CdbModel.run] in E; [congruence|].
  destruct (step s e) as [s1|] eqn:E1; [|discriminate]. destruct (step_failed _ _ _ M E1) as [M1 <-]. eauto.
Qed.


Lemma step_any d0 f n es s e s' n' : fresh d0 -> Mid d0 f n es s -> n <> 0 -> depth n [e] = Some n' -> step s e = Some s' ->
  (Mid d0 f n' (es ++ [e]) s' /\ n' <> 0) \/ s_mode s' = Failed /\ s_file s' = f.
Proof.
  intros FR M NZ D E. assert (V : valid e \/ exists k c, e = Exec k c /\ ser k c = None).
  { destruct e as [|k ch|k c|p]; try (left; exact Logic.I). destruct (ser k c) eqn:Q; [left; cbn; congruence | right; eauto]. }
  destruct V as [V|(k & c & -> & V)]; [left; eapply step_mid; eauto|]. pose proof M as [M1 M2 M3 M4 M5 M6 M7 MQ M8].
  cbn in D. injection D as <-. cbn in E. unfold execute in E. rewrite M1 in E. destruct (find k (s_db s)) as [e|] eqn:F; [|discriminate].
  rewrite V in E. destruct (e_status e); [discriminate| | |].
  - injection E as <-. left. split; [|exact NZ]. constructor; auto.
    + intros k'. apply KI_other; auto. cbn. destruct (beqb k k') eqn:B; [|reflexivity]. apply beqb_eq in B. now subst.
    + intros C k'. rewrite changedb_app, (MQ C). reflexivity.
  - injection E as <-. right. auto.
  - injection E as <-. right. auto.
Qed.

Lemma run_any d0 f es : forall n es0 s s' n', fresh d0 -> Mid d0 f n es0 s -> n <> 0 -> depth n es = Some n' -> run s es = Some s' ->
  (Mid d0 f n' (es0 ++ es) s' /\ n' <> 0) \/ s_mode s' = Failed /\ s_file s' = f.
Proof.
  induction es as [|e es IH]; intros n es0 s s' n' FR M NZ D R.
  - cbn in D, R. injection D as <-. injection R as <-. rewrite app_nil_r. auto.
  - cbn [CdbModel.run] in R. destruct (step s e) as [s1|] eqn:E; [|discriminate].
    assert (D1 : exists n1, depth n [e] = Some n1 /\ depth n1 es = Some n').
    { destruct e; cbn in D |- *; eauto. destruct n as [|[|n]]; try discriminate. eauto. }
    destruct D1 as (n1 & D1 & D2). destruct (step_any d0 f n es0 s e s1 n1 FR M NZ D1 E) as [[M1 NZ1]|[M1 M2]].
    + change (e :: es) with ([e] ++ es). rewrite app_assoc. eapply IH; eauto.
    + right. clear - M1 M2 R. revert s1 M1 M2 R. induction es as [|e' es IH]; intros s1 M1 M2 R; cbn [CdbModel.run] in R.
      * injection R as <-. auto.
      * destruct (step s1 e') as [s2|] eqn:E; [|discriminate]. destruct (step_failed _ _ _ M1 E) as [Q1 Q2]. apply (IH s2); congruence.
Qed.

Lemma depth_app a c : forall n n', depth n (a ++ c) = Some n' <-> exists m, depth n a = Some m /\ @depth cmd m c = Some n'.
Proof.
  induction a as [|e a IH]; intros n n'; cbn.
  - split; [eauto | intros (m & E & H); congruence].
  - destruct e; auto. destruct n as [|[|n]]; auto; split; [discriminate | intros (m & E & _); discriminate | discriminate | intros (m & E & _); discriminate].
Qed.

Lemma invalid_session l f a k c rest p s' : holds out_of f l -> inner (a ++ Exec k c :: rest) -> ser k c = None ->
  changed k a \/ find k l = None -> run (start f) (Pre :: (a ++ Exec k c :: rest) ++ [Post p]) = Some s' -> s_file s' = f.
Proof.
  intros H I V C R. cbn [CdbModel.run] in R. destruct (step (start f) Pre) as [s1|] eqn:E1; [|discriminate]. cbn in E1.
  destruct (pre_ready ser out_of (fun _ => False) l (start f) s1 (start_ready f l H) E1) as (d0 & M & FR & _ & T & SN). cbn [start s_file] in M.
  rewrite <- app_assoc, run_app in R. destruct (run s1 a) as [s2|] eqn:E2; [|discriminate].
  unfold inner in I. apply depth_app in I as (m & D1 & D2).
  destruct (run_any d0 f a 1 [] s1 s2 m FR M (Nat.neq_succ_0 0) D1 E2) as [[M2 NZ]|[M2 M3]]; [|rewrite <- M3; eapply run_failed; eauto].
  cbn [app CdbModel.run] in R. destruct (step s2 (Exec k c)) as [s3|] eqn:E3; [|discriminate].
  enough (Q : s_mode s3 = Failed /\ s_file s3 = f) by (destruct Q as [Q1 <-]; eapply run_failed; eauto).
  pose proof M2 as [N1 N2 N3 N4 N5 N6 N7 NQ N8]. cbn in E3. unfold execute in E3. rewrite N1 in E3. specialize (N6 k). cbn [app] in N6.
  destruct (find k (s_db s2)) as [e|] eqn:F; [|discriminate]. rewrite V in E3.
  destruct (e_status e) eqn:ES; [discriminate| |injection E3 as <-; auto|injection E3 as <-; auto].
  exfalso. rewrite T in C. destruct (find k d0) as [e0|]; cbn in N6; rewrite ES in N6; [|intuition discriminate].
  destruct C as [C|C]; [|discriminate]. apply changedb_iff in C. destruct N6 as (_ & N6 & _). congruence.
Qed.

(* Force. *)
Lemma forced l f a m s k ch s' r : holds out_of f l -> depth 1 a = Some m -> Forall valid a -> run (start f) (Pre :: a) = Some s ->
  match_ s k ch = Some (s', r) -> (r = true <-> find k l = None /\ ~ matched k a).
Proof.
  intros H D V R E. cbn [CdbModel.run] in R. destruct (step (start f) Pre) as [s1|] eqn:E1; [|discriminate]. cbn in E1.
  destruct (pre_ready ser out_of (fun _ => False) l (start f) s1 (start_ready f l H) E1) as (d0 & M & FR & _ & T & SN).
  pose proof (run_mid ser out_of under ser_ok d0 _ a 1 [] s1 s m FR M V (Nat.neq_succ_0 0) D R) as M2. cbn [app] in M2.
  destruct M2 as [N1 N2 N3 N4 N5 N6 N7 NQ N8]. unfold match_ in E. rewrite N1 in E. specialize (N6 k). rewrite T, <- matchedb_iff.
  destruct (find k (s_db s)) as [e|].
  - assert (r = false) by (destruct (e_status e); try (destruct ch; congruence); congruence). subst r. split; [discriminate|].
    intros [Q1 Q2]. destruct (find k d0); [discriminate|]. cbn in N6. destruct N6. congruence.
  - injection E as _ <-. split; [intros _ | auto]. destruct (find k d0); cbn in N6; [contradiction|]. destruct N6. split; [reflexivity | congruence].
Qed.

(* Current. *)
Lemma executed_cur k c es : Forall valid es -> (forall c', In (Exec k c') es -> c' = c) -> In (Exec k c) es -> executed k es = ser k c.
Proof.
  intros V. induction es as [|e es IH]; intros U I; [contradiction|]. inversion V as [|? ? V1 V2]; subst.
  assert (U' : forall c', In (Exec k c') es -> c' = c) by (intros; apply U; now right).
  assert (EN : forall c', executed k es = Some c' -> In (Exec k c) es).
  { clear - U'. induction es as [|e es IH]; intros c' E; [discriminate|].
    assert (U2 : forall c', In (Exec k c') es -> c' = c) by (intros; apply U'; now right).
    destruct e as [|k2 ch|k2 c2|p]; cbn in E; try (right; eapply IH; eauto; fail).
    destruct (executed k es) eqn:Q; [right; eapply IH; eauto|]. destruct (beqb k2 k) eqn:B; [|discriminate]. apply beqb_eq in B. subst k2.
    left. rewrite (U' c2 (or_introl eq_refl)). reflexivity. }
  destruct e as [|k2 ch|k2 c2|p]; cbn; try (destruct I as [I|I]; [discriminate | apply IH; auto]).
  destruct (executed k es) eqn:Q.
  - rewrite <- (IH V2 U' (EN _ eq_refl)). reflexivity.
  - destruct I as [I|I].
    + injection I as -> ->. now rewrite beqb_refl.
    + exfalso. pose proof (IH V2 U' I) as Q2. rewrite Forall_forall in V2. specialize (V2 _ I). cbn in V2. congruence.
Qed.

Lemma matched_dec k es : matched k es \/ ~ @matched cmd k es.
Proof. rewrite <- matchedb_iff. destruct (matchedb k es); auto. Qed.
Lemma changed_dec k es : changed k es \/ ~ @changed cmd k es.
Proof. rewrite <- changedb_iff. destruct (changedb k es); auto. Qed.

Lemma build_step (all : Prop) dd l f x dd' s : all -> holds out_of f l -> proper ser all dd (fun k => find k l) x -> recorded dd dd' x ->
  run (start f) (Pre :: b_events x ++ [Post (b_fin x)]) = Some s ->
  (forall k c t, dd k = Some c -> find k l = Some t -> ser k c = Some t) ->
  exists l', holds out_of (s_file s) l' /\ (forall k c t, dd' k = Some c -> find k l' = Some t -> ser k c = Some t) /\
    forall k, matched k (b_events x) -> find k l' = ser k (b_cur x k).
Proof.
  intros A H (P1 & P2 & P3 & P4 & P5) RC R J. set (es := b_events x) in *. set (p := b_fin x) in *.
  destruct (sessions ser out_of under ser_ok [(es, p)] (fun _ => False) l (start f) s (start_ready f l H)) as (l' & H' & S').
  - constructor; [|constructor]. cbn. auto.
  - constructor.
  - unfold events. cbn [flat_map fst snd]. rewrite app_nil_r. exact R.
  - exists l'. split; [exact H'|]. inversion S' as [|? ? ? ? mid ? ? S1 S2]; subst. inversion S2; subst. clear S2 S'.
    assert (Q : forall k, matched k es -> find k l' = ser k (b_cur x k)).
    { intros k Y. destruct (S1 k) as [_ U]. assert (ND : ~ dropped_key under (fun _ => False) es p k) by (intros (_ & Q & _); contradiction).
      specialize (U ND). unfold updated in U. destruct (find k l) as [t|] eqn:F.
      - destruct (changed_dec k es) as [C|C].
        + destruct U as [U _]. rewrite (U C). rewrite (executed_cur k (b_cur x k) es); auto. 
          destruct (ser k (b_cur x k)) eqn:Q; [reflexivity|]. exfalso.
          assert (I : In (Exec k (b_cur x k)) es) by (apply P5; auto). rewrite Forall_forall in P2. apply P2 in I. cbn in I. congruence.
        + destruct U as [_ U]. rewrite (U C). symmetry. destruct Y as (ch & Y). destruct ch; [contradiction|].
          apply (J k (b_cur x k) t); [|exact F]. now apply (P3 k false Y).
      - destruct U as [U _]. rewrite (U Y). apply executed_cur; auto. }
    split; [|exact Q]. intros k c t D F. destruct (matched_dec k es) as [Y|Y].
    + destruct (RC k) as [RC1 _]. rewrite (RC1 Y) in D. injection D as <-. rewrite <- (Q k Y). exact F.
    + destruct (RC k) as [_ RC2]. destruct (RC2 Y) as [E|E]; [|congruence]. rewrite E in D. apply (J k c t D).
      destruct (S1 k) as [U1 U2]. 
      assert (NC : ~ changed k es) by (intros C; apply Y; now exists true).
      assert (ND : ~ dropped_key under (fun _ => False) es p k) by (intros Q1; apply U1 in Q1; congruence).
      specialize (U2 ND). unfold updated in U2. destruct (find k l) as [t0|].
      * destruct U2 as [_ U2]. rewrite (U2 NC) in F. exact F.
      * destruct U2 as [_ U2]. rewrite (U2 Y) in F. discriminate.
Qed.

Lemma holds_fun f l l' k : holds out_of f l -> holds out_of f l' -> find k l = find k l'.
Proof.
  intros (N & L & [[-> ->] | ->]) (N' & L' & [[E ->] | E]); try reflexivity; try discriminate.
  assert (E' : write (map snd l) = write (map snd l')) by congruence. clear E. rename E' into E. pose proof (read_write out_of l N L) as R. rewrite E, (read_write out_of l' N' L') in R. now injection R as ->.
Qed.

Lemma current xs dd f : builds ser out_of under True xs dd f ->
  exists l, holds out_of f l /\ (forall k c t, dd k = Some c -> find k l = Some t -> ser k c = Some t) /\
    forall ys x k, xs = ys ++ [x] -> matched k (b_events x) -> find k l = ser k (b_cur x k).
Proof.
  induction 1 as [|xs dd f l x dd' s B (l0 & H0 & J & _) H P RC R].
  - exists []. split; [|split].
    + split; [constructor | split; [contradiction | now left]].
    + discriminate.
    + intros ys x k E. destruct ys; discriminate.
  - assert (J' : forall k c t, dd k = Some c -> find k l = Some t -> ser k c = Some t).
    { intros k c t D F. apply (J k c t D). rewrite <- F. now apply (holds_fun f). }
    destruct (build_step True dd l f x dd' s Logic.I H P RC R J') as (l' & H' & J2 & Q). exists l'. split; [exact H'|]. split; [exact J2|].
    intros ys y k E. apply app_inj_tail in E as [_ <-]. apply Q.
Qed.

(* Printed. *)
Notation orun := (orun ser).
Notation printed := (printed ser).
Fixpoint body (first : bool) (l : list bytes) : bytes :=
  match l with [] => [] | j :: l => (if first then [] else b "," ++ [NL]) ++ j ++ body false l end.
Lemma body_app l l' first : body first (l ++ l') = body first l ++ body (match l with [] => first | _ => false end) l'.
Proof.
  revert first. induction l as [|j l IH]; intros first; cbn; [reflexivity|]. rewrite IH, !app_assoc. destruct l; reflexivity.
Qed.
Lemma body_write l first : write_entries first l = body first l ++ (match l with [] => if first then [] else [NL] | _ => [NL] end) ++ b "]" ++ [NL].
Proof.
  revert first. induction l as [|j l IH]; intros first; cbn [write_entries body]; [destruct first; reflexivity|].
  rewrite IH, <- !app_assoc. destruct l; reflexivity.
Qed.

Definition OI (o : bytes) (n : nat) (l : list bytes) (s : ost) : Prop :=
  o_nesting s = n /\ o_mode s = match l with [] => OEmpty | _ => OFull end /\ o_out s = o ++ b "[" ++ [NL] ++ body true l.

Lemma printed_app a c : printed (a ++ c) = printed a ++ printed c.
Proof. apply flat_map_app. Qed.

Lemma orun_mid o es : forall n l s n', OI o n l s -> n <> 0 -> Forall valid es -> depth n es = Some n' ->
  exists s', orun s es = Some s' /\ OI o n' (l ++ printed es) s' /\ n' <> 0.
Proof.
  induction es as [|e es IH]; intros n l s n' OS NZ V D.
  - cbn in D |- *. injection D as <-. rewrite app_nil_r. eauto.
  - inversion V as [|? ? V1 V2]; subst. destruct OS as (O1 & O2 & O3). destruct e as [|k ch|k c|p]; cbn [CdbModel.orun].
    + cbn in D. assert (E : ostep ser s Pre = Some (mkost (o_mode s) (S n) (o_out s))).
      { cbn. rewrite O1, O2. destruct n; [congruence|]. destruct l; reflexivity. }
      rewrite E. apply (IH (S n)); auto. split; [reflexivity|]. split; [exact O2 | exact O3].
    + cbn in D |- *. apply (IH n); auto. split; auto.
    + cbn in D. cbn in V1. destruct (ser k c) as [j|] eqn:J; [|congruence].
      assert (E : ostep ser s (Exec k c) = Some (mkost OFull n (o ++ b "[" ++ [NL] ++ body true (l ++ [j])))).
      { cbn [ostep]. rewrite O2, J, O3, O1. destruct l as [|j0 l]; [cbn; rewrite app_nil_r; now rewrite <- app_assoc|].
        rewrite body_app. cbn [body]. rewrite app_nil_r, <- !app_assoc. reflexivity. }
      rewrite E. unfold CdbSpec.printed. cbn [flat_map]. rewrite J. fold (printed es). rewrite (app_assoc l [j]). apply (IH n); auto.
      split; [reflexivity|]. split; [|reflexivity]. cbn. destruct l; reflexivity.
    + cbn in D. destruct n as [|[|n]]; try discriminate.
      assert (E : ostep ser s (Post p) = Some (mkost (o_mode s) (S n) (o_out s))) by (cbn; now rewrite O1).
      rewrite E. apply (IH (S n)); auto. split; [reflexivity|]. split; [exact O2 | exact O3].
Qed.

(* Nested sessions and then the last one. *)
Lemma oprint ss es p : forall s o l, (s = mkost OInit 0 o /\ l = [] \/ OI o 0 l s) ->
  Forall (fun x => inner (fst x) /\ Forall valid (fst x) /\ p_nested (snd x) = true /\ p_failed (snd x) = false) ss ->
  inner es -> Forall valid es -> p_nested p && negb (p_failed p) = false ->
  orun s (events (ss ++ [(es, p)])) = Some (mkost OInit 0 (o ++ write (l ++ flat_map (fun x => printed (fst x)) ss ++ printed es))).
Proof.
  assert (PR : forall s o l, (s = mkost OInit 0 o /\ l = [] \/ OI o 0 l s) -> exists s1, ostep ser s Pre = Some s1 /\ OI o 1 l s1).
  { intros s o l [[-> ->]|(O1 & O2 & O3)]; [cbn; eexists; split; [reflexivity|]; split; auto|].
    exists (mkost (o_mode s) 1 (o_out s)). split; [cbn; rewrite O1, O2; destruct l; reflexivity|]. split; auto. }
  assert (OA : forall s a c, orun s (a ++ c) = match orun s a with Some s => orun s c | None => None end).
  { intros s a. revert s. induction a as [|e a IH]; intros s c; cbn; [reflexivity|]. destruct (ostep ser s e); auto. }
  induction ss as [|[es1 p1] ss IH]; intros s o l OS F I V P.
  - unfold events. cbn [app flat_map fst snd]. cbn [app CdbModel.orun]. destruct (PR s o l OS) as (s1 & -> & O1).
    rewrite app_nil_r, OA. destruct (orun_mid o es 1 l s1 1 O1 (Nat.neq_succ_0 0) V I) as (s2 & -> & (A1 & A2 & A3) & _).
    cbn [CdbModel.orun]. cbn [ostep]. rewrite A1, A2, A3. unfold write. rewrite body_write, <- !app_assoc.
    destruct (l ++ printed es); rewrite P; reflexivity.
  - unfold events. cbn [app flat_map fst snd]. cbn [app CdbModel.orun]. destruct (PR s o l OS) as (s1 & -> & O1).
    inversion F as [|? ? (F1 & F2 & F3 & F4) F5]; subst. cbn in F1, F2, F3, F4.
    rewrite <- app_assoc, OA. destruct (orun_mid o es1 1 l s1 1 O1 (Nat.neq_succ_0 0) F2 F1) as (s2 & -> & (A1 & A2 & A3) & _).
    cbn [app CdbModel.orun]. assert (E : ostep ser s2 (Post p1) = Some (mkost (o_mode s2) 0 (o_out s2))).
    { cbn [ostep]. rewrite A1, A2, F3, F4. destruct (l ++ printed es1); reflexivity. }
    rewrite E. change (flat_map _ (ss ++ [(es, p)])) with (events (ss ++ [(es, p)])). rewrite (IH _ o (l ++ printed es1)); auto.
    + now rewrite <- !app_assoc.
    + right. split; [reflexivity|]. split; [exact A2 | exact A3].
Qed.
End P.

(* Filters. *)
Lemma name_filter_last name f a n v : applies name n = true -> (forall n' v', In (n', v') f -> applies name n' = false) ->
  name_filter name (rev (a ++ (n, v) :: f)) = v.
Proof.
  intros A N. rewrite rev_app_distr. cbn [rev]. rewrite <- app_assoc. cbn [app].
  assert (N' : forall n' v', In (n', v') (rev f) -> applies name n' = false) by (intros n' v' I; apply in_rev in I; eauto).
  revert N'. generalize (rev f) as g. induction g as [|[n' v'] g IH]; intros N'; cbn [app name_filter].
  - unfold applies in A. now rewrite A.
  - pose proof (N' n' v' (or_introl eq_refl)) as Q. unfold applies in Q. rewrite Q. apply IH. intros. eapply N'. right. eauto.
Qed.
Lemma name_filter_none name f : (forall n v, In (n, v) f -> applies name n = false) -> name_filter name (rev f) = false.
Proof.
  intros N. assert (N' : forall n' v', In (n', v') (rev f) -> applies name n' = false) by (intros n' v' I; apply in_rev in I; eauto).
  revert N'. generalize (rev f) as g. induction g as [|[n' v'] g IH]; intros N'; cbn [name_filter]; [reflexivity|].
  pose proof (N' n' v' (or_introl eq_refl)) as Q. unfold applies in Q. rewrite Q. apply IH. intros. eapply N'. right. eauto.
Qed.
Lemma type_filter_iff test name f : (forall n t, In (n, t) f -> test t <> None) ->
  type_filter test name f = Some (existsb (fun x => applies name (fst x) && match test (snd x) with Some true => true | _ => false end) f).
Proof.
  induction f as [|[n t] f IH]; intros K; cbn; [reflexivity|]. rewrite IH by (intros; eapply K; right; eauto).
  destruct (applies name n); cbn; [|reflexivity]. destruct (test t) as [[]|] eqn:T; cbn; try reflexivity.
  exfalso. now apply (K n t (or_introl eq_refl)).
Qed.
