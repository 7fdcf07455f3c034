(* Proofs about compilation databases: the end of a session, histories. *)
From Verif Require Import Base CdbModel CdbSpec CdbProofs CdbProofs2.

Section P.
Context {cmd : Type}.
Context (ser : bytes -> cmd -> option bytes) (out_of : bytes -> option bytes) (under : bytes -> bytes -> bool).
Context (ser_ok : forall k c j, ser k c = Some j -> line_ok out_of k j).
Notation event := (@event cmd).
Notation step := (step ser out_of under).
Notation run := (run ser out_of under).
Notation executed := (executed ser).
Notation Mid := (@Mid cmd ser out_of).
Notation fresh := (fresh out_of).
Notation stale := (stale under).
Notation valid := (@valid cmd ser).
Notation session_ok := (session_ok ser under).
Notation history_ok := (history_ok ser under).

Lemma filter_length_le {A} (f : A -> bool) l : length (filter f l) <= length l.
Proof. induction l as [|x l IH]; cbn; [lia|]. destruct (f x); cbn; lia. Qed.
Lemma filter_full {A} (f : A -> bool) l : length (filter f l) = length l -> filter f l = l.
Proof.
  induction l as [|x l IH]; cbn; [reflexivity|]. destruct (f x); cbn.
  - intros E. f_equal. apply IH. congruence.
  - intros E. pose proof (filter_length_le f l). lia.
Qed.
Lemma filter_keys {A} f (d : list (bytes * A)) : NoDup (map fst d) -> NoDup (map fst (filter f d)).
Proof.
  induction d as [|x d IH]; cbn; [auto|]. intros N. inversion N as [|? ? N1 N2]; subst. destruct (f x); [|auto]. cbn. constructor; [|auto].
  intros I. apply N1. apply in_map_iff in I as (y & <- & I). apply filter_In in I as [I _]. now apply in_map.
Qed.
Lemma find_filter {A} k f (d : list (bytes * A)) : NoDup (map fst d) ->
  find k (filter f d) = match find k d with Some e => if f (k, e) then Some e else None | None => None end.
Proof.
  induction d as [|[k' e] d IH]; cbn; [reflexivity|]. intros N. inversion N as [|? ? N1 N2]; subst. destruct (beqb k' k) eqn:B.
  - apply beqb_eq in B. subst. destruct (f (k, e)); cbn; [now rewrite beqb_refl|]. apply find_none. intros I. apply N1.
    apply in_map_iff in I as (y & <- & I). apply filter_In in I as [I _]. now apply in_map.
  - destruct (f (k', e)); cbn; rewrite ?B; auto.
Qed.
Lemma find_map {A B} k (g : bytes -> A -> B) d : find k (map (fun x => (fst x, g (fst x) (snd x))) d) = option_map (g k) (find k d).
Proof.
  induction d as [|[k' e] d IH]; cbn; [reflexivity|]. destruct (beqb k' k) eqn:E; [|auto]. apply beqb_eq in E. now subst.
Qed.
Lemma cnt_filter f d : (forall x, f x = false -> is_absent x = true) -> cnt (filter f d) + (length d - length (filter f d)) = cnt d.
Proof.
  intros H. induction d as [|x d IH]; [reflexivity|]. cbn [filter]. pose proof (filter_length_le f d). destruct (f x) eqn:F.
  - rewrite !cnt_cons. cbn [length]. lia.
  - rewrite cnt_cons. apply H in F. unfold is_absent in F. unfold one. destruct (e_status (snd x)); try discriminate. cbn [length]. lia.
Qed.

Definition rst (p : fin) (e : entry) : entry :=
  match e_status e with Absent | Missing => e | Present | Changed => mkentry (if p_nested p || p_load p then Present else Absent) (e_json e) end.
Lemma reset_map p d : map (reset p) d = map (fun x => (fst x, rst p (snd x))) d.
Proof. apply map_ext. intros [k [s j]]. unfold reset, rst. cbn. destruct s; reflexivity. Qed.
Lemma cnt_reset p d : cnt (map (reset p) d) = cnt d + length (filter (is_reset p) d).
Proof.
  induction d as [|[k [s j]] d IH]; [reflexivity|]. cbn [map]. rewrite !cnt_cons, IH. cbn [filter].
  unfold is_reset at 2, reset, one. cbn. destruct s; cbn; try lia; destruct (p_nested p || p_load p); cbn; lia.
Qed.

Lemma run_app s a c : run s (a ++ c) = match run s a with Some s => run s c | None => None end.
Proof. revert s. induction a as [|e a IH]; intros s; cbn; [reflexivity|]. destruct (step s e); auto. Qed.

Lemma run_mid d0 f es : forall n es0 s s' n', fresh d0 -> Mid d0 f n es0 s -> Forall valid es -> n <> 0 -> depth n es = Some n' ->
  run s es = Some s' -> Mid d0 f n' (es0 ++ es) s'.
Proof.
  induction es as [|e es IH]; intros n es0 s s' n' FR M V NZ D R.
  - cbn in D, R. injection D as <-. injection R as <-. now rewrite app_nil_r.
  - cbn [CdbModel.run] in R. destruct (step s e) as [s1|] eqn:E; [|discriminate]. inversion V as [|? ? V1 V2]; subst.
    assert (D1 : exists n1, depth n [e] = Some n1 /\ depth n1 es = Some n').
    { destruct e; cbn in D |- *; eauto. destruct n as [|[|n]]; try discriminate. eauto. }
    destruct D1 as (n1 & D1 & D2). destruct (step_mid ser out_of under ser_ok d0 f n es0 s e s1 n1 FR M V1 NZ D1 E) as [M1 NZ1].
    change (e :: es) with ([e] ++ es). rewrite app_assoc. eapply IH; eauto.
Qed.

(* Between sessions. *)
Record Idle (seen : bytes -> Prop) (l : list (bytes * bytes)) (s : st) : Prop := {
  i_mode : s_mode s = Open;
  i_nest : s_nesting s = 0;
  i_keys : NoDup (map fst (s_db s));
  i_cnt : s_absent s = cnt (s_db s);
  i_changed : s_changed s = false;
  i_fresh : fresh (s_db s);
  i_holds : holds out_of (s_file s) l;
  i_text : forall k, find k l = option_map e_json (find k (s_db s));
  i_seen : forall k e, find k (s_db s) = Some e -> (e_status e = Present <-> seen k)
}.
Definition Ready (seen : bytes -> Prop) (l : list (bytes * bytes)) (s : st) : Prop :=
  Idle seen l s \/ (forall k, ~ seen k) /\ exists f, s = start f /\ holds out_of f l.

Lemma pre_ready seen l s s1 : Ready seen l s -> pre out_of s = Some s1 ->
  exists d0, Mid d0 (s_file s) 1 [] s1 /\ fresh d0 /\ holds out_of (s_file s) l /\ (forall k, find k l = option_map e_json (find k d0)) /\
    forall k e, find k d0 = Some e -> (e_status e = Present <-> seen k).
Proof.
  assert (KI0 : forall k d0, fresh d0 -> KI ser k (find k d0) [] (find k d0)).
  { intros k d0 FR. destruct (find k d0) as [e|] eqn:F; cbn; [|auto]. apply FR in F as [[-> | ->] _]; auto 6. }
  intros [I|(NS & f & -> & H)] E.
  - destruct I as [I1 I2 I3 I4 I5 I6 I7 I8 I9]. unfold pre in E. rewrite I1, I2 in E. cbn in E. injection E as <-.
    exists (s_db s). split; [|auto]. constructor; cbn; auto.
    + intros _ k. reflexivity.
    + intros k e F _. now apply I6 in F as [_ F].
  - unfold pre in E. cbn in E. pose proof H as (N & L & [[-> ->] | ->]).
    + injection E as <-. exists []. split; [|split; [|split; [exact H|split]]].
      * constructor; cbn; auto; try discriminate; try constructor; auto.
      * intros k e F. discriminate.
      * reflexivity.
      * discriminate.
    + rewrite read_write in E by auto. injection E as <-.
      set (d := map (fun e => (fst e, mkentry Absent (snd e))) l).
      assert (F : forall k, find k d = option_map (mkentry Absent) (find k l)) by (intros k; apply (find_map k (fun _ j => mkentry Absent j))).
      assert (FR : fresh d).
      { intros k e E. rewrite F in E. destruct (find k l) as [j|] eqn:J; [|discriminate]. injection E as <-. split; [now left|].
        apply L. now apply find_in. }
      exists d. split; [|split; [exact FR|split; [exact H|split]]].
      * constructor; cbn; auto.
        -- unfold d. rewrite map_map. cbn. exact N.
        -- unfold cnt. f_equal. symmetry. unfold d. clear. induction l as [|x l IH]; cbn; [reflexivity|]. now rewrite IH.
        -- intros _ k. reflexivity.
        -- intros k e E _. now apply FR in E as [_ E].
      * intros k. rewrite F. destruct (find k l); reflexivity.
      * intros k e E. rewrite F in E. destruct (find k l) as [j|] eqn:J; [|discriminate]. injection E as <-. cbn. split; [discriminate|].
        intros S. now apply NS in S.
Qed.

Lemma post_mid seen l d0 f es s p s' : fresh d0 -> holds out_of f l -> (forall k, find k l = option_map e_json (find k d0)) ->
  (forall k e, find k d0 = Some e -> (e_status e = Present <-> seen k)) ->
  Mid d0 f 1 es s -> post under s p = Some s' ->
  exists l', holds out_of (s_file s') l' /\ session_ok seen es p (fun k => find k l) (fun k => find k l') /\
    (p_failed p = false -> p_match_only p = false -> Idle (seen_after seen es p) l' s').
Proof.
  intros FR H T SN M E. destruct M as [M1 M2 M3 M4 M5 M6 M7 MQ M8]. unfold post in E. rewrite M1, M2 in E.
  set (prune0 := negb (p_failed p) && negb (p_nested p) && negb (p_outer p)) in *.
  set (kept := if prune0 && negb (s_absent s =? 0) then filter (fun x => negb (stale p x)) (s_db s) else s_db s) in *.
  destruct (existsb is_missing kept && negb (p_failed p || p_match_only p)) eqn:MS; [discriminate|].
  assert (KN : NoDup (map fst kept)) by (unfold kept; destruct (prune0 && _); [now apply filter_keys | exact M4]).
  assert (KF : forall k, find k kept = match find k (s_db s) with Some e => if prune0 && stale p (k, e) then None else Some e | None => None end).
  { intros k. unfold kept. destruct prune0 eqn:P; cbn [andb].
    - destruct (s_absent s =? 0) eqn:Z; cbn [negb].
      + destruct (find k (s_db s)) as [e|] eqn:F; [|reflexivity]. apply Nat.eqb_eq in Z. rewrite M5 in Z. pose proof (cnt_zero _ _ _ Z F) as A.
        unfold CdbModel.stale. cbn. destruct (e_status e); congruence.
      + rewrite find_filter by exact M4. destruct (find k (s_db s)) as [e|]; [|reflexivity]. destruct (stale p (k, e)); reflexivity.
    - destruct (find k (s_db s)); reflexivity. }
  assert (KC : cnt kept = s_absent s - (length (s_db s) - length kept)).
  { rewrite M5. unfold kept. destruct (prune0 && _); [|lia]. rewrite <- (cnt_filter (fun x => negb (stale p x)) (s_db s)); [lia|].
    intros x Q. apply negb_false_iff in Q. unfold CdbModel.stale in Q. unfold is_absent. destruct (e_status (snd x)); auto; discriminate. }
  assert (KE : length (s_db s) - length kept = 0 -> kept = s_db s).
  { unfold kept. destruct (prune0 && _); [|auto]. intros Q. apply filter_full. pose proof (filter_length_le (fun x => negb (stale p x)) (s_db s)). lia. }
  set (u := s_changed s || negb (length (s_db s) - length kept =? 0)) in *.
  injection E as <-. cbn [s_file].
  set (lk := map (fun x => (fst x, e_json (snd x))) (filter (fun x => negb (is_missing x)) kept)).
  assert (LF : forall k, find k lk = match find k kept with Some e => match e_status e with Missing => None | _ => Some (e_json e) end | None => None end).
  { intros k. unfold lk. rewrite (find_map k (fun _ e => e_json e)), find_filter by exact KN. destruct (find k kept) as [e|]; [|reflexivity].
    unfold is_missing. cbn. destruct (e_status e); reflexivity. }
  assert (LH : holds out_of (Some (write (map (fun x => e_json (snd x)) (filter (fun x => negb (is_missing x)) kept)))) lk).
  { split; [|split].
    - unfold lk. rewrite map_map. cbn. now apply filter_keys.
    - intros k j I. assert (NL : NoDup (map fst lk)) by (unfold lk; rewrite map_map; cbn; now apply filter_keys).
      apply (in_find _ _ _ NL) in I. rewrite LF, KF in I. destruct (find k (s_db s)) as [e|] eqn:F; [|discriminate].
      destruct (prune0 && stale p (k, e)); [discriminate|]. pose proof (M8 k e F) as Q. destruct (e_status e); try discriminate; injection I as <-; apply Q; discriminate.
    - right. unfold lk. rewrite map_map. reflexivity. }
  assert (exists l', holds out_of (if u then Some (write (map (fun x => e_json (snd x)) (filter (fun x => negb (is_missing x)) kept))) else s_file s) l' /\
    forall k, find k l' = find k lk) as (l' & H' & F').
  { destruct u eqn:U; [exists lk; auto|]. exists l. rewrite M3. split; [exact H|]. unfold u in U. apply orb_false_iff in U as [U1 U2].
    apply negb_false_iff, Nat.eqb_eq in U2. rewrite (KE U2) in LF. intros k. rewrite LF, T. specialize (M7 U1 k). rewrite M7.
    specialize (M6 k). destruct (find k (s_db s)) as [e|]; [|reflexivity]. cbn. destruct (find k d0) as [e0|]; [|discriminate].
    cbn in M6. destruct (e_status e); try reflexivity. contradiction. }
  exists l'. split; [exact H'|]. 
  assert (SC : forall k e, prune0 && stale p (k, e) = true <-> in_scope under p k /\ e_status e = Absent).
  { intros k e. unfold prune0, CdbModel.stale, in_scope. rewrite !andb_true_iff, !negb_true_iff. cbn. destruct (e_status e).
    - rewrite existsb_exists. intuition auto.
    - split; [intros [_ Q] | intros [_ Q]]; discriminate.
    - split; [intros [_ Q] | intros [_ Q]]; discriminate.
    - split; [intros [_ Q] | intros [_ Q]]; discriminate. }
  split.
  - intros k. rewrite F', LF, KF, T. pose proof (M6 k) as K. split.
    + intros (D1 & D2 & D3). destruct (find k (s_db s)) as [e|] eqn:F; [|reflexivity].
      assert (NM : matchedb k es = false) by (destruct (matchedb k es) eqn:Q; [apply matchedb_iff in Q; contradiction | reflexivity]).
      assert (NC : changedb k es = false).
      { destruct (changedb k es) eqn:Q; [|reflexivity]. apply changedb_iff in Q. destruct D2. now exists true. }
      destruct (find k d0) as [e0|] eqn:F0; cbn in K.
      * destruct (e_status e) eqn:ES.
        -- replace (prune0 && stale p (k, e)) with true; [reflexivity|]. symmetry. apply SC. auto.
        -- destruct K as ([K|K] & _); [|congruence]. apply (SN k e0 F0) in K. contradiction.
        -- destruct K as (_ & K & _). congruence.
        -- contradiction.
      * destruct K as [K _]. congruence.
    + intros ND. destruct (find k (s_db s)) as [e|] eqn:F.
      * destruct (prune0 && stale p (k, e)) eqn:P.
        -- apply SC in P as [P1 P2]. destruct ND. split; [exact P1|]. destruct (find k d0) as [e0|] eqn:F0; cbn in K; rewrite P2 in K.
           ++ destruct K as (K0 & K & _). split; [rewrite <- matchedb_iff; congruence|]. rewrite <- (SN k e0 F0). congruence.
           ++ destruct K as [_ [[K _]|[K _]]]; discriminate.
        -- destruct (find k d0) as [e0|] eqn:F0; cbn in K |- *; rewrite <- ?changedb_iff, <- ?matchedb_iff.
           ++ destruct (e_status e); try contradiction.
              ** destruct K as (_ & _ & -> & _ & ->). split; [discriminate | auto].
              ** destruct K as (_ & -> & ->). split; [discriminate | auto].
              ** destruct K as (_ & -> & ->). split; [auto | congruence].
           ++ destruct K as [-> [[-> ->] | [-> ->]]]; (split; [auto | congruence]).
      * destruct (find k d0) as [e0|] eqn:F0; cbn in K; [contradiction|]. cbn. rewrite <- matchedb_iff. destruct K as [-> ->]. split; auto.
  - intros PF PM. rewrite PF, PM in MS. cbn in MS. rewrite andb_true_r in MS. rewrite PF.
    assert (NM : forall k e, find k kept = Some e -> e_status e <> Missing).
    { intros k e F S. apply find_in in F. assert (Q : existsb is_missing kept = true); [|congruence]. apply existsb_exists. exists (k, e). split; [exact F|].
      unfold is_missing. cbn. now rewrite S. }
    assert (RF : forall k, find k (map (reset p) kept) = option_map (rst p) (find k kept)) by (intros k; rewrite reset_map; apply (find_map k (fun _ => rst p))).
    constructor; cbn [s_mode s_nesting s_db s_absent s_changed s_file].
    + reflexivity.
    + reflexivity.
    + rewrite reset_map, map_map. cbn. exact KN.
    + now rewrite cnt_reset, KC.
    + reflexivity.
    + intros k e F. rewrite RF in F. destruct (find k kept) as [e1|] eqn:F1; [|discriminate]. injection F as <-.
      assert (line_ok out_of k (e_json e1)).
      { apply M8; [|eapply NM; eauto]. rewrite KF in F1. destruct (find k (s_db s)) as [e2|]; [|discriminate].
        destruct (prune0 && stale p (k, e2)); [discriminate|]. exact F1. }
      pose proof (NM _ _ F1) as Q. unfold rst. destruct (e_status e1) eqn:S1; try congruence; cbn; (split; [destruct (p_nested p || p_load p); auto | auto]).
    + exact H'.
    + intros k. rewrite F', LF, RF. destruct (find k kept) as [e1|] eqn:F1; [|reflexivity]. pose proof (NM _ _ F1) as Q. cbn. unfold rst.
      destruct (e_status e1) eqn:S1; try congruence; reflexivity.
    + intros k e F. rewrite RF in F. destruct (find k kept) as [e1|] eqn:F1; [|discriminate]. injection F as <-.
      pose proof (NM _ _ F1) as Q. rewrite KF in F1. destruct (find k (s_db s)) as [e2|] eqn:F2; [|discriminate].
      destruct (prune0 && stale p (k, e2)); [discriminate|]. injection F1 as ->. specialize (M6 k). rewrite F2 in M6.
      unfold seen_after. rewrite <- matchedb_iff. unfold rst. destruct (e_status e1) eqn:S1; try congruence; cbn.
      * rewrite S1. destruct (find k d0) as [e0|] eqn:F0; cbn in M6; rewrite S1 in M6; [|intuition discriminate].
        destruct M6 as (K1 & K2 & _). split; [discriminate|]. intros [_ [S|S]]; [|congruence]. apply (SN k e0 F0) in S. congruence.
      * destruct (p_nested p || p_load p); [|split; [discriminate | intros [Q1 _]; discriminate]].
        split; [intros _ | auto]. split; [reflexivity|]. destruct (find k d0) as [e0|] eqn:F0; cbn in M6; rewrite S1 in M6; [|intuition discriminate].
        destruct M6 as ([K|K] & _); [left; now apply (SN k e0 F0) | now right].
      * destruct (p_nested p || p_load p); [|split; [discriminate | intros [Q1 _]; discriminate]].
        split; [intros _ | auto]. split; [reflexivity|]. right. destruct (find k d0) as [e0|] eqn:F0; cbn in M6; rewrite ?S1 in M6.
        -- destruct M6 as (_ & K & _). apply matchedb_iff. exists true. now apply changedb_iff.
        -- now destruct M6.
Qed.

Lemma sessions ss : forall seen l s s', Ready seen l s ->
  Forall (fun x => inner (fst x) /\ Forall valid (fst x)) ss ->
  Forall (fun x => p_failed (snd x) = false /\ p_match_only (snd x) = false) (removelast ss) ->
  run s (events ss) = Some s' ->
  exists l', holds out_of (s_file s') l' /\ history_ok seen (fun k => find k l) ss (fun k => find k l').
Proof.
  induction ss as [|[es p] ss IH]; intros seen l s s' R V L E.
  - cbn in E. injection E as <-. exists l. split; [|constructor]. destruct R as [I|(_ & f & -> & H)]; [apply I | exact H].
  - cbn [events flat_map fst snd] in E. fold (events ss) in E. cbn [app CdbModel.run] in E.
    destruct (step s Pre) as [s1|] eqn:E1; [|discriminate]. cbn in E1. rewrite <- app_assoc, run_app in E.
    destruct (run s1 es) as [s2|] eqn:E2; [|discriminate]. cbn [app CdbModel.run] in E. destruct (step s2 (Post p)) as [s3|] eqn:E3; [|discriminate].
    inversion V as [|? ? [V1 V2] V3]; subst. cbn in V1, V2.
    destruct (pre_ready seen l s s1 R E1) as (d0 & M & FR & H & T & SN).
    apply (run_mid d0 _ es 1 [] s1 s2 1 FR M V2 (Nat.neq_succ_0 0) V1) in E2. cbn [app] in E2. cbn in E3.
    destruct (post_mid seen l d0 _ es s2 p s3 FR H T SN E2 E3) as (l1 & H1 & S1 & I1).
    destruct ss as [|x ss].
    + cbn in E. injection E as <-. exists l1. split; [exact H1|]. econstructor; [exact S1 | constructor].
    + cbn [removelast] in L. inversion L as [|? ? [L1 L2] L3]; subst. cbn in L1, L2.
      destruct (IH (seen_after seen es p) l1 s3 s') as (l' & H' & S').
      * left. auto.
      * exact V3.
      * exact L3.
      * exact E.
      * exists l'. split; [exact H'|]. econstructor; eauto.
Qed.
End P.
