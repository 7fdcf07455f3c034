From Verif Require Import Base DepdbModel DepdbSpec DepdbProofs.

(* --- Reading back through the API --- *)

Lemma reads_R ls : forall d kept cur,
  R d (AReading kept cur ls true) ->
  exists d' kept' cur',
    run d (repeat ORead (length ls)) = Some (d', map (fun l => VLine (Some l)) ls) /\
    R d' (AReading kept' cur' [] true).
Proof.
  induction ls as [|l ls IH]; intros d kept cur HR.
  - exists d, kept, cur. split; [reflexivity|exact HR].
  - destruct (read_refines _ _ HR (Some l) _ eq_refl) as [d1 [Er HR1]].
    destruct (IH _ _ _ HR1) as [d' [kept' [cur' [Hr HR']]]].
    exists d', kept', cur'. split; [|exact HR'].
    simpl. rewrite Er, Hr. reflexivity.
Qed.

Lemma R_eof_state d kept cur : R d (AReading kept cur [] true) -> st d = ReadEof.
Proof.
  intros H. inversion H as [f k c0 c s ls cl w wb p Ef Hc Hok Hne Hh Hp| | |]; subst; [|reflexivity].
  inversion Hh.
Qed.

Lemma R_write_state d done part : R d (AWriting done part) -> st d = Write.
Proof. intros H. inversion H; reflexivity. Qed.

Lemma run_app x y : forall d d1 v1,
  run d x = Some (d1, v1) ->
  run d (x ++ y) = match run d1 y with Some (d2, v2) => Some (d2, v1 ++ v2) | None => None end.
Proof.
  induction x as [|o x IH]; intros d d1 v1 H; simpl in *.
  - inversion H; subst. destruct (run d1 y) as [[? ?]|]; reflexivity.
  - destruct (step d o) as [[d' v]|]; [|discriminate].
    destruct (run d' x) as [[d'' vs]|] eqn:E; [|discriminate]. inversion H; subst.
    rewrite (IH _ _ _ E). destruct (run d1 y) as [[? ?]|]; reflexivity.
Qed.

Lemma open_closed f ls :
  holds f (version :: ls) true ->
  R (open_db false (Some f)) (AReading [] (Some version) ls true).
Proof.
  intros H. destruct (open_refines (Some f)) as [a [Ha HR]].
  inversion Ha as [|f' ls' cl' Hh E1|f' ls' cl' Hh Hne E1]; subst.
  - destruct (holds_det _ _ _ _ _ H Hh) as [E ->]. inversion E; subst. exact HR.
  - destruct (holds_det _ _ _ _ _ H Hh) as [E _]. subst ls'. simpl in Hne. congruence.
Qed.

Lemma read_back f ls :
  holds f (version :: ls) true ->
  exists d, run (open_db false (Some f)) (repeat ORead (length ls) ++ [ORead]) =
              Some (d, map (fun l => VLine (Some l)) ls ++ [VLine None]) /\
            st d = ReadEof.
Proof.
  intros H. apply open_closed in H. destruct (reads_R _ _ _ _ H) as [d1 [k1 [c1 [Hr HR]]]].
  destruct (read_refines _ _ HR None _ eq_refl) as [d2 [Er HR2]].
  exists d2. split; [|eapply R_eof_state; exact HR2].
  rewrite (run_app _ _ _ _ _ Hr). simpl. rewrite Er. reflexivity.
Qed.

(* --- Sessions keep the version line unless they start by writing --- *)

Definition has_version (a : adb) : Prop :=
  match a with
  | AReading kept _ _ _ => hd_error kept = Some version
  | ASkipped kept _ => hd_error kept = Some version
  | AWriting done _ => hd_error done = Some version
  end.

Lemma hd_error_app {A} (x y : list A) v : hd_error x = Some v -> hd_error (x ++ y) = Some v.
Proof. destruct x; simpl; [discriminate|auto]. Qed.

Lemma accept_hd kept cur : hd_error kept = Some version -> hd_error (accept kept cur) = Some version.
Proof. destruct cur; simpl; [apply hd_error_app|auto]. Qed.

Lemma accept_fresh : hd_error (accept [] (Some version)) = Some version.
Proof. reflexivity. Qed.

Lemma aread_version a l a' :
  (has_version a \/ exists ls cl, a = AReading [] (Some version) ls cl) ->
  aread a = Some (l, a') -> has_version a'.
Proof.
  intros Ha H. destruct a as [kept cur [|x rest] [|]| |]; simpl in H; inversion H; subst; simpl;
    destruct Ha as [Ha|[ls' [cl' E]]]; simpl in *; try discriminate;
    try (inversion E; subst; reflexivity); try (apply accept_hd; exact Ha); exact Ha.
Qed.

Lemma awrite_version s nl a : has_version a -> has_version (awrite s nl (fst (akeep a)) (snd (akeep a))).
Proof.
  intros H. unfold awrite. destruct nl, a; simpl in *; try exact H; apply hd_error_app; exact H.
Qed.

Lemma astep_version a o v a' : astep a o v a' -> has_version a -> has_version a'.
Proof.
  intros Hs Ha. destruct Hs as [a l a' E|a x a' E|a x l a' E Hne|a s nl|a|a r a' E|a].
  - eapply aread_version; [|exact E]; eauto.
  - eapply aread_version; [|exact E]; eauto.
  - apply awrite_version. eapply aread_version; [|exact E]; eauto.
  - apply awrite_version; exact Ha.
  - destruct a; exact Ha.
  - destruct E; simpl in *; auto; apply accept_hd; exact Ha.
  - exact Ha.
Qed.

Lemma aruns_version a os vs a' : aruns a os vs a' -> has_version a -> has_version a'.
Proof. intros H; induction H; intros Ha; [exact Ha|]. apply IHaruns. eapply astep_version; eauto. Qed.

Lemma has_version_lines a : has_version a -> hd_error (alines a) = Some version.
Proof. destruct a; simpl; [apply accept_hd|apply hd_error_app|auto]. Qed.

Lemma session_version f a0 os vs a :
  aopen f a0 -> aruns a0 os vs a -> starts_with_read os = true -> hd_error (alines a) = Some version.
Proof.
  intros Ho Hr Hs.
  assert (has_version a0 \/ exists ls cl, a0 = AReading [] (Some version) ls cl) as H0.
  { destruct Ho; simpl; eauto. }
  clear Ho. induction Hr as [a|a o v a' os vs a'' Hst Hr IH].
  - destruct H0 as [H0|[ls [cl ->]]]; [apply has_version_lines; exact H0|reflexivity].
  - destruct H0 as [H0|[ls [cl ->]]].
    + apply has_version_lines. eapply aruns_version; [exact Hr|]. eapply astep_version; eauto.
    + inversion Hst as [a1 l a1' E|a1 x a1' E|a1 x l a1' E Hne|a1 s nl|a1|a1 r a1' E|a1]; subst; simpl in Hs; try discriminate.
      * apply has_version_lines. eapply aruns_version; [exact Hr|]. eapply aread_version; [|exact E]; eauto.
      * apply has_version_lines. eapply aruns_version; [exact Hr|]. eapply aread_version; [|exact E]; eauto.
      * apply has_version_lines. eapply aruns_version; [exact Hr|]. apply awrite_version. eapply aread_version; [|exact E]; eauto.
      * inversion E; subst; try (apply has_version_lines; eapply aruns_version; [exact Hr|reflexivity]).
        apply IH; [exact Hs|right; eauto].
      * apply IH; [exact Hs|right; eauto].
Qed.

(* --- expect() --- *)

Lemma aread_expect_cases a : ~ is_skipped a -> exists l a', aread a = Some (l, a').
Proof. destruct a as [kept cur [|x rest] [|]| |]; simpl; intros H; eauto. tauto. Qed.

(* What a run of expects does, starting from any non-skipped state. *)
Lemma expects_run vs : forall d a,
  R d a -> (forall done part, a = AWriting done part -> part = []) -> ~ is_skipped a ->
  exists d' outs a',
    run d (map OExpect vs) = Some (d', outs) /\ R d' a' /\ ~ is_skipped a' /\
    (forall done part, a' = AWriting done part -> part = []) /\
    alines a' = alines a ++ vs /\
    (Forall line_ok vs -> complete a -> complete a') /\
    (* still reading: every value was there *)
    (forall kept' cur' rest' cl', a' = AReading kept' cur' rest' cl' ->
       exists kept cur, a = AReading kept cur (vs ++ rest') cl') /\
    (* and conversely *)
    (forall kept cur rest' cl', a = AReading kept cur (vs ++ rest') cl' ->
       exists kept' cur', a' = AReading kept' cur' rest' cl' /\
                          outs = map (fun _ => VLine None) vs).
Proof.
  induction vs as [|v vs IH]; intros d a HR Hp Hns.
  - exists d, [], a. simpl. rewrite app_nil_r. repeat split; eauto 10.
  - destruct (aread_expect_cases a Hns) as [l [a1 Ea]].
    destruct (read_refines _ _ HR _ _ Ea) as [d1 [Er HR1]].
    assert (alines a1 = alines a ++ (match l with Some x => [x] | None => [] end)) as El.
    { destruct a as [kept cur [|x rest] [|]| |]; simpl in Ea; inversion Ea; subst; simpl;
        try (rewrite app_nil_r; reflexivity); try reflexivity. }
    assert (~ is_skipped a1) as Hns1.
    { destruct a as [kept cur [|x rest] [|]| |]; simpl in Ea; inversion Ea; subst; simpl; auto. }
    assert (forall done part, a1 = AWriting done part -> part = []) as Hp1.
    { destruct a as [kept cur [|x rest] [|]| |]; simpl in Ea; inversion Ea; subst; intros dn pt E;
        inversion E; subst; auto. eapply Hp; reflexivity. }
    assert (complete a -> complete a1) as Hc1.
    { destruct a as [kept cur [|x rest] [|]| |]; simpl in Ea; inversion Ea; subst; simpl; auto.
      intros _. split; [|reflexivity].
      inversion HR as [f k c0 c s ls cl w wb p Ef Hc Hok Hne Hh Hpp| | |]; subst; exact Hok. }
    assert (exists d2 o a2, step d (OExpect v) = Some (d2, o) /\ R d2 a2 /\ ~ is_skipped a2 /\
              (forall done part, a2 = AWriting done part -> part = []) /\
              alines a2 = alines a ++ [v] /\
              (line_ok v -> complete a -> complete a2) /\
              ((l = Some v /\ a2 = a1 /\ o = VLine None) \/ (l <> Some v /\ exists dn, a2 = AWriting dn [])))
      as [d2 [o [a2 [Es [HR2 [Hns2 [Hp2 [El2 [Hc2 Hcase]]]]]]]]].
    { destruct (write_refines v true _ _ HR1) as [d3 [Ew HR3]].
      assert (l <> Some v -> alines (awrite v true (fst (akeep a1)) (snd (akeep a1))) = alines a ++ [v]) as Ebad.
      { intros Hl. destruct a as [kept cur [|x rest] [|]| |]; simpl in Ea; inversion Ea; subst;
          unfold awrite; simpl; try reflexivity.
        rewrite (Hp _ _ eq_refl). reflexivity. }
      assert (l <> Some v -> line_ok v -> complete a ->
              complete (awrite v true (fst (akeep a1)) (snd (akeep a1)))) as Hcbad.
      { intros Hl Hv Ha. specialize (Hc1 Ha). unfold awrite; simpl.
        assert (snd (akeep a1) = [] /\ Forall line_ok (fst (akeep a1))) as [E1 E2].
        { destruct a1 as [kept cur rest cl| |dn pt]; simpl in *.
          - split; [reflexivity|]. inversion HR1 as [f k c0 c s ls cl0 w wb p Ef Hc Hok Hne Hh Hpp|f k c0 jk w wb p Ef Hok Hne Hpp| |]; subst;
              (destruct cur as [y|]; simpl in Hok; [apply Forall_app in Hok; tauto|exact Hok]).
          - tauto.
          - tauto. }
        rewrite E1. simpl. split; [|reflexivity]. apply Forall_app. split; [exact E2|]. constructor; auto. }
      unfold step, expect. rewrite Er, Ew. destruct l as [x|].
      - destruct (beqb x v) eqn:Eb.
        + apply beqb_eq in Eb. subst x. exists d1, (VLine None), a1. repeat split; auto.
        + assert (Some x <> Some v) as Hxv.
          { intros E. inversion E; subst. rewrite beqb_refl in Eb. discriminate. }
          eexists d3, _, _. split; [reflexivity|]. split; [exact HR3|]. split; [unfold awrite; simpl; auto|].
          split; [unfold awrite; intros dn pt E; inversion E; reflexivity|].
          split; [apply Ebad; exact Hxv|]. split; [apply Hcbad; exact Hxv|].
          right. split; [exact Hxv|]. unfold awrite; simpl. eauto.
      - assert (@None bytes <> Some v) as Hxv by discriminate.
        eexists d3, _, _. split; [reflexivity|]. split; [exact HR3|]. split; [unfold awrite; simpl; auto|].
        split; [unfold awrite; intros dn pt E; inversion E; reflexivity|].
        split; [apply Ebad; exact Hxv|]. split; [apply Hcbad; exact Hxv|].
        right. split; [exact Hxv|]. unfold awrite; simpl. eauto. }
    destruct (IH _ _ HR2 Hp2 Hns2) as [d' [outs [a' [Hr [HR' [Hns' [Hp' [El' [Hc' [Hrd Hcv]]]]]]]]]].
    exists d', (o :: outs), a'. split.
    { simpl map. cbn [run]. rewrite Es, Hr. reflexivity. }
    split; [exact HR'|]. split; [exact Hns'|]. split; [exact Hp'|].
    split; [rewrite El', El2, <- app_assoc; reflexivity|].
    split.
    { intros Hok Ha. inversion Hok; subst. apply Hc'; auto. }
    split.
    + intros kept' cur' rest' cl' E. destruct (Hrd _ _ _ _ E) as [kept [cur E2]].
      destruct Hcase as [[-> [-> _]]|[_ [dn E3]]]; [|congruence].
      subst a1. destruct a as [kept0 cur0 [|x rest] [|]| |]; simpl in Ea; inversion Ea; subst; simpl; eauto.
    + intros kept cur rest' cl' E. subst a. simpl in Ea. inversion Ea; subst l a1.
      destruct Hcase as [[_ [-> ->]]|[Hne _]]; [|congruence].
      destruct (Hcv _ _ _ _ eq_refl) as [kept' [cur' [E1 E2]]]. subst outs. simpl. eauto.
Qed.

Lemma open_not_writing_part f a : aopen f a -> forall done part, a = AWriting done part -> part = [].
Proof. intros H dn pt E; destruct H; inversion E; reflexivity. Qed.

Lemma open_complete f a : aopen f a -> complete a.
Proof. intros H; destruct H; simpl; auto; split; auto; repeat constructor; apply version_ok. Qed.

Lemma open_lines f a : aopen f a -> alines a = [version].
Proof. intros H; destruct H; reflexivity. Qed.

Lemma expects_session f vs :
  Forall line_ok vs ->
  exists d outs,
    run (open_db false f) (map OExpect vs) = Some (d, outs) /\
    (forall t, holds (close_db t d) (version :: vs) true) /\
    (st d <> Write -> exists c rest cl, f = Some c /\ holds c (version :: vs ++ rest) cl) /\
    (forall c, f = Some c -> holds c (version :: vs) true ->
       st d = ReadEof /\ outs = map (fun _ => VLine None) vs).
Proof.
  intros Hok. destruct (open_refines f) as [a0 [Ho HR0]].
  destruct (expects_run vs _ _ HR0 (open_not_writing_part _ _ Ho) (aopen_not_skipped _ _ Ho))
    as [d [outs [a [Hr [HR [Hns [Hp [El [Hc [Hrd Hcv]]]]]]]]]].
  exists d, outs. split; [exact Hr|]. rewrite (open_lines _ _ Ho) in El. simpl in El. split; [|split].
  - intros t. rewrite <- El. apply close_holds; auto.
    + apply Hc; auto. eapply open_complete; eauto.
    + rewrite El. discriminate.
  - intros Hst. destruct a as [kept cur rest cl| |dn pt]; [|simpl in Hns; tauto|].
    + destruct (Hrd _ _ _ _ eq_refl) as [k [c E]]. subst a0.
      inversion Ho as [|f' ls' cl' Hh E1|]; subst. exists f', rest, cl. auto.
    + inversion HR; subst. simpl in Hst. congruence.
  - intros c -> Hh. inversion Ho as [|f' ls' cl' Hh' E1|f' ls' cl' Hh' Hne E1]; subst.
    + destruct (holds_det _ _ _ _ _ Hh Hh') as [E Ecl]. inversion E; subst.
      destruct (Hcv [] (Some version) [] true) as [k' [c' [E1 E2]]]; [rewrite app_nil_r; reflexivity|].
      subst a. split; [eapply R_eof_state; exact HR|exact E2].
    + destruct (holds_det _ _ _ _ _ Hh Hh') as [E _]. subst ls'. simpl in Hne. congruence.
Qed.

(* Strict version of crash_prefix: the last complete line of an unfinished
   database is not readable. *)
Lemma crash_prefix_strict ls k :
  Forall line_ok ls -> ls <> [] ->
  exists ls', holds (firstn k (enc ls)) ls' false /\ prefix ls' ls /\ length ls' < length ls.
Proof.
  intros Hok Hne. destruct (exists_last Hne) as [ls0 [l ->]].
  apply Forall_app in Hok. destruct Hok as [Hok Hl]. inversion Hl as [|? ? Hl' _]; subst.
  rewrite enc_snoc. rewrite app_length; simpl.
  destruct (le_lt_dec k (length (enc ls0 ++ l))) as [Hk|Hk].
  - rewrite app_assoc, firstn_app. replace (k - length (enc ls0 ++ l)) with 0 by lia.
    simpl. rewrite app_nil_r. destruct (crash_prefix ls0 l k Hok Hl') as [ls' [Hh Hp]].
    exists ls'. split; [exact Hh|]. split; [apply prefix_app_l; exact Hp|].
    destruct Hp as [z ->]. rewrite app_length. lia.
  - rewrite firstn_all2 by (rewrite !app_length in *; simpl; lia).
    exists ls0. split; [|split; [exists [l]; reflexivity|lia]].
    rewrite <- (app_nil_r ls0) at 2. apply holds_enc_app; auto.
    + destruct l; discriminate.
    + destruct l as [|x l]; simpl; [discriminate|]. apply Hl'.
    + apply holds_last. apply Hl'.
Qed.

Lemma crash_holds_strict d a k : R d a -> complete a -> alines a <> [] -> st d = Write ->
  exists ls', holds (image d k) ls' false /\ prefix ls' (alines a) /\ length ls' < length (alines a).
Proof.
  intros H Hs Hne Hst. destruct H as [| | |f done part g p w wb Hw He]; try discriminate.
  simpl in *. rewrite image_write by exact Hw. destruct Hs as [Hok ->].
  rewrite app_nil_r in He.
  assert (f ++ firstn k wb = firstn (length f + k) (enc done)) as ->.
  { rewrite <- He, firstn_app_2. reflexivity. }
  apply crash_prefix_strict; auto.
Qed.

(* The interrupted update is redone: expecting the same values again after a
   crash ends up in the write mode. *)
Lemma crash_detected f vs d outs k :
  Forall line_ok vs -> run (open_db false f) (map OExpect vs) = Some (d, outs) -> st d = Write ->
  exists d2 outs2, run (open_db false (Some (image d k))) (map OExpect vs) = Some (d2, outs2) /\
                   st d2 = Write.
Proof.
  intros Hok Hr Hst. destruct (open_refines f) as [a0 [Ho HR0]].
  destruct (expects_run vs _ _ HR0 (open_not_writing_part _ _ Ho) (aopen_not_skipped _ _ Ho))
    as [d' [outs' [a [Hr' [HR [Hns [Hp [El [Hc _]]]]]]]]].
  rewrite Hr in Hr'. inversion Hr'; subst d' outs'. rewrite (open_lines _ _ Ho) in El. simpl in El.
  destruct (crash_holds_strict d a k HR) as [ls' [Hh [Hpre Hlen]]]; auto.
  { apply Hc; auto. eapply open_complete; eauto. }
  { rewrite El; discriminate. }
  destruct (expects_session (Some (image d k)) vs Hok) as [d2 [outs2 [Hr2 [_ [Hrd _]]]]].
  exists d2, outs2. split; [exact Hr2|].
  destruct (st d2) eqn:E; [exfalso|exfalso|reflexivity];
    (destruct Hrd as [c [rest [cl [Ec Hh2]]]]; [discriminate|]; inversion Ec; subst c;
     destruct (holds_det _ _ _ _ _ Hh Hh2) as [E1 _]; subst ls'; rewrite El in Hlen;
     simpl in Hlen; rewrite app_length in Hlen; lia).
Qed.

(* --- skip() --- *)

Lemma reads_not_writing n : forall d a d' vs,
  R d a -> ~ is_skipped a -> run d (repeat ORead n) = Some (d', vs) ->
  exists a', R d' a' /\ ~ is_skipped a'.
Proof.
  induction n as [|n IH]; intros d a d' vs HR Hns Hr; simpl in Hr.
  - inversion Hr; subst. eauto.
  - destruct (aread_expect_cases a Hns) as [l [a1 Ea]].
    destruct (read_refines _ _ HR _ _ Ea) as [d1 [Er HR1]]. rewrite Er in Hr.
    destruct (run d1 (repeat ORead n)) as [[d2 v2]|] eqn:E; [|discriminate]. inversion Hr; subst.
    eapply IH; [exact HR1| |exact E].
    destruct a as [kept cur [|x rest] [|]| |]; simpl in Ea; inversion Ea; subst; simpl; auto.
Qed.

Lemma skip_sound f n d vs r d' :
  run (open_db false f) (repeat ORead n) = Some (d, vs) -> st d = Read ->
  skip d = Some (r, d') -> r = true ->
  exists m d2 vs2, run d (repeat ORead m) = Some (d2, vs2) /\ st d2 = ReadEof /\
                   ~ In (VLine None) vs2.
Proof.
  intros Hr Hst Hsk ->. destruct (open_refines f) as [a0 [Ho HR0]].
  destruct (reads_not_writing _ _ _ _ _ HR0 (aopen_not_skipped _ _ Ho) Hr) as [a [HR Hns]].
  destruct (skip_refines _ _ _ _ HR Hsk) as [a' [Ha' HR']].
  inversion Ha' as [kept cur|kept rest|kept cur l rest|]; subst; [| |].
  - apply R_eof_state in HR. congruence.
  - simpl in Hns. tauto.
  - destruct (reads_R _ _ _ _ HR) as [d2 [k2 [c2 [Hr2 HR2]]]].
    exists (length (l :: rest)), d2, (map (fun l => VLine (Some l)) (l :: rest)).
    split; [exact Hr2|]. split; [eapply R_eof_state; exact HR2|].
    rewrite in_map_iff. intros [x [E _]]. discriminate.
Qed.

Lemma skip_complete f n d vs m d2 vs2 :
  run (open_db false f) (repeat ORead n) = Some (d, vs) -> st d = Read ->
  run d (repeat ORead m) = Some (d2, vs2) -> st d2 = ReadEof ->
  no_blank (skipn (gpos d) (file d)) ->
  exists d', skip d = Some (true, d').
Proof.
  intros Hr Hst Hm He Hb. destruct (open_refines f) as [a0 [Ho HR0]].
  destruct (reads_not_writing _ _ _ _ _ HR0 (aopen_not_skipped _ _ Ho) Hr) as [a [HR Hns]].
  assert (exists kept cur ls, a = AReading kept cur ls true) as [kept [cur [ls Ea]]].
  { clear Hr Hb. revert d a vs2 Hst HR Hns Hm. 
    assert (forall m d a vs2, R d a -> ~ is_skipped a -> run d (repeat ORead m) = Some (d2, vs2) ->
             exists kept cur ls, a = AReading kept cur ls true) as G.
    { clear - He. induction m as [|m IH]; intros d a vs2 HR Hns Hm; simpl in Hm.
      - inversion Hm; subst. inversion HR; subst; simpl in He; try discriminate; eauto. simpl in Hns. tauto.
      - destruct (aread_expect_cases a Hns) as [l [a1 Ea]].
        destruct (read_refines _ _ HR _ _ Ea) as [d1 [Er HR1]]. rewrite Er in Hm.
        destruct (run d1 (repeat ORead m)) as [[d3 v3]|] eqn:E; [|discriminate]. inversion Hm; subst.
        assert (~ is_skipped a1) as Hns1.
        { destruct a as [kept cur [|x rest] [|]| |]; simpl in Ea; inversion Ea; subst; simpl; auto. }
        destruct (IH _ _ _ HR1 Hns1 E) as [k [c [ls E1]]]. subst a1.
        destruct a as [kept cur [|x rest] [|]| |]; simpl in Ea; inversion Ea; subst; eauto. }
    intros d a vs2 _ HR Hns Hm. eapply G; eauto. }
  subst a. inversion HR as [f0 k c0 c s ls0 cl w wb p Ef Hc Hok Hne Hh Hp|f0 k c0 jk w wb p Ef Hok Hne Hp| |]; subst.
  - cbn [gpos file] in Hb. rewrite skipn_exact in Hb. unfold skip. cbn [st set_pos gpos file].
    rewrite skipn_exact. pose proof (skip_scan_complete _ _ Hh Hb 0) as Hn.
    destruct (skip_scan (c :: s) 0); [eauto|congruence].
  - simpl in Hst. discriminate.
Qed.

(* --- close_to_reopen() --- *)

Lemma legal_no_skip os : not_skipped_b os = true -> legal false os = true.
Proof.
  induction os as [|o os IH]; intros H; [reflexivity|]. simpl in H. apply andb_true_iff in H.
  destruct H as [H1 H2]. destruct o; simpl; try discriminate; auto.
Qed.

Lemma aruns_no_skip a os vs a' :
  aruns a os vs a' -> not_skipped_b os = true -> ~ is_skipped a -> ~ is_skipped a'.
Proof.
  intros H; induction H as [a|a o v a' os vs a'' Hst Hr IH]; intros Hb Hns; [exact Hns|].
  simpl in Hb. apply andb_true_iff in Hb. destruct Hb as [H1 H2]. apply IH; [exact H2|].
  assert (forall a l a', ~ is_skipped a -> aread a = Some (l, a') -> ~ is_skipped a') as G.
  { clear. intros a l a' Hns Ea.
    destruct a as [kept cur [|x rest] [|]| |]; simpl in Ea; inversion Ea; subst; simpl; auto. }
  destruct Hst as [a l a' E|a x a' E|a x l a' E Hne|a s nl|a|a r a' E|a]; try discriminate; eauto.
  - unfold awrite; destruct nl; simpl; auto.
Qed.

Lemma to_reopen_file d a : R d a -> ~ is_skipped a -> complete a ->
  exists junk,
    fst (close_to_reopen d) = enc (alines a) ++ NUL :: junk /\
    snd (close_to_reopen d) = length (enc (alines a)) /\ Forall line_ok (alines a) /\
    (st d <> ReadEof -> junk = []).
Proof.
  intros H Hns Hc. destruct H as [f kept cur c s ls cl w wb p Ef Hc' Hok Hne' Hh Hp
                                  |f kept cur junk w wb p Ef Hok Hne' Hp
                                  |f kept c s ls j w wb p Ef Hc' Hok Hh Hls Hj Hp
                                  |f done part g p w wb Hw He]; unfold close_to_reopen, to_reopen; cbn [st fst snd].
  - subst f. exists []. unfold set_pos, change, put; cbn -[flushed image firstn]. rewrite firstn_exact.
    rewrite flushed_write by reflexivity. simpl. rewrite Nat.add_0_r. auto.
  - subst f. exists junk. unfold set_pos, change, put, flushed, image; cbn -[firstn]. unfold overwrite.
    rewrite firstn_exact. simpl. rewrite Nat.add_0_r. repeat split; auto.
    + f_equal. f_equal. replace (length (enc (accept kept cur)) + 1) with (S (length (enc (accept kept cur)))) by lia.
      change (S (length (enc (accept kept cur)))) with (1 + length (enc (accept kept cur))).
      rewrite skipn_app. rewrite skipn_all2 by lia.
      replace (1 + length (enc (accept kept cur)) - length (enc (accept kept cur))) with 1 by lia. reflexivity.
    + congruence.
  - simpl in Hns. tauto.
  - exists []. simpl in *. destruct Hc as [Hok ->]. unfold put; cbn -[flushed image firstn].
    rewrite flushed_write by exact Hw. rewrite app_nil_r in He. rewrite app_assoc, He.
    repeat split; auto. subst w. rewrite <- app_length, He. reflexivity.
Qed.

(* Writing complete lines in the write mode. *)
Lemma writes_run ls : forall d, st d = Write -> ro d = false ->
  exists d', run d (map (fun l => OWrite l true) ls) = Some (d', map (fun _ => VUnit) ls) /\
             d' = mkdb Write false (file d) (gpos d) (pos d) (wpos d) (wbuf d ++ enc ls).
Proof.
  induction ls as [|l ls IH]; intros d Hst Hro.
  - exists d. split; [reflexivity|]. destruct d; simpl in *; subst. rewrite app_nil_r. reflexivity.
  - simpl. unfold write. rewrite Hst, Hro.
    destruct (IH (put (l ++ [NL]) d)) as [d' [Hr Ed]]; [exact Hst|exact Hro|].
    rewrite Hr. eexists. split; [reflexivity|]. rewrite Ed. unfold put; cbn.
    rewrite <- !app_assoc. reflexivity.
Qed.

Lemma reopen_append d a ls :
  R d a -> ~ is_skipped a -> complete a -> alines a <> [] -> Forall line_ok ls ->
  let (f, p) := close_to_reopen d in
  holds f (alines a) true /\
  exists d2, run (reopen f p) (map (fun l => OWrite l true) ls) =
               Some (d2, map (fun _ => VUnit) ls) /\
             forall t, holds (close_db t d2) (alines a ++ ls) true.
Proof.
  intros HR Hns Hc Hne Hls. destruct (to_reopen_file _ _ HR Hns Hc) as [junk [Ef [Ep [Hok _]]]].
  destruct (close_to_reopen d) as [f p]. simpl in Ef, Ep. subst f p. split.
  - apply holds_enc_end; auto.
  - destruct (writes_run ls (reopen (enc (alines a) ++ NUL :: junk) (length (enc (alines a))))) as [d2 [Hr Ed]];
      [reflexivity|reflexivity|].
    exists d2. split; [exact Hr|]. intros t. subst d2. unfold close_db, closing, put, flushed, image; cbn -[firstn].
    rewrite firstn_all. unfold overwrite. rewrite firstn_exact.
    rewrite <- (app_assoc (enc ls)). rewrite app_assoc, <- enc_app. simpl.
    apply holds_enc_end; [|apply Forall_app; auto]. destruct (alines a); [congruence|discriminate].
Qed.

(* Crash while appending after a reopen: nothing beyond the old lines and a
   prefix of the new ones, and closed only if nothing was overwritten yet. *)
Lemma reopen_crash d a ls k :
  R d a -> ~ is_skipped a -> complete a -> alines a <> [] -> Forall line_ok ls -> st d <> ReadEof ->
  let (f, p) := close_to_reopen d in
  forall d2 vs, run (reopen f p) (map (fun l => OWrite l true) ls) = Some (d2, vs) ->
    (0 < k <= length (wbuf d2) ->
     exists ls', holds (image d2 k) ls' false /\ prefix ls' (alines a ++ ls)).
Proof.
  intros HR Hns Hc Hne Hls Hst. destruct (to_reopen_file _ _ HR Hns Hc) as [junk [Ef [Ep [Hok Hj]]]].
  specialize (Hj Hst). subst junk.
  destruct (close_to_reopen d) as [f p]. simpl in Ef, Ep. subst f p.
  intros d2 vs Hr Hk.
  destruct (writes_run ls (reopen (enc (alines a) ++ [NUL]) (length (enc (alines a))))) as [d2' [Hr' Ed]];
    [reflexivity|reflexivity|].
  rewrite Hr in Hr'. inversion Hr'. subst d2' vs. subst d2. cbn [wbuf] in Hk. simpl in Hk.
  unfold image; cbn -[firstn]. simpl app. unfold overwrite. rewrite firstn_exact.
  rewrite (skipn_all2 (enc (alines a) ++ [NUL])) by (rewrite app_length, firstn_length; simpl; lia).
  rewrite app_nil_r.
  assert (enc (alines a) ++ firstn k (enc ls) =
          firstn (length (enc (alines a)) + k) (enc (alines a ++ ls) ++ [])) as ->.
  { rewrite app_nil_r, enc_app, firstn_app_2. reflexivity. }
  apply crash_prefix; [apply Forall_app; auto|]. split; [intros []|discriminate].
Qed.

(* --- read-only sessions --- *)

Inductive Sim (f0 : bytes) : db -> db -> Prop :=
| Sim_reading s g p w1 b1 w2 b2 :
    s <> Write -> Sim f0 (mkdb s true f0 g p w1 b1) (mkdb s false f0 g p w2 b2)
| Sim_writing g p w b d : st d = Write -> Sim f0 (mkdb Write true f0 g p w b) d.

Lemma Sim_change f0 s g p w1 b1 w2 b2 :
  Sim f0 (change true (mkdb s true f0 g p w1 b1)) (change true (mkdb s false f0 g p w2 b2)).
Proof. unfold change, set_st; cbn. apply Sim_writing. reflexivity. Qed.

Lemma Sim_read f0 d1 d2 : Sim f0 d1 d2 -> fst (read d1) = fst (read d2) /\ Sim f0 (snd (read d1)) (snd (read d2)).
Proof.
  intros H. destruct H as [s g p w1 b1 w2 b2 Hs|g p w b0 d Hd].
  - unfold read. destruct s; [| |congruence]; cbn [st].
    + unfold read_, set_pos; cbn [st gpos file ro wpos wbuf pos].
      destruct (getline (skipn g f0)) as [[l [|c r]]|]; cbn [fst snd]; try (split; [reflexivity|apply Sim_change]).
      split; [reflexivity|]. unfold set_gpos, set_st; cbn. destruct (ceqb c NUL); constructor; discriminate.
    + unfold read_, set_pos; cbn. split; [reflexivity|]. constructor; discriminate.
  - unfold read. rewrite Hd. cbn. split; [reflexivity|]. apply Sim_writing; exact Hd.
Qed.

Lemma Sim_step f0 d1 d2 o d1' v :
  Sim f0 d1 d2 -> read_only_op o = true -> step d1 o = Some (d1', v) ->
  exists d2', step d2 o = Some (d2', v) /\ Sim f0 d1' d2'.
Proof.
  intros HS Ho Hs. destruct o; simpl in Ho; try discriminate; simpl in *.
  - destruct (Sim_read _ _ _ HS) as [E HS']. destruct (read d1) as [l1 e1], (read d2) as [l2 e2]; simpl in *.
    inversion Hs; subst. eauto.
  - inversion Hs; subst. eexists. split; [reflexivity|]. destruct HS as [s g p w1 b1 w2 b2 Hs'|g p w b0 d Hd].
    + unfold mark; destruct s; [| |congruence]; cbn [st]; apply Sim_change.
    + unfold mark; rewrite Hd; cbn. apply Sim_writing; exact Hd.
  - destruct HS as [s g p w1 b1 w2 b2 Hs'|g p w b0 d Hd].
    + unfold skip in *. destruct s; [| |congruence]; cbn [st] in *.
      * unfold set_pos in *; cbn [gpos file st ro wpos wbuf pos] in *.
        destruct (skip_scan (skipn g f0) 0); inversion Hs; subst; eexists; (split; [reflexivity|]).
        -- unfold set_st, set_gpos; cbn. constructor; discriminate.
        -- apply Sim_change.
      * inversion Hs; subst. eexists. split; [reflexivity|]. constructor; discriminate.
    + unfold skip in Hs; cbn in Hs. discriminate.
  - inversion Hs; subst. eauto.
Qed.

Lemma Sim_run f0 os : forall d1 d2 d1' vs,
  Sim f0 d1 d2 -> forallb read_only_op os = true -> run d1 os = Some (d1', vs) ->
  exists d2', run d2 os = Some (d2', vs) /\ Sim f0 d1' d2'.
Proof.
  induction os as [|o os IH]; intros d1 d2 d1' vs HS Ho Hr; simpl in *.
  - inversion Hr; subst. eauto.
  - apply andb_true_iff in Ho. destruct Ho as [Ho1 Ho2].
    destruct (step d1 o) as [[e1 v]|] eqn:Es; [|discriminate].
    destruct (run e1 os) as [[e1' vs']|] eqn:Er; [|discriminate]. inversion Hr; subst.
    destruct (Sim_step _ _ _ _ _ _ HS Ho1 Es) as [e2 [Es2 HS2]].
    destruct (IH _ _ _ _ HS2 Ho2 Er) as [e2' [Er2 HS2']]. rewrite Es2, Er2. eauto.
Qed.

Lemma Sim_open f : Sim (contents f) (open_db true f) (open_db false f).
Proof.
  destruct f as [c|]; simpl contents.
  - unfold open_db. 
    pose proof (Sim_read c (mkdb Read true c 0 0 0 []) (mkdb Read false c 0 0 0 [])) as H.
    destruct H as [E HS]; [constructor; discriminate|]. unfold read in *; cbn [st] in *.
    destruct (read_ (mkdb Read true c 0 0 0 [])) as [l1 e1], (read_ (mkdb Read false c 0 0 0 [])) as [l2 e2].
    simpl in E, HS. subst l2.
    assert (Sim c (mark e1) (match write version true e2 with Some d' => d' | None => e2 end)) as Hbad.
    { destruct HS as [s g p w1 b1 w2 b2 Hs|g p w b0 d Hd].
      - unfold mark, write. destruct s; [| |congruence]; cbn; unfold put, set_st; cbn; apply Sim_writing; reflexivity.
      - unfold mark, write. rewrite Hd. cbn. destruct (ro d); apply Sim_writing; exact Hd. }
    destruct l1 as [x|]; [|exact Hbad]. destruct (beqb x version); [exact HS|exact Hbad].
  - unfold open_db. apply Sim_writing. reflexivity.
Qed.

Lemma Sim_facts f0 d1 d2 : Sim f0 d1 d2 ->
  st d1 = st d2 /\ ro d1 = true /\ (forall k, image d1 k = f0) /\ (forall t, close_db t d1 = f0).
Proof.
  intros H. destruct H as [s g p w1 b1 w2 b2 Hs|g p w b0 d Hd].
  - repeat split; unfold close_db, closing, flushed, image; cbn; destruct s; reflexivity || congruence.
  - rewrite Hd. repeat split; unfold close_db, closing, flushed, image; cbn; reflexivity.
Qed.

Lemma read_only_session f os d vs :
  forallb read_only_op os = true -> run (open_db true f) os = Some (d, vs) ->
  (forall k, image d k = contents f) /\ (forall t, close_db t d = contents f) /\
  exists dw, run (open_db false f) os = Some (dw, vs) /\ st dw = st d.
Proof.
  intros Ho Hr. destruct (Sim_run _ _ _ _ _ _ (Sim_open f) Ho Hr) as [dw [Hw HS]].
  destruct (Sim_facts _ _ _ HS) as [E [_ [H1 H2]]]. repeat split; auto. exists dw. split; auto.
Qed.

(* --- crash detection through the API --- *)

Lemma reads_unclosed ls : forall n d kept cur,
  R d (AReading kept cur ls false) -> length ls < n ->
  exists d' vs, run d (repeat ORead n) = Some (d', vs) /\ st d' = Write.
Proof.
  assert (forall n d, st d = Write -> exists vs, run d (repeat ORead n) = Some (d, vs)) as HW.
  { induction n as [|n IH]; intros d Hd; [eexists; reflexivity|].
    destruct (IH d Hd) as [vs Hr]. simpl. unfold read. rewrite Hd, Hr. eauto. }
  induction ls as [|l ls IH]; intros [|n] d kept cur HR Hn; simpl in Hn; try lia.
  - destruct (read_refines _ _ HR None _ eq_refl) as [d1 [Er HR1]].
    assert (st d1 = Write) as Hd1 by (inversion HR1; reflexivity).
    destruct (HW n d1 Hd1) as [vs Hr]. simpl. rewrite Er, Hr. eauto.
  - destruct (read_refines _ _ HR (Some l) _ eq_refl) as [d1 [Er HR1]].
    destruct (IH n _ _ _ HR1) as [d' [vs [Hr Hst]]]; [lia|]. simpl. rewrite Er, Hr. eauto.
Qed.

Lemma unclosed_detected f ls n :
  holds f ls false -> length ls <= n ->
  exists d vs, run (open_db false (Some f)) (repeat ORead n) = Some (d, vs) /\ st d = Write.
Proof.
  intros Hh Hn. destruct (open_refines (Some f)) as [a [Ha HR]].
  assert (forall n d, st d = Write -> exists vs, run d (repeat ORead n) = Some (d, vs)) as HW.
  { clear. induction n as [|n IH]; intros d Hd; [eexists; reflexivity|].
    destruct (IH d Hd) as [vs Hr]. simpl. unfold read. rewrite Hd, Hr. eauto. }
  inversion Ha as [|f' ls' cl' Hh' E1|f' ls' cl' Hh' Hne E1]; subst.
  - destruct (holds_det _ _ _ _ _ Hh Hh') as [E Ecl]. subst. simpl in Hn.
    eapply reads_unclosed; [exact HR|lia].
  - assert (st (open_db false (Some f)) = Write) as Hst by (eapply R_write_state; exact HR).
    destruct (HW n _ Hst) as [vs Hr]. eauto.
Qed.

(* --- until the session starts writing the file is not touched --- *)

Lemma change_write t d : st (change t d) = Write.
Proof. unfold change. destruct (ro d); reflexivity. Qed.

Lemma read_keeps_file d : st (snd (read d)) <> Write -> file (snd (read d)) = file d.
Proof.
  unfold read. destruct (st d) eqn:Est; simpl; try congruence; unfold read_, set_pos; cbn [st gpos file];
    rewrite Est; [|reflexivity].
  destruct (getline (skipn (gpos d) (file d))) as [[l [|c r]]|]; simpl; rewrite ?change_write; try congruence.
  destruct (ceqb c NUL); reflexivity.
Qed.

Lemma write_write s nl d d' : write s nl d = Some d' -> st d' = Write.
Proof.
  unfold write. destruct (st d) eqn:E; intros H.
  - destruct (ro (change true d)); [discriminate|]. inversion H. unfold put; simpl. apply change_write.
  - destruct (ro (change true d)); [discriminate|]. inversion H. unfold put; simpl. apply change_write.
  - destruct (ro d); [discriminate|]. inversion H. unfold put; simpl. exact E.
Qed.

Lemma step_keeps_file d o d' v : step d o = Some (d', v) -> st d' <> Write -> file d' = file d /\ st d <> Write.
Proof.
  assert (forall d, st (snd (read d)) <> Write -> st d <> Write) as Hback.
  { clear. intros d H E. unfold read in H. rewrite E in H. simpl in H. congruence. }
  intros H Hst. destruct o; simpl in H.
  - pose proof (read_keeps_file d) as Hk. pose proof (Hback d) as Hb. destruct (read d) as [l e]. inversion H; subst. simpl in *. auto.
  - unfold expect in H. pose proof (read_keeps_file d) as Hk. pose proof (Hback d) as Hb. destruct (read d) as [l e].
    assert (forall z, match write v0 true e with Some d2 => Some (l, d2) | None => None end = Some z -> st (snd z) = Write) as Hw.
    { intros z Hz. destruct (write v0 true e) eqn:Ew; inversion Hz. simpl. eapply write_write; eauto. }
    destruct l as [x|].
    + destruct (beqb x v0).
      * inversion H; subst. simpl in *. auto.
      * destruct (write v0 true e) as [e2|] eqn:Ew; inversion H; subst. apply write_write in Ew. congruence.
    + destruct (write v0 true e) as [e2|] eqn:Ew; inversion H; subst. apply write_write in Ew. congruence.
  - destruct (write s nl d) as [e2|] eqn:Ew; inversion H; subst. apply write_write in Ew. congruence.
  - inversion H; subst. unfold mark in Hst. destruct (st d) eqn:E; rewrite ?change_write in Hst; congruence.
  - unfold skip in H. destruct (st d) eqn:E; [|inversion H; subst; split; congruence|discriminate].
    destruct (skip_scan (skipn (gpos (set_pos (gpos d) d)) (file (set_pos (gpos d) d))) 0); inversion H; subst.
    + split; [reflexivity|discriminate].
    + rewrite change_write in Hst. congruence.
  - inversion H; subst. auto.
Qed.

Lemma run_keeps_file os : forall d d' vs, run d os = Some (d', vs) -> st d' <> Write -> file d' = file d /\ st d <> Write.
Proof.
  induction os as [|o os IH]; intros d d' vs H Hst; simpl in H.
  - inversion H; subst. auto.
  - destruct (step d o) as [[e v]|] eqn:Es; [|discriminate].
    destruct (run e os) as [[e' vs']|] eqn:Er; [|discriminate]. inversion H; subst.
    destruct (IH _ _ _ Er Hst) as [E1 E2]. destruct (step_keeps_file _ _ _ _ Es E2) as [E3 E4].
    split; [congruence|exact E4].
Qed.

Lemma open_keeps_file r f : st (open_db r f) <> Write -> exists c, f = Some c /\ file (open_db r f) = c.
Proof.
  destruct f as [c|]; [|destruct r; simpl; congruence]. intros H. exists c. split; [reflexivity|].
  pose proof (read_keeps_file (mkdb Read r c 0 0 0 [])) as Hk. unfold open_db in *. unfold read in Hk. cbn [st] in Hk.
  destruct (read_ (mkdb Read r c 0 0 0 [])) as [l e]. simpl in Hk.
  assert (forall x, x = (if r then mark e else match write version true e with Some d' => d' | None => e end) ->
            st x <> Write -> file x = c) as G.
  { intros x -> Hx. destruct r.
    - unfold mark in Hx. destruct (st e) eqn:E; rewrite ?change_write in Hx; congruence.
    - destruct (write version true e) as [e2|] eqn:Ew; [apply write_write in Ew; congruence|auto]. }
  destruct l as [x|]; [destruct (beqb x version)|]; auto.
Qed.

Lemma untouched f os d vs k :
  run (open_db false f) os = Some (d, vs) -> st d <> Write -> f = Some (image d k).
Proof.
  intros Hr Hst. destruct (run_keeps_file _ _ _ _ Hr Hst) as [E1 E2].
  destruct (open_keeps_file _ _ E2) as [c [-> E3]].
  unfold image. destruct (st d); congruence.
Qed.

(* --- crash inside close(), any touch --- *)
Lemma crash_close_any d a k t : R d a -> complete a -> alines a <> [] ->
  (exists ls', holds (image (closing t d) k) ls' false /\ prefix ls' (alines a)) \/
  holds (image (closing t d) k) (alines a) true.
Proof.
  intros H Hc Hne. destruct (st d) eqn:Est.
  - assert (closing t d = closing TNone d) as -> by (unfold closing; rewrite Est; reflexivity).
    apply crash_close_holds; auto. congruence.
  - right. pose proof (close_holds _ _ t H Hc Hne) as Hcl. pose proof (close_holds _ _ TNone H Hc Hne) as Hcn.
    unfold close_db, flushed, closing in *. rewrite Est in *.
    destruct (ro d) eqn:Ero; [inversion H; subst; discriminate|].
    destruct t; unfold image in *; rewrite ?Est in *; auto.
    unfold put, change, set_pos in *; cbn [ro] in *. rewrite Ero in *.
    cbn -[overwrite firstn] in *. rewrite ?Ero in *.
    destruct k as [|k].
    + simpl firstn. unfold overwrite. simpl. rewrite Nat.add_0_r, firstn_skipn. exact Hcn.
    + simpl firstn in *. rewrite firstn_nil. exact Hcl.
  - assert (closing t d = closing TNone d) as -> by (unfold closing; rewrite Est; reflexivity).
    apply crash_close_holds; auto. congruence.
Qed.

(* --- Session-level statements --- *)

Lemma session_aruns f os d vs :
  legal false os = true -> run (open_db false f) os = Some (d, vs) ->
  exists a0 a, aopen f a0 /\ aruns a0 os vs a /\ R d a.
Proof. apply session_refines. Qed.

Lemma session_closed_holds f os d vs :
  legal false os = true -> run (open_db false f) os = Some (d, vs) ->
  exists a0 a, aopen f a0 /\ aruns a0 os vs a /\
    (complete a -> alines a <> [] -> forall t, holds (close_db t d) (alines a) true).
Proof.
  intros Hl Hr. destruct (session_aruns _ _ _ _ Hl Hr) as [a0 [a [Ho [Ha HR]]]].
  exists a0, a. split; [exact Ho|]. split; [exact Ha|]. intros Hc Hne t. apply close_holds; auto.
Qed.

Lemma session_reads_back f os d vs t :
  legal false os = true -> starts_with_read os = true ->
  run (open_db false f) os = Some (d, vs) ->
  exists a0 a, aopen f a0 /\ aruns a0 os vs a /\
    (complete a ->
     exists ls, alines a = version :: ls /\
     exists d2,
       run (open_db false (Some (close_db t d))) (repeat ORead (length ls) ++ [ORead]) =
         Some (d2, map (fun l => VLine (Some l)) ls ++ [VLine None]) /\
       st d2 = ReadEof).
Proof.
  intros Hl Hs Hr. destruct (session_aruns _ _ _ _ Hl Hr) as [a0 [a [Ho [Ha HR]]]].
  exists a0, a. split; [exact Ho|]. split; [exact Ha|]. intros Hc.
  pose proof (session_version _ _ _ _ _ Ho Ha Hs) as Hv.
  destruct (alines a) as [|v ls] eqn:El; [discriminate|]. simpl in Hv. inversion Hv; subst v.
  exists ls. split; [reflexivity|]. apply read_back. rewrite <- El. apply close_holds; auto.
  rewrite El. discriminate.
Qed.

Lemma holds_function f : exists ls cl, holds f ls cl /\
    forall ls' cl', holds f ls' cl' -> ls' = ls /\ cl' = cl.
Proof.
  destruct (holds_total f) as [ls [cl H]]. exists ls, cl. split; [exact H|].
  intros ls' cl' H'. apply (holds_det _ _ _ _ _ H' H).
Qed.

Lemma write_first_refuted :
  exists f os d vs,
    legal false os = true /\ holds f [version; b "x"] true /\
    run (open_db false (Some f)) os = Some (d, vs) /\
    Forall (fun o => exists l, o = OWrite l true /\ line_ok l) os /\
    ~ (exists ls, holds (close_db TNone d) (version :: ls) true).
Proof.
  exists (b "1" ++ [NL] ++ b "x" ++ [NL; NUL]), [OWrite (b "y") true]. eexists _, _.
  split; [reflexivity|]. split.
  { apply (holds_more (b "1") "x"%char); [vm_compute; intuition discriminate|discriminate|].
    apply (holds_end (b "x") []). vm_compute; intuition discriminate. }
  split; [reflexivity|]. split.
  { repeat constructor. exists (b "y"). split; [reflexivity|]. split; [vm_compute; intuition discriminate|discriminate]. }
  intros [ls H]. vm_compute in H.
  assert (holds (b "y" ++ NL :: NUL :: []) [b "y"] true) as H2 by (apply holds_end; vm_compute; intuition discriminate).
  destruct (holds_det _ _ _ _ _ H H2) as [E _]. discriminate.
Qed.

Lemma session_crash f os d vs k :
  legal false os = true -> run (open_db false f) os = Some (d, vs) ->
  (st d <> Write -> f = Some (image d k)) /\
  (st d = Write ->
   exists a0 a, aopen f a0 /\ aruns a0 os vs a /\
     (storable a -> exists ls, holds (image d k) ls false /\ prefix ls (alines a))).
Proof.
  intros Hl Hr. split; [apply (untouched _ _ _ _ _ Hr)|]. intros Hst.
  destruct (session_aruns _ _ _ _ Hl Hr) as [a0 [a [Ho [Ha HR]]]].
  exists a0, a. split; [exact Ho|]. split; [exact Ha|]. intros Hs. apply crash_holds; auto.
Qed.

Lemma session_crash_close f os d vs t k :
  legal false os = true -> run (open_db false f) os = Some (d, vs) ->
  exists a0 a, aopen f a0 /\ aruns a0 os vs a /\
    (complete a -> alines a <> [] ->
     (exists ls, holds (image (closing t d) k) ls false /\ prefix ls (alines a)) \/
     holds (image (closing t d) k) (alines a) true).
Proof.
  intros Hl Hr. destruct (session_aruns _ _ _ _ Hl Hr) as [a0 [a [Ho [Ha HR]]]].
  exists a0, a. split; [exact Ho|]. split; [exact Ha|]. intros Hc Hne. apply crash_close_any; auto.
Qed.

Lemma skip_refuted :
  exists f d2 vs2 d',
    run (open_db false (Some f)) [ORead; ORead] = Some (d2, vs2) /\
    ~ In (VLine None) vs2 /\ st d2 = ReadEof /\
    skip (open_db false (Some f)) = Some (false, d') /\ st d' = Write.
Proof.
  exists (b "1" ++ [NL] ++ b "a" ++ [NL; NL; NUL]). eexists _, _, _.
  split; [vm_compute; reflexivity|]. split; [simpl; intuition discriminate|]. split; [reflexivity|].
  split; [vm_compute; reflexivity|]. reflexivity.
Qed.

Lemma session_reopen f os d vs :
  not_skipped_b os = true -> run (open_db false f) os = Some (d, vs) ->
  exists a0 a, aopen f a0 /\ aruns a0 os vs a /\
    (complete a -> alines a <> [] -> forall ls, Forall line_ok ls ->
     let (f', p) := close_to_reopen d in
     holds f' (alines a) true /\
     exists d2, run (reopen f' p) (map (fun l => OWrite l true) ls) =
                  Some (d2, map (fun _ => VUnit) ls) /\
                forall t, holds (close_db t d2) (alines a ++ ls) true).
Proof.
  intros Hl Hr. destruct (session_aruns _ _ _ _ (legal_no_skip _ Hl) Hr) as [a0 [a [Ho [Ha HR]]]].
  exists a0, a. split; [exact Ho|]. split; [exact Ha|]. intros Hc Hne ls Hls.
  apply reopen_append; auto. eapply aruns_no_skip; eauto. eapply aopen_not_skipped; eauto.
Qed.

Lemma session_reopen_crash f os d vs :
  not_skipped_b os = true -> run (open_db false f) os = Some (d, vs) -> st d <> ReadEof ->
  exists a0 a, aopen f a0 /\ aruns a0 os vs a /\
    (complete a -> alines a <> [] -> forall ls k, Forall line_ok ls ->
     let (f', p) := close_to_reopen d in
     forall d2 ws, run (reopen f' p) (map (fun l => OWrite l true) ls) = Some (d2, ws) ->
       0 < k <= length (wbuf d2) ->
       exists ls', holds (image d2 k) ls' false /\ prefix ls' (alines a ++ ls)).
Proof.
  intros Hl Hr Hst. destruct (session_aruns _ _ _ _ (legal_no_skip _ Hl) Hr) as [a0 [a [Ho [Ha HR]]]].
  exists a0, a. split; [exact Ho|]. split; [exact Ha|]. intros Hc Hne ls k Hls.
  assert (~ is_skipped a) as Hns by (eapply aruns_no_skip; eauto; eapply aopen_not_skipped; eauto).
  pose proof (reopen_crash d a ls k HR Hns Hc Hne Hls Hst) as G.
  destruct (close_to_reopen d) as [f' p]. intros d2 ws Hr2 Hk. eapply G; eauto.
Qed.
