From Verif Require Import Base CacheModel CacheSpec.

Section P.
  Variable lzc : bytes -> bytes.
  Variable lzd : bytes -> option bytes.
  Hypothesis HL : lossless lzc lzd.

  Definition nw (x : option wstate) : nat := match x with Some _ => 1 | None => 0 end.

  Definition pins_ok (w : world) : Prop := e_pin (w_e w) = nw (w_writer w) + w_readers w + w_pins w.

  Definition files_ok (d : bytes) (s : cstate) (f : fs) : Prop :=
    match s with
    | Uninit => False
    | Uncomp => f_plain f = Some d
    | Comp => f_plain f = None /\ exists z, f_comp f = Some z /\ lzd z = Some d
    | Decomp => f_plain f = Some d /\ exists z, f_comp f = Some z /\ lzd z = Some d
    end.

  Definition Inv (d : bytes) (w : world) : Prop :=
    files_ok d (e_st (w_e w)) (w_fs w) /\ pins_ok w /\
    (0 < w_readers w -> e_st (w_e w) <> Comp) /\
    (w_writer w = None \/ w_writer w = Some WClosed) /\
    (e_cpath (w_e w) = false -> e_st (w_e w) = Uncomp).

  Lemma next_uncomp c rm f d : f_plain f = Some d -> next_build lzc lzd c rm f = Some d.
  Proof.
    intros H. unfold next_build, create. simpl. destruct c.
    - rewrite H. destruct rm; simpl; rewrite ?H; reflexivity.
    - simpl. exact H.
  Qed.

  Lemma next_comp rm f d z : f_plain f = None -> f_comp f = Some z -> lzd z = Some d ->
    next_build lzc lzd true rm f = Some d.
  Proof.
    intros H1 H2 H3. unfold next_build, create. simpl. rewrite H1, H2. simpl. unfold decompress. simpl.
    rewrite H2, H3. reflexivity.
  Qed.

  Lemma next_ok c rm d s f : files_ok d s f -> (c = false -> s = Uncomp) -> next_build lzc lzd c rm f = Some d.
  Proof.
    intros H Hc. destruct s; simpl in H.
    - destruct H.
    - apply next_uncomp. exact H.
    - destruct H as [H1 [z [H2 H3]]]. destruct c; [eapply next_comp; eauto|discriminate (Hc eq_refl)].
    - apply next_uncomp. apply H.
  Qed.

  (* preempt *)
  Lemma preempt_ok v s f d : files_ok d s f -> (s = Uncomp \/ s = Decomp) ->
    exists s' f' tr, preempt lzc v s f = Some (s', f', tr) /\ files_ok d s' f' /\
      forall g, In g tr -> f_plain g = Some d \/ (f_plain g = None /\ exists z, f_comp g = Some z /\ lzd z = Some d).
  Proof.
    assert (forall f tr d, f_plain f = Some d -> (exists z, f_comp f = Some z /\ lzd z = Some d) ->
              (forall g, In g tr -> f_plain g = Some d) ->
              files_ok d (if c_rm_plain v then Comp else Decomp) (rm_plain (c_rm_plain v) f) /\
              forall g, In g (tr ++ [rm_plain (c_rm_plain v) f]) ->
                        f_plain g = Some d \/ (f_plain g = None /\ exists z, f_comp g = Some z /\ lzd z = Some d)) as H2.
    { intros f0 tr d0 Hp Hz Ht. unfold rm_plain. destruct (c_rm_plain v); simpl.
      - split; [auto|]. intros g Hg. apply in_app_or in Hg. destruct Hg as [Hg|[<-|[]]]; [left; auto|right; simpl; auto].
      - split; [auto|]. intros g Hg. apply in_app_or in Hg. destruct Hg as [Hg|[<-|[]]]; left; auto. }
    intros Hf Hs. destruct s; simpl in Hf; try (destruct Hs; discriminate).
    - unfold preempt, compress. rewrite Hf. destruct (c_out v).
      + destruct (H2 (mkfs (Some d) (Some (lzc d))) (map (fun p => mkfs (Some d) (Some p)) (prefixes (lzc d))) d) as [A B].
        * reflexivity.
        * exists (lzc d). split; [reflexivity|apply HL].
        * intros g Hg. apply in_map_iff in Hg. destruct Hg as [p [<- _]]. reflexivity.
        * do 3 eexists. split; [reflexivity|]. split; [exact A|exact B].
      + do 3 eexists. split; [reflexivity|]. assert (f_plain (rm_comp (c_rm_comp v) f) = Some d) as E.
        { unfold rm_comp. destruct (c_rm_comp v); exact Hf. }
        split; [exact E|]. intros g [<-|[]]. left. exact E.
      + do 3 eexists. split; [reflexivity|].
        assert (f_plain (rm_comp (c_rm_comp v) (mkfs (Some d) (Some (firstn k (lzc d))))) = Some d) as E.
        { unfold rm_comp. destruct (c_rm_comp v); reflexivity. }
        split; [exact E|]. intros g Hg. left. apply in_app_or in Hg. destruct Hg as [Hg|[<-|[]]]; [|exact E].
        apply in_map_iff in Hg. destruct Hg as [p [<- _]]. reflexivity.
    - destruct Hf as [Hp Hz]. destruct (H2 f [] d Hp Hz) as [A B]; [intros g []|].
      do 3 eexists. split; [reflexivity|]. split; [exact A|exact B].
  Qed.

  Definition good (c : bool) (d : bytes) (g : fs) : Prop :=
    f_plain g = Some d \/ (c = true /\ f_plain g = None /\ exists z, f_comp g = Some z /\ lzd z = Some d).

  Lemma good_next c rm d g : good c d g -> next_build lzc lzd c rm g = Some d.
  Proof.
    intros [H|[-> [H1 [z [H2 H3]]]]]; [apply next_uncomp; exact H|eapply next_comp; eauto].
  Qed.

  Lemma unpin_ok v e f d : files_ok d (e_st e) f -> 0 < e_pin e -> (e_cpath e = false -> e_st e = Uncomp) ->
    exists e' f' tr, unpin lzc v e f = Some (e', f', tr) /\ files_ok d (e_st e') f' /\
      e_pin e' = e_pin e - 1 /\ e_cpath e' = e_cpath e /\ e_temp e' = e_temp e /\
      (e_cpath e' = false -> e_st e' = Uncomp) /\
      (1 < e_pin e -> e_st e' = e_st e) /\
      forall g, In g tr -> good (e_cpath e) d g.
  Proof.
    intros Hf Hp Hc. unfold unpin. destruct (e_pin e) as [|n] eqn:En; [lia|].
    destruct ((n =? 0) && e_cpath e && match e_st e with Uncomp | Decomp => true | _ => false end) eqn:E.
    - apply andb_true_iff in E. destruct E as [E E3]. apply andb_true_iff in E. destruct E as [E1 E2].
      apply Nat.eqb_eq in E1. subst n.
      destruct (preempt_ok v (e_st e) f d Hf) as [s' [f' [tr [Ep [Hf' Ht]]]]].
      { destruct (e_st e); try discriminate; auto. }
      rewrite Ep. do 3 eexists. split; [reflexivity|]. simpl. rewrite E2.
      repeat split; auto; try discriminate; try lia.
      intros g Hg. destruct (Ht g Hg) as [H|H]; [left; exact H|right; auto].
    - do 3 eexists. split; [reflexivity|]. simpl. repeat split; auto; try lia.
  Qed.

  Lemma step_inv d w o : Inv d w ->
    match step lzc lzd w o with
    | Done w' tr => Inv d w' /\ e_cpath (w_e w') = e_cpath (w_e w) /\
                    ((forall v, o <> OOpen v) \/ e_st (w_e w) <> Comp -> forall g, In g tr -> good (e_cpath (w_e w)) d g)
    | Thrown _ _ => exists out, o = OOpen (DFail out)
    | AssertFailed => (exists rm, o = ONew rm) \/ (exists rm, o = OExisting rm)
    | NoHandle => True
    end.
  Proof.
    intros [Hf [Hp [Hr [Hw Hc]]]]. destruct w as [f e wr rd pn]. unfold pins_ok in Hp. cbn [w_fs w_e w_writer w_readers w_pins] in *.
    destruct o as [rm|x| |v|rm|v|v| |v|t]; cbn [step w_fs w_e w_writer w_readers w_pins].
    - destruct wr; [exact I|]. destruct (e_st e) eqn:Es; simpl in Hf; try (left; eauto). destruct Hf.
    - destruct Hw as [->| ->]; exact I.
    - destruct Hw as [->| ->]; exact I.
    - destruct wr as [ws|] eqn:Ew; [|exact I]. simpl in Hp.
      destruct (unpin_ok v e f d Hf) as [e' [f' [tr [E [Hf' [H1 [H2 [H3 [H4 [H5 H6]]]]]]]]]]; [lia|exact Hc|].
      rewrite E. split; [|split; [exact H2|intros _; exact H6]].
      repeat split; cbn [w_fs w_e w_writer w_readers w_pins]; auto.
      + unfold pins_ok; cbn [w_fs w_e w_writer w_readers w_pins]. simpl nw. lia.
      + intros Hrd. rewrite H5 by lia. auto.
    - destruct wr; [exact I|]. destruct (e_st e) eqn:Es; simpl in Hf; try (right; eauto). destruct Hf.
    - destruct (e_st e) eqn:Es; simpl in Hf.
      + destruct Hf.
      + split; [|split; [reflexivity|intros _ g []]]. repeat split; cbn [w_fs w_e w_writer w_readers w_pins inc_pin e_st e_pin e_cpath]; rewrite ?Es; auto; try discriminate.
        unfold pins_ok; cbn [w_fs w_e w_writer w_readers w_pins inc_pin e_pin]. lia.
      + destruct Hf as [Hf1 [z [Hf2 Hf3]]]. unfold decompress. rewrite Hf2, Hf3. destruct v as [|out].
        * split; [|split; [reflexivity|]].
          -- repeat split; cbn [w_fs w_e w_writer w_readers w_pins inc_pin set_st e_st e_pin e_cpath f_plain f_comp]; auto; try discriminate.
             ++ exists z. auto.
             ++ unfold pins_ok; cbn [w_fs w_e w_writer w_readers w_pins inc_pin set_st e_pin]. lia.
             ++ intros H. specialize (Hc H). discriminate.
          -- intros [H|H]; [exfalso; apply (H DOk); reflexivity|exfalso; apply H; reflexivity].
        * eauto.
      + split; [|split; [reflexivity|intros _ g []]]. repeat split; cbn [w_fs w_e w_writer w_readers w_pins inc_pin e_st e_pin e_cpath]; rewrite ?Es; auto; try discriminate.
        unfold pins_ok; cbn [w_fs w_e w_writer w_readers w_pins inc_pin e_pin]. lia.
    - destruct rd as [|n] eqn:Er; [exact I|].
      destruct (unpin_ok v e f d Hf) as [e' [f' [tr [E [Hf' [H1 [H2 [H3 [H4 [H5 H6]]]]]]]]]]; [lia|exact Hc|].
      rewrite E. split; [|split; [exact H2|intros _; exact H6]].
      repeat split; cbn [w_fs w_e w_writer w_readers w_pins]; auto.
      + unfold pins_ok; cbn [w_fs w_e w_writer w_readers w_pins]. lia.
      + intros Hrd. rewrite H5 by lia. apply Hr. lia.
    - split; [|split; [reflexivity|intros _ g []]]. repeat split; auto.
      unfold pins_ok; cbn [w_fs w_e w_writer w_readers w_pins inc_pin e_pin]. lia.
    - destruct pn as [|n] eqn:Er; [exact I|].
      destruct (unpin_ok v e f d Hf) as [e' [f' [tr [E [Hf' [H1 [H2 [H3 [H4 [H5 H6]]]]]]]]]]; [lia|exact Hc|].
      rewrite E. split; [|split; [exact H2|intros _; exact H6]].
      repeat split; cbn [w_fs w_e w_writer w_readers w_pins]; auto.
      + unfold pins_ok; cbn [w_fs w_e w_writer w_readers w_pins]. lia.
      + intros Hrd. rewrite H5 by lia. apply Hr. lia.
    - split; [|split; [reflexivity|intros _ g []]]. repeat split; auto.
  Qed.

  Lemma run_inv d l : forall w w', Inv d w -> run lzc lzd w l = Some w' ->
    Inv d w' /\ e_cpath (w_e w') = e_cpath (w_e w).
  Proof.
    induction l as [|o l IH]; intros w w' HI H; simpl in H.
    - injection H as <-. auto.
    - pose proof (step_inv d w o HI) as Hs. destruct (step lzc lzd w o); try discriminate.
      destruct Hs as [H1 [H2 _]]. destruct (IH _ _ H1 H) as [H3 H4]. split; [exact H3|congruence].
  Qed.

  Lemma run_app w l1 l2 : run lzc lzd w (l1 ++ l2) = match run lzc lzd w l1 with Some w' => run lzc lzd w' l2 | None => None end.
  Proof.
    revert w; induction l1 as [|o l1 IH]; intros w; [reflexivity|]. simpl. destruct (step lzc lzd w o); auto.
  Qed.

  (* Before initialisation. *)
  Definition Pre (acc : option bytes) (w : world) : Prop :=
    e_st (w_e w) = Uninit /\ pins_ok w /\ w_readers w = 0 /\
    match w_writer w with
    | Some WWritten => exists d, acc = Some d /\ f_plain (w_fs w) = Some d
    | Some WClosed => False
    | _ => True
    end.

  Lemma unpin_uninit v e f : e_st e = Uninit -> 0 < e_pin e ->
    unpin lzc v e f = Some (mkentry (e_temp e) (e_st e) (e_cpath e) (e_pin e - 1), f, []).
  Proof.
    intros Hs Hp. unfold unpin. destruct (e_pin e) as [|n]; [lia|]. rewrite Hs, andb_false_r. simpl.
    rewrite Nat.sub_0_r. reflexivity.
  Qed.

  Lemma pre_step acc w o w' tr : uses_existing o = false -> o <> OClose -> Pre acc w -> step lzc lzd w o = Done w' tr ->
    Pre (last_written acc [o]) w' /\ e_cpath (w_e w') = e_cpath (w_e w).
  Proof.
    intros Hu Hnc [Hs [Hp [Hr Hw]]] H. destruct w as [f e wr rd pn]. unfold pins_ok in Hp.
    cbn [w_fs w_e w_writer w_readers w_pins] in *. subst rd.
    destruct o as [rm|x| |v|rm|v|v| |v|t]; cbn [step w_fs w_e w_writer w_readers w_pins last_written] in H |- *; try (exfalso; apply Hnc; reflexivity); try discriminate Hu.
    - destruct wr; [discriminate|]. rewrite Hs in H. injection H as <- <-. simpl. split; [|reflexivity].
      repeat split; auto. unfold pins_ok; simpl in *. lia.
    - destruct wr as [[| |]|]; try discriminate; injection H as <- <-; (split; [|reflexivity]); repeat split; auto;
        simpl; eauto.
    - destruct wr as [ws|]; [|discriminate]. simpl in Hp. rewrite unpin_uninit in H by (auto; lia). injection H as <- <-.
      simpl. split; [|reflexivity]. repeat split; auto. unfold pins_ok; simpl. lia.
    - rewrite Hs in H. discriminate H.
    - discriminate H.
    - injection H as <- <-. simpl. split; [|reflexivity]. repeat split; auto. unfold pins_ok; simpl in *. lia.
    - destruct pn as [|n]; [discriminate|]. rewrite unpin_uninit in H by (auto; lia). injection H as <- <-. simpl.
      split; [|reflexivity]. repeat split; auto. unfold pins_ok; simpl in *. lia.
    - injection H as <- <-. simpl. split; [|reflexivity]. repeat split; auto.
  Qed.

  Lemma last_written_cons acc o l : last_written acc (o :: l) = last_written (last_written acc [o]) l.
  Proof. destruct o; reflexivity. Qed.

  (* Once closed, no more writing. *)
  Lemma inv_no_write d l : forall w w' acc, Inv d w -> run lzc lzd w l = Some w' -> last_written acc l = acc.
  Proof.
    induction l as [|o l IH]; intros w w' acc HI H; [reflexivity|]. simpl in H.
    pose proof (step_inv d w o HI) as Hs. destruct (step lzc lzd w o) as [w1 tr| | |] eqn:Es; try discriminate.
    destruct Hs as [H1 _]. rewrite last_written_cons.
    assert (last_written acc [o] = acc) as ->; [|eapply IH; eauto].
    destruct o; try reflexivity; exfalso; destruct HI as [Hf [_ [_ [Hw _]]]]; simpl in Es.
    - destruct (w_writer w); [discriminate|]. destruct (e_st (w_e w)); try discriminate. exact Hf.
    - destruct Hw as [E|E]; rewrite E in Es; discriminate.
  Qed.

  Lemma pre_run l : forall acc w w' d, existsb uses_existing l = false -> Pre acc w ->
    run lzc lzd w l = Some w' -> last_written acc l = Some d ->
    (Pre (Some d) w' \/ Inv d w') /\ e_cpath (w_e w') = e_cpath (w_e w).
  Proof.
    induction l as [|o l IH]; intros acc w w' d Hu HP H Hl; simpl in H.
    - injection H as <-. simpl in Hl. subst. auto.
    - simpl in Hu. apply orb_false_iff in Hu. destruct Hu as [Hu1 Hu2].
      destruct (step lzc lzd w o) as [w1 tr| | |] eqn:Es; try discriminate.
      rewrite last_written_cons in Hl.
      assert (o = OClose \/ o <> OClose) as [->|Hnc] by (destruct o; auto; right; discriminate).
      + simpl in Hl. destruct HP as [Hs [Hp [Hr Hw]]]. cbn [step] in Es.
        destruct (w_writer w) as [[| |]|] eqn:Ew; try discriminate. destruct Hw as [d' [-> Hpl]].
        injection Es as <- <-.
        assert (Inv d' (mkworld (w_fs w) (set_st (w_e w) Uncomp) (Some WClosed) (w_readers w) (w_pins w))) as HI.
        { unfold pins_ok in Hp. rewrite Ew in Hp. repeat split; cbn [w_fs w_e w_writer w_readers w_pins set_st e_st e_pin]; auto.
          discriminate. }
        rewrite (inv_no_write d' l _ _ _ HI H) in Hl. injection Hl as ->.
        destruct (run_inv d l _ _ HI H) as [A B]. split; [right; exact A|exact B].
      + destruct (pre_step acc w o w1 tr Hu1 Hnc HP Es) as [HP1 Hc1].
        destruct (IH _ _ _ _ Hu2 HP1 H Hl) as [A B]. split; [exact A|congruence].
  Qed.

  Lemma pre_create c f : Pre None (create c f).
  Proof. repeat split. Qed.

  Lemma reach_inv c f d l w : initialised lzd c f d l -> run lzc lzd (create c f) l = Some w ->
    Inv d w /\ e_cpath (w_e w) = c.
  Proof.
    intros Hi H. destruct Hi as [l1 l2 Hu Hl|rm l2 Hs Hc].
    - rewrite run_app in H. destruct (run lzc lzd (create c f) l1) as [w1|] eqn:E1; [|discriminate].
      destruct (pre_run l1 None _ _ d Hu (pre_create c f) E1 Hl) as [HP Hc1]. simpl in Hc1. simpl in H.
      destruct HP as [HP|HI].
      + destruct HP as [Hs [Hp [Hr Hw]]]. destruct (w_writer w1) as [[| |]|] eqn:Ew; try discriminate.
        destruct Hw as [d' [Hd Hpl]]. injection Hd as <-.
        assert (Inv d (mkworld (w_fs w1) (set_st (w_e w1) Uncomp) (Some WClosed) (w_readers w1) (w_pins w1))) as HI.
        { unfold pins_ok in Hp. rewrite Ew in Hp. repeat split; cbn [w_fs w_e w_writer w_readers w_pins set_st e_st e_pin]; auto.
          discriminate. }
        destruct (run_inv d l2 _ _ HI H) as [A B]. split; [exact A|]. rewrite B. exact Hc1.
      + destruct HI as [_ [_ [_ [[E|E] _]]]]; rewrite E in H; discriminate.
    - simpl in H. destruct c.
      + unfold stands_for in Hs. destruct (f_plain f) as [d0|] eqn:Ep; simpl in H.
        * injection Hs as ->.
          match type of H with run _ _ ?w0 _ = _ => assert (Inv d w0) as HI end.
          { repeat split; simpl; auto; try discriminate. destruct rm; simpl; exact Ep. }
          destruct (run_inv d l2 _ _ HI H) as [A B]. split; [exact A|exact B].
        * destruct (f_comp f) as [z|] eqn:Ez; [|discriminate]. simpl in H.
          match type of H with run _ _ ?w0 _ = _ => assert (Inv d w0) as HI end.
          { repeat split; simpl; auto; try discriminate; try lia. exists z. auto. }
          destruct (run_inv d l2 _ _ HI H) as [A B]. split; [exact A|exact B].
      + specialize (Hc eq_refl).
        match type of H with run _ _ ?w0 _ = _ => assert (Inv d w0) as HI end.
        { repeat split; simpl; auto; discriminate. }
        destruct (run_inv d l2 _ _ HI H) as [A B]. split; [exact A|exact B].
  Qed.

  Lemma reader_sees c f d l w : initialised lzd c f d l -> run lzc lzd (create c f) l = Some w ->
    0 < w_readers w -> f_plain (w_fs w) = Some d.
  Proof.
    intros Hi H Hr. destruct (reach_inv c f d l w Hi H) as [[Hf [_ [Hn _]]] _]. specialize (Hn Hr).
    destruct (e_st (w_e w)); simpl in Hf; try tauto.
  Qed.

  Lemma next_sees c f d l w rm : initialised lzd c f d l -> run lzc lzd (create c f) l = Some w ->
    next_build lzc lzd c rm (w_fs w) = Some d.
  Proof.
    intros Hi H. destruct (reach_inv c f d l w Hi H) as [[Hf [_ [_ [_ Hc]]]] E]. rewrite E in Hc. eapply next_ok; eauto.
  Qed.

  Lemma open_ok c f d l w : initialised lzd c f d l -> run lzc lzd (create c f) l = Some w ->
    exists w' tr, step lzc lzd w (OOpen DOk) = Done w' tr /\ f_plain (w_fs w') = Some d.
  Proof.
    intros Hi H. destruct (reach_inv c f d l w Hi H) as [HI _]. pose proof (step_inv d w (OOpen DOk) HI) as Hs.
    destruct (step lzc lzd w (OOpen DOk)) as [w' tr|w' tr| |] eqn:Es.
    - exists w', tr. split; [reflexivity|]. destruct Hs as [[Hf [_ [Hn _]]] _].
      assert (0 < w_readers w') as Hr.
      { simpl in Es. destruct (e_st (w_e w)); try discriminate; [injection Es as <- <-; simpl; lia| |injection Es as <- <-; simpl; lia].
        destruct (decompress lzd DOk (w_fs w)) as [[[|] ?] ?]; [injection Es as <- <-; simpl; lia|discriminate]. }
      specialize (Hn Hr). destruct (e_st (w_e w')); simpl in Hf; tauto.
    - destruct Hs as [o Ho]. discriminate.
    - destruct Hs as [[rm Ho]|[rm Ho]]; discriminate.
    - exfalso. simpl in Es. destruct (e_st (w_e w)); try discriminate. destruct (decompress lzd DOk (w_fs w)) as [[[|] ?] ?]; discriminate.
  Qed.

  Lemma no_assert c f d l w o : initialised lzd c f d l -> run lzc lzd (create c f) l = Some w ->
    (forall rm, o <> ONew rm) -> (forall rm, o <> OExisting rm) -> step lzc lzd w o <> AssertFailed.
  Proof.
    intros Hi H H1 H2 E. destruct (reach_inv c f d l w Hi H) as [HI _]. pose proof (step_inv d w o HI) as Hs.
    rewrite E in Hs. destruct Hs as [[rm Ho]|[rm Ho]]; [eapply H1; eauto|eapply H2; eauto].
  Qed.

  Lemma crash_ok c f d l w o g rm : initialised lzd c f d l -> run lzc lzd (create c f) l = Some w ->
    (forall v, o <> OOpen v) \/ f_plain (w_fs w) <> None ->
    In g (crash_points (step lzc lzd w o)) -> next_build lzc lzd c rm g = Some d.
  Proof.
    intros Hi H Ho Hg. destruct (reach_inv c f d l w Hi H) as [HI E]. pose proof (step_inv d w o HI) as Hs.
    assert ((forall v, o <> OOpen v) \/ e_st (w_e w) <> Comp) as Ho'.
    { destruct Ho as [Ho|Ho]; [left; exact Ho|right]. destruct HI as [Hf _]. intros Es. rewrite Es in Hf. apply Ho. apply Hf. }
    destruct (step lzc lzd w o) as [w' tr|w' tr| |] eqn:Es; simpl in Hg; try destruct Hg.
    - destruct Hs as [_ [_ Hs]]. specialize (Hs Ho' g Hg). rewrite E in Hs. apply good_next. exact Hs.
    - destruct Hs as [out ->]. destruct Ho' as [Ho'|Ho']; [exfalso; eapply Ho'; reflexivity|].
      exfalso. simpl in Es. destruct (e_st (w_e w)); try discriminate. apply Ho'; reflexivity.
  Qed.
End P.

(* Cleaning up. No assumption about the compressor is needed. *)
Section Clean.
  Variable lzc : bytes -> bytes.
  Variable lzd : bytes -> option bytes.

  Definition clean_files (c : bool) (f0 : fs) (w : world) : Prop :=
    e_cpath (w_e w) = c /\
    (w_writer w = Some WOpen \/ w_writer w = Some WWritten -> e_st (w_e w) = Uninit) /\
    (c = false -> f_comp (w_fs w) = f_comp f0 /\ (e_st (w_e w) = Uninit \/ e_st (w_e w) = Uncomp)) /\
    (c = true ->
     (w_writer w <> None -> e_st (w_e w) = Uninit -> f_comp (w_fs w) = None) /\
     (e_st (w_e w) = Uncomp -> f_comp (w_fs w) = None) /\
     (e_st (w_e w) = Comp -> f_plain (w_fs w) = None)).

  Lemma unpin_clean v e f e' f' tr : c_rm_comp v = true -> c_rm_plain v = true ->
    unpin lzc v e f = Some (e', f', tr) ->
    e_cpath e' = e_cpath e /\
    ((e_st e' = e_st e /\ f_comp f' = f_comp f /\ f_plain f' = f_plain f) \/
     (e_cpath e = true /\ e_st e' = Uncomp /\ f_comp f' = None) \/
     (e_cpath e = true /\ e_st e' = Comp /\ f_plain f' = None)).
  Proof.
    intros H1 H2 H. unfold unpin in H. destruct (e_pin e) as [|n]; [discriminate|].
    destruct ((n =? 0) && e_cpath e && match e_st e with Uncomp | Decomp => true | _ => false end) eqn:E.
    - apply andb_true_iff in E. destruct E as [E E3]. apply andb_true_iff in E. destruct E as [E1 E2].
      unfold preempt, compress, rm_comp, rm_plain in H. rewrite H1, H2 in H.
      destruct (e_st e); try discriminate.
      + destruct (f_plain f); [destruct (c_out v)|]; injection H as <- <- <-; simpl; auto 6.
      + injection H as <- <- <-. simpl. auto 6.
    - injection H as <- <- <-. simpl. auto.
  Qed.

  Lemma clean_step c f0 w o w' tr : clean_files c f0 w -> removals_succeed o = true -> step lzc lzd w o = Done w' tr ->
    clean_files c f0 w'.
  Proof.
    intros [Hc [Hi [Hf Ht]]] Hr H. destruct w as [f e wr rd pn]. cbn [w_fs w_e w_writer w_readers w_pins] in *.
    assert (forall v e' f' tr wr' rd' pn', c_rm_comp v && c_rm_plain v = true -> unpin lzc v e f = Some (e', f', tr) ->
              (wr' = None \/ wr' = wr) -> clean_files c f0 (mkworld f' e' wr' rd' pn')) as HU.
    { intros v e' f' tr0 wr' rd' pn' Hv Hu Hwr. apply andb_true_iff in Hv. destruct Hv as [Hv1 Hv2].
      destruct (unpin_clean v e f e' f' tr0 Hv1 Hv2 Hu) as [A B]. unfold clean_files. cbn [w_fs w_e w_writer].
      split; [congruence|]. split.
      { intros Hx. assert (wr' = wr) as -> by (destruct Hwr as [->|]; [destruct Hx; discriminate|assumption]). specialize (Hi Hx).
        destruct B as [[B1 _]|B]; [congruence|]. exfalso. unfold unpin in Hu. destruct (e_pin e); [discriminate|].
        rewrite Hi, andb_false_r in Hu. injection Hu as <- <- <-. simpl in B.
        destruct B as [[_ [B _]]|[_ [B _]]]; discriminate. }
      split; intros Hcc.
      - destruct (Hf Hcc) as [F1 F2]. destruct B as [[B1 [B2 B3]]|[[B1 _]|[B1 _]]]; [|congruence|congruence].
        rewrite B1, B2. auto.
      - destruct (Ht Hcc) as [T1 [T2 T3]]. destruct B as [[B1 [B2 B3]]|[[B1 [B2 B3]]|[B1 [B2 B3]]]].
        + rewrite B1, B2, B3. split; [|split; [exact T2|exact T3]]. intros Hx. apply T1. destruct Hwr as [->| ->]; congruence.
        + rewrite B2. repeat split; auto; discriminate.
        + rewrite B2. repeat split; auto; discriminate. }
    destruct o as [rm|x| |v|rm|v|v| |v|t]; cbn [step w_fs w_e w_writer w_readers w_pins removals_succeed] in H, Hr.
    - subst rm. destruct wr; [discriminate|]. destruct (e_st e) eqn:Es; try discriminate. injection H as <- <-.
      unfold clean_files. cbn [w_fs w_e w_writer inc_pin e_cpath e_st]. rewrite Es, Hc. split; [reflexivity|]. split; [auto|].
      split; intros Hcc; subst c; rewrite Hcc in *.
      + destruct (Hf eq_refl) as [F1 F2]. auto.
      + simpl. repeat split; auto; discriminate.
    - assert (forall ws, wr = Some ws -> ws = WOpen \/ ws = WWritten ->
                clean_files c f0 (mkworld (mkfs (Some x) (f_comp f)) e (Some WWritten) rd pn)) as HW.
      { intros ws E1 E2. assert (e_st e = Uninit) as Es by (apply Hi; destruct E2; subst; auto).
        unfold clean_files. cbn [w_fs w_e w_writer f_comp f_plain]. split; [exact Hc|]. split; [auto|].
        split; [exact Hf|]. intros Hcc. destruct (Ht Hcc) as [T1 [T2 T3]].
        split; [intros _; apply T1; subst; discriminate|]. split; [exact T2|]. rewrite Es. discriminate. }
      destruct wr as [[| |]|]; try discriminate; injection H as <- <-; eapply HW; eauto.
    - destruct wr as [[| |]|]; try discriminate. injection H as <- <-.
      assert (e_st e = Uninit) as Es by (apply Hi; auto).
      unfold clean_files. cbn [w_fs w_e w_writer set_st e_cpath e_st]. split; [exact Hc|]. split; [intros [E|E]; discriminate|].
      split; intros Hcc.
      + destruct (Hf Hcc) as [F1 F2]. auto.
      + destruct (Ht Hcc) as [T1 [T2 T3]]. repeat split; try discriminate. intros _. apply T1; [discriminate|exact Es].
    - destruct wr as [ws|]; [|discriminate]. destruct (unpin lzc v e f) as [[[e' f'] tr']|] eqn:Eu; [|discriminate].
      injection H as <- <-. eapply HU; eauto; discriminate.
    - subst rm. destruct wr; [discriminate|]. destruct (e_st e) eqn:Es; try discriminate. rewrite Hc in H. destruct c.
      + destruct (f_plain f) eqn:Ep; simpl in H.
        * injection H as <- <-. unfold clean_files. cbn [w_fs w_e w_writer set_st e_cpath e_st rm_comp f_comp f_plain].
          repeat split; auto; try discriminate. intros [E|E]; discriminate.
        * destruct (f_comp f) eqn:Ez; [|discriminate]. simpl in H. injection H as <- <-. unfold clean_files.
          cbn [w_fs w_e w_writer set_st e_cpath e_st]. repeat split; auto; try discriminate. intros [E|E]; discriminate.
      + injection H as <- <-. unfold clean_files. cbn [w_fs w_e w_writer set_st e_cpath e_st].
        destruct (Hf eq_refl) as [F1 F2]. repeat split; auto; try discriminate. intros [E|E]; discriminate.
    - destruct (e_st e) eqn:Es; try discriminate.
      + injection H as <- <-. unfold clean_files. cbn [w_fs w_e w_writer inc_pin e_cpath e_st]. rewrite Es. auto.
      + destruct (decompress lzd v f) as [[[|] f'] tr'] eqn:Ed; [|discriminate]. injection H as <- <-.
        unfold clean_files. cbn [w_fs w_e w_writer inc_pin set_st e_cpath e_st]. split; [exact Hc|].
        split; [intros E; specialize (Hi E); discriminate|]. split; intros Hcc.
        * destruct (Hf Hcc) as [_ [E|E]]; discriminate.
        * repeat split; discriminate.
      + injection H as <- <-. unfold clean_files. cbn [w_fs w_e w_writer inc_pin e_cpath e_st]. rewrite Es. auto.
    - destruct rd as [|n]; [discriminate|]. destruct (unpin lzc v e f) as [[[e' f'] tr']|] eqn:Eu; [|discriminate].
      injection H as <- <-. eapply HU; eauto.
    - injection H as <- <-. unfold clean_files. cbn [w_fs w_e w_writer inc_pin e_cpath e_st]. auto.
    - destruct pn as [|n]; [discriminate|]. destruct (unpin lzc v e f) as [[[e' f'] tr']|] eqn:Eu; [|discriminate].
      injection H as <- <-. eapply HU; eauto.
    - injection H as <- <-. unfold clean_files. cbn [w_fs w_e w_writer e_cpath e_st]. auto.
  Qed.

  Lemma clean_run c f0 l : forall w w', clean_files c f0 w -> forallb removals_succeed l = true ->
    run lzc lzd w l = Some w' -> clean_files c f0 w'.
  Proof.
    induction l as [|o l IH]; intros w w' Hc Hr H; simpl in *; [injection H as <-; exact Hc|].
    apply andb_true_iff in Hr. destruct Hr as [H1 H2]. destruct (step lzc lzd w o) eqn:Es; try discriminate.
    eapply IH; [|exact H2|exact H]. eapply clean_step; eauto.
  Qed.

  Lemma destroy_cleans c f l w : forallb removals_succeed l = true -> run lzc lzd (create c f) l = Some w ->
    e_temp (w_e w) = true ->
    destroy true true w = mkfs None (if c then None else f_comp f).
  Proof.
    intros Hr H Ht. assert (clean_files c f (create c f)) as H0.
    { unfold clean_files, create; cbn. repeat split; auto; try discriminate; try (intros [E|E]; discriminate); try congruence. }
    destruct (clean_run c f l _ _ H0 Hr H) as [Hc [_ [Hf Hcc]]]. unfold destroy. rewrite Ht. unfold remove. rewrite Hc.
    destruct c.
    - destruct (Hcc eq_refl) as [T1 [T2 T3]]. destruct (e_st (w_e w)); simpl; try reflexivity.
      + rewrite T2; reflexivity.
      + unfold rm_comp. rewrite T3; reflexivity.
    - destruct (Hf eq_refl) as [F1 [F2|F2]]; rewrite F2; simpl; rewrite F1; reflexivity.
  Qed.
End Clean.

Definition cok : cenv := mkcenv COk true true.
Definition compressed_history (d : bytes) : list op :=
  [ONew true; OWrite d; OClose; OPermanent false; ODropWrite cok; OUnpin cok].

Lemma crash_decompress lzc lzd d rm : lossless lzc lzd -> d <> [] ->
  exists w g, initialised lzd true (mkfs None None) d (compressed_history d) /\
    run lzc lzd (create true (mkfs None None)) (compressed_history d) = Some w /\
    In g (crash_points (step lzc lzd w (OOpen DOk))) /\
    next_build lzc lzd true rm g = Some [].
Proof.
  intros HL Hd.
  exists (mkworld (mkfs None (Some (lzc d))) (mkentry false Comp true 0) None 0 0), (mkfs (Some []) (Some (lzc d))).
  split; [|split; [reflexivity|split]].
  - apply (init_by_write lzd true (mkfs None None) d [ONew true; OWrite d] [OPermanent false; ODropWrite cok; OUnpin cok]); reflexivity.
  - simpl. unfold decompress. simpl. rewrite (HL d). simpl. left. reflexivity.
  - destruct rm; reflexivity.
Qed.

Lemma failed_decompress lzc lzd d rm : lossless lzc lzd -> d <> [] ->
  exists w w' tr, run lzc lzd (create true (mkfs None None)) (compressed_history d) = Some w /\
    step lzc lzd w (OOpen (DFail [])) = Thrown w' tr /\
    next_build lzc lzd true rm (w_fs w') = Some [].
Proof.
  intros HL Hd. do 3 eexists. split; [reflexivity|]. split; [reflexivity|]. destruct rm; reflexivity.
Qed.

Lemma permanent_kept rc rp w : e_temp (w_e w) = false -> destroy rc rp w = w_fs w.
Proof. intros H. unfold destroy. rewrite H. reflexivity. Qed.

Lemma compressed_intact lzc lzd (HL : lossless lzc lzd) c f d l w v g :
  initialised lzd c f d l -> run lzc lzd (create c f) l = Some w ->
  f_plain (w_fs w) = None ->
  In g (crash_points (step lzc lzd w (OOpen v))) ->
  exists z, f_comp g = Some z /\ lzd z = Some d.
Proof.
  intros Hi H Hp Hg. destruct (reach_inv lzc lzd HL c f d l w Hi H) as [[Hf _] _].
  simpl in Hg. destruct (e_st (w_e w)) eqn:Es; simpl in Hf.
  - destruct Hf.
  - congruence.
  - destruct Hf as [_ [z [Hz Hd]]].
    exists z. split; [|exact Hd]. unfold decompress in Hg. rewrite Hz, Hd in Hg.
    destruct v as [|o]; simpl in Hg.
    + destruct Hg as [<-|Hg]; [reflexivity|]. apply in_map_iff in Hg. destruct Hg as [p [<- _]]. reflexivity.
    + destruct Hg as [<-|Hg]; [reflexivity|]. apply in_map_iff in Hg. destruct Hg as [p [<- _]]. reflexivity.
  - destruct Hf as [Hf _]. congruence.
Qed.
