From Verif Require Import Base HdrModel HdrSpec.

Section Proofs.
Context (P : params).

(* What happens to headers *)
Definition step_of (w w' : world) (h : header) : Prop :=
  (known w' h = known w h /\ file w' h = file w h /\ time w' h = time w h) \/
  (known w h = Unknown /\ known w' h = Unchanged /\ file w' h = file w h /\ time w' h = time w h /\ stale P h = false /\ goal P h <> None) \/
  (known w h = Unknown /\ known w' h = Changed /\ file w' h = goal P h /\ clock w <= time w' h /\ goal P h <> None).
Definition later (w w' : world) : Prop := clock w <= clock w' /\ forall h, step_of w w' h.
Definition good (w : world) : Prop :=
  (forall h, goal P h <> None -> known w h <> Unknown \/ stale P h = false -> file w h = goal P h) /\
  (forall h, known w h <> Unknown -> goal P h <> None).

Lemma later_refl w : later w w.
Proof. split; [lia |]. intro h. left. auto. Qed.
Lemma later_trans x y z : later x y -> later y z -> later x z.
Proof.
  intros (C1 & A) (C2 & B). split; [lia |]. intro h. destruct (A h) as [(K & F & T) | [(K & K' & F & T & S & G) | (K & K' & F & T & G)]].
  - destruct (B h) as [(L & F' & T') | [(L & L' & F' & T' & S & G) | (L & L' & F' & T' & G)]].
    + left. rewrite L, F', T'. auto.
    + right. left. rewrite F', T', <- K. auto 8.
    + right. right. rewrite <- K. repeat split; auto. lia.
  - destruct (B h) as [(L & F' & T') | [(L & _) | (L & _)]]; [| congruence | congruence].
    right. left. rewrite L, F', T'. auto 8.
  - destruct (B h) as [(L & F' & T') | [(L & _) | (L & _)]]; [| congruence | congruence].
    right. right. rewrite L, F', T'. auto 8.
Qed.
Lemma exec_later w h : later w (exec P w h).
Proof.
  split; [unfold exec; destruct (known w h), (goal P h), (stale P h); cbn; lia |]. intro x. unfold exec.
  destruct (known w h) eqn: K; try (left; auto; fail). destruct (goal P h) eqn: G; [| left; auto]. destruct (stale P h) eqn: S; unfold step_of; cbn; unfold setf; destruct (x =? h) eqn: E; try (left; auto; fail);
    apply Nat.eqb_eq in E; subst x.
  - right. right. rewrite G. repeat split; auto. discriminate.
  - right. left. rewrite G. repeat split; auto. discriminate.
Qed.
Lemma exec_known w h : goal P h <> None -> known (exec P w h) h <> Unknown.
Proof.
  intro G. unfold exec. destruct (known w h) eqn: K; try congruence. destruct (goal P h); [| congruence].
  destruct (stale P h); cbn; unfold setf; rewrite Nat.eqb_refl; discriminate.
Qed.
Lemma interfere_later w : later w (interfere P w).
Proof.
  unfold interfere. destruct (others P (ticks w)) as (hs & d).
  assert (A : later w (mkworld (file w) (time w) (known w) (clock w + d) (S (ticks w)))) by (split; cbn; [lia | intro; left; auto]).
  revert A. generalize (mkworld (file w) (time w) (known w) (clock w + d) (S (ticks w))). induction hs as [| h hs IH]; intros w1 A; cbn; auto.
  apply IH. eapply later_trans; [exact A | apply exec_later].
Qed.
Lemma later_good w w' : later w w' -> good w -> good w'.
Proof.
  intros (_ & L) (A & B). split; intro h; destruct (L h) as [(K & F & T) | [(K & K' & F & T & S & G) | (K & K' & F & T & G)]]; intros.
  - rewrite F. rewrite K in *. auto.
  - rewrite F. auto.
  - auto.
  - rewrite K in *. auto.
  - auto.
  - auto.
Qed.
Lemma later_known w w' h : later w w' -> known w h <> Unknown -> known w' h = known w h /\ file w' h = file w h /\ time w' h = time w h.
Proof. intros (_ & L) K. destruct (L h) as [| [(K' & _) | (K' & _)]]; [auto | congruence | congruence]. Qed.

Lemma update_ok w h ts w' u : good w -> goal P h <> None -> update_header P w h ts = (w', u) ->
  later w w' /\ known w' h <> Unknown /\ (u = false -> (known w' h = Unchanged /\ time w' h <= ts) \/ (known w h = Changed /\ time w h < ts)).
Proof.
  intros GD G E. unfold update_header in E. destruct (known w h) eqn: K.
  - injection E as <- <-. split; [eapply later_trans; [apply interfere_later | apply exec_later] |]. pose proof (exec_known (interfere P w) h G) as N. split; [auto |].
    destruct (known (exec P (interfere P w) h) h); try congruence. intro X. apply Nat.ltb_ge in X. auto.
  - injection E as <- <-. split; [apply later_refl |]. split; [congruence |]. intro X. apply Nat.ltb_ge in X. auto.
  - injection E as <- <-. split; [apply later_refl |]. split; [congruence |]. intro X. apply Nat.leb_gt in X. auto.
Qed.
(* What has been read since w0 is up to date if the header hasn't been updated since. *)
Lemma read_ok w0 w1 w2 h w' : good w0 -> later w0 w1 -> later w1 w2 -> goal P h <> None -> update_header P w2 h (clock w0) = (w', false) -> file w1 h = goal P h.
Proof.
  intros GD L1 L2 G E. pose proof (later_trans _ _ _ L1 L2) as L02. pose proof (later_good _ _ L1 GD) as GD1. pose proof (later_good _ _ L2 GD1) as GD2.
  destruct (update_ok _ _ _ _ _ GD2 G E) as (L3 & _ & H). destruct (H eq_refl) as [(K & _) | (K & T)].
  - apply GD1; auto. pose proof (later_trans _ _ _ L2 L3) as (_ & L). destruct (L h) as [(K' & _) | [(_ & _ & _ & _ & S & _) | (_ & K' & _)]]; [left; congruence | auto | congruence].
  - apply GD1; auto. left. destruct L02 as (_ & L). destruct (L h) as [(K' & _) | [(_ & K' & _) | (_ & _ & _ & T' & _)]]; [| congruence | lia].
    assert (N : known w0 h <> Unknown) by congruence. destruct (later_known _ _ _ L1 N) as (E1 & _). congruence.
Qed.

(* The preprocessor *)
Definition reads (gen : bool) (w w' : world) (hist ext : list (header * option content)) : Prop :=
  forall a h c b, ext = a ++ (h, c) :: b -> next P (hist ++ a) = Include h /\ exists wr, later w wr /\ later wr w' /\ file wr h = c.
Lemma preprocess_ok n gen : forall hist w w' hist' ok, preprocess P n gen hist w = (w', hist', ok) ->
  later w w' /\ exists ext, hist' = hist ++ ext /\ length ext <= n /\ reads gen w w' hist ext /\
    (if ok then next P hist' = Complete
     else next P hist' = Error \/ (exists h, next P hist' = Include h /\ (length ext = n \/ (gen = false /\ exists wr, later w wr /\ file wr h = None)))).
Proof.
  induction n as [| n IH]; intros hist w w' hist' ok E; cbn [preprocess] in E.
  - destruct (next P hist) eqn: N; injection E as <- <- <-; (split; [apply later_refl |]; exists []; rewrite app_nil_r; split; [auto |]; split; [auto |]; split; [intros [] ? ? ? X; discriminate |]); eauto 6.
  - destruct (next P hist) eqn: N.
    + pose proof (interfere_later w) as L0. destruct (file (interfere P w) h) as [c |] eqn: F; [| destruct gen].
      * apply IH in E as (L & ext & -> & LE & R & K). split; [eapply later_trans; eauto |]. exists ((h, Some c) :: ext).
        rewrite <- app_assoc in *. cbn [app] in *. split; [auto |]. split; [cbn; lia |]. split.
        -- intros [| x a] h1 c1 b0 X; cbn in X.
           ++ injection X as <- <- <-. rewrite app_nil_r. split; auto. exists (interfere P w). auto.
           ++ injection X as <- ->. destruct (R a h1 c1 b0 eq_refl) as (X & wr & W1 & W2 & W3). rewrite <- app_assoc in X. split; auto. exists wr. split; [eapply later_trans; eauto | auto].
        -- destruct ok; auto. destruct K as [| (h1 & X & [Y | (Y & wr & Z & Z')])]; auto; right; exists h1; split; auto.
           ++ left. cbn. lia.
           ++ right. split; auto. exists wr. split; auto. eapply later_trans; eauto.
      * apply IH in E as (L & ext & -> & LE & R & K). split; [eapply later_trans; eauto |]. exists ((h, None) :: ext).
        rewrite <- app_assoc in *. cbn [app] in *. split; [auto |]. split; [cbn; lia |]. split.
        -- intros [| x a] h1 c1 b0 X; cbn in X.
           ++ injection X as <- <- <-. rewrite app_nil_r. split; auto. exists (interfere P w). auto.
           ++ injection X as <- ->. destruct (R a h1 c1 b0 eq_refl) as (X & wr & W1 & W2 & W3). rewrite <- app_assoc in X. split; auto. exists wr. split; [eapply later_trans; eauto | auto].
        -- destruct ok; auto. destruct K as [| (h1 & X & [Y | (Y & wr & Z & Z')])]; auto; right; exists h1; split; auto.
           ++ left. cbn. lia.
           ++ right. split; auto. exists wr. split; auto. eapply later_trans; eauto.
      * injection E as <- <- <-. split; [auto |]. exists []. rewrite app_nil_r. split; [auto |]. split; [cbn; lia |]. split; [intros [] ? ? ? X; discriminate |].
        right. exists h. split; auto. right. split; auto. exists (interfere P w). auto.
    + injection E as <- <- <-. split; [apply later_refl |]. exists []. rewrite app_nil_r. split; [auto |]. split; [cbn; lia |]. split; [intros [] ? ? ? X; discriminate |]. auto.
    + injection E as <- <- <-. split; [apply later_refl |]. exists []. rewrite app_nil_r. split; [auto |]. split; [cbn; lia |]. split; [intros [] ? ? ? X; discriminate |]. auto.
Qed.

(* leads *)
Lemma leads_app v : forall a, leads P (a ++ v) -> leads P a.
Proof.
  induction v as [| x v IH] using rev_ind; intros a L; [now rewrite app_nil_r in L |].
  rewrite app_assoc in L. inversion L as [E | hs h L' N G E]; [destruct (a ++ v); discriminate |]. apply app_inj_tail in E as (-> & ->). auto.
Qed.
Lemma leads_next a h c : leads P (a ++ h :: c) -> next P (fresh P a) = Include h /\ goal P h <> None.
Proof.
  intro L. replace (a ++ h :: c) with ((a ++ [h]) ++ c) in L by now rewrite <- app_assoc. apply leads_app in L.
  inversion L as [E | hs x L' N G E]; [destruct a; discriminate |]. apply app_inj_tail in E as (-> & ->). auto.
Qed.
Lemma leads_compare a : forall v, leads P a -> leads P v -> (exists c, v = a ++ c) \/ (exists h c, a = v ++ h :: c).
Proof.
  induction a as [| x a IH] using rev_ind; intros v LA LV; [left; exists v; auto |].
  pose proof (leads_next a x [] LA) as (N & _). destruct (IH v (leads_app [x] a LA) LV) as [(c & ->) | (h & c & ->)].
  - destruct c as [| y c].
    + right. exists x, []. now rewrite app_nil_r.
    + destruct (leads_next a y c LV) as (N' & _). rewrite N in N'. injection N' as ->. left. exists c. now rewrite <- app_assoc.
  - right. exists h, (c ++ [x]). now rewrite <- app_assoc.
Qed.
Lemma includes_unique a v : includes P a -> includes P v -> a = v.
Proof.
  intros (LA & CA) (LV & CV). destruct (leads_compare a v LA LV) as [(c & ->) | (h & c & ->)].
  - destruct c as [| x c]; [now rewrite app_nil_r |]. apply leads_next in LV as (N & _). congruence.
  - apply leads_next in LA as (N & _). congruence.
Qed.
Lemma includes_lacks a h : includes P a -> ~ lacks P h.
Proof.
  intros (LA & CA) (v & LV & N & G). destruct (leads_compare a v LA LV) as [(c & ->) | (x & c & ->)].
  - destruct c as [| x c]; [rewrite app_nil_r in N; congruence |]. apply leads_next in LV as (N' & _). congruence.
  - apply leads_next in LA as (N' & G'). congruence.
Qed.
Lemma includes_wrong a : includes P a -> length a <= limit P -> ~ wrong P.
Proof.
  intros (LA & CA) LE (v & LV & N). destruct (leads_compare a v LA LV) as [(c & ->) | (x & c & ->)].
  - destruct c as [| x c].
    + rewrite app_nil_r in N. destruct N as [| (_ & h & N)]; congruence.
    + apply leads_next in LV as (N' & _). congruence.
  - apply leads_next in LA as (N' & G'). destruct N as [| (E & _)]; [congruence |]. rewrite app_length in LE. cbn in LE. lia.
Qed.

Definition settled (w : world) (v : list header) : Prop := Forall (fun h => known w h <> Unknown) v.
Lemma settled_later w w' v : later w w' -> settled w v -> settled w' v.
Proof. intros L. apply Forall_impl. intros h K. destruct (later_known _ _ _ L K) as (E & _). congruence. Qed.

(* What has been processed is read again exactly the same. *)
Lemma prefix_ok gen w0 w1 hist v : good w0 -> settled w0 v -> leads P v -> reads gen w0 w1 [] hist ->
  (exists ext, hist = fresh P v ++ ext) \/ (exists a h c, v = a ++ h :: c /\ hist = fresh P a).
Proof.
  intros GD S L R. revert S L. induction v as [| x v IH] using rev_ind; intros S L; [left; exists hist; auto |].
  destruct (IH (proj1 (proj1 (Forall_app _ _ _) S)) (leads_app _ _ L)) as [(ext & E) | (a & h & c & -> & E)].
  - destruct ext as [| (h, c) ext].
    + right. exists v, x, []. rewrite app_nil_r in E. auto.
    + destruct (R (fresh P v) h c ext E) as (N & wr & W1 & W2 & F). cbn [app] in N. destruct (leads_next v x [] L) as (N' & G).
      rewrite N in N'. injection N' as ->. apply Forall_app in S as (_ & S). inversion S as [| ? ? K]; subst.
      destruct (later_known _ _ _ W1 K) as (_ & F & _). assert (X : file w0 x = goal P x) by (apply GD; auto). rewrite F, X.
      left. exists ext. unfold fresh. rewrite map_app, <- app_assoc. auto.
  - right. exists a, h, (c ++ [x]). rewrite <- app_assoc. auto.
Qed.

Lemma expect_lines d h : lines (expect d h) = lines d ++ [h].
Proof. unfold expect. destruct (rest d) as [| x r]; auto. destruct (x =? h); auto. Qed.

Definition keeps (old : option (list header * bool)) (d : db) : Prop := written d = false -> old = Some (lines d ++ rest d, ended d).
Lemma keeps_expect old d h : keeps old d -> keeps old (expect d h).
Proof.
  unfold keeps, expect. destruct (rest d) as [| x r] eqn: E; [discriminate |]. destruct (x =? h) eqn: X; [| discriminate]. apply Nat.eqb_eq in X as ->.
  cbn. intros K W. rewrite (K W), <- app_assoc. auto.
Qed.
Lemma written_expect d h : written d = true -> written (expect d h) = true.
Proof. unfold expect. destruct (rest d) as [| x r]; auto. destruct (x =? h); auto. Qed.

Lemma adds_ok old gen w0 w1 hist : good w0 -> reads gen w0 w1 [] hist -> forall ext' ext'' w d n,
  later w1 w -> hist = fresh P (lines d) ++ ext' ++ ext'' -> leads P (lines d) -> settled w (lines d) -> n = length (lines d) -> keeps old d ->
  later w0 w1 ->
  match adds P (clock w0) (map fst ext') w n d with
  | Missing h => lacks P h
  | Added w2 n' d' r => later w w2 /\ n' = length (lines d') /\ leads P (lines d') /\ settled w2 (lines d') /\ keeps old d' /\ (written d = true -> written d' = true) /\
      n <= n' <= n + length ext' /\
      (if r then n < n' else hist = fresh P (lines d') ++ ext'')
  end.
Proof.
  intros GD R. induction ext' as [| (h, c) ext' IH]; intros ext'' w d n LW H L S N K L01; cbn [map adds].
  - split; [apply later_refl |]. split; [auto |]. split; [auto |]. split; [auto |]. split; [auto |]. split; [auto |]. split; [cbn; lia | auto].
  - cbn [fst]. cbn [app] in H. destruct (R _ h c _ H) as (NX & wr & W1 & W2 & F). cbn [app] in NX. pose proof (interfere_later w) as LI.
    destruct (goal P h) as [g |] eqn: G.
    2: { exists (lines d). auto. }
    assert (G' : goal P h <> None) by congruence.
    destruct (update_header P (interfere P w) h (clock w0)) as (w2 & u) eqn: U.
    assert (LW' : later wr (interfere P w)) by (eapply later_trans; [exact W2 |]; eapply later_trans; eauto).
    assert (GD2 : good (interfere P w)) by (eapply later_good; [| exact GD]; eapply later_trans; [exact W1 | exact LW']).
    destruct (update_ok _ _ _ _ _ GD2 G' U) as (L2 & K2 & _). assert (L2' : later w w2) by (eapply later_trans; eauto).
    assert (LL : leads P (lines (expect d h))) by (rewrite expect_lines; constructor; auto).
    assert (SS : settled w2 (lines (expect d h))).
    { rewrite expect_lines. apply Forall_app. split; [eapply settled_later; eauto | constructor; auto]. }
    assert (NN : Datatypes.S n = length (lines (expect d h))) by (rewrite expect_lines, app_length; cbn; lia).
    pose proof (keeps_expect old d h K) as KE.
    destruct u.
    + split; [auto |]. split; [auto |]. split; [auto |]. split; [auto |]. split; [auto |]. split; [apply written_expect |]. cbn; lia.
    + assert (FR : file wr h = goal P h) by (eapply (read_ok w0 wr (interfere P w)); eauto).
      specialize (IH ext'' w2 (expect d h) (Datatypes.S n)).
      assert (H' : hist = fresh P (lines (expect d h)) ++ ext' ++ ext'').
      { rewrite expect_lines, H. unfold fresh. rewrite map_app, <- app_assoc. cbn. rewrite <- FR, F. auto. }
      specialize (IH ltac:(eapply later_trans; eauto) H' LL SS NN KE L01).
      destruct (adds P (clock w0) (map fst ext') w2 (Datatypes.S n) (expect d h)) as [w3 n' d' r | x]; auto.
      destruct IH as (A1 & A2 & A3 & A4 & A5 & A6 & A7 & A8). split; [eapply later_trans; eauto |]. split; [auto |]. split; [auto |]. split; [auto |]. split; [auto |].
      split; [intro W; apply A6, written_expect, W |]. cbn [length]. split; [lia |]. destruct r; [lia | auto].
Qed.

(* The invariant *)
Lemma later_content w0 w1 h : later w0 w1 -> file w1 h = goal P h \/ file w1 h = file w0 h.
Proof. intros (_ & L). destruct (L h) as [(_ & F & _) | [(_ & _ & F & _) | (_ & _ & F & _)]]; auto. Qed.
Lemma reads_content w00 gen w0 w1 hist : later w00 w0 -> reads gen w0 w1 [] hist -> forall h c, In (h, c) hist -> c = goal P h \/ c = file w00 h.
Proof.
  intros L R h c I. apply in_split in I as (a & b & E). destruct (R a h c b E) as (_ & wr & W1 & _ & <-). apply later_content. eapply later_trans; eauto.
Qed.

Record inv (w00 : world) (old : option (list header * bool)) (s : state) : Prop := {
  inv_later : later w00 (w s);
  inv_good : good (w s);
  inv_skip : skip s = length (lines (dd s));
  inv_leads : leads P (lines (dd s));
  inv_settled : settled (w s) (lines (dd s));
  inv_keeps : keeps old (dd s);
  inv_forced : force_gen s = Some true -> force_gen_skip s = Some (skip s);
  inv_not_forced : force_gen s <> Some true -> forall k, force_gen_skip s = Some k -> k < skip s \/ (k = skip s /\ includes P (lines (dd s)) /\ length (lines (dd s)) <= limit P);
  inv_update : update s = false -> written (dd s) = true }.
Definition phase (s : state) : nat :=
  match force_gen s with
  | Some true => 2
  | _ => match force_gen_skip s with Some k => if k =? skip s then 1 else 3 | None => 3 end
  end.
Definition measure (s : state) : nat := 3 * (limit P - skip s) + phase s.
Lemma phase_bounds s : 1 <= phase s <= 3.
Proof. unfold phase. destruct (force_gen s) as [[|] |]; [lia | |]; destruct (force_gen_skip s) as [k |]; try lia; destruct (k =? skip s); lia. Qed.

Definition found (old : option (list header * bool)) (s : state) : Prop :=
  includes P (lines (dd s)) /\ good (w s) /\ settled (w s) (lines (dd s)) /\ rest (dd s) = [] /\ ended (dd s) = true /\
  (written (dd s) = false -> old = Some (lines (dd s), true)) /\ (update s = false -> written (dd s) = true).

Lemma keeps_finish old d : keeps old d -> written (finish d) = false -> old = Some (lines d, true).
Proof.
  unfold keeps, finish. cbn. intros K W. apply orb_false_elim in W as (W & E). rewrite (K W). destruct (rest d); [| discriminate]. rewrite app_nil_r. destruct (ended d); [auto | discriminate].
Qed.
Lemma written_finish d : written d = true -> written (finish d) = true.
Proof. unfold finish. cbn. intros ->. auto. Qed.

Lemma run_ok w00 old s : inv w00 old s ->
  match run P s with
  | Again s' => inv w00 old s' /\ measure s' < measure s
  | Ended (Found s') => found old s'
  | Ended (Deferred h) => lacks P h
  | Ended (Failed _) => (reports P -> wrong P) /\ wrong_mixed P w00
  | Ended Inconsistent => False
  | Ended Exhausted => False
  end.
Proof.
  intros [LW GD SK L S K FG NFG UP]. unfold run. set (gen := always P || match force_gen s with Some g => g | None => false end).
  set (w0 := interfere P (w s)). assert (L0 : later (w s) w0) by apply interfere_later. assert (GD0 : good w0) by (eapply later_good; eauto).
  assert (S0 : settled w0 (lines (dd s))) by (eapply settled_later; eauto).
  destruct (preprocess P (limit P) gen [] w0) as ((w1, hist), ok) eqn: PP. apply preprocess_ok in PP as (L1 & ext & E & LE & R & E2). cbn [app] in E. subst ext.
  assert (L01 : later (w s) w1) by (eapply later_trans; eauto). assert (S1 : settled w1 (lines (dd s))) by (eapply settled_later; eauto).
  set (out := if ok then map fst hist else firstn (reported P (runs s)) (map fst hist)).
  (* what is new *)
  assert (NEW : (exists ext' ext'', skipn (skip s) out = map fst ext' /\ hist = fresh P (lines (dd s)) ++ ext' ++ ext'' /\ (ok = true -> ext'' = []) /\ (reports P -> ext'' = [])) \/
    (ok = false /\ skipn (skip s) out = [] /\ exists a h c, lines (dd s) = a ++ h :: c /\ hist = fresh P a)).
  { destruct (prefix_ok _ _ _ _ _ GD0 S0 L R) as [(ext & HE) | (a & h & c & VE & HE)].
    - left. assert (MF : map fst hist = lines (dd s) ++ map fst ext).
      { rewrite HE, map_app. unfold fresh. rewrite map_map. cbn. now rewrite map_id. }
      unfold out. destruct ok.
      + exists ext, []. rewrite app_nil_r, MF, SK, skipn_app, skipn_all, Nat.sub_diag. auto.
      + destruct (Nat.le_gt_cases (length (lines (dd s))) (reported P (runs s))) as [LL | LL].
        * exists (firstn (reported P (runs s) - length (lines (dd s))) ext), (skipn (reported P (runs s) - length (lines (dd s))) ext).
          rewrite firstn_skipn. split.
          { rewrite MF, firstn_app, SK, skipn_app. rewrite firstn_all2 by lia. rewrite skipn_all, Nat.sub_diag. cbn [app skipn]. now rewrite firstn_map. }
          split; [auto |]. split; [discriminate |]. intro RP. specialize (RP (runs s)). apply skipn_all2. rewrite HE, app_length in LE. unfold fresh in LE. rewrite map_length in LE. lia.
        * exists [], ext. split; [apply skipn_all2; rewrite firstn_length; lia |]. split; [auto |]. split; [discriminate |]. intro RP. specialize (RP (runs s)).
          rewrite HE, app_length in LE. unfold fresh in LE. rewrite map_length in LE. lia.
    - right. assert (NX : next P hist = Include h /\ goal P h <> None) by (rewrite HE; apply (leads_next a h c); rewrite <- VE; auto).
      split; [destruct ok; [destruct NX; congruence | auto] |]. split; [| exists a, h, c; auto].
      unfold out. assert (length (map fst hist) < skip s).
      { rewrite HE, map_length. unfold fresh. rewrite map_length, SK, VE, app_length. cbn. lia. }
      destruct ok; apply skipn_all2; [lia |]. rewrite firstn_length. lia. }
  assert (AD : match adds P (clock w0) (skipn (skip s) out) w1 (skip s) (dd s) with
    | Missing h => lacks P h
    | Added w2 n' d' r => later w1 w2 /\ n' = length (lines d') /\ leads P (lines d') /\ settled w2 (lines d') /\ keeps old d' /\ (written (dd s) = true -> written d' = true) /\
        skip s <= n' /\ (if r then skip s < n' else True) /\ (n' = skip s \/ n' <= limit P) /\
        (r = false -> ok = true -> hist = fresh P (lines d')) /\
        (r = false -> reports P -> ok = false -> hist = fresh P (lines d') \/ exists a h c, lines (dd s) = a ++ h :: c /\ hist = fresh P a)
    end).
  { destruct NEW as [(ext' & ext'' & -> & HE & X1 & X2) | (OK & -> & a & h & c & VE & HE)].
    - pose proof (adds_ok old gen w0 w1 hist GD0 R ext' ext'' w1 (dd s) (skip s) (later_refl _) HE L S1 SK K L1) as A.
      destruct (adds P (clock w0) (map fst ext') w1 (skip s) (dd s)) as [w2 n' d' r |]; auto.
      destruct A as (A1 & A2 & A3 & A4 & A5 & A6 & A7 & A8). split; [auto |]. split; [auto |]. split; [auto |]. split; [auto |]. split; [auto |]. split; [auto |]. split; [lia |].
      split; [destruct r; auto |]. split.
      { right. rewrite HE, !app_length in LE. unfold fresh in LE. rewrite map_length in LE. lia. }
      split; intros -> .
      + intro OK. rewrite A8, (X1 OK). now rewrite app_nil_r.
      + intros RP _. left. rewrite A8, (X2 RP). now rewrite app_nil_r.
    - cbn [adds]. split; [apply later_refl |]. split; [auto |]. split; [auto |]. split; [auto |]. split; [auto |]. split; [auto |]. split; [auto |]. split; [auto |]. split; [auto |].
      split; [congruence |]. intros _ _ _. right. exists a, h, c. auto. }
  destruct (adds P (clock w0) (skipn (skip s) out) w1 (skip s) (dd s)) as [w2 n d r | h]; [| auto].
  destruct AD as (A1 & A2 & A3 & A4 & A5 & A6 & A7 & A8 & A9 & A10 & A11).
  assert (GD2 : good w2) by (eapply later_good; [exact A1 |]; eapply later_good; eauto).
  assert (LW2 : later w00 w2) by (eapply later_trans; [exact LW |]; eapply later_trans; eauto).
  set (forced := match force_gen s with Some true => true | _ => false end).
  assert (FO : forced = true -> force_gen s = Some true) by (unfold forced; destruct (force_gen s) as [[|] |]; congruence).
  assert (NF : forced = false -> force_gen s <> Some true) by (unfold forced; destruct (force_gen s) as [[|] |]; congruence).
  assert (MB := phase_bounds s).
  assert (UPD : update s = false -> written d = true) by auto.
  assert (UPD' : update s || r || forced = false -> written d = true) by (intro X; apply orb_false_elim in X as (X & _); apply orb_false_elim in X as (X & _); auto).
  (* restarting because of an update *)
  assert (AGAIN : r = true -> let s' := mkstate w2 n d (update s || r || forced) (if forced then Some false else force_gen s) (force_gen_skip s) (Datatypes.S (runs s)) in
    inv w00 old s' /\ measure s' < measure s).
  { intros -> s'. split.
    - constructor; auto; cbn [force_gen force_gen_skip skip s' dd].
      + destruct forced eqn: F; [discriminate |]. intro X. destruct (NF eq_refl X).
      + intros _ k KE. left. destruct forced eqn: F.
        * rewrite (FG (FO eq_refl)) in KE. injection KE as <-. auto.
        * destruct (NFG (NF eq_refl) k KE) as [| (-> & _)]; lia.
    - unfold measure. pose proof (phase_bounds s'). cbn [skip s'] in *. lia. }
  destruct ok.
  - destruct r; [apply AGAIN; auto |]. cbn [orb]. destruct forced eqn: F.
    + (* everything is read with support for generated headers *)
      specialize (A10 eq_refl eq_refl). assert (INC : includes P (lines d)) by (split; [auto | rewrite <- A10; auto]).
      assert (LL : length (lines d) <= limit P) by (rewrite A10 in LE; unfold fresh in LE; rewrite map_length in LE; auto).
      split.
      * constructor; auto; cbn [force_gen force_gen_skip skip dd]; [discriminate |].
        intros _ k KE. rewrite (FG (FO eq_refl)) in KE. injection KE as <-. destruct (Nat.eq_dec (skip s) n); [right; auto | left; lia].
      * unfold measure, phase. cbn [force_gen force_gen_skip skip]. rewrite (FG (FO eq_refl)), (FO eq_refl). destruct (skip s =? n) eqn: X; [apply Nat.eqb_eq in X; lia | apply Nat.eqb_neq in X; lia].
    + specialize (A10 eq_refl eq_refl). split; cbn [dd lines finish w rest ended written update].
      * split; auto. rewrite <- A10. auto.
      * split; [auto |]. split; [auto |]. split; [auto |]. split; [auto |]. split; [apply keeps_finish; auto |]. intro X. apply (written_finish d), UPD', X.
  - destruct r; [apply AGAIN; auto |]. destruct gen eqn: GE.
    + (* failed *)
      split.
      2: { exists hist. split; [exact (reads_content w00 true w0 w1 hist (later_trans _ _ _ LW L0) R) |].
           destruct E2 as [X | (h & NX & [X | (X & _)])]; [left; exact X | right; split; [exact X | exists h; exact NX] | discriminate]. }
      intro RP. destruct (A11 eq_refl RP eq_refl) as [HE | (a & h & c & VE & HE)].
      * exists (lines d). split; auto. rewrite <- HE. destruct E2 as [| (h & NX & [X | (X & _)])]; [auto | | discriminate].
        right. split; [| eauto]. rewrite HE in X. unfold fresh in X. rewrite map_length in X. auto.
      * exists a. assert (LA : leads P a) by (eapply (leads_app (h :: c)); rewrite <- VE; auto). split; auto. rewrite <- HE.
        destruct E2 as [| (h1 & NX & [X | (X & _)])]; [auto | | discriminate]. right. split; [| eauto]. rewrite HE in X. unfold fresh in X. rewrite map_length in X. auto.
    + assert (F : forced = false). { unfold forced. unfold gen in GE. destruct (force_gen s) as [[|] |]; auto. destruct (always P); discriminate. }
      assert (NEXT : inv w00 old (mkstate w2 n d (update s || false || forced) (Some true) (Some n) (Datatypes.S (runs s))) /\
        (forall k, force_gen_skip s = Some k -> k <> n) -> inv w00 old (mkstate w2 n d (update s || false || forced) (Some true) (Some n) (Datatypes.S (runs s))) /\
        measure (mkstate w2 n d (update s || false || forced) (Some true) (Some n) (Datatypes.S (runs s))) < measure s).
      { intros (I & NK). split; auto. unfold measure. cbn [skip phase force_gen]. destruct (Nat.eq_dec n (skip s)) as [EN | NE]; [| unfold phase at 1; cbn [force_gen]; lia].
        assert (PH : phase s = 3).
        { unfold phase. destruct (force_gen s) as [[|] |] eqn: FE; [discriminate (NF F FE) || (destruct (NF F); reflexivity) | |]; destruct (force_gen_skip s) as [k |]; auto; destruct (k =? skip s) eqn: KE; auto; apply Nat.eqb_eq in KE; destruct (NK k eq_refl); congruence. }
        rewrite PH. unfold phase. cbn [force_gen]. lia. }
      assert (INV : inv w00 old (mkstate w2 n d (update s || false || forced) (Some true) (Some n) (Datatypes.S (runs s)))).
      { constructor; auto; cbn [force_gen force_gen_skip skip dd]. intro X. congruence. }
      destruct (force_gen_skip s) as [k |] eqn: FS; [| apply NEXT; split; [auto | discriminate]].
      destruct (k =? n) eqn: KN; [| apply NEXT; split; [auto | intros k0 X; injection X as <-; apply Nat.eqb_neq; auto]].
      apply Nat.eqb_eq in KN. subst k. destruct (NFG (NF F) n eq_refl) as [| (EN & (LI & CI) & LLI)]; [lia |].
      (* everything is up to date, so the compiler could not have failed *)
      destruct NEW as [(ext' & ext'' & _ & HE & _) | (_ & _ & a & h & c & VE & HE)].
      * destruct (ext' ++ ext'') as [| (h, c) ex] eqn: EX.
        -- rewrite app_nil_r in HE. rewrite HE in E2. destruct E2 as [X | (h & X & _)]; congruence.
        -- destruct (R _ _ _ _ HE) as (X & _). cbn [app] in X. congruence.
      * assert (NX : next P (fresh P a) = Include h /\ goal P h <> None) by (apply (leads_next a h c); rewrite <- VE; auto). destruct NX as (NX & GH). rewrite HE in E2.
        destruct E2 as [X | (h1 & X & [Y | (_ & wr & W1 & W2)])]; [congruence | |].
        -- unfold fresh in Y. rewrite map_length in Y. rewrite VE, app_length in LLI. cbn in LLI. lia.
        -- rewrite NX in X. injection X as <-. rewrite VE in S0. apply Forall_app in S0 as (_ & S0). inversion S0 as [| ? ? KH]; subst.
           destruct (later_known _ _ _ W1 KH) as (_ & FE & _). assert (file w0 h = goal P h) by (apply GD0; auto). congruence.
Qed.

Lemma loop_ok w00 old fuel : forall s, inv w00 old s -> 
  match loop P fuel s with
  | Found s' => found old s'
  | Deferred h => lacks P h
  | Failed _ => (reports P -> wrong P) /\ wrong_mixed P w00
  | Inconsistent => False
  | Exhausted => fuel <= measure s
  end.
Proof.
  induction fuel as [| fuel IH]; intros s I; cbn [loop]; [lia |]. pose proof (run_ok w00 old s I) as R.
  destruct (run P s) as [s' | r]; [| destruct r; tauto]. destruct R as (I' & M). specialize (IH s' I'). destruct (loop P fuel s'); auto. lia.
Qed.

(* The database *)
Lemma cached_ok w00 f e all : start P w00 -> stored P w00 f all e -> forall hs s,
  later w00 (w s) -> good (w s) -> all = lines (dd s) ++ hs -> rest (dd s) = hs -> ended (dd s) = e -> written (dd s) = false -> update s = false ->
  skip s = length (lines (dd s)) -> leads P (lines (dd s)) -> settled (w s) (lines (dd s)) -> Forall (fun h => goal P h = f h) (lines (dd s)) ->
  force_gen s = None -> force_gen_skip s = None ->
  match cached P hs s with
  | Again s' => inv w00 (Some (all, e)) s' /\ skip s' <= length all
  | Ended (Found s') => includes P all /\ e = true /\ lines (dd s') = all /\ rest (dd s') = [] /\ ended (dd s') = true /\ written (dd s') = false /\ update s' = false /\ good (w s') /\ settled (w s') all /\
      Forall (fun h => goal P h = f h) all
  | Ended _ => False
  end.
Proof.
  intros ST SD. induction hs as [| h hs IH]; intros s LW GD EA ER EE WR UP SK L S FF FG FS; cbn [cached].
  - rewrite app_nil_r in EA. rewrite EE. destruct e.
    + assert (FR : fresh P (lines (dd s)) = map (fun h => (h, f h)) (lines (dd s))).
      { unfold fresh. apply map_ext_in. intros x I. rewrite Forall_forall in FF. now rewrite (FF x I). }
      rewrite EA. split; [split; [auto |]; rewrite FR, <- EA; apply (stored_all _ _ _ _ _ SD); auto |]. auto 12.
    + split; [| cbn [skip]; rewrite EA; lia]. constructor; cbn; auto; try discriminate; try congruence.
  - pose proof (interfere_later (w s)) as LI. assert (GI : good (interfere P (w s))) by (eapply later_good; eauto).
    destruct (goal P h) as [g |] eqn: G.
    2: { split; [| cbn [skip]; rewrite EA, app_length; lia]. constructor; cbn; auto; try discriminate; try congruence; [exact (later_trans _ _ _ LW LI) | exact (settled_later _ _ _ LI S)]. }
    assert (G' : goal P h <> None) by congruence.
    destruct (update_header P (interfere P (w s)) h (target_time P)) as (w2 & u) eqn: U.
    destruct (update_ok _ _ _ _ _ GI G' U) as (L2 & K2 & UF). assert (L02 : later w00 w2) by (eapply later_trans; [exact LW |]; eapply later_trans; eauto).
    assert (FR : fresh P (lines (dd s)) = map (fun h => (h, f h)) (lines (dd s))).
    { unfold fresh. apply map_ext_in. intros x I. rewrite Forall_forall in FF. now rewrite (FF x I). }
    assert (LL : leads P (lines (dd s) ++ [h])) by (constructor; auto; rewrite FR; apply (stored_leads _ _ _ _ _ SD _ _ _ EA)).
    assert (SS : settled w2 (lines (dd s) ++ [h])).
    { apply Forall_app. split; [eapply settled_later; [| exact S]; eapply later_trans; eauto | constructor; auto]. }
    assert (G2 : good w2) by (exact (later_good _ _ L2 GI)).
    assert (LEN : Datatypes.S (skip s) = length (lines (dd s) ++ [h])) by (rewrite app_length; cbn; lia).
    destruct u.
    + split; [| cbn [skip]; rewrite EA, app_length; cbn; lia]. constructor; cbn; auto; try discriminate; try congruence.
      intro X. cbn in X. cbn. now rewrite EA, EE, <- app_assoc.
    + assert (GF : goal P h = f h).
      { assert (I : In h all) by (rewrite EA, in_app_iff; cbn; auto).
        assert (D : file w00 h = f h \/ file w00 h <> f h).
        { destruct (file w00 h) as [x |], (f h) as [y |]; try (right; discriminate); auto. destruct (Nat.eq_dec x y); [left; congruence | right; congruence]. }
        pose proof (start_known _ _ ST h) as K0. pose proof L02 as (_ & LH).
        destruct (UF eq_refl) as [(K & T) | (K & T)].
        - destruct (LH h) as [(X & _) | [(_ & _ & F2 & T2 & _) | (_ & X & _)]]; [congruence | | congruence].
          assert (F3 : file w2 h = goal P h) by (apply G2; auto). destruct D as [D | D]; [congruence |]. pose proof (stored_newer _ _ _ _ _ SD h I D). lia.
        - pose proof (start_time _ _ ST) as T0. assert (L0I : later w00 (interfere P (w s))) by (exact (later_trans _ _ _ LW LI)). destruct L0I as (_ & LH').
          destruct (LH' h) as [(X & _) | [(_ & X & _) | (_ & _ & _ & T2 & _)]]; [congruence | congruence | lia]. }
      apply IH; cbn; auto.
      * now rewrite EA, <- app_assoc.
      * apply Forall_app. auto.
Qed.

Lemma start_good w0 : start P w0 -> good w0.
Proof.
  intros [K F N T]. split; intro h.
  - intros G [X | X]; [rewrite K in X; congruence | auto].
  - rewrite K. congruence.
Qed.

Definition result_ok (w00 : world) (f : header -> option content) (old : option (list header * bool)) (r : outcome) : Prop :=
  match r with
  | Found s => includes P (lines (dd s)) /\ good (w s) /\ settled (w s) (lines (dd s)) /\ rest (dd s) = [] /\ ended (dd s) = true /\
      (written (dd s) = false -> old = Some (lines (dd s), true)) /\
      (update s = false -> written (dd s) = false -> Forall (fun h => goal P h = f h) (lines (dd s)))
  | Deferred h => lacks P h
  | Failed _ => (reports P -> wrong P) /\ wrong_mixed P w00
  | Inconsistent => False
  | Exhausted => True
  end.
Lemma extract_ok fuel w0 f old : start P w0 -> previous P w0 f old -> result_ok w0 f old (extract P fuel w0 old) /\ (3 * limit P + 3 < fuel -> extract P fuel w0 old <> Exhausted).
Proof.
  intros ST PR. pose proof (start_good _ ST) as GD.
  assert (LO : forall s, inv w0 old s -> result_ok w0 f old (loop P fuel s) /\ (3 * limit P + 3 < fuel -> loop P fuel s <> Exhausted)).
  { intros s I. pose proof (loop_ok w0 old fuel s I) as H. assert (M : measure s <= 3 * limit P + 3) by (unfold measure; pose proof (phase_bounds s); lia).
    split; [| intros F E; rewrite E in H; lia]. unfold result_ok. destruct (loop P fuel s) as [s' | | | |]; auto.
    destruct H as (A & B & C & D & E & F & G). repeat (split; [auto |]). intros X Y. rewrite (G X) in Y. discriminate. }
  unfold extract. destruct old as [(hs, e) |].
  - pose proof (cached_ok w0 f e hs ST PR hs (mkstate w0 0 (mkdb [] hs e false) false None None 0) (later_refl _) GD eq_refl eq_refl eq_refl eq_refl eq_refl eq_refl (leads_nil P) (Forall_nil _) (Forall_nil _) eq_refl eq_refl) as C.
    destruct (cached P hs (mkstate w0 0 (mkdb [] hs e false) false None None 0)) as [s | r]; [apply LO, C |].
    destruct r as [s' | | | |]; try destruct C. destruct H0 as (-> & EL & ER & EE & WR & UP & G2 & SE & FF). split; [| congruence]. cbn. rewrite EL. repeat (split; [auto |]). auto.
  - apply LO. constructor; cbn; auto; try apply later_refl; try discriminate; try congruence; try constructor.
Qed.
End Proofs.
