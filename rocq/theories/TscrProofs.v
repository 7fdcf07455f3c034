(* Proofs about testscripts: what is executed and the result. *)
From Verif Require Import Base TscrModel TscrSpec.
From Coq Require Import Permutation.

Scheme scope_mut := Induction for scope Sort Prop with chains_mut := Induction for chains Sort Prop with branches_mut := Induction for branches Sort Prop.
Combined Scheme scopes_ind from scope_mut, chains_mut, branches_mut.
Scheme step_mut := Induction for step Sort Prop with steps_mut := Induction for steps Sort Prop.
Combined Scheme step_steps_ind from step_mut, steps_mut.

Lemma empty_bare :
  (forall s c, Sound s -> empty c s = bare c s) /\ (forall cs, Sound_chains cs -> empty_chains cs = bare_chains cs) /\
  (forall bs, Sound_branches bs -> match bs with BCons Always s BNil => empty Always s = bare Always s | BCons c s _ => empty c s = bare c s | BNil => True end).
Proof.
  apply scopes_ind.
  - reflexivity.
  - intros su cs IH td c H. cbn in *. rewrite IH by exact H. reflexivity.
  - reflexivity.
  - intros id bs IHb r IHr (F & B & R). cbn. rewrite IHr by exact R. f_equal. specialize (IHb B). destruct bs as [| c s bs]; [reflexivity |].
    cbn in F |- *. destruct c as [| neg k |].
    + subst bs. cbn. rewrite IHb, andb_true_r. reflexivity.
    + cbn. destruct s as [[l |] |]; cbn; [reflexivity | contradiction | reflexivity].
    + cbn. destruct s as [[l |] |]; cbn; [reflexivity | contradiction | reflexivity].
  - exact (fun _ => I).
  - intros c s IHs r _ (S & _). destruct c; [destruct r |..]; apply IHs, S.
Qed.
Lemma empty_is_bare c s : Sound s -> empty c s = bare c s.
Proof. apply empty_bare. Qed.

Section Run.
Context (enters leaves : path -> bool) (run : nat -> outcome) (holds : nat -> check) (selected : path -> bool) (keep_going : bool).
Notation lines := (lines run).
Notation serial := (serial enters leaves run holds selected).
Notation inner := (inner enters leaves run holds selected).
Notation choose := (choose enters leaves run holds selected).
Notation step := (step enters leaves run holds selected keep_going).
Notation steps := (steps enters leaves run holds selected keep_going).
Notation execution := (execution enters leaves run holds selected keep_going).
Notation exits := (exits run).
Notation rs := (list event * bool)%type.

(* What is left to do. *)
Definition left (p : path) (x : rs) : rs := andthen x ([Leave p], leaves p).
Definition fin (p : path) (td : option nat) (x : rs) : rs := left p (andthen x (lines p TeardownLines td)).
Definition chain (p : path) (x : list event * choice) (r : rs) : rs :=
  match x with
  | (es, Chosen x) => both (both (es, true) x) r
  | (es, Nothing) => both (es, true) r
  | (es, Exited) => (es, true)
  | (es, Failed) => (es, false)
  end.
Fixpoint rest (k : proc) : rs :=
  match k with
  | Start p s => serial p s
  | TestBody p l => left p (lines p TestLines l)
  | SetupBody p su cs td => left p (andthen (lines p SetupLines su) (andthen (if exits su then ([], true) else inner p cs) (lines p TeardownLines td)))
  | Loop p cs td ks => fin p td (both (inner p cs) (rests ks))
  | Pick p id bs cs td ks => fin p td (both (chain p (choose p (p ++ [id]) bs) (inner p cs)) (rests ks))
  | Sync p cs td ks k => fin p td (both (rest k) (both (inner p cs) (rests ks)))
  | Wait p td ks t => fin p td (both ([], negb t) (rests ks))
  | TeardownBody p td => left p (lines p TeardownLines td)
  | Leaving p => ([Leave p], leaves p)
  | Done b => ([], b)
  end
with rests (ks : procs) : rs := match ks with PNil => ([], true) | PCons k r => both (rest k) (rests r) end.

(* x is e and then y, except for what is skipped after a failure. *)
Definition After (x : rs) (e : list event) (y : rs) : Prop :=
  snd x = snd y /\ exists skipped, Permutation (fst x) (e ++ fst y ++ skipped) /\ (keep_going = true \/ snd x = true -> skipped = []).
Lemma after_eq e y : After (e ++ fst y, snd y) e y.
Proof. split; [reflexivity |]. exists []. rewrite app_nil_r. split; [apply Permutation_refl | auto]. Qed.
Lemma after_is x e y : x = (e ++ fst y, snd y) -> After x e y.
Proof. intros ->. apply after_eq. Qed.
Lemma after_perm x e y : Permutation (fst x) (e ++ fst y) -> snd x = snd y -> After x e y.
Proof. intros P E. split; [exact E |]. exists []. rewrite app_nil_r. auto. Qed.
Lemma after_andthen x e y z : After x e y -> After (andthen x z) e (andthen y z).
Proof.
  intros (S & k & P & K). unfold andthen. rewrite S. destruct (snd y) eqn:Y.
  - rewrite S in K. rewrite (K (or_intror eq_refl)), app_nil_r in P. cbn. apply after_perm; [| reflexivity]. cbn. rewrite app_assoc. apply Permutation_app_tail, P.
  - split; [congruence |]. exists k. auto.
Qed.
Lemma after_both_l x e y z : After x e y -> After (both x z) e (both y z).
Proof.
  intros (S & k & P & K). split; [cbn; rewrite S; reflexivity |]. exists k. split.
  - cbn. rewrite P, <- !app_assoc. apply Permutation_app_head, Permutation_app_head, Permutation_app_comm.
  - cbn. intros [H | H]; [auto |]. apply andb_true_iff in H. apply K. tauto.
Qed.
Lemma after_both_r x e y z : After x e y -> After (both z x) e (both z y).
Proof.
  intros (S & k & P & K). split; [cbn; rewrite S; reflexivity |]. exists k. split.
  - cbn. rewrite P, !app_assoc. do 2 apply Permutation_app_tail. apply Permutation_app_comm.
  - cbn. intros [H | H]; [auto |]. apply andb_true_iff in H. apply K. tauto.
Qed.
Lemma after_fin p td x e y : After x e y -> After (fin p td x) e (fin p td y).
Proof. intros H. apply after_andthen, after_andthen, H. Qed.
Lemma andthen_assoc x y z : andthen (andthen x y) z = andthen x (andthen y z).
Proof.
  unfold andthen. destruct (snd x) eqn:X; cbn; [| rewrite X; reflexivity]. destruct (snd y) eqn:Y; cbn; [rewrite app_assoc; reflexivity | rewrite ?Y; reflexivity].
Qed.
Lemma lines_result p c l : lines p c l = (block p c l, match result run l with Failure => false | _ => true end).
Proof. destruct l as [k |]; reflexivity. Qed.
Lemma exits_result l : exits l = match result run l with ExitScript => true | _ => false end.
Proof. destruct l as [k |]; reflexivity. Qed.
Lemma both_nil x : both ([], true) x = x.
Proof. destruct x. reflexivity. Qed.
Lemma both_nil_r x : both x ([], true) = x.
Proof. destruct x. unfold both. cbn. rewrite app_nil_r, andb_true_r. reflexivity. Qed.

Lemma choose_BCons p q c s r : choose p q (BCons c s r) =
  let taken := if bare c s then Nothing else Chosen (serial q s) in
  match take holds c with
  | Yes => (checked p c, taken)
  | No => (checked p c ++ fst (choose p q r), snd (choose p q r))
  | CheckExit => (checked p c, Exited)
  | CheckFailure => (checked p c, Failed)
  end.
Proof.
  destruct c as [| neg k |]; cbn; try reflexivity. destruct (holds k); cbn; try reflexivity; destruct neg; reflexivity.
Qed.
Lemma chain_app p es es' c x : chain p (es ++ es', c) x = (es ++ fst (chain p (es', c) x), snd (chain p (es', c) x)).
Proof. destruct c; cbn; rewrite ?app_assoc; reflexivity. Qed.

Fixpoint SoundP (k : proc) : Prop :=
  match k with
  | Start _ s => Sound s
  | SetupBody _ _ cs _ => Sound_chains cs
  | Loop _ cs _ ks => Sound_chains cs /\ SoundPs ks
  | Pick _ _ bs cs _ ks => Sound_branches bs /\ Sound_chains cs /\ SoundPs ks
  | Sync _ cs _ ks k => Sound_chains cs /\ SoundPs ks /\ SoundP k
  | Wait _ _ ks _ => SoundPs ks
  | _ => True
  end
with SoundPs (ks : procs) : Prop := match ks with PNil => True | PCons k r => SoundP k /\ SoundPs r end.

Lemma rests_done ks : all_done ks = true -> rests ks = ([], negb (some_failed ks)).
Proof.
  induction ks as [| k r IH]; [reflexivity |]. destruct k; cbn; try discriminate. intros H. rewrite IH by exact H. destruct passed; reflexivity.
Qed.
Lemma step_after :
  (forall k e k', step k e k' -> SoundP k -> SoundP k' /\ After (rest k) e (rest k')) /\
  (forall ks e ks', steps ks e ks' -> SoundPs ks -> SoundPs ks' /\ After (rests ks) e (rests ks')).
Proof.
  apply (step_steps_ind enters leaves run holds selected keep_going
    (fun k e k' _ => SoundP k -> SoundP k' /\ After (rest k) e (rest k')) (fun ks e ks' _ => SoundPs ks -> SoundPs ks' /\ After (rests ks) e (rests ks'))).
  - intros p s H. destruct s as [l | su cs td]; cbn [rest TscrSpec.serial]; unfold entered; unfold andthen at 1; cbn [fst snd]; destruct (enters p);
      (split; [exact H || exact I |]); apply after_is; reflexivity.
  - intros p l _. split; [destruct (result run l); exact I |]. apply after_is. cbn [rest]. unfold left. rewrite lines_result. unfold andthen. cbn.
    destruct (result run l); cbn; rewrite ?app_nil_r; reflexivity.
  - intros p su cs td H. split; [destruct (result run su); cbn; auto |]. apply after_is. cbn [rest]. rewrite exits_result, lines_result. unfold left at 1.
    rewrite andthen_assoc. unfold andthen at 1. cbn [fst snd]. destruct (result run su); cbn [rest rests].
    + unfold fin, left. rewrite both_nil_r. reflexivity.
    + unfold left. rewrite andthen_assoc. unfold andthen at 1 3. cbn [fst snd app]. reflexivity.
    + cbn. rewrite app_nil_r. reflexivity.
  - intros p td ks [_ H]. split; [exact H |]. apply after_is. cbn [rest]. cbn [TscrSpec.inner negb app]. apply surjective_pairing.
  - intros p id bs cs td ks S [(F & B & R) H]. split; [split; assumption |]. apply after_is. cbn [rest TscrSpec.inner app]. rewrite S. apply surjective_pairing.
  - intros p id bs cs td ks S [(F & B & R) H]. split; [repeat split; assumption |]. apply after_is. cbn [rest TscrSpec.inner app]. rewrite S. apply surjective_pairing.
  - intros p id cs td ks (_ & R & H). split; [split; assumption |]. apply after_is. cbn [rest TscrSpec.choose chain app]. rewrite both_nil. apply surjective_pairing.
  - intros p id c s bs cs td ks T ((_ & B) & R & H). split; [repeat split; assumption |]. cbn [rest]. rewrite choose_BCons. cbn zeta. rewrite T.
    apply after_fin, after_both_l, after_is. rewrite chain_app. rewrite <- surjective_pairing. reflexivity.
  - intros p id c s bs cs td ks T (_ & R & H). split; [assumption |]. cbn [rest]. rewrite choose_BCons. cbn zeta. rewrite T.
    apply after_fin, after_both_l, after_is. cbn. rewrite app_nil_r. reflexivity.
  - intros p id c s bs cs td ks T (_ & R & H). split; [assumption |]. cbn [rest]. rewrite choose_BCons. cbn zeta. rewrite T.
    apply after_fin, after_both_l, after_is. cbn. rewrite app_nil_r. reflexivity.
  - intros p id c s bs cs td ks T E ((Ss & _) & R & H). split; [split; assumption |]. rewrite (empty_is_bare c s Ss) in E. cbn [rest]. rewrite choose_BCons. cbn zeta.
    rewrite T, E. apply after_fin, after_both_l, after_is. reflexivity.
  - intros p id c s bs cs td ks T E ((Ss & _) & R & H). split; [repeat split; assumption |]. rewrite (empty_is_bare c s Ss) in E. cbn [rest rests]. rewrite choose_BCons. cbn zeta.
    rewrite T, E. apply after_fin, after_perm; cbn.
    + rewrite <- !app_assoc. apply Permutation_app_head. rewrite !app_assoc. apply Permutation_app_tail, Permutation_app_comm.
    + destruct (snd (serial (p ++ [id]) s)), (snd (inner p cs)), (snd (rests ks)); reflexivity.
  - intros p id c s bs cs td ks T E ((Ss & _) & R & H). split; [repeat split; assumption |]. rewrite (empty_is_bare c s Ss) in E. cbn [rest rests]. rewrite choose_BCons. cbn zeta.
    rewrite T, E. apply after_fin, after_perm; cbn; [rewrite <- !app_assoc; apply Permutation_refl | apply eq_sym, andb_assoc].
  - intros p cs td ks k e k' _ IH (R & H & Hk). destruct (IH Hk) as [Hk' A]. split; [repeat split; assumption |]. apply after_fin, after_both_l, A.
  - intros p cs td ks b (R & H & Hk). destruct (b || keep_going) eqn:B.
    + split; [repeat split; assumption |]. cbn [rest rests]. apply after_fin, after_perm; cbn; [apply Permutation_refl |].
      destruct b, (snd (inner p cs)), (snd (rests ks)); reflexivity.
    + apply orb_false_iff in B. destruct B as [-> B]. split; [exact H |]. cbn [rest rests]. unfold fin, left, both, andthen. cbn. split; [reflexivity |].
      exists (fst (inner p cs)). split; [cbn; apply Permutation_app_comm |]. intros [K | K]; cbn in K; congruence.
  - intros p td ks t D H. split; [destruct (t || some_failed ks); exact I |]. cbn [rest]. rewrite rests_done by exact D. apply after_is. unfold fin, left, both. cbn.
    destruct t, (some_failed ks); cbn [negb andb orb rest]; try reflexivity. unfold left.
    assert (N : andthen ([], true) (lines p TeardownLines td) = lines p TeardownLines td) by (unfold andthen; cbn; rewrite <- surjective_pairing; reflexivity).
    rewrite N. apply surjective_pairing.
  - intros p l _. split; [destruct (result run l); exact I |]. apply after_is. cbn [rest]. unfold left. rewrite lines_result. unfold andthen. cbn.
    destruct (result run l); cbn; rewrite ?app_nil_r; reflexivity.
  - intros p _. split; [exact I |]. apply after_is. reflexivity.
  - intros p cs td ks e ks' _ IH (R & H). destruct (IH H) as [H' A]. split; [split; assumption |]. apply after_fin, after_both_r, A.
  - intros p id bs cs td ks e ks' _ IH (B & R & H). destruct (IH H) as [H' A]. split; [repeat split; assumption |]. apply after_fin, after_both_r, A.
  - intros p cs td ks k e ks' _ IH (R & H & Hk). destruct (IH H) as [H' A]. split; [repeat split; assumption |]. apply after_fin, after_both_r, after_both_r, A.
  - intros p td ks t e ks' _ IH H. destruct (IH H) as [H' A]. split; [assumption |]. apply after_fin, after_both_r, A.
  - intros k e k' ks _ IH (Hk & H). destruct (IH Hk) as [Hk' A]. split; [split; assumption |]. apply after_both_l, A.
  - intros k e ks ks' _ IH (Hk & H). destruct (IH H) as [H' A]. split; [split; assumption |]. apply after_both_r, A.
Qed.
Lemma execution_after k es k' : execution k es k' -> SoundP k -> After (rest k) es (rest k').
Proof.
  induction 1 as [k | k e k' es k'' S _ IH]; intros H.
  - apply after_is. cbn. apply surjective_pairing.
  - destruct (proj1 step_after _ _ _ S H) as [H' (S1 & x1 & P1 & K1)]. destruct (IH H') as (S2 & x2 & P2 & K2). split; [congruence |].
    exists (x2 ++ x1). split.
    + rewrite P1, P2, <- !app_assoc. apply Permutation_refl.
    + intros K. rewrite K1 by exact K. rewrite K2; [reflexivity |]. rewrite <- S1. exact K.
Qed.

(* It never gets stuck. *)
Lemma progress_all : forall k, (exists b, k = Done b) \/ exists e k', step k e k'.
Proof.
  fix F 1. assert (G : forall ks, all_done ks = true \/ exists e ks', steps ks e ks').
  { fix G 1. intros [| k r]; [left; reflexivity |]. destruct (F k) as [(b & ->) | (e & k' & S)].
    - destruct (G r) as [D | (e & r' & S)]; [left; exact D | right; eexists; eexists; apply S_rest, S].
    - right. eexists; eexists; apply S_first, S. }
  intros k. destruct k as [p s | p l | p su cs td | p cs td ks | p id bs cs td ks | p cs td ks k | p td ks t | p td | p | b]; try (right; eexists; eexists; constructor; fail).
  - right. destruct cs as [| id bs cs]; [eexists; eexists; constructor |]. destruct (selected (p ++ [id])) eqn:S; eexists; eexists; [apply S_chain, S | apply S_ignore, S].
  - right. destruct bs as [| c s bs]; [eexists; eexists; constructor |]. destruct (take holds c) eqn:T.
    + destruct (empty c s) eqn:E; eexists; eexists; [eapply S_empty | eapply S_async]; eassumption.
    + eexists; eexists; eapply S_no; eassumption.
    + eexists; eexists; eapply S_exit; eassumption.
    + eexists; eexists; eapply S_throw; eassumption.
  - right. destruct (F k) as [(b & ->) | (e & k' & S)]; [eexists; eexists; apply S_return | eexists; eexists; apply S_inside, S].
  - right. destruct (G ks) as [D | (e & ks' & S)]; eexists; eexists; [apply S_wait, D | apply S_kid_wait, S].
  - left. exists b. reflexivity.
Qed.
End Run.
