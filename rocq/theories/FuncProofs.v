From Coq Require Import Sorting.Sorted Sorting.Permutation.
From Verif Require Import Base FuncModel FuncSpec.

Fixpoint size (x : vtype) : nat := match x with VType _ None => 0 | VType _ (Some y) => S (size y) end.
Lemma vtype_rect' (P : vtype -> Prop) : (forall n, P (VType n None)) -> (forall n y, P y -> P (VType n (Some y))) -> forall x, P x.
Proof. intros H1 H2. fix IH 1. intros [n [y|]]; [apply H2, IH|apply H1]. Qed.
Lemma vtype_eqb_eq x : forall y, vtype_eqb x y = true <-> x = y.
Proof.
  induction x as [n|n x IH] using vtype_rect'; intros [m [y|]]; cbn; try (split; discriminate).
  - rewrite Nat.eqb_eq. split; congruence.
  - rewrite andb_true_iff, Nat.eqb_eq, IH. split; [intros [-> ->]; reflexivity|intros E; injection E as -> ->; auto].
Qed.
Lemma derived_correct x y : derived x y = true <-> base_of x y.
Proof.
  induction x as [n|n x IH] using vtype_rect'; cbn.
  - split; [discriminate|intros H; inversion H].
  - rewrite orb_true_iff, vtype_eqb_eq, IH. split; [intros [->|H]; [apply bo_direct|apply bo_more, H]|]. intros H. inversion H; subst; auto.
Qed.
Lemma base_of_size x y : base_of x y -> size y < size x.
Proof. induction 1; cbn; lia. Qed.
Lemma arg_rank_correct a p k : arg_rank a p = Some k <-> matches a p k.
Proof.
  destruct p as [| |u]; cbn.
  - split; [intros E; injection E as <-; constructor|intros H; inversion H; reflexivity].
  - destruct a; (split; [intros E; injection E as <-; constructor|intros H; inversion H; reflexivity]).
  - destruct a as [t|]; [|split; [discriminate|intros H; inversion H]]. destruct (vtype_eqb t u) eqn:E.
    + apply vtype_eqb_eq in E. subst u. split; [intros E; injection E as <-; constructor|]. intros H. inversion H as [| | |t' u' B|]; subst; [reflexivity|]. apply base_of_size in B. lia.
    + assert (N : t <> u) by (intros X; apply vtype_eqb_eq in X; congruence). destruct (derived t u) eqn:D.
      * split; [intros X; injection X as <-; apply m_derived, derived_correct, D|]. intros H. inversion H; subst; [contradiction|reflexivity].
      * split; [discriminate|]. intros H. inversion H as [| | |t' u' B|]; subst; [contradiction|]. apply derived_correct in B. congruence.
Qed.
Lemma args_rank_correct args : forall ps r k, args_rank args ps r = Some k <-> exists q, all_match args ps q /\ k = max r q.
Proof.
  induction args as [|a args IH]; intros ps r k; cbn [args_rank].
  - split; [intros E; injection E as <-; exists 0; split; [apply am_params|lia]|]. intros (q & H & ->). inversion H; subst; f_equal; lia.
  - destruct ps as [|p ps]; [split; [intros E; injection E as <-; exists 0; split; [apply am_args|lia]|intros (q & H & ->); inversion H; subst; f_equal; lia]|].
    destruct (arg_rank (type a) p) as [m|] eqn:E.
    + apply arg_rank_correct in E. rewrite IH. assert (X : forall q, max (if r <? m then m else r) q = max r (max m q)) by (intros q; destruct (Nat.ltb_spec r m); lia). split.
      * intros (q & H & ->). exists (max m q). split; [constructor; assumption|apply X].
      * intros (q & H & ->). inversion H as [| |? ? ? ? m' q' M H']; subst. apply arg_rank_correct in E, M. assert (m' = m) as -> by congruence. exists q'. split; [exact H'|symmetry; apply X].
    + split; [discriminate|]. intros (q & H & ->). inversion H as [| |? ? ? ? m' q' M H']; subst. apply arg_rank_correct in M. congruence.
Qed.
Lemma rank_of_correct args f k : rank_of args f = Some k <-> viable args f k.
Proof.
  unfold rank_of, viable. destruct (length args <? arg_min f) eqn:E1; cbn [orb].
  { apply Nat.ltb_lt in E1. split; [discriminate|]. lia. }
  apply Nat.ltb_ge in E1. destruct (match arg_max f with Some m => m <? length args | None => false end) eqn:E2.
  - split; [discriminate|]. intros (_ & H & _). destruct (arg_max f) as [m|]; [|discriminate]. apply Nat.ltb_lt in E2. specialize (H m eq_refl). lia.
  - rewrite args_rank_correct. split.
    + intros (q & H & ->). split; [exact E1|]. split; [|exact H]. intros m X. rewrite X in E2. apply Nat.ltb_ge in E2. exact E2.
    + intros (_ & _ & H). exists k. auto.
Qed.
Lemma viable_unique args f r q : viable args f r -> viable args f q -> r = q.
Proof. intros H1 H2. apply rank_of_correct in H1, H2. congruence. Qed.

(* The overloads of the best rank so far. *)
Definition resolved (fs : list overload) (args : list value) (acc : option nat * list nat) : Prop :=
  NoDup (snd acc) /\
  match fst acc with
  | None => snd acc = [] /\ forall j g q, nth_error fs j = Some g -> ~ viable args g q
  | Some r => snd acc <> [] /\ (forall j, In j (snd acc) <-> exists g, nth_error fs j = Some g /\ viable args g r) /\ forall j g q, nth_error fs j = Some g -> viable args g q -> r <= q
  end.
Lemma nth_snoc {A} (l : list A) x j y : nth_error (l ++ [x]) j = Some y <-> nth_error l j = Some y \/ (j = length l /\ y = x).
Proof.
  destruct (Nat.lt_ge_cases j (length l)) as [L|L].
  - rewrite nth_error_app1 by exact L. split; [auto|]. intros [H|(-> & _)]; [exact H|lia].
  - rewrite nth_error_app2 by exact L. split.
    + intros H. right. destruct (j - length l) as [|k] eqn:E; cbn in H; [injection H as <-; split; [lia|reflexivity]|destruct k; discriminate H].
    + intros [H|(-> & ->)]; [apply nth_error_None in L; congruence|]. rewrite Nat.sub_diag. reflexivity.
Qed.
Lemma consider_resolved args fs f acc : resolved fs args acc -> resolved (fs ++ [f]) args (consider args f (length fs) acc).
Proof.
  intros (Nd & H). unfold consider. destruct acc as [rank ovls]. cbn [fst snd] in *. destruct (rank_of args f) as [r|] eqn:E.
  2: { assert (N : forall q, ~ viable args f q) by (intros q V; apply rank_of_correct in V; congruence). split; [exact Nd|]. cbn [fst snd]. destruct rank as [k|].
       - destruct H as (Ne & H1 & H2). split; [exact Ne|]. split.
         + intros j. rewrite H1. split; [intros (g & Hg & V); exists g; split; [apply nth_snoc; auto|exact V]|]. intros (g & Hg & V). apply nth_snoc in Hg. destruct Hg as [Hg|(_ & ->)]; [exists g; auto|destruct (N _ V)].
         + intros j g q Hg V. apply nth_snoc in Hg. destruct Hg as [Hg|(_ & ->)]; [eauto|destruct (N _ V)].
       - destruct H as (-> & H). split; [reflexivity|]. intros j g q Hg V. apply nth_snoc in Hg. destruct Hg as [Hg|(_ & ->)]; [exact (H _ _ _ Hg V)|exact (N _ V)]. }
  apply rank_of_correct in E. assert (New : forall k, (forall j g q, nth_error fs j = Some g -> viable args g q -> r < q) -> k = r -> resolved (fs ++ [f]) args (Some k, [length fs])).
  { intros k L ->. split; [repeat constructor; intros []|]. cbn [fst snd]. split; [discriminate|]. split.
    - intros j. split; [intros [<-|[]]; exists f; split; [apply nth_snoc; auto|exact E]|]. intros (g & Hg & V). apply nth_snoc in Hg. destruct Hg as [Hg|(-> & _)]; [specialize (L _ _ _ Hg V); lia|left; reflexivity].
    - intros j g q Hg V. apply nth_snoc in Hg. destruct Hg as [Hg|(_ & ->)]; [specialize (L _ _ _ Hg V); lia|]. rewrite (viable_unique _ _ _ _ E V). lia. }
  destruct rank as [k|].
  - destruct H as (Ne & H1 & H2). destruct (Nat.ltb_spec r k) as [L|L]; [apply New; [|reflexivity]; intros j g q Hg V; specialize (H2 _ _ _ Hg V); lia|]. destruct (Nat.eqb_spec r k) as [->|Ne'].
    + split; cbn [fst snd].
      * apply (NoDup_Add (a := length fs) (l := ovls) (l' := ovls ++ [length fs])); [pose proof (Add_app (length fs) ovls []) as A; rewrite app_nil_r in A; exact A|]. split; [exact Nd|]. intros I. apply H1 in I. destruct I as (g & Hg & _). assert (X : nth_error fs (length fs) <> None) by congruence. apply nth_error_Some in X. lia.
      * split; [destruct ovls; discriminate|]. split.
        -- intros j. rewrite in_app_iff, H1. split.
           ++ intros [(g & Hg & V)|[<-|[]]]; [exists g; split; [apply nth_snoc; auto|exact V]|exists f; split; [apply nth_snoc; auto|exact E]].
           ++ intros (g & Hg & V). apply nth_snoc in Hg. destruct Hg as [Hg|(-> & _)]; [left; exists g; auto|right; left; reflexivity].
        -- intros j g q Hg V. apply nth_snoc in Hg. destruct Hg as [Hg|(_ & ->)]; [eauto|]. rewrite (viable_unique _ _ _ _ E V). lia.
    + split; [exact Nd|]. cbn [fst snd]. split; [exact Ne|]. split.
      * intros j. rewrite H1. split; [intros (g & Hg & V); exists g; split; [apply nth_snoc; auto|exact V]|]. intros (g & Hg & V). apply nth_snoc in Hg. destruct Hg as [Hg|(_ & ->)]; [exists g; auto|]. destruct Ne'. exact (viable_unique _ _ _ _ E V).
      * intros j g q Hg V. apply nth_snoc in Hg. destruct Hg as [Hg|(_ & ->)]; [eauto|]. rewrite (viable_unique _ _ _ _ V E). lia.
  - destruct H as (-> & H). apply New; [|reflexivity]. intros j g q Hg V. destruct (H _ _ _ Hg V).
Qed.
Lemma resolve_resolved args gs : forall fs acc, resolved fs args acc -> resolved (fs ++ gs) args (resolve args gs (length fs) acc).
Proof.
  induction gs as [|g gs IH]; intros fs acc H; cbn [resolve]; [rewrite app_nil_r; exact H|]. replace (fs ++ g :: gs) with ((fs ++ [g]) ++ gs) by (rewrite <- app_assoc; reflexivity). replace (S (length fs)) with (length (fs ++ [g])) by (rewrite app_length; cbn; lia). apply IH, consider_resolved, H.
Qed.
Lemma resolve_correct args fs : resolved fs args (resolve args fs 0 (None, [])).
Proof. apply (resolve_resolved args fs [] (None, [])). split; [constructor|]. cbn. split; [reflexivity|]. intros [|j] g q X; discriminate X. Qed.

Lemma best_singleton fs args i : best fs args i <-> exists r, resolve args fs 0 (None, []) = (Some r, [i]).
Proof.
  pose proof (resolve_correct args fs) as (Nd & H). destruct (resolve args fs 0 (None, [])) as [rank ovls]. cbn [fst snd] in *. split.
  - intros (f & r & Hf & V & B). destruct rank as [k|]; [|destruct H as (_ & H); destruct (H _ _ _ Hf V)]. destruct H as (Ne & H1 & H2). exists k. f_equal.
    assert (K : forall j, In j ovls -> j = i). { intros j I. apply H1 in I. destruct I as (g & Hg & Vg). destruct (Nat.eq_dec j i) as [E|E]; [exact E|]. specialize (B _ _ _ E Hg Vg). specialize (H2 _ _ _ Hf V). lia. }
    destruct ovls as [|j [|j2 ovls]]; [contradiction|rewrite (K j (or_introl eq_refl)); reflexivity|]. inversion Nd as [|? ? N]; subst. destruct N. left. rewrite (K j (or_introl eq_refl)), (K j2 (or_intror (or_introl eq_refl))). reflexivity.
  - intros (r & E). injection E as -> ->. destruct H as (_ & H1 & H2). destruct (proj1 (H1 i) (or_introl eq_refl)) as (f & Hf & V). exists f, r. split; [exact Hf|]. split; [exact V|]. intros j g q N Hg Vg. specialize (H2 _ _ _ Hg Vg). assert (q <> r); [|lia]. intros ->. assert (I : In j [i]) by (apply H1; exists g; auto). destruct I as [->|[]]. contradiction.
Qed.

(* The arguments that are passed. *)
Lemma all_match_accepts u args : forall ps r, all_match args ps r -> length args <= length ps -> exists args', reverse u args ps = Some args' /\ (r < 2 -> args' = args) /\ Forall2 (fun p a => accepts p (type a)) (firstn (length args) ps) args' /\ Forall2 (fun a a' => a' = a \/ (type a <> None /\ a' = mkvalue None (u a))) args args'.
Proof.
  induction args as [|a args IH]; intros ps r H L; cbn [length firstn] in *; [exists []; repeat split; constructor|]. destruct ps as [|p ps]; [cbn in L; lia|]. inversion H as [| |? ? ? ? k q M H']; subst. destruct (IH ps q H') as (args' & E & Sm & F & G); [cbn in L; lia|]. cbn [reverse]. rewrite E. eexists. split; [reflexivity|]. split; [|split].
  - intros R. rewrite Sm by lia. f_equal. inversion M; subst; try reflexivity; try lia.
  - cbn [firstn]. constructor; [|exact F]. inversion M as [a0 E1 E2|E1 E2|t E1 E2|t v B E1 E2|t E1 E2]; subst; cbn; rewrite <- ?E1; try constructor; assumption.
  - constructor; [|exact G]. destruct p; auto. destruct (type a) eqn:T; auto. right. split; [discriminate|reflexivity].
Qed.

(* The lookup of a family. *)
Lemma starts_correct x : forall y, starts x y = true <-> prefix x y.
Proof.
  induction x as [|c x IH]; intros y; cbn [starts]; [split; [intros _; apply prefix_nil|reflexivity]|]. destruct y as [|d y]; [split; [discriminate|intros (z & E); discriminate E]|]. rewrite andb_true_iff, ceqb_eq, IH. split; [intros [-> H]; apply prefix_cons, H|]. intros (z & E). injection E as -> ->. split; [reflexivity|exists z; reflexivity].
Qed.
Lemma less_longer x : forall c z, less x (x ++ c :: z) = true.
Proof. induction x as [|d x IH]; intros c z; cbn; [reflexivity|]. rewrite (proj2 (ceqb_eq d d) eq_refl), IH. apply orb_true_r. Qed.
Lemma less_between x : forall y z, less x y = true -> (y = x ++ z \/ less y (x ++ z) = true) -> prefix x y.
Proof.
  induction x as [|c x IH]; intros y z H1 H2; [apply prefix_nil|]. destruct H2 as [->|H2]; [exists z; reflexivity|]. destruct y as [|d y]; [discriminate H1|]. cbn [less app] in H1, H2. apply orb_true_iff in H1. apply orb_true_iff in H2. rewrite andb_true_iff, ceqb_eq, Nat.ltb_lt in H1. rewrite andb_true_iff, ceqb_eq, Nat.ltb_lt in H2.
  destruct H1 as [H1|(<- & H1)]; destruct H2 as [H2|(E & H2)]; subst; try lia. apply prefix_cons. exact (IH y z H1 (or_intror H2)).
Qed.
Definition less_rel (x y : bytes) : Prop := less x y = true.
Lemma defined_family_correct keys name : StronglySorted less_rel keys -> (defined_family keys name = true <-> exists k, In k keys /\ prefix name k /\ k <> name).
Proof.
  intros Hs. unfold defined_family. split.
  - destruct (List.find _ keys) as [k|] eqn:F; [|discriminate]. intros Hk. apply starts_correct in Hk. apply List.find_some in F. destruct F as (I & L). exists k. split; [exact I|]. split; [exact Hk|]. intros ->. clear - L. induction name as [|c n IH]; [discriminate L|]. cbn [less] in L. rewrite Nat.ltb_irrefl in L. cbn [orb] in L. apply andb_true_iff in L. apply IH, L.
  - intros (k & I & (z & ->) & N). induction Hs as [|k0 ks Hs IH Hf]; [destruct I|]. cbn [List.find]. destruct z as [|c z]; [rewrite app_nil_r in N; contradiction|]. destruct (less name k0) eqn:L.
    + apply starts_correct. apply (less_between name k0 (c :: z) L). destruct I as [I|I]; [left; exact I|right]. rewrite Forall_forall in Hf. exact (Hf _ I).
    + destruct I as [->|I]; [rewrite less_longer in L; discriminate L|]. apply IH, I.
Qed.
