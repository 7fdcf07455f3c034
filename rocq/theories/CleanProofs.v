(* Proofs about clean: paths, recipes, operations. *)
From Verif Require Import Base CleanModel CleanSpec.

Lemma path_eqb_eq p q : path_eqb p q = true <-> p = q.
Proof. unfold path_eqb. destruct (list_eq_dec _ p q); split; congruence. Qed.
Lemma mem_In p l : mem p l = true <-> In p l.
Proof.
  unfold mem. rewrite existsb_exists. split; [intros (q & H & E); apply path_eqb_eq in E; subst; exact H | intros H; exists p; split; [exact H | apply path_eqb_eq; reflexivity]].
Qed.
Lemma under_prefix d : forall p, under d p = true <-> prefix d p.
Proof.
  induction d as [| x d IH]; intros p; cbn.
  - split; [intros _; apply prefix_nil | reflexivity].
  - destruct p as [| y p]; [split; [discriminate | intros (z & Z); discriminate] |]. rewrite andb_true_iff, IH, beqb_eq. split.
    + intros [-> H]. apply prefix_cons, H.
    + intros (z & Z). cbn in Z. injection Z as -> ->. split; [reflexivity | exists z; reflexivity].
Qed.
Lemma inside_child d p : inside d p = true <-> exists x, p = d ++ [x].
Proof.
  unfold inside. split.
  - destruct p as [| y p]; [discriminate |]. intros H. apply path_eqb_eq in H. exists (List.last (y :: p) y).
    assert (N : y :: p <> []) by discriminate. rewrite (app_removelast_last y N) at 1. rewrite H. reflexivity.
  - intros (x & ->). destruct (d ++ [x]) as [| y p] eqn:P; [destruct d; discriminate |]. rewrite <- P. apply path_eqb_eq, removelast_last.
Qed.
Lemma In_without p q l : In q (without p l) <-> In q l /\ q <> p.
Proof.
  unfold without. rewrite filter_In, negb_true_iff. split.
  - intros [H E]. split; [exact H |]. intros ->. assert (X : path_eqb p p = true) by (apply path_eqb_eq; reflexivity). congruence.
  - intros [H E]. split; [exact H |]. destruct (path_eqb p q) eqn:X; [apply path_eqb_eq in X; congruence | reflexivity].
Qed.
Lemma In_outside d q l : In q (filter (fun q => negb (under d q)) l) <-> In q l /\ ~ prefix d q.
Proof.
  rewrite filter_In, negb_true_iff. split; intros [H E]; (split; [exact H |]).
  - intros X. apply under_prefix in X. congruence.
  - destruct (under d q) eqn:X; [apply under_prefix in X; contradiction | reflexivity].
Qed.
Lemma not_under d p : under d p = false <-> ~ prefix d p.
Proof. rewrite <- under_prefix. destruct (under d p); split; congruence. Qed.
Lemma prefix_snoc_cases (e d : path) x : prefix e (d ++ [x]) -> e = d ++ [x] \/ prefix e d.
Proof.
  intros (z & Z). destruct z as [| y z] using rev_ind; [left; rewrite app_nil_r in Z; congruence |]. right. rewrite app_assoc in Z. apply app_inj_tail in Z as [-> _].
  exists z. reflexivity.
Qed.

Section Clean.
Context (base : bytes -> bytes) (denied : path -> bool) (work : path).
Notation recipe := (recipe base).
Notation extra_op := (extra_op base).
Notation derive := (derive base).
Notation OwnFile := (OwnFile base).
Notation OwnTree := (OwnTree base).
Notation perform := (perform denied work).

Lemma extra_file p es q : In (RmFile q) (map (extra_op p) es) <-> exists e, In e es /\ derive p e = (q, false).
Proof.
  rewrite in_map_iff. split; intros (e & A & B); exists e; unfold CleanModel.extra_op in *.
  - destruct (derive p e) as [q' []]; inversion A; subst; auto.
  - rewrite B. auto.
Qed.
Lemma extra_tree p es q : In (RmTree q) (map (extra_op p) es) <-> exists e, In e es /\ derive p e = (q, true).
Proof.
  rewrite in_map_iff. split; intros (e & A & B); exists e; unfold CleanModel.extra_op in *.
  - destruct (derive p e) as [q' []]; inversion A; subst; auto.
  - rewrite B. auto.
Qed.
Lemma extra_dir p es q : ~ In (RmDir q) (map (extra_op p) es).
Proof. rewrite in_map_iff. intros (e & A & B). unfold CleanModel.extra_op in A. destruct (derive p e) as [q' []]; inversion A. Qed.

Lemma recipe_file t q : In (RmFile q) (recipe t) <-> OwnFile t q.
Proof.
  split.
  - destruct t as [fp es ms c | gp es ms c | d |]; cbn [CleanModel.recipe]; intros H.
    + apply in_app_or in H as [H | H]; [destruct fp as [p |]; [| destruct H]; apply extra_file in H as (e & A & B); eapply O_extra; eassumption |].
      apply in_app_or in H as [H | H].
      * apply in_flat_map in H as (m & M & H). destruct (mpath m) as [p |] eqn:P; [| destruct H]. apply in_app_or in H as [H | H].
        -- apply extra_file in H as (e & A & B). eapply O_member_extra; eassumption.
        -- destruct c; [| destruct H]. destruct H as [H | []]. injection H as <-. eapply O_member; eassumption.
      * destruct fp as [p |]; [| destruct H]. destruct c; [| destruct H]. destruct H as [H | []]. injection H as <-. apply O_file.
    + apply in_app_or in H as [H | H]; [apply extra_file in H as (e & A & B); eapply O_group_extra; eassumption |].
      destruct c; [| destruct H]. apply in_map_iff in H as (p & A & B). injection A as ->. apply O_group. apply in_rev, B.
    + destruct H as [H | []]. discriminate.
    + destruct H.
  - intros H. destruct H as [p es ms | p es ms c e q I D | fp es ms m p I P | fp es ms c m p e q I P J D | gp es ms p I | gp es ms c e q I D]; cbn [CleanModel.recipe].
    + apply in_or_app. right. apply in_or_app. right. left. reflexivity.
    + apply in_or_app. left. apply extra_file. eauto.
    + apply in_or_app. right. apply in_or_app. left. apply in_flat_map. exists m. split; [exact I |]. rewrite P. apply in_or_app. right. left. reflexivity.
    + apply in_or_app. right. apply in_or_app. left. apply in_flat_map. exists m. split; [exact I |]. rewrite P. apply in_or_app. left. apply extra_file. eauto.
    + apply in_or_app. right. apply in_map. rewrite <- in_rev. exact I.
    + apply in_or_app. left. apply extra_file. eauto.
Qed.
Lemma recipe_tree t q : In (RmTree q) (recipe t) <-> OwnTree t q.
Proof.
  split.
  - destruct t as [fp es ms c | gp es ms c | d |]; cbn [CleanModel.recipe]; intros H.
    + apply in_app_or in H as [H | H]; [destruct fp as [p |]; [| destruct H]; apply extra_tree in H as (e & A & B); eapply T_extra; eassumption |].
      apply in_app_or in H as [H | H].
      * apply in_flat_map in H as (m & M & H). destruct (mpath m) as [p |] eqn:P; [| destruct H]. apply in_app_or in H as [H | H].
        -- apply extra_tree in H as (e & A & B). eapply T_member_extra; eassumption.
        -- destruct c; [| destruct H]. destruct H as [H | []]. discriminate.
      * destruct fp as [p |]; [| destruct H]. destruct c; [| destruct H]. destruct H as [H | []]. discriminate.
    + apply in_app_or in H as [H | H]; [apply extra_tree in H as (e & A & B); eapply T_group_extra; eassumption |].
      destruct c; [| destruct H]. apply in_map_iff in H as (p & A & B). discriminate.
    + destruct H as [H | []]. discriminate.
    + destruct H.
  - intros H. destruct H as [p es ms c e q I D | fp es ms c m p e q I P J D | gp es ms c e q I D]; cbn [CleanModel.recipe].
    + apply in_or_app. left. apply extra_tree. eauto.
    + apply in_or_app. right. apply in_or_app. left. apply in_flat_map. exists m. split; [exact I |]. rewrite P. apply in_or_app. left. apply extra_tree. eauto.
    + apply in_or_app. left. apply extra_tree. eauto.
Qed.
Lemma recipe_dir t d : In (RmDir d) (recipe t) <-> t = DirT d.
Proof.
  split; [| intros ->; left; reflexivity]. destruct t as [fp es ms c | gp es ms c | d' |]; cbn [CleanModel.recipe]; intros H.
  - exfalso. apply in_app_or in H as [H | H]; [destruct fp as [p |]; [apply extra_dir in H; exact H | destruct H] |].
    apply in_app_or in H as [H | H].
    + apply in_flat_map in H as (m & M & H). destruct (mpath m) as [p |] eqn:P; [| destruct H]. apply in_app_or in H as [H | H]; [apply extra_dir in H; exact H |].
      destruct c; [| destruct H]. destruct H as [H | []]. discriminate.
    + destruct fp as [p |]; [| destruct H]. destruct c; [| destruct H]. destruct H as [H | []]. discriminate.
  - exfalso. apply in_app_or in H as [H | H]; [apply extra_dir in H; exact H |]. destruct c; [| destruct H]. apply in_map_iff in H as (p & A & B). discriminate.
  - destruct H as [H | []]. congruence.
  - destruct H.
Qed.

(* What an operation removes. *)
Inductive Gone (s : fs) : op -> path -> Prop :=
| G_file p : Gone s (RmFile p) p
| G_tree d p : prefix d p -> ~ prefix d work -> Gone s (RmTree d) p
| G_dir d : ~ prefix d work -> (forall x, ~ Has s (d ++ [x])) -> Gone s (RmDir d) d.
Lemma no_children d s : existsb (inside d) (files s ++ dirs s) = false <-> forall x, ~ Has s (d ++ [x]).
Proof.
  split.
  - intros E x H. assert (X : existsb (inside d) (files s ++ dirs s) = true).
    { apply existsb_exists. exists (d ++ [x]). split; [apply in_or_app; destruct H; auto | apply inside_child; eauto]. }
    congruence.
  - intros H. destruct (existsb (inside d) (files s ++ dirs s)) eqn:E; [| reflexivity]. apply existsb_exists in E as (p & I & C). apply inside_child in C as (x & ->).
    apply in_app_or in I. exfalso. apply (H x). destruct I; [left | right]; assumption.
Qed.
Lemma perform_removes o s x : perform o s = Some x ->
  (forall p, In p (files x) -> In p (files s)) /\ (forall p, In p (dirs x) -> In p (dirs s)) /\
  (forall p, In p (files s) -> In p (files x) \/ (Gone s o p /\ forall d, o <> RmDir d)) /\ (forall p, In p (dirs s) -> In p (dirs x) \/ Gone s o p).
Proof.
  assert (E : forall p q : path, {p = q} + {p <> q}) by (apply list_eq_dec, list_eq_dec, ascii_dec).
  assert (U : forall d p : path, {prefix d p} + {~ prefix d p}).
  { intros d p. destruct (under d p) eqn:X; [left; apply under_prefix, X | right; apply not_under, X]. }
  destruct o as [p | d | d]; cbn.
  - destruct (denied p || mem p (dirs s)); [discriminate |]. intros H. injection H as <-. cbn. repeat split; auto.
    + intros q H. apply In_without in H. apply H.
    + intros q H. destruct (E q p) as [-> | N]; [right; split; [constructor | discriminate] | left; apply In_without; auto].
  - destruct (under d work) eqn:W; [intros H; injection H as <-; auto |]. destruct (denied d || mem d (files s)); [discriminate |]. intros H. injection H as <-. cbn.
    apply not_under in W. repeat split.
    + intros q H. apply In_outside in H. apply H.
    + intros q H. apply In_outside in H. apply H.
    + intros q H. destruct (U d q); [right; split; [constructor; assumption | discriminate] | left; apply In_outside; auto].
    + intros q H. destruct (U d q); [right; constructor; assumption | left; apply In_outside; auto].
  - destruct (under d work) eqn:W; [intros H; injection H as <-; auto |]. destruct (mem d (files s)); [discriminate |].
    destruct (mem d (dirs s) && negb (existsb (inside d) (files s ++ dirs s))) eqn:M; [| intros H; injection H as <-; auto].
    destruct (denied d); [discriminate |]. intros H. injection H as <-. cbn. apply andb_true_iff in M as [M C]. apply negb_true_iff in C.
    repeat split; auto.
    + intros q H. apply In_without in H. apply H.
    + intros q H. destruct (E q d) as [-> | N]; [right; constructor; [apply not_under, W | apply no_children, C] | left; apply In_without; auto].
Qed.
Lemma perform_done o s x : perform o s = Some x ->
  match o with
  | RmFile p => ~ Has x p
  | RmTree d => prefix d work \/ forall p, prefix d p -> ~ Has x p
  | RmDir d => prefix d work \/ ~ Has x d \/ exists y, Has s (d ++ [y])
  end.
Proof.
  destruct o as [p | d | d]; cbn.
  - destruct (denied p || mem p (dirs s)) eqn:M; [discriminate |]. apply orb_false_iff in M as [_ M]. intros H. injection H as <-. intros [H | H]; cbn in H.
    + apply In_without in H. tauto.
    + apply mem_In in H. congruence.
  - destruct (under d work) eqn:W; [intros _; left; apply under_prefix, W |]. destruct (denied d || mem d (files s)); [discriminate |]. intros H. injection H as <-.
    right. intros p P [H | H]; apply In_outside in H; tauto.
  - destruct (under d work) eqn:W; [intros _; left; apply under_prefix, W |]. destruct (mem d (files s)) eqn:F; [discriminate |].
    destruct (mem d (dirs s)) eqn:M; cbn.
    + destruct (existsb (inside d) (files s ++ dirs s)) eqn:C; cbn.
      * intros _. right. right. apply existsb_exists in C as (q & I & C). apply inside_child in C as (y & ->). exists y. apply in_app_or in I. exact I.
      * destruct (denied d); [discriminate |]. intros H. injection H as <-. right. left. intros [H | H]; cbn in H; [apply mem_In in H; congruence | apply In_without in H; tauto].
    + intros H. injection H as <-. right. left. intros [H | H]; apply mem_In in H; congruence.
Qed.
Lemma perform_fails o s : (forall p, denied p = false) -> perform o s = None ->
  match o with RmFile p => In p (dirs s) | RmTree d | RmDir d => In d (files s) end.
Proof.
  intros D. destruct o as [p | d | d]; cbn; rewrite D; cbn.
  - destruct (mem p (dirs s)) eqn:M; [intros _; apply mem_In, M | discriminate].
  - destruct (under d work); [discriminate |]. destruct (mem d (files s)) eqn:M; [intros _; apply mem_In, M | discriminate].
  - destruct (under d work); [discriminate |]. destruct (mem d (files s)) eqn:M; [intros _; apply mem_In, M |].
    destruct (mem d (dirs s) && negb (existsb (inside d) (files s ++ dirs s))); discriminate.
Qed.

Context (g : graph).
Lemma claimed_dec p : {Claimed base work g p} + {~ Claimed base work g p}.
Proof.
  destruct (existsb (fun n => existsb (fun o => match o with RmFile q => path_eqb q p | RmTree d => under d p && negb (under d work) | RmDir _ => false end) (recipe (what n))) g) eqn:E.
  - left. apply existsb_exists in E as (n & N & E). apply existsb_exists in E as (o & O & E). exists n. split; [exact N |]. destruct o as [q | d | d]; [left | right | discriminate].
    + apply path_eqb_eq in E. subst q. apply recipe_file, O.
    + apply andb_true_iff in E as [E F]. apply negb_true_iff in F. exists d. repeat split; [apply recipe_tree, O | apply under_prefix, E | apply not_under, F].
  - right. intros (n & N & C).
    match type of E with existsb ?f g = false => assert (X : existsb f g = true) end; [| congruence].
    apply existsb_exists. exists n. split; [exact N |]. apply existsb_exists. destruct C as [C | (d & C & P & W)].
    + exists (RmFile p). split; [apply recipe_file, C | apply path_eqb_eq; reflexivity].
    + exists (RmTree d). split; [apply recipe_tree, C |]. apply andb_true_iff. split; [apply under_prefix, P | apply negb_true_iff, not_under, W].
Qed.
Lemma directory_dec p : {Directory g p} + {~ Directory g p}.
Proof.
  destruct (existsb (fun n => match what n with DirT d => path_eqb d p | _ => false end) g) eqn:E.
  - left. apply existsb_exists in E as (n & N & E). exists n. split; [exact N |]. destruct (what n); try discriminate. apply path_eqb_eq in E. congruence.
  - right. intros (n & N & C). match type of E with existsb ?f g = false => assert (X : existsb f g = true) end; [| congruence].
    apply existsb_exists. exists n. split; [exact N |]. rewrite C. apply path_eqb_eq. reflexivity.
Qed.
Lemma kept_not_claimed s p : Kept base work g s p -> ~ Claimed base work g p.
Proof. intros []; assumption. Qed.
End Clean.
