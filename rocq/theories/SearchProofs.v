From Verif Require Import Base SearchModel SearchSpec.

Lemma path_eqb_eq x : forall y, path_eqb x y = true <-> x = y.
Proof.
  induction x as [|a x IH]; intros [|c y]; cbn; split; try discriminate; auto.
  - intros E. apply andb_true_iff in E. destruct E as [E1 E2]. apply beqb_eq in E1. apply IH in E2. congruence.
  - intros [= -> ->]. apply andb_true_iff. split; [apply beqb_eq; reflexivity | apply IH; reflexivity].
Qed.
Lemma base_eqb_eq x y : base_eqb x y = true <-> x = y.
Proof.
  destruct x as [t d o n], y as [t' d' o' n']. unfold base_eqb; cbn. rewrite !andb_true_iff, Nat.eqb_eq, path_eqb_eq, beqb_eq.
  assert (O : opath_eqb o o' = true <-> o = o') by (destruct o, o'; cbn; try rewrite path_eqb_eq; split; try discriminate; congruence).
  rewrite O. split; [intros (((-> & ->) & ->) & ->); reflexivity | intros [= -> -> -> ->]; auto].
Qed.
Lemma sub_app p x : sub (p ++ x) p = true.
Proof. unfold sub. apply path_eqb_eq. rewrite firstn_app, Nat.sub_diag, firstn_all, app_nil_r. reflexivity. Qed.
Lemma sub_inv d p : sub d p = true -> exists x, d = p ++ x.
Proof. unfold sub. intros E. apply path_eqb_eq in E. exists (skipn (length p) d). rewrite <- E at 1. symmetry. apply firstn_skipn. Qed.
Lemma join_rel r x y l up : length y = up -> join (r ++ x ++ y) up l = r ++ x ++ l.
Proof.
  intros L. unfold join. rewrite app_assoc, firstn_app, !app_length, firstn_all2 by (rewrite app_length; lia).
  replace (length r + length x + length y - up - (length r + length x)) with 0 by lia. cbn. rewrite app_nil_r, app_assoc. reflexivity.
Qed.

Section Proofs.
Context (P : project) (kind : nat -> tkind) (default_ext : nat -> scope -> bytes -> option bytes).
Context (file_exists : path -> bytes -> bytes -> bool) (src_only : path -> bool).
Context (ext_of : nat -> path -> bytes -> bytes) (T0 : list entry).
Notation refers := (refers P).
Notation source := (source P).
Notation in_source := (in_source P).
Notation ext_for := (ext_for ext_of).
Notation ext_ok := (ext_ok ext_of).
Notation has_file := (has_file file_exists ext_of).
Notation declared := (declared T0).
Notation regular := (regular P kind default_ext file_exists ext_of T0).
Notation resolves := (resolves P kind file_exists src_only ext_of T0).
Notation on_disk := (on_disk default_ext file_exists).
Notation step := (step kind default_ext file_exists src_only).
Context (OK : project_ok P src_only ext_of T0).

Lemma in_source_dec : {in_source} + {~ in_source}.
Proof. unfold SearchSpec.in_source. apply (list_eq_dec (list_eq_dec Ascii.ascii_dec)). Qed.
Lemma out_eq_src_spec s : s_proj s = P -> out_eq_src s = true <-> in_source.
Proof.
  intros E. unfold out_eq_src, out_path, src_path. rewrite E, path_eqb_eq. split; [apply app_inv_tail | intros I; rewrite I; reflexivity].
Qed.
Lemma source_fun ty pos n b b' : source ty pos n b -> source ty pos n b' -> b = b'.
Proof. intros [[I ->]|[I ->]] [[I' ->]|[I' ->]]; try reflexivity; contradiction. Qed.
Lemma source_ext ty pos n b : source ty pos n b -> b_type b = ty /\ b_dir b = src_root P ++ pos /\ b_name b = n.
Proof. intros [[I ->]|[I ->]]; cbn; auto. Qed.

Lemma join_out s up l pos : relative_to P s up l pos -> join (out_path s) up l = out_root P ++ pos.
Proof. intros (PS & a & c & R & L & ->). unfold out_path. rewrite R, PS. apply join_rel. exact L. Qed.
Lemma join_src s up l pos : relative_to P s up l pos -> join (src_path s) up l = src_root P ++ pos.
Proof. intros (PS & a & c & R & L & ->). unfold src_path. rewrite R, PS. apply join_rel. exact L. Qed.

(* What the model computes for a prerequisite. *)
Lemma refers_given k g s u : refers k g s u -> given k = g /\ b_type g = k_type k /\ b_name g = k_name k.
Proof.
  intros R. destruct R as [ty up l n x s pos b RR S|ty pos n x s b PS S|ty d n x s PS N|ty up l up' l' n x s pos pos' RR RO N]; unfold given, given_dir, given_out; cbn -[join]; auto.
  - rewrite (join_out _ _ _ _ RR). auto.
  - rewrite (join_src _ _ _ _ RR), (join_out _ _ _ _ RO).
    destruct (path_eqb _ _) eqn:E; [apply path_eqb_eq in E; symmetry in E; contradiction | auto].
Qed.
Lemma refers_try k g s u : refers k g s u -> try_src k = true <-> u = true /\ ~ in_source.
Proof.
  intros R. destruct R as [ty up l n x s pos b RR S|ty pos n x s b PS S|ty d n x s PS N|ty up l up' l' n x s pos pos' RR RO N]; unfold try_src; cbn; try (split; [discriminate | intros [? _]; discriminate]).
  rewrite negb_true_iff, <- not_true_iff_false, (out_eq_src_spec s (proj1 RR)). split; [intros NI; auto | intros [_ NI]; exact NI].
Qed.
Lemma refers_src k g b : refers k g (Some b) true -> ~ in_source -> in_src k = b.
Proof.
  intros R NI. inversion R as [ty up l n x s pos b' RR S| | |]; subst. unfold in_src, file_dir, given_dir; cbn -[join]. rewrite (join_out _ _ _ _ RR), (join_src _ _ _ _ RR).
  destruct S as [[I _]|[_ ->]]; [contradiction | reflexivity].
Qed.
Lemma ext_same k g b u : refers k g (Some b) u -> ext_for b = ext_for g.
Proof.
  intros R. unfold SearchSpec.ext_for. inversion R as [ty up l n x s pos b' _ S|ty pos n x s b' PS S| |]; subst; cbn; try reflexivity; destruct (source_ext _ _ _ _ S) as (-> & -> & ->); [|reflexivity].
  symmetry. apply (ok_ext _ _ _ _ OK).
Qed.
Lemma refers_disk k g s u : refers k g s u -> kind (k_type k) = KFile -> ext_ok g (k_ext k) ->
  (kind (k_type k) = KFile -> k_ext k = None -> default_ext (k_type k) (k_scope k) (k_name k) = Some (ext_for g)) ->
  (exists b, s = Some b /\ has_file b /\ on_disk k = Some (b, ext_for b)) \/ ((forall b, s = Some b -> ~ has_file b) /\ on_disk k = None).
Proof.
  intros R K X D. specialize (D K).
  assert (E : match k_ext k with Some e => Some e | None => default_ext (k_type k) (k_scope k) (k_name k) end = Some (ext_for g)) by (destruct X as [X|X]; rewrite X; auto).
  unfold SearchModel.on_disk. rewrite E. clear E X D K.
  destruct R as [ty up l n x s pos b RR S|ty pos n x s b PS S|ty d n x s PS N|ty up l up' l' n x s pos pos' RR RO N]; unfold file_dir; cbn -[SearchSpec.ext_for join].
  - pose proof (proj1 RR) as PS. rewrite !(join_src _ _ _ _ RR), PS, sub_app. destruct (source_ext _ _ _ _ S) as (T & DD & NN). 
    assert (F : ext_for b = ext_for (mkb ty (out_root P ++ pos) None n)) by (unfold SearchSpec.ext_for; rewrite T, DD, NN; cbn; symmetry; apply (ok_ext _ _ _ _ OK)).
    destruct (file_exists _ _ _) eqn:FE.
    + left. exists b. split; [reflexivity|]. split; [unfold SearchSpec.has_file; rewrite DD, NN, F; exact FE|]. rewrite F. f_equal. f_equal.
      destruct (out_eq_src s) eqn:OE.
      * apply (out_eq_src_spec s PS) in OE. destruct S as [[_ ->]|[NI _]]; [reflexivity | contradiction].
      * assert (NI : ~ in_source) by (rewrite <- (out_eq_src_spec s PS), OE; discriminate). destruct S as [[I _]|[_ ->]]; [contradiction|]. unfold out_src. rewrite skipn_app, Nat.sub_diag, skipn_all. reflexivity.
    + right. split; [|reflexivity]. intros b' [= <-]. unfold SearchSpec.has_file. rewrite DD, NN, F, FE. discriminate.
  - unfold of_project in PS. rewrite PS, sub_app. destruct (source_ext _ _ _ _ S) as (T & DD & NN).
    assert (F : ext_for b = ext_for (mkb ty (src_root P ++ pos) None n)) by (unfold SearchSpec.ext_for; rewrite T, DD, NN; reflexivity).
    destruct (file_exists _ _ _) eqn:FE.
    + left. exists b. split; [reflexivity|]. split; [unfold SearchSpec.has_file; rewrite DD, NN, F; exact FE|]. rewrite F. f_equal. f_equal.
      destruct (out_eq_src s) eqn:OE.
      * apply (out_eq_src_spec s PS) in OE. destruct S as [[_ ->]|[NI _]]; [reflexivity | contradiction].
      * assert (NI : ~ in_source) by (rewrite <- (out_eq_src_spec s PS), OE; discriminate). destruct S as [[I _]|[_ ->]]; [contradiction|]. unfold out_src. rewrite skipn_app, Nat.sub_diag, skipn_all. reflexivity.
    + right. split; [|reflexivity]. intros b' [= <-]. unfold SearchSpec.has_file. rewrite DD, NN, F, FE. discriminate.
  - unfold of_project in PS. right. split; [intros b [=]|]. destruct (sub d (src_root (s_proj s))) eqn:SU; [|reflexivity]. apply sub_inv in SU. destruct SU as (y & SU). rewrite PS in SU. destruct (N y SU).
  - pose proof (proj1 RR) as PS. rewrite !(join_src _ _ _ _ RR), PS, sub_app. set (b := mkb ty (src_root P ++ pos) (Some (out_root P ++ pos')) n). destruct (file_exists _ _ _) eqn:FE.
    + left. exists b. split; [reflexivity|]. split; [exact FE|]. unfold given_out; cbn -[SearchSpec.ext_for join]. rewrite (join_out _ _ _ _ RO).
      destruct (path_eqb _ _) eqn:PE; [apply path_eqb_eq in PE; symmetry in PE; contradiction | reflexivity].
    + right. split; [|reflexivity]. intros b' [= <-]. unfold SearchSpec.has_file. subst b. cbn -[SearchSpec.ext_for]. rewrite FE. discriminate.
Qed.
Lemma refers_create k g s u : refers k g s u -> can_create src_only k = true <-> allowed src_only k.
Proof.
  intros R. unfold can_create, allowed. destruct R; cbn; split; try discriminate; auto.
  - intros _. split; [reflexivity | discriminate].
  - intros E. split; [reflexivity|]. intros d [= <-]. apply negb_true_iff. exact E.
  - intros [_ E]. apply negb_true_iff. apply E. reflexivity.
  - intros E. split; [reflexivity|]. intros d' [= <-]. apply negb_true_iff. exact E.
  - intros [_ E]. apply negb_true_iff. apply E. reflexivity.
  - intros [E _]. discriminate E.
Qed.
Lemma refers_fun k g s u g' s' u' : refers k g s u -> refers k g' s' u' -> g = g' /\ s = s' /\ u = u'.
Proof.
  intros R R'. destruct (refers_given _ _ _ _ R) as (G & _), (refers_given _ _ _ _ R') as (G' & _). split; [congruence|]. rewrite G in G'. clear G.
  inversion R as [ty up l n x s0 pos b RR S|ty pos n x s0 b PS S|ty d n x s0 PS N|ty up l up' l' n x s0 pos pos' _ _ N]; subst; inversion R'; subst; try (split; reflexivity); try discriminate G'.
  - match goal with H : out_root P ++ _ = out_root P ++ _ |- _ => apply app_inv_head in H; subst end. split; [|reflexivity]. f_equal. eapply source_fun; eassumption.
  - match goal with H : src_root P ++ _ = src_root P ++ _ |- _ => apply app_inv_head in H; subst end. split; [|reflexivity]. f_equal. eapply source_fun; eassumption.
  - exfalso. match goal with H : forall _, _ <> _ |- _ => apply (H pos); reflexivity end.
  - exfalso. match goal with H : forall _, _ <> _ |- _ => eapply H; reflexivity end.
Qed.
End Proofs.
