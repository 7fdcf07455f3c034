From Verif Require Import Base SearchModel SearchSpec SearchProofs.

Section Static.
Context (P : project) (kind : nat -> tkind) (default_ext : nat -> scope -> bytes -> option bytes).
Context (file_exists : path -> bytes -> bytes -> bool) (src_only : path -> bool).
Context (ext_of : nat -> path -> bytes -> bytes) (T0 : list entry).
Notation refers := (refers P).
Notation source := (source P).
Notation in_source := (in_source P).
Notation ext_for := (ext_for ext_of).
Notation ext_ok := (ext_ok ext_of).
Notation has_file := (has_file file_exists ext_of).
Notation declared := (declared T0).
Notation resolves := (resolves P kind file_exists src_only ext_of T0).
Context (OK : project_ok P src_only ext_of T0).

Definition decb (b : base) : bool := existsb (fun t => base_eqb (e_base t) b) T0.
Definition expb (b : base) : bool := existsb (fun t => base_eqb (e_base t) b && e_explicit t) T0.
Definition fileb (b : base) : bool := file_exists (b_dir b) (b_name b) (ext_for b).
Lemma decb_spec b : decb b = true <-> declared b.
Proof.
  unfold decb. rewrite existsb_exists. split; intros (t & I & E); exists t; (split; [exact I|]); apply base_eqb_eq; exact E.
Qed.
Lemma decb_false b : decb b = false <-> ~ declared b.
Proof. rewrite <- decb_spec, not_true_iff_false. tauto. Qed.
Lemma expb_spec b : expb b = true <-> declared_explicitly T0 b.
Proof.
  unfold expb. rewrite existsb_exists. split.
  - intros (t & I & E). apply andb_true_iff in E. destruct E as [E X]. apply base_eqb_eq in E. exists t. auto.
  - intros (t & I & E & X). exists t. split; [exact I|]. apply andb_true_iff. split; [apply base_eqb_eq; exact E | exact X].
Qed.
Definition result_of (k : prereq) (g : base) (s : option base) (u : bool) : option base :=
  let new := if can_create src_only k then Some g else None in
  match kind (k_type k) with
  | KAlias => if expb g then Some g else None
  | KTarget => if decb g then Some g else new
  | KFile => if decb g then Some g else match s with Some b => if (u && decb b) || fileb b then Some b else new | None => new end
  end.
Lemma result_resolves k g s u : refers k g s u -> resolves k (result_of k g s u).
Proof.
  intros R. pose proof (refers_create P src_only k g s u R) as C. unfold result_of. destruct (kind (k_type k)) eqn:K.
  - destruct (decb g) eqn:D; [apply decb_spec in D; eapply res_written; eauto; congruence|]. apply decb_false in D.
    destruct s as [b|].
    + destruct ((u && decb b) || fileb b) eqn:F.
      * apply orb_true_iff in F. rewrite andb_true_iff, decb_spec in F. eapply res_source; eauto.
      * apply orb_false_iff in F. destruct F as [F1 F2]. assert (N : kind (k_type k) = KFile -> forall b', Some b = Some b' -> (u = true -> ~ declared b') /\ ~ has_file b').
        { intros _ b' [= <-]. split; [intros ->; apply decb_false; exact F1 | unfold SearchSpec.has_file; fold (fileb b); rewrite F2; discriminate]. }
        destruct (can_create src_only k); [eapply res_new | eapply res_error]; eauto; try congruence; [apply C; reflexivity | rewrite <- C; discriminate].
    + destruct (can_create src_only k); [eapply res_new | eapply res_error]; eauto; try congruence; [apply C; reflexivity | rewrite <- C; discriminate].
  - destruct (decb g) eqn:D; [apply decb_spec in D; eapply res_written; eauto; congruence|]. apply decb_false in D.
    destruct (can_create src_only k); [eapply res_new | eapply res_error]; eauto; try congruence; [apply C; reflexivity | rewrite <- C; discriminate].
  - destruct (expb g) eqn:D; [eapply res_alias | eapply res_no_alias]; eauto; rewrite <- expb_spec; congruence.
Qed.
Lemma resolves_result k g s u r : refers k g s u -> resolves k r -> r = result_of k g s u.
Proof.
  intros R R'. pose proof (refers_create P src_only k g s u R) as C. unfold result_of.
  destruct R' as [g' s' u' R' K D|g' b u' R' K D F|g' s' u' R' K D F A|g' s' u' R' K D F A|g' s' u' R' K D|g' s' u' R' K D]; destruct (refers_fun P _ _ _ _ _ _ _ R R') as (<- & EQ & <-); try subst s'.
  - apply decb_spec in D. rewrite D. destruct (kind (k_type k)); congruence.
  - apply decb_false in D. rewrite D, K, EQ. rewrite <- decb_spec in F. replace ((u && decb b) || fileb b) with true; [reflexivity|]. symmetry. apply orb_true_iff. rewrite andb_true_iff. exact F.
  - apply decb_false in D. rewrite D. apply C in A. rewrite A. destruct (kind (k_type k)) eqn:KK; [|reflexivity | congruence]. destruct s as [b|]; [|reflexivity].
    destruct (F eq_refl b eq_refl) as [F1 F2]. replace ((u && decb b) || fileb b) with false; [reflexivity|]. symmetry. apply orb_false_iff. split; [destruct u; [apply decb_false, F1; reflexivity | reflexivity] | apply not_true_iff_false; exact F2].
  - apply decb_false in D. rewrite D. rewrite <- C in A. apply not_true_iff_false in A. rewrite A. destruct (kind (k_type k)) eqn:KK; [|reflexivity | congruence]. destruct s as [b|]; [|reflexivity].
    destruct (F eq_refl b eq_refl) as [F1 F2]. replace ((u && decb b) || fileb b) with false; [reflexivity|]. symmetry. apply orb_false_iff. split; [destruct u; [apply decb_false, F1; reflexivity | reflexivity] | apply not_true_iff_false; exact F2].
  - apply expb_spec in D. rewrite K, D. reflexivity.
  - rewrite K. rewrite <- expb_spec in D. apply not_true_iff_false in D. rewrite D. reflexivity.
Qed.

(* What others insert is not found instead of what a prerequisite should be resolved to. *)
Definition regular' (k : prereq) (g : base) : Prop :=
  ext_ok g (k_ext k) /\
  (kind (k_type k) = KFile -> k_ext k = None -> default_ext (k_type k) (k_scope k) (k_name k) = Some (ext_for g)) /\
  (kind (k_type k) = KFile -> ~ in_source -> forall pos, k_dir k = Abs (out_root P ++ pos) ->
     declared g \/ forall b, source (k_type k) pos (k_name k) b -> ~ declared b /\ ~ has_file b).
Lemma new_result k g s u b : refers k g s u -> decb b = false -> result_of k g s u = Some b ->
  (kind (k_type k) = KFile /\ s = Some b /\ fileb b = true) \/
  (b = g /\ can_create src_only k = true /\ kind (k_type k) <> KAlias /\ (kind (k_type k) = KFile -> forall c, s = Some c -> (u = true -> decb c = false) /\ fileb c = false)).
Proof.
  intros R D. unfold result_of. destruct (kind (k_type k)) eqn:K.
  - destruct (decb g) eqn:DG; [intros [= <-]; congruence|]. destruct s as [c|].
    + destruct (u && decb c) eqn:E1; cbn [orb]; [intros [= <-]; apply andb_true_iff in E1; destruct E1; congruence|]. destruct (fileb c) eqn:E2; [intros [= <-]; left; auto|].
      destruct (can_create src_only k) eqn:C; [|discriminate]. intros [= <-]. right. repeat split; auto; try discriminate; injection H0 as <-; [intros ->; exact E1 | exact E2].
    + destruct (can_create src_only k) eqn:C; [|discriminate]. intros [= <-]. right. repeat split; auto; discriminate.
  - destruct (decb g) eqn:DG; [intros [= <-]; congruence|]. destruct (can_create src_only k) eqn:C; [|discriminate]. intros [= <-]. right. repeat split; auto; discriminate.
  - destruct (expb g) eqn:DG; [|discriminate]. intros [= <-]. exfalso. apply expb_spec in DG. destruct DG as (t & I & E & _). apply decb_false in D. apply D. exists t. auto.
Qed.
Lemma type_of k g s u : refers k g s u -> b_type g = k_type k /\ b_name g = k_name k /\ forall b, s = Some b -> b_type b = k_type k /\ b_name b = k_name k.
Proof.
  intros R. destruct R as [ty up l n x s pos b RR S|ty pos n x s b PS S|ty d n x s PS N|ty up l up' l' n x s pos pos' RR RO N]; cbn; (split; [reflexivity|]; split; [reflexivity|]); intros b' [= <-]; try (destruct (source_ext P _ _ _ _ S) as (? & ? & ?); split; assumption). cbn. auto.
Qed.
Lemma source_out ty pos n b : source ty pos n b -> b_out b = None -> in_source /\ b = mkb ty (src_root P ++ pos) None n.
Proof. intros [[I E]|[I ->]] O; [auto | discriminate O]. Qed.
(* The source of what is in the src tree and has no out is itself. *)
Lemma create_other k g s u k' g' s' u' : refers k g s u -> refers k' g' s' u' -> g = g' -> can_create src_only k' = true -> can_create src_only k = true.
Proof.
  intros R R' E C'. unfold can_create in *.
  destruct R as [ty up l n x s pos b RR S|ty pos n x s b PS S|ty d n x s PS N|ty up l up' l' n x s pos pos' RR RO N]; cbn in *; [reflexivity | | |].
  - destruct R' as [ty' up' l' n' x' s' pos' b' RR' S'|ty' pos' n' x' s' b' PS' S'|ty' d' n' x' s' PS' N'|ty' up1 l1 up2 l2 n' x' s' pos1 pos2 RR' RO' N']; cbn in *; try discriminate C'; injection E as E1 E2 E3; rewrite E2; [|exact C' | exact C'].
    apply negb_true_iff. apply (ok_out _ _ _ _ OK).
  - destruct R' as [ty' up' l' n' x' s' pos' b' RR' S'|ty' pos' n' x' s' b' PS' S'|ty' d' n' x' s' PS' N'|ty' up1 l1 up2 l2 n' x' s' pos1 pos2 RR' RO' N']; cbn in *; try discriminate C'; injection E as E1 E2 E3; rewrite E2; [|exact C' | exact C'].
    apply negb_true_iff. apply (ok_out _ _ _ _ OK).
  - destruct R'; cbn in *; discriminate.
Qed.
Lemma same_written k g s u k' g' s' u' b : refers k g s u -> refers k' g' s' u' -> regular' k' g' -> decb b = false ->
  result_of k' g' s' u' = Some b -> b = g -> result_of k g s u = Some b.
Proof.
  intros R R' (_ & _ & RG) D E EG. destruct (new_result _ _ _ _ _ R' D E) as [(K & ES & F)|(E' & C & K & N)].
  - (* A file. *)
    assert (KK : kind (k_type k) = KFile) by (destruct (type_of _ _ _ _ R) as (<- & _), (type_of _ _ _ _ R') as (_ & _ & T); destruct (T _ ES) as [T1 _]; rewrite <- EG, T1; exact K).
    unfold result_of. rewrite KK, <- EG, D.
    assert (SB : s = Some b \/ s = None /\ (forall pos, b_dir b <> src_root P ++ pos) \/ ~ in_source /\ b_out b = None).
    { rewrite EG. destruct R as [ty up l n x s pos c RR S|ty pos n x s c PS S|ty d n x s PS NN|ty up l up' l' n x s pos pos' RR RO NN]; cbn; auto.
      - destruct S as [[I ->]|[I ->]]; [left; rewrite I; reflexivity | right; right; auto].
      - destruct S as [[I ->]|[I ->]]; [left; reflexivity | right; right; auto]. }
    assert (DS : (exists pos, b_dir b = src_root P ++ pos) /\ (b_out b = None -> in_source)).
    { rewrite ES in R'. clear - R'. remember (Some b) as sb eqn:EB.
      destruct R' as [ty up l n x s pos c RR S|ty pos n x s c PS S|ty d n x s PS NN|ty up l up' l' n x s pos pos' RR RO NN]; try discriminate EB; injection EB as EB.
      - rewrite EB in S. split; [exists pos; apply (source_ext P _ _ _ _ S) | intros O; apply (source_out _ _ _ _ S O)].
      - rewrite EB in S. split; [exists pos; apply (source_ext P _ _ _ _ S) | intros O; apply (source_out _ _ _ _ S O)].
      - rewrite <- EB. split; [exists pos; reflexivity | discriminate]. }
    destruct DS as [(pos & DP) DO]. destruct SB as [-> |[(_ & NP)|(NI & O)]]; [rewrite F, orb_true_r; reflexivity | destruct (NP _ DP) | destruct (NI (DO O))].
  - (* New. *)
    assert (GG : g = g') by congruence. pose proof (create_other _ _ _ _ _ _ _ _ R R' GG C) as CC.
    assert (KT : k_type k = k_type k' /\ k_name k = k_name k') by (destruct (type_of _ _ _ _ R) as (<- & <- & _), (type_of _ _ _ _ R') as (<- & <- & _); rewrite GG; auto).
    unfold result_of. rewrite <- EG, D, CC. rewrite (proj1 KT). destruct (kind (k_type k')) eqn:KK; [|reflexivity | congruence]. destruct s as [c|]; [|reflexivity].
    assert (X : (u = true -> decb c = false) /\ fileb c = false \/ c = b); [|destruct X as [[X1 X2]| ->]].
    { specialize (N eq_refl). specialize (RG eq_refl). rewrite <- (proj1 KT), <- (proj2 KT) in RG. clear CC. revert RG N C GG. remember (Some c) as sc eqn:EC.
      destruct R as [ty up l n x s pos c0 RR S|ty pos n x s c0 PS S|ty d n x s PS NN|ty up l up' l' n x s pos pos' RR RO NN]; try discriminate EC; injection EC as EC; rewrite EC in *.
      - (* relative *) destruct R' as [ty1 up1 l1 n1 x1 s1 pos1 c1 RR1 S1|ty1 pos1 n1 x1 s1 c1 PS1 S1|ty1 d1 n1 x1 s1 PS1 NN1|ty1 up1 l1 up1' l1' n1 x1 s1 pos1 pos1' RR1 RO1 NN1]; intros RG N C GG; cbn in RG, C; injection GG as G1 G2 G3; try discriminate.
        + apply app_inv_head in G2. rewrite <- G1, <- G2, <- G3 in S1. left. apply N. f_equal. eapply source_fun; eassumption.
        + destruct S as [[I ->]|[I ->]]; [right; rewrite EG, I; reflexivity|]. destruct (ok_trees _ _ _ _ OK I _ _ G2).
        + destruct S as [[I ->]|[I S]]; [destruct (NN1 pos); rewrite <- G2, I; reflexivity|]. destruct (RG I pos) as [DD|DD]; [rewrite G2; reflexivity | apply decb_spec in DD; congruence|].
          destruct (DD c) as [D1 D2]; [right; auto|]. left. split; [intros _; apply decb_false; exact D1 | apply not_true_iff_false; exact D2].
      - (* absolute *) destruct R' as [ty1 up1 l1 n1 x1 s1 pos1 c1 RR1 S1|ty1 pos1 n1 x1 s1 c1 PS1 S1|ty1 d1 n1 x1 s1 PS1 NN1|ty1 up1 l1 up1' l1' n1 x1 s1 pos1 pos1' RR1 RO1 NN1]; intros RG N C GG; cbn in RG, C; injection GG as G1 G2 G3; try discriminate.
        + destruct S as [[I ->]|[I S]]; [right; rewrite EG; reflexivity|]. symmetry in G2. destruct (ok_trees _ _ _ _ OK I _ _ G2).
        + apply app_inv_head in G2. rewrite <- G1, <- G2, <- G3 in S1. left. split; [discriminate|]. apply N. f_equal. eapply source_fun; eassumption.
        + destruct (NN1 pos). symmetry. exact G2.
      - (* out *) intros RG N C GG. right. symmetry. exact EG. }
    + rewrite X2, orb_false_r. destruct u; cbn; [rewrite X1 by reflexivity; reflexivity | reflexivity].
    + destruct (_ || _); reflexivity.
Qed.
Lemma same_source k g u k' g' s' u' b : refers k g (Some b) u -> refers k' g' s' u' -> u = true -> kind (k_type k) = KFile -> decb b = false -> decb g = false ->
  result_of k' g' s' u' = Some b -> result_of k g (Some b) u = Some b.
Proof.
  intros R R' U K D DG E. unfold result_of. rewrite K, DG, D, andb_false_r. cbn. destruct (fileb b) eqn:F; [reflexivity|].
  destruct (new_result _ _ _ _ _ R' D E) as [(_ & _ & F')|(E' & C & _ & N)]; [congruence|].
  remember (Some b) as sb eqn:EB. destruct R as [ty up l n x s pos c RR S|ty pos n x s c PS S|ty d n x s PS NN|ty up l up' l' n x s pos pos' RR RO NN]; try discriminate U.
  cbn. injection EB as ->. f_equal. assert (O : b_out b = None) by (rewrite E'; clear - R' C; destruct R'; cbn in *; try reflexivity; discriminate C).
  destruct (source_out _ _ _ _ S O) as [I ->]. rewrite I. reflexivity.
Qed.
End Static.
