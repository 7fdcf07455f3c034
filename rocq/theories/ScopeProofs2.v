From Coq Require Import Sorted.
From Verif Require Import Base ScopeModel ScopeSpec ScopeProofs.

Section Old.
Context (O R : dir -> Prop) (S : dir -> dir -> Prop) (m : scope_map) (I : Inv O R S m) (k : dir) (s : scope) (Ek : out m k = Some s).

Lemma emplace_inv : Inv O R S (emplace m k).
Proof.
  assert (Ok : O k) by (apply (i_out _ _ _ _ I); exists s; exact Ek). destruct I as [A B C D E F G H]. constructor; cbn; auto.
  - apply insert_key_sorted, A.
  - intros d. rewrite insert_key_in, B. split; [intros [-> | X]; auto|auto].
Qed.
Lemma root_iff : root s = Some k <-> R k.
Proof.
  pose proof (i_root _ _ _ _ I k s Ek) as H. unfold root_ok in H. split.
  - intros E. rewrite E in H. apply H.
  - intros Rk. destruct (root s) as [r|]; [|destruct (H k Rk (within_refl k))]. destruct H as (_ & W & M). f_equal. apply within_antisym; [exact W|]. apply M; [exact Rk|apply within_refl].
Qed.
Lemma upgrade_inv : ~ R k -> let m' := upgrade (emplace m k) k (root s) (find_sub (emplace m k) k) in
  Inv O (fun d => R d \/ d = k) S (set_out m' k (mkscope (parent s) (Some k))).
Proof.
  intros NR m'. pose proof emplace_inv as I1. assert (Ok : O k) by (apply (i_out _ _ _ _ I); exists s; exact Ek).
  assert (ND : NoDup (find_sub (emplace m k) k)) by (apply sorted_nodup, filter_sorted, (i_sorted _ _ _ _ I1)).
  destruct (upgrade_ok k (root s) (find_sub (emplace m k) k) (emplace m k) ND) as (K & Sr & H). fold m' in K, Sr, H. clearbody m'. set (m2 := set_out m' k _).
  assert (Q1 : out m2 k = Some (mkscope (parent s) (Some k))) by (unfold m2; cbn; rewrite dir_eqb_refl; reflexivity).
  assert (Q2 : forall d, above k d -> out m2 d = option_map (fun sc => mkscope (parent sc) (if opt_eqb (root sc) (root s) then Some k else root sc)) (out m d)).
  { intros d A. assert (N : d <> k) by (intros ->; apply above_iff in A; destruct A as [_ Y]; contradiction). unfold m2. cbn. rewrite (proj2 (dir_eqb_neq d k) N). rewrite H. cbn [emplace out]. destruct (in_dec dir_dec d _) as [Id|Id]; [reflexivity|]. destruct (out m d) as [s0|] eqn:Ed; [|reflexivity]. destruct Id. apply find_sub_in. split; [apply (i_keys _ _ _ _ I1); left; apply (i_out _ _ _ _ I); exists s0; exact Ed|exact A]. }
  assert (Q3 : forall d, d <> k -> ~ above k d -> out m2 d = out m d).
  { intros d N A. unfold m2. cbn. rewrite (proj2 (dir_eqb_neq d k) N). rewrite H. cbn [emplace out]. destruct (in_dec dir_dec d _) as [Id|Id]; [|reflexivity]. apply find_sub_in in Id. tauto. }
  assert (Dec : forall d, d = k \/ above k d \/ (d <> k /\ ~ above k d)).
  { intros d. destruct (dir_dec d k) as [E|N]; [left; exact E|right]. destruct (sub k d) eqn:Sb; [left; apply above_iff; split; [apply sub_within, Sb|congruence]|right; split; [exact N|]]. intros A. apply above_within, sub_within in A. congruence. }
  pose proof (i_root _ _ _ _ I k s Ek) as Rs. constructor.
  - unfold m2. cbn. rewrite K. exact (i_sorted _ _ _ _ I1).
  - intros d. unfold m2. cbn [set_out keys]. rewrite K. exact (i_keys _ _ _ _ I1 d).
  - exact (i_global _ _ _ _ I).
  - intros d. destruct (Dec d) as [-> | [A|[N A]]].
    + rewrite Q1. split; [eexists; reflexivity|auto].
    + rewrite (Q2 d A), (i_out _ _ _ _ I d). destruct (out m d) as [s0|]; cbn; split; intros (x & X); try discriminate X; eexists; reflexivity.
    + rewrite (Q3 d N A). apply (i_out _ _ _ _ I d).
  - intros d [X| ->]; [apply (i_roots _ _ _ _ I), X|exact Ok].
  - intros d s' E. destruct (Dec d) as [-> | [A|[N A]]].
    + rewrite Q1 in E. injection E as <-. exact (i_parent _ _ _ _ I k s Ek).
    + rewrite (Q2 d A) in E. destruct (out m d) as [s0|] eqn:Ed; [|discriminate E]. injection E as <-. exact (i_parent _ _ _ _ I d s0 Ed).
    + rewrite (Q3 d N A) in E. exact (i_parent _ _ _ _ I d s' E).
  - intros d s' E. destruct (Dec d) as [-> | [A|[N A]]].
    + rewrite Q1 in E. injection E as <-. cbn. split; [right; reflexivity|]. split; [apply within_refl|]. auto.
    + rewrite (Q2 d A) in E. destruct (out m d) as [s0|] eqn:Ed; [|discriminate E]. injection E as <-. cbn [root]. pose proof (i_root _ _ _ _ I d s0 Ed) as Hr. destruct (opt_eqb (root s0) (root s)) eqn:Eq.
      * apply opt_eqb_eq in Eq. cbn. split; [right; reflexivity|]. split; [exact (above_within _ _ A)|]. intros y [Ry| ->] Wy; [|apply within_refl]. rewrite Eq in Hr. unfold root_ok in *. destruct (root s) as [r|]; [|destruct (Hr y Ry Wy)]. exact (within_trans _ _ _ (proj2 (proj2 Hr) y Ry Wy) (proj1 (proj2 Rs))).
      * apply opt_eqb_neq in Eq. unfold root_ok in *. destruct (root s0) as [r|].
        -- destruct Hr as (R1 & R2 & R3). split; [left; exact R1|]. split; [exact R2|]. intros y [Ry| ->] Wy; [apply R3; assumption|]. destruct (comparable k r d (above_within _ _ A) R2) as [X|X]; [exact X|]. exfalso. destruct (root s) as [r2|]; [|exact (Rs r R1 X)]. apply Eq. f_equal. destruct Rs as (P1 & P2 & P3). apply within_antisym; [apply P3; assumption|]. apply R3; [exact P1|exact (within_trans _ _ _ P2 (above_within _ _ A))].
        -- exfalso. destruct (root s) as [r2|]; [|congruence]. destruct Rs as (P1 & P2 & _). exact (Hr r2 P1 (within_trans _ _ _ P2 (above_within _ _ A))).
    + rewrite (Q3 d N A) in E. pose proof (i_root _ _ _ _ I d s' E) as Hr. assert (NW : ~ within k d) by (intros W; apply A, above_iff; split; [exact W|congruence]). unfold root_ok in *. destruct (root s') as [r|].
      * destruct Hr as (R1 & R2 & R3). split; [left; exact R1|]. split; [exact R2|]. intros y [Ry| ->] Wy; [apply R3; assumption|contradiction].
      * intros y [Ry| ->] Wy; [exact (Hr y Ry Wy)|contradiction].
  - intros d s'. unfold m2. cbn. rewrite Sr. exact (i_src _ _ _ _ I d s').
Qed.
End Old.

Lemma insert_out_inv O R S m k rt : Inv O R S m -> exists m', insert_out m k rt = Some m' /\ Inv (fun d => O d \/ d = k) (fun d => R d \/ (d = k /\ rt = true)) S m'.
Proof.
  intros I. destruct (out m k) as [s|] eqn:Ek.
  - assert (Ok : O k) by (apply (i_out _ _ _ _ I); exists s; exact Ek). unfold insert_out. cbn [emplace out]. rewrite Ek. destruct rt; cbn [andb].
    + destruct (opt_eqb (root s) (Some k)) eqn:E; cbn [negb].
      * apply opt_eqb_eq, (root_iff _ _ _ _ I _ _ Ek) in E. eexists. split; [reflexivity|]. apply (Inv_ext O _ R _ S _); [|intros d|tauto|exact (emplace_inv _ _ _ _ I _ _ Ek)].
        -- intros d. split; [auto|intros [X| ->]; [exact X|exact Ok]].
        -- split; [auto|intros [X|[-> _]]; [exact X|exact E]].
      * apply opt_eqb_neq in E. eexists. split; [reflexivity|]. assert (NR : ~ R k) by (intros X; apply E, (root_iff _ _ _ _ I _ _ Ek), X). apply (Inv_ext O _ (fun d => R d \/ d = k) _ S _); [|tauto|tauto|exact (upgrade_inv _ _ _ _ I _ _ Ek NR)]. intros d. split; [auto|intros [X| ->]; [exact X|exact Ok]].
    + eexists. split; [reflexivity|]. apply (Inv_ext O _ R _ S _); [|intros d|tauto|exact (emplace_inv _ _ _ _ I _ _ Ek)].
      * intros d. split; [auto|intros [X| ->]; [exact X|exact Ok]].
      * split; [auto|intros [X|[_ X]]; [exact X|discriminate X]].
  - assert (Nk : ~ O k) by (intros X; apply (i_out _ _ _ _ I) in X; destruct X as (s & X); congruence). exact (insert_new _ _ _ _ I k rt Nk).
Qed.
Lemma insert_src_inv O R S m s k : Inv O R S m -> Inv O R (fun d x => S d x \/ (d = k /\ x = s)) (insert_src m s k).
Proof.
  intros [A B C D E F G H]. constructor; cbn; auto.
  - apply insert_key_sorted, A.
  - intros d. rewrite insert_key_in, B. split.
    + intros [-> | [X|(x & X)]]; [right; exists s; auto|left; exact X|right; exists x; auto].
    + intros [X|(x & [X|[-> _]])]; [auto|right; right; exists x; exact X|left; reflexivity].
  - intros d x. destruct (dir_eqb d k) eqn:Ed.
    + apply dir_eqb_eq in Ed. subst. rewrite in_app_iff, H. cbn. intuition.
    + apply dir_eqb_neq in Ed. rewrite H. intuition.
Qed.
Lemma run_inv os : forall O R S m, Inv O R S m -> exists m', run m os = Some m' /\
  Inv (fun d => O d \/ exists rt, In (Out d rt) os) (fun d => R d \/ In (Out d true) os) (fun d s => S d s \/ In (Src s d) os) m'.
Proof.
  induction os as [|o os IH]; intros O R S m I.
  - exists m. split; [reflexivity|]. revert I. apply Inv_ext; intros; cbn; [|tauto|tauto]. split; [auto|intros [X|(rt & [])]; exact X].
  - cbn [run]. destruct o as [k rt|s k]; cbn [apply_op].
    + destruct (insert_out_inv _ _ _ _ k rt I) as (m1 & E & I1). rewrite E. destruct (IH _ _ _ _ I1) as (m' & E' & I'). exists m'. split; [exact E'|]. revert I'. apply Inv_ext; intros.
      * cbn. split; [intros [[X| ->]|(r & X)]; [auto|right; exists rt; auto|right; exists r; auto]|intros [X|(r & [X|X])]; [auto|injection X as -> _; auto|right; exists r; exact X]].
      * cbn. split; [intros [[X|[-> ->]]|X]; auto|intros [X|[X|X]]; [auto|injection X as -> ->; auto|auto]].
      * cbn. split; [intros [X|X]; auto|intros [X|[X|X]]; [auto|discriminate X|auto]].
    + destruct (IH _ _ _ _ (insert_src_inv _ _ _ _ s k I)) as (m' & E' & I'). exists m'. split; [exact E'|]. revert I'. apply Inv_ext; intros.
      * cbn. split; [intros [X|(r & X)]; [auto|right; exists r; auto]|intros [X|(r & [X|X])]; [auto|discriminate X|right; exists r; exact X]].
      * cbn. split; [intros [X|X]; auto|intros [X|[X|X]]; [auto|discriminate X|auto]].
      * cbn. split; [intros [[X|[-> ->]]|X]; auto|intros [X|[X|X]]; [auto|injection X as -> ->; auto|auto]].
Qed.
Lemma global_inv : exists m, insert_out empty [] false = Some m /\ Inv (fun d => d = []) (fun _ => False) (fun _ _ => False) m.
Proof.
  eexists. split; [reflexivity|]. constructor; cbn.
  - repeat constructor.
  - intros d. split; [intros [X|[]]; auto|intros [X|(s & [])]; auto].
  - reflexivity.
  - intros d. destruct (dir_eqb d []) eqn:E; [apply dir_eqb_eq in E; split; [eexists; reflexivity|auto]|apply dir_eqb_neq in E; split; [contradiction|intros (s & X); discriminate X]].
  - contradiction.
  - intros d s. destruct (dir_eqb d []) eqn:E; [apply dir_eqb_eq in E|discriminate]. intros X. injection X as <-. exact E.
  - intros d s. destruct (dir_eqb d []); [|discriminate]. intros X. injection X as <-. cbn. auto.
  - tauto.
Qed.
Lemma made_inv os : exists m, made os m /\ Inv (is_scope os) (is_root os) (is_src os) m.
Proof.
  destruct global_inv as (m0 & E & I). destruct (run_inv os _ _ _ _ I) as (m & R & I'). exists m. split.
  - unfold made. cbn [run apply_op]. rewrite E. exact R.
  - revert I'. apply Inv_ext; unfold is_scope, is_root, is_src; tauto.
Qed.
Lemma made_is os m : made os m -> Inv (is_scope os) (is_root os) (is_src os) m.
Proof. intros M. destruct (made_inv os) as (m' & M' & I). unfold made in *. rewrite M in M'. injection M' as <-. exact I. Qed.

(* Projects. *)
Section Projects.
Context (O R : dir -> Prop) (S : dir -> dir -> Prop) (m : scope_map) (I : Inv O R S m) (NG : ~ R []) (amalgamatable : dir -> bool).
Lemma parent_root_ok r : R r -> exists x, parent_root m r = Some x /\ match x with Some r' => nearest R r r' | None => forall y, R y -> ~ above y r end.
Proof.
  intros Rr. unfold parent_root. destruct (proj1 (i_out _ _ _ _ I r) (i_roots _ _ _ _ I r Rr)) as (s & E). rewrite E. pose proof (i_parent _ _ _ _ I r s E) as Hp. destruct (parent s) as [p|]; [|cbn in Hp; subst r; contradiction]. destruct Hp as (Op & Ap & Mp).
  destruct (proj1 (i_out _ _ _ _ I p) Op) as (sp & Ep). rewrite Ep. cbn. eexists. split; [reflexivity|]. pose proof (i_root _ _ _ _ I p sp Ep) as Hr. unfold root_ok in Hr. destruct (root sp) as [q|].
  - destruct Hr as (H1 & H2 & H3). split; [exact H1|]. split; [exact (above_trans_r _ _ _ H2 Ap)|]. intros y Ry Ay. apply H3; [exact Ry|]. apply Mp; [apply (i_roots _ _ _ _ I), Ry|exact Ay].
  - intros y Ry Ay. apply (Hr y Ry). apply Mp; [apply (i_roots _ _ _ _ I), Ry|exact Ay].
Qed.
(* All projects from r up to but excluding w can be amalgamated. *)
Definition chain (w r : dir) : Prop := forall q, R q -> above w q -> within q r -> amalgamatable q = true.
Lemma weak_ok fuel : forall r, R r -> length r < fuel -> exists w, weak_loop m amalgamatable fuel r = Some w /\ R w /\ within w r /\ chain w r /\ (amalgamatable w = true -> forall y, R y -> ~ above y w).
Proof.
  induction fuel as [|fuel IH]; intros r Rr L; [lia|]. cbn [weak_loop]. destruct (amalgamatable r) eqn:A.
  - destruct (parent_root_ok r Rr) as (x & E & H). rewrite E. destruct x as [r'|].
    + destruct H as (R' & A' & M'). pose proof (above_length _ _ A'). destruct (IH r' R' ltac:(lia)) as (w & W1 & W2 & W3 & W4 & W5). exists w. split; [exact W1|]. split; [exact W2|]. split; [exact (within_trans _ _ _ W3 (above_within _ _ A'))|]. split; [|exact W5]. intros q Rq Aq Wq. destruct (dir_dec q r) as [-> | N]; [exact A|]. apply W4; [exact Rq|exact Aq|]. apply M'; [exact Rq|apply above_iff; auto].
    + exists r. split; [reflexivity|]. split; [exact Rr|]. split; [apply within_refl|]. split; [|intros _; exact H]. intros q Rq Aq Wq. pose proof (within_length _ _ Wq). pose proof (above_length _ _ Aq). lia.
  - exists r. split; [reflexivity|]. split; [exact Rr|]. split; [apply within_refl|]. split; [|congruence]. intros q Rq Aq Wq. pose proof (within_length _ _ Wq). pose proof (above_length _ _ Aq). lia.
Qed.
Lemma sub_root_ok fuel t : forall r, R r -> length r < fuel -> exists x, sub_root_loop m amalgamatable fuel t r = Some x /\ (x = true <-> R t /\ above t r /\ chain t r).
Proof.
  induction fuel as [|fuel IH]; intros r Rr L; [lia|]. cbn [sub_root_loop]. destruct (amalgamatable r) eqn:A.
  - destruct (parent_root_ok r Rr) as (x & E & H). rewrite E. destruct x as [r'|].
    + destruct H as (R' & A' & M'). destruct (dir_eqb r' t) eqn:Et.
      * apply dir_eqb_eq in Et. subst r'. exists true. split; [reflexivity|]. split; [|reflexivity]. intros _. split; [exact R'|]. split; [exact A'|]. intros q Rq Aq Wq. destruct (dir_dec q r) as [-> | N]; [exact A|]. exfalso. assert (X : within q t) by (apply M'; [exact Rq|apply above_iff; auto]). pose proof (within_length _ _ X). pose proof (above_length _ _ Aq). lia.
      * apply dir_eqb_neq in Et. pose proof (above_length _ _ A'). destruct (IH r' R' ltac:(lia)) as (x & E1 & E2). exists x. split; [exact E1|]. rewrite E2. split.
        -- intros (T1 & T2 & T3). split; [exact T1|]. split; [exact (above_trans_l _ _ _ T2 (above_within _ _ A'))|]. intros q Rq Aq Wq. destruct (dir_dec q r) as [-> | N]; [exact A|]. apply T3; [exact Rq|exact Aq|]. apply M'; [exact Rq|apply above_iff; auto].
        -- intros (T1 & T2 & T3). split; [exact T1|]. split; [apply above_iff; split; [apply M'; assumption|congruence]|]. intros q Rq Aq Wq. apply T3; [exact Rq|exact Aq|exact (within_trans _ _ _ Wq (above_within _ _ A'))].
    + exists false. split; [reflexivity|]. split; [discriminate|]. intros (T1 & T2 & _). destruct (H t T1 T2).
  - exists false. split; [reflexivity|]. split; [discriminate|]. intros (T1 & T2 & T3). rewrite (T3 r Rr T2 (within_refl r)) in A. discriminate A.
Qed.
End Projects.
