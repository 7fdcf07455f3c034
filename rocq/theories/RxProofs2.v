(* Proofs about making and matching rules. *)
From Verif Require Import Base ImpModel RxModel RxSpec RxProofs.

Lemma has_iff c fl : has c fl = true <-> In c fl.
Proof.
  unfold has. rewrite existsb_exists. split.
  - intros (x & Hx & E). apply ceqb_eq in E. now subst.
  - intros H. exists c. split; [exact H | now apply ceqb_eq].
Qed.

Lemma texts_spec vs : forall first ic l ic', texts first ic vs = Some (l, ic') <->
  exists fls, Forall2 (fun v tf => delimited v (fst tf) (snd tf)) vs (combine l fls) /\ length l = length fls /\
    ic' = match fls with [] => ic | fl :: _ => if first then has "i" fl else ic end /\
    Forall (fun fl => has "i" fl = ic') fls.
Proof.
  induction vs as [|v vs IH]; intros first ic l ic'; cbn [texts].
  - split.
    + intros [= <- <-]. exists []. cbn. repeat split; auto.
    + intros (fls & F & L & E & A). destruct l as [|x l]; destruct fls as [|y fls]; cbn in *; try discriminate; try (inversion F; fail). now subst.
  - split.
    + destruct (split v) as [[t fl]|] eqn:S; [|discriminate]. apply split_iff in S. intros H.
      assert (X : exists l1, l = t :: l1 /\ texts false (if first then has "i" fl else ic) vs = Some (l1, ic') /\ (first = false -> ic = has "i" fl)).
      { destruct first.
        - destruct (texts false (has "i" fl) vs) as [[l1 i1]|]; [|discriminate]. injection H as <- <-. exists l1. repeat split. discriminate.
        - destruct (Bool.eqb ic (has "i" fl)) eqn:Q; [|discriminate]. destruct (texts false ic vs) as [[l1 i1]|]; [|discriminate]. injection H as <- <-.
          exists l1. repeat split. intros _. now apply Bool.eqb_prop. }
      destruct X as (l1 & -> & T & Q). apply IH in T. destruct T as (fls & F & L & E & A). exists (fl :: fls).
      assert (Z : ic' = if first then has "i" fl else ic) by (destruct fls; exact E).
      cbn [combine length]. split; [constructor; [exact S | exact F]|]. split; [now f_equal|]. split; [exact Z|].
      constructor; [|exact A]. destruct first; [now symmetry | rewrite Z; symmetry; auto].
    + intros (fls & F & L & E & A). destruct l as [|t l]; destruct fls as [|fl fls]; try discriminate; [inversion F|].
      cbn [combine] in F. inversion F as [|? ? ? ? D F']; subst. cbn [fst snd] in D. apply split_iff in D. rewrite D.
      inversion A as [|? ? A1 A2]; subst.
      assert (T : texts false (if first then has "i" fl else ic) vs = Some (l, if first then has "i" fl else ic)).
      { apply IH. exists fls. split; [exact F'|]. split; [now injection L|]. split; [now destruct fls | exact A2]. }
      destruct first; [now rewrite T|]. rewrite A1, Bool.eqb_reflx. now rewrite T.
Qed.

Lemma make_iff ts ps r : make ts ps = Some r <->
  exists tfs ic a n, Forall2 (fun v tf => delimited v (fst tf) (snd tf)) (map fst (patterns ts ++ patterns ps)) tfs /\
    Forall (fun tf => In "i"%char (snd tf) <-> ic = true) tfs /\ (tfs = [] -> ic = false) /\ parse 0 (join (map fst tfs)) = Some (a, n) /\ r = mkrule (join (map fst tfs)) a ic ts ps.
Proof.
  unfold make. set (vs := map fst (patterns ts ++ patterns ps)). split.
  - destruct (texts true false vs) as [[l ic]|] eqn:T; [|discriminate]. destruct (parse 0 (join l)) as [[a n]|] eqn:P; [|discriminate]. intros [= <-].
    apply texts_spec in T. destruct T as (fls & F & L & E & A). exists (combine l fls), ic, a, n.
    assert (M : map fst (combine l fls) = l). { clear -L. revert fls L. induction l as [|x l IH]; intros [|y f] L; cbn in *; try discriminate; [reflexivity|]. f_equal. apply IH. now injection L. }
    rewrite M. split; [exact F|]. split.
    + apply Forall_forall. intros [t fl] X. apply in_combine_r in X. rewrite Forall_forall in A. specialize (A _ X). cbn [snd]. rewrite <- A. symmetry. apply has_iff.
    + split; [|auto]. intros Z. destruct fls as [|f fls]; [exact E|]. destruct l; [discriminate|]. discriminate.
  - intros (tfs & ic & a & n & F & A & Z & P & ->).
    assert (T : texts true false vs = Some (map fst tfs, ic)).
    { apply texts_spec. exists (map snd tfs).
      assert (C : combine (map fst tfs) (map snd tfs) = tfs) by (clear; induction tfs as [|[x y] l IH]; cbn; congruence).
      rewrite C. split; [exact F|]. split; [now rewrite !map_length|].
      assert (A' : Forall (fun fl => has "i" fl = ic) (map snd tfs)).
      { apply Forall_forall. intros fl X. apply in_map_iff in X. destruct X as (tf & <- & X). rewrite Forall_forall in A. specialize (A _ X). rewrite <- has_iff in A.
        destruct (has "i" (snd tf)), ic; try tauto; try (symmetry; tauto); intuition congruence. }
      split; [|exact A']. destruct tfs as [|tf tfs]; [now apply Z|]. cbn [map]. inversion A'; subst. now symmetry. }
    now rewrite T, P.
Qed.

Section T.
Context (is_a : nat -> nat -> bool) (is_dir ext_explicit : nat -> bool).

Lemma effective_iff k (f : bool) w : effective_name is_dir ext_explicit k f = w <-> name_of is_dir ext_explicit k (f = true) w.
Proof.
  unfold effective_name. assert (N : forall l, is_nil l = true <-> l = []) by (intros [|? ?]; cbn; split; congruence).
  destruct (is_nil (k_name k) && is_dir (k_type k)) eqn:D.
  - apply andb_prop in D. destruct D as [D1 D2]. apply N in D1. split.
    + intros <-. now apply name_dir.
    + intros H. inversion H; subst; tauto.
  - assert (D' : ~ (k_name k = [] /\ is_dir (k_type k) = true)). { intros [X Y]. apply N in X. rewrite X, Y in D. discriminate. }
    destruct (k_ext k) as [x|] eqn:X.
    + destruct (negb (is_nil x) && (f || ext_explicit (k_type k))) eqn:B.
      * apply andb_prop in B. destruct B as [B1 B2]. apply Bool.orb_true_iff in B2.
        assert (Z : x <> []) by (intros ->; discriminate). split.
        -- intros <-. now apply name_ext.
        -- intros H. inversion H as [|x' ? X' |? O]; subst; [tauto | congruence |]. destruct O as [O|[O|O]]; [congruence|congruence|tauto].
      * split.
        -- intros <-. apply name_only; [exact D'|]. destruct x as [|c x]; [now right; left|]. right. right. intros O. apply Bool.orb_true_iff in O. rewrite O in B. discriminate.
        -- intros H. inversion H as [|x' ? X' Z O|]; subst; [tauto | | reflexivity]. assert (x' = x) by congruence. subst. apply Bool.orb_true_iff in O. rewrite O in B.
           destruct x; [contradiction | discriminate].
    + split.
      * intros <-. apply name_only; auto.
      * intros H. inversion H; subst; [tauto | congruence | reflexivity].
Qed.

Lemma find_first {A} (f : A -> bool) l x : find f l = Some x <-> first_such (fun y => f y = true) l x.
Proof.
  unfold first_such. induction l as [|y l IH]; cbn [find].
  - split; [discriminate|]. intros (l1 & l2 & E & _). destruct l1; discriminate.
  - destruct (f y) eqn:F.
    + split.
      * intros [= <-]. exists [], l. repeat split; auto.
      * intros (l1 & l2 & E & P & Q). destruct l1 as [|z l1]; [now injection E as <- _|]. injection E as <- ->. inversion Q; congruence.
    + rewrite IH. split.
      * intros (l1 & l2 & -> & P & Q). exists (y :: l1), l2. repeat split; auto. constructor; [congruence | exact Q].
      * intros (l1 & l2 & E & P & Q). destruct l1 as [|z l1]; [injection E as <- _; congruence|]. injection E as <- ->. inversion Q; subst. now exists l1, l2.
Qed.
Lemma first_ext {A} (P Q : A -> Prop) l x : (forall y, P y <-> Q y) -> first_such P l x -> first_such Q l x.
Proof.
  intros H (l1 & l2 & E & Px & F). exists l1, l2. repeat split; [exact E | now apply H |]. eapply Forall_impl; [|exact F]. intros y N X. apply N. now apply H.
Qed.
Lemma find_member_iff t ty k : find_member is_a t ty = Some k <-> first_such (fun k => is_a (k_type k) ty = true) (t_members t) k.
Proof. apply find_first. Qed.
Lemma find_prereq_iff t ty k : find_prereq is_a t ty = Some k <-> first_such (fun p => snd p = true /\ is_a (k_type (fst p)) ty = true) (t_prereqs t) (k, true).
Proof.
  unfold find_prereq. destruct (find _ (t_prereqs t)) as [[k' n]|] eqn:F.
  - pose proof F as F0. apply find_first in F. cbn [fst]. split.
    + intros [= <-]. assert (n = true) by (destruct F as (? & ? & _ & X & _); apply andb_prop in X; tauto). subst n.
      eapply first_ext; [|exact F]. intros y. cbn. now rewrite Bool.andb_true_iff.
    + intros X. eapply first_ext with (Q := fun y => snd y && is_a (k_type (fst y)) ty = true) in X; [|intros y; now rewrite Bool.andb_true_iff].
      apply find_first in X. congruence.
  - split; [discriminate|]. intros X. eapply first_ext with (Q := fun y => snd y && is_a (k_type (fst y)) ty = true) in X; [|intros y; now rewrite Bool.andb_true_iff].
    apply find_first in X. congruence.
Qed.

Definition nm (k : key) (fl : bytes) (w : bytes) := name_of is_dir ext_explicit k (In "e"%char fl) w.
Lemma name_of_ext k P Q w : (P <-> Q) -> name_of is_dir ext_explicit k P w -> name_of is_dir ext_explicit k Q w.
Proof. intros E H. inversion H; subst; [now apply name_dir | apply name_ext; tauto | apply name_only; tauto]. Qed.
Lemma eff_force k v t fl w : delimited v t fl -> effective_name is_dir ext_explicit k (force v) = w <-> nm k fl w.
Proof.
  intros D. apply split_iff in D. unfold force. rewrite D, effective_iff. unfold nm.
  split; apply name_of_ext; [apply has_iff | symmetry; apply has_iff].
Qed.

Lemma names_of_iff (f : nat -> option key) (R : nat -> key -> Prop) : (forall ty k, f ty = Some k <-> R ty k) ->
  forall ps tfs, Forall2 (fun v tf => delimited v (fst tf) (snd tf)) (map fst ps) tfs ->
  forall ws, names_of is_dir ext_explicit f ps = Some ws <->
    exists ks, Forall2 R (map snd ps) ks /\ Forall2 (fun kf w => nm (fst kf) (snd kf) w) (combine ks (map snd tfs)) ws.
Proof.
  intros HR. induction ps as [|[v ty] ps IH]; intros tfs F ws; cbn [names_of map] in *.
  - inversion F; subst. split.
    + intros [= <-]. exists []. split; constructor.
    + intros (ks & A & B). inversion A; subst. cbn in B. now inversion B.
  - inversion F as [|? tf ? tfs' D F']; subst. cbn [fst snd map] in *. specialize (IH _ F'). split.
    + destruct (f ty) as [k|] eqn:K; [|discriminate]. destruct (names_of is_dir ext_explicit f ps) as [l|]; [|discriminate]. intros [= <-].
      destruct (proj1 (IH l) eq_refl) as (ks & A & B). exists (k :: ks). split; [constructor; [now apply HR | exact A]|].
      cbn [combine]. constructor; [|exact B]. cbn [fst snd]. eapply eff_force; [exact D | reflexivity].
    + intros (ks & A & B). inversion A as [|? k ? ks' A1 A2]; subst. cbn [combine] in B. inversion B as [|? w ? ws' B1 B2]; subst. cbn [fst snd] in B1.
      apply HR in A1. rewrite A1. rewrite (proj2 (IH ws')) by (exists ks'; auto). eapply eff_force in B1; [|exact D]. now rewrite B1.
Qed.

Lemma nm_slash k fl w : slash_free k -> nm k fl w -> ~ In SL w.
Proof.
  intros (A & B & C) H. inversion H; subst; auto. match goal with E : k_ext k = Some _ |- _ => rewrite E in C end.
  intros X. apply in_app_or in X. destruct X as [X|[X|X]]; [tauto | discriminate | tauto].
Qed.

Lemma combine_app {A B} (a c : list A) : forall (x y : list B), length a = length x -> combine (a ++ c) (x ++ y) = combine a x ++ combine c y.
Proof. induction a as [|h a IH]; intros [|z x] y L; cbn in *; try discriminate; [reflexivity|]. f_equal. apply IH. now injection L. Qed.
Lemma Forall2_len {A B} (R : A -> B -> Prop) l m : Forall2 R l m -> length l = length m.
Proof. induction 1; cbn; congruence. Qed.
Lemma Forall2_split {A B} (R : A -> B -> Prop) a c m : Forall2 R (a ++ c) m -> exists x y, m = x ++ y /\ Forall2 R a x /\ Forall2 R c y.
Proof. intros H. apply Forall2_app_inv_l in H. destruct H as (x & y & H1 & H2 & ->). eauto. Qed.

Lemma first_prereq t ps tfs ws : names_of is_dir ext_explicit (find_prereq is_a t) ps = Some ws -> Forall2 (fun v (tf : bytes * bytes) => delimited v (fst tf) (snd tf)) (map fst ps) tfs ->
  exists l, names_of is_dir ext_explicit (find_prereq is_a t) (firstn 1 ps) = Some l.
Proof.
  intros H _. destruct ps as [|[v ty] ps]; [now exists []|]. cbn [names_of firstn] in *. destruct (find_prereq is_a t ty); [|discriminate]. eauto.
Qed.

Lemma signature_iff r t v0 ty0 ts tfs s : patterns (r_targets r) = (v0, ty0) :: ts ->
  Forall2 (fun v tf => delimited v (fst tf) (snd tf)) (map fst (patterns (r_targets r) ++ patterns (r_prereqs r))) tfs ->
  signature is_a is_dir ext_explicit r t = Some s <->
  exists ks ws, chosen is_a t (map snd ts) (map snd (patterns (r_prereqs r))) ks /\ Forall2 (fun kf w => nm (fst kf) (snd kf) w) (combine ks (map snd tfs)) ws /\ s = join ws.
Proof.
  intros P F. rewrite P in F. rewrite map_app in F. cbn [map app] in F.
  inversion F as [|? tf0 ? tfs' D F']; subst. clear F. apply Forall2_split in F'. destruct F' as (f1 & f2 & -> & F1 & F2).
  unfold signature. rewrite P.
  assert (M := names_of_iff _ _ (find_member_iff t) ts f1 F1). assert (Q := names_of_iff _ _ (find_prereq_iff t) (patterns (r_prereqs r)) f2 F2).
  assert (L1 : length (map snd ts) = length (map snd f1)). { apply Forall2_len in F1. now rewrite !map_length in *. }
  cbn [map fst snd app]. rewrite map_app. split.
  - destruct (names_of is_dir ext_explicit (find_prereq is_a t) (firstn 1 (patterns (r_prereqs r)))) as [l0|]; [|discriminate].
    destruct (names_of is_dir ext_explicit (find_member is_a t) ts) as [a|]; [|discriminate].
    destruct (names_of is_dir ext_explicit (find_prereq is_a t) (patterns (r_prereqs r))) as [p|]; [|discriminate].
    intros [= <-]. destruct (proj1 (M a) eq_refl) as (ms & A1 & A2). destruct (proj1 (Q p) eq_refl) as (ps & B1 & B2).
    exists (t_key t :: ms ++ ps), (effective_name is_dir ext_explicit (t_key t) (force v0) :: a ++ p). split; [exists ms, ps; auto|]. split; [|reflexivity].
    cbn [combine]. constructor; [cbn [fst snd]; eapply eff_force; [exact D | reflexivity]|].
    rewrite combine_app; [now apply Forall2_app|]. apply Forall2_len in A1. congruence.
  - intros (ks & ws & (ms & ps & -> & A & B) & N & ->). cbn [combine] in N. inversion N as [|? w ? ws' N1 N2]; subst. cbn [fst snd] in N1.
    rewrite combine_app in N2 by (apply Forall2_len in A; congruence). apply Forall2_split in N2. destruct N2 as (a & p & -> & N2 & N3).
    assert (HM : names_of is_dir ext_explicit (find_member is_a t) ts = Some a) by (apply M; eauto).
    assert (HQ : names_of is_dir ext_explicit (find_prereq is_a t) (patterns (r_prereqs r)) = Some p) by (apply Q; eauto).
    destruct (first_prereq _ _ _ _ HQ F2) as (l0 & ->). rewrite HM, HQ. eapply eff_force in N1; [|exact D]. now rewrite N1.
Qed.

(* The groups that are chosen are of the target. *)
Lemma chosen_of t tys pys ks : chosen is_a t tys pys ks -> Forall (fun k => k = t_key t \/ In k (t_members t) \/ In k (map fst (t_prereqs t))) ks.
Proof.
  intros (ms & ps & -> & A & B). constructor; [auto|]. apply Forall_app. split.
  - clear B. induction A as [|? k ? ? H]; constructor; auto. right. left. destruct H as (l1 & l2 & -> & _). apply in_or_app. now right; left.
  - clear A. induction B as [|? k ? ? H]; constructor; auto. right. right. destruct H as (l1 & l2 & -> & _). rewrite map_app. apply in_or_app. right. now left.
Qed.
Lemma combine_fst_in {A B} (a : list A) : forall (x : list B) p, In p (combine a x) -> In (fst p) a.
Proof. intros x [p q] H. now apply in_combine_l in H. Qed.

Lemma match_iff ts ps r t v0 ty0 rest tfs e :
  make ts ps = Some r -> patterns ts = (v0, ty0) :: rest ->
  Forall2 (fun v tf => delimited v (fst tf) (snd tf)) (map fst (patterns ts ++ patterns ps)) tfs ->
  simple 0 (map fst tfs) \/ length tfs = 1 ->
  slash_free (t_key t) -> Forall slash_free (t_members t) -> Forall (fun p => slash_free (fst p)) (t_prereqs t) ->
  matches is_a is_dir ext_explicit r t e <->
  exists ks ws, chosen is_a t (map snd rest) (map snd (patterns ps)) ks /\
    Forall2 (fun kf w => name_of is_dir ext_explicit (fst kf) (In "e"%char (snd kf)) w) (combine ks (map snd tfs)) ws /\
    each (r_icase r) 0 (map fst tfs) (fun _ => []) ws e.
Proof.
  intros M P F S S1 S2 S3. apply make_iff in M. destruct M as (tfs' & ic & a & n & F' & A & Z & Pa & ->).
  assert (tfs' = tfs).
  { clear -F F'. revert tfs' F'. induction F as [|v tf vs l D F IH]; intros l' F'; inversion F' as [|? tf' ? ? D' F'']; subst; [reflexivity|].
    f_equal; [|now apply IH]. apply split_iff in D, D'. destruct tf, tf'; cbn in *. congruence. }
  subst tfs'. unfold matches. cbn [r_icase r_re].
  set (r := mkrule _ _ _ _ _). assert (SI := fun s => signature_iff r t v0 ty0 rest tfs s P F). cbn [r_prereqs r] in SI.
  assert (LE : forall ks ws, chosen is_a t (map snd rest) (map snd (patterns ps)) ks -> Forall2 (fun kf w => nm (fst kf) (snd kf) w) (combine ks (map snd tfs)) ws -> length ws = length (map fst tfs) /\ Forall (fun w => ~ In SL w) ws).
  { intros ks ws C N. split.
    - apply Forall2_len in N. rewrite <- N, combine_length. destruct C as (ms & qs & -> & C1 & C2). apply Forall2_len in C1, C2, F.
      rewrite P in F. cbn [app map length] in *. rewrite !app_length, !map_length in *. rewrite app_length in F. lia.
    - apply chosen_of in C. clear -C N S1 S2 S3. rewrite Forall_forall in C, S2, S3. revert C. 
      assert (G : forall kf, In kf (combine ks (map snd tfs)) -> In (fst kf) ks) by (intros kf; apply combine_fst_in).
      revert G. generalize (combine ks (map snd tfs)) as c, N. intros c N'. clear N. induction N' as [|kf w c' ws' H N' IH]; intros G C; constructor.
      + eapply nm_slash; [|exact H]. destruct (C _ (G kf (or_introl eq_refl))) as [-> | [X | X]]; [exact S1 | now apply S2|].
        apply in_map_iff in X. destruct X as (p & <- & X). now apply S3.
      + apply IH; [|exact C]. intros kf' X. apply G. now right. }
  assert (NE : map fst tfs <> []). { rewrite P in F. inversion F; subst; discriminate. }
  assert (K : forall ws, length ws = length (map fst tfs) -> Forall (fun w => ~ In SL w) ws -> ma ic a (fun _ => []) (join ws) e <-> each ic 0 (map fst tfs) (fun _ => []) ws e).
  { intros ws L W. destruct S as [S | S].
    - destruct (simple_seqs _ _ S) as (ss & Q). destruct (parse_join _ _ _ Q NE) as (n' & PJ). rewrite Pa in PJ. injection PJ as -> _.
      now apply (join_match ic 0 (map fst tfs) ss).
    - destruct tfs as [|tf [|? ?]]; try discriminate. cbn [map join] in *. destruct ws as [|w [|? ?]]; try discriminate. cbn [join]. split.
      + intros X. eapply each_cons; [exact Pa | exact X | constructor].
      + intros X. inversion X as [|? ? ? a' n' ? ? ? e1 ? X1 X2 X3]; subst. inversion X3; subst. rewrite Pa in X1. injection X1 as <- _. exact X2. }
  split.
  - intros (s & Hs & Hm). apply SI in Hs. destruct Hs as (ks & ws & C & N & ->). destruct (LE _ _ C N) as [L W]. exists ks, ws. split; [exact C|]. split; [exact N|]. now apply K.
  - intros (ks & ws & C & N & E). destruct (LE _ _ C N) as [L W]. exists (join ws). split; [apply SI; exists ks, ws; auto | now apply K].
Qed.
End T.

(* What is added. *)
Section A.
Context (replace : env -> bytes -> bytes) (search_subst : nat -> list bytes -> bytes -> nat) (search_plain : nat -> nat -> nat) (in_root : nat -> bool).
Lemma subst_iff e v n : substitute replace e v = Some n <-> replaced replace e v n.
Proof.
  unfold substitute, replaced. split.
  - destruct (split v) as [[f fl]|] eqn:S; [|discriminate]. apply split_iff in S. destruct (replace e f) as [|c r] eqn:R; cbn; [discriminate|]. intros [= <-]. exists f, fl. rewrite R. repeat split; auto. discriminate.
  - intros (f & fl & D & -> & N). apply split_iff in D. rewrite D. destruct (replace e f); [contradiction | reflexivity].
Qed.
Lemma norm_walks d : forall acc q, norm acc d = Some q <-> walks (rev acc) d q.
Proof.
  induction d as [|n d IH]; intros acc q; cbn [norm].
  - split; [intros [= <-]; constructor | intros H; inversion H; now subst].
  - destruct (beqb n (b ".")) eqn:E1.
    + apply beqb_eq in E1. subst n. rewrite IH. split; [now constructor|]. intros H. inversion H; subst; try assumption; try discriminate; exfalso; match goal with N : _ <> _ |- _ => now apply N end.
    + assert (N1 : n <> b ".") by (intros ->; rewrite beqb_refl in E1; discriminate).
      destruct (beqb n (b "..")) eqn:E2.
      * apply beqb_eq in E2. subst n. destruct acc as [|x acc].
        -- split; [discriminate|]. intros H. inversion H as [| |p x d' q' H' E|]; subst; [destruct p; discriminate|]; exfalso; match goal with N : _ <> _ |- _ => now apply N end.
        -- cbn [rev]. rewrite IH. split; [now constructor|]. intros H. inversion H as [| |p y d' q' H' E|]; subst; [apply app_inj_tail in E; destruct E as [<- _]; exact H'|]; exfalso; match goal with N : _ <> _ |- _ => now apply N end.
      * assert (N2 : n <> b "..") by (intros ->; rewrite beqb_refl in E2; discriminate).
        rewrite IH. cbn [rev]. split; [now constructor|]. intros H. inversion H; subst; assumption || (exfalso; now apply N1) || (exfalso; now apply N2).
Qed.
Lemma norm_plain dir d : Forall (fun n => n <> b "." /\ n <> b "..") dir -> forall acc, norm acc (dir ++ d) = norm (rev dir ++ acc) d.
Proof.
  induction dir as [|n dir IH]; intros F acc; cbn [app norm rev]; [reflexivity|]. inversion F as [|? ? [N1 N2] F']; subst.
  destruct (beqb n (b ".")) eqn:E1; [apply beqb_eq in E1; congruence|]. destruct (beqb n (b "..")) eqn:E2; [apply beqb_eq in E2; congruence|].
  rewrite IH by exact F'. now rewrite <- app_assoc.
Qed.
Lemma members_iff e dir es : Forall (fun n => n <> b "." /\ n <> b "..") dir -> forall l, members replace e dir es = Some l <-> adds replace e dir es l.
Proof.
  intros ND. induction es as [|[k ty] es IH]; intros l; cbn [members e_kind e_type].
  - split; [intros [= <-]; constructor | intros H; now inversion H].
  - assert (O : (forall d v, k <> Subst d v) -> members replace e dir es = Some l <-> adds replace e dir (mkel k ty :: es) l).
    { intros N. rewrite IH. split; [now constructor|]. intros H. inversion H; subst; [assumption|]. exfalso. eapply N. reflexivity. }
    destruct k as [v|d v|n]; [apply O; discriminate | | apply O; discriminate]. clear O.
    set (dd := match d with [] => Some dir | _ :: _ => norm [] (dir ++ d) end).
    assert (W : forall q, dd = Some q <-> walks dir d q).
    { intros q. unfold dd. destruct d as [|x d]; [split; [intros [= <-]; constructor | intros H; inversion H; now subst]|].
      rewrite norm_plain by exact ND. rewrite norm_walks, app_nil_r, rev_involutive. reflexivity. }
    split.
    + destruct dd as [d'|]; [|discriminate]. destruct (substitute replace e v) as [n|] eqn:S; [|discriminate]. destruct (members replace e dir es) as [l'|]; [|discriminate].
      intros [= <-]. constructor; [now apply W | now apply subst_iff | now apply IH].
    + intros H. inversion H as [|? ? ? N|? ? ? d' n ? l' A B C]; subst; [exfalso; eapply N; reflexivity|].
      apply W in A. apply subst_iff in B. apply IH in C. now rewrite A, B, C.
Qed.
Lemma prerequisites_iff e clean fsdir es : forall l, prerequisites replace search_subst search_plain in_root e clean fsdir es = Some l <->
  exists c, needs replace search_subst search_plain e es c /\ l = filter (fun p => negb (match fsdir with Some d => d =? p | None => false end || clean && negb (in_root p))) c.
Proof.
  induction es as [|[k ty] es IH]; intros l; cbn [prerequisites e_kind e_type].
  - split; [intros [= <-]; exists []; split; [constructor | reflexivity]|]. intros (c & H & ->). now inversion H.
  - set (R := prerequisites replace search_subst search_plain in_root e clean fsdir es) in *. set (keep := fun p => _) in *.
    assert (G : forall p c, (if match fsdir with Some d => d =? p | None => false end || clean && negb (in_root p) then filter keep c else p :: filter keep c) = filter keep (p :: c)).
    { intros p c. cbn [filter]. unfold keep at 3. destruct (_ || _); reflexivity. }
    destruct k as [v|d v|n].
    + destruct R as [l'|]; split.
      * intros [= <-]. destruct (proj1 (IH l') eq_refl) as (c & H & ->). exists c. split; [now constructor | reflexivity].
      * intros (c & H & ->). inversion H; subst. apply IH. eauto.
      * discriminate.
      * intros (c & H & ->). inversion H; subst. apply IH. eauto.
    + destruct (substitute replace e v) as [n|] eqn:S.
      * destruct R as [l'|]; split.
        -- intros [= <-]. destruct (proj1 (IH l') eq_refl) as (c & H & ->). exists (search_subst ty d n :: c). split; [constructor; [now apply subst_iff | exact H]|]. now rewrite G.
        -- intros (c & H & ->). inversion H as [| |? ? ? n' ? c' A B|]; subst. apply subst_iff in A. assert (n' = n) by congruence. subst n'.
           assert (Some l' = Some (filter keep c')) by (apply IH; eauto). f_equal. assert (l' = filter keep c') by congruence. subst l'. apply G.
        -- discriminate.
        -- intros (c & H & ->). inversion H as [| |? ? ? n' ? c' A B|]; subst. assert (None = Some (filter keep c')) by (apply IH; eauto). discriminate.
      * split; [discriminate|]. intros (c & H & ->). inversion H as [| |? ? ? n' ? c' A B|]; subst. apply subst_iff in A. congruence.
    + destruct R as [l'|]; split.
      * intros [= <-]. destruct (proj1 (IH l') eq_refl) as (c & H & ->). exists (search_plain ty n :: c). split; [now constructor|]. now rewrite G.
      * intros (c & H & ->). inversion H as [| | |? ? ? c' B]; subst.
        assert (Some l' = Some (filter keep c')) by (apply IH; eauto). f_equal. assert (l' = filter keep c') by congruence. subst l'. apply G.
      * discriminate.
      * intros (c & H & ->). inversion H as [| | |? ? ? c' B]; subst. assert (None = Some (filter keep c')) by (apply IH; eauto). discriminate.
Qed.
End A.
