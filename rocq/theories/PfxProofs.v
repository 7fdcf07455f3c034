(* Proofs about prefix maps. *)
From Verif Require Import Base ImpModel PfxModel PfxSpec.

Lemma dir_eqb_iff a c : dir_eqb a c = true <-> a = c.
Proof.
  revert c. induction a as [|x a IH]; intros [|y c]; cbn; try (split; congruence). rewrite andb_true_iff, IH, beqb_eq. split; [intros [-> ->]; reflexivity | intros E; now injection E].
Qed.
Lemma dir_eqb_refl a : dir_eqb a a = true.
Proof. now apply dir_eqb_iff. Qed.
Lemma dir_eqb_no a c : dir_eqb a c = false <-> a <> c.
Proof. rewrite <- dir_eqb_iff. destruct (dir_eqb a c); split; congruence. Qed.
Lemma sub_under p d : sub p d = true <-> under p d.
Proof.
  revert p. induction d as [|y d IH]; intros p; [split; [intros _; now exists p | intros _; now destruct p]|]. destruct p as [|x p]; cbn [sub].
  - split; [discriminate | intros (s & E); discriminate].
  - rewrite andb_true_iff, IH, beqb_eq. split; [intros [-> (s & ->)]; now exists s | intros (s & E); injection E as -> ->; split; [reflexivity | now exists s]].
Qed.
Lemma leaf_app d s : leaf (d ++ s) d = s.
Proof. unfold leaf. now rewrite skipn_app, skipn_all, Nat.sub_diag. Qed.

(* Entries of a prefix. *)
Lemma has_entries {A} (m : list (list bytes * A)) p : existsb (fun e => dir_eqb (fst e) p) m = negb (match entries m p with [] => true | _ => false end).
Proof.
  unfold entries. induction m as [|[q e] m IH]; [reflexivity|]. cbn. destruct (dir_eqb q p); [reflexivity | exact IH].
Qed.
Lemma in_entries {A} (m : list (list bytes * A)) p e : In e (entries m p) <-> In (p, e) m.
Proof.
  unfold entries. rewrite in_map_iff. split.
  - intros ([q x] & <- & I). apply filter_In in I as [I E]. cbn in *. apply dir_eqb_iff in E. now subst q.
  - intros I. exists (p, e). split; [reflexivity|]. apply filter_In. split; [exact I | apply dir_eqb_refl].
Qed.
Lemma entries_app {A} (m m' : list (list bytes * A)) p : entries (m ++ m') p = entries m p ++ entries m' p.
Proof. unfold entries. now rewrite filter_app, map_app. Qed.

Fixpoint ins (l : list (list bytes * nat)) (e : list bytes * nat) : list (list bytes * nat) :=
  match l with [] => [e] | x :: l => if snd e <? snd x then e :: x :: l else x :: ins l e end.
Definition upd (l : list (list bytes * nat)) (e : list bytes * nat) : list (list bytes * nat) :=
  match l with
  | [] => []
  | (d', k) :: l => (if dir_eqb d' (fst e) then (d', if snd e <? k then snd e else k) else if k <=? snd e then (d', k) else e) :: l
  end.
Definition put (p : list bytes) (l : list (list bytes * nat)) (e : list bytes * nat) : list (list bytes * nat) :=
  match l with [] => [e] | _ => match p with [] => ins l e | _ => upd l e end end.

Lemma entries_insert m d k q : entries (insert_prio m d k) q = match q with [] => ins (entries m []) (d, k) | _ => entries m q end.
Proof.
  unfold entries. induction m as [|[p [d' k']] m IH]; [destruct q; reflexivity|]. cbn [insert_prio].
  destruct (dir_eqb p []) eqn:P; cbn [andb].
  - apply dir_eqb_iff in P. subst p. destruct (k <? k') eqn:L.
    + destruct q as [|n q]; [|reflexivity]. cbn [filter fst dir_eqb map snd ins]. now rewrite L.
    + cbn [filter fst]. destruct q as [|n q]; cbn [dir_eqb map]; [|exact IH]. rewrite IH. cbn [snd ins]. now rewrite L.
  - cbn [filter fst]. destruct q as [|n q]; cbn [map].
    + rewrite P. exact IH.
    + destruct (dir_eqb p (n :: q)); cbn [map]; now rewrite IH.
Qed.
Lemma entries_override m p d k q : entries (override m p d k) q = if dir_eqb q p then upd (entries m p) (d, k) else entries m q.
Proof.
  unfold entries. destruct (dir_eqb q p) eqn:Q.
  - apply dir_eqb_iff in Q. subst q. induction m as [|[r [d' k']] m IH]; [reflexivity|]. cbn [override filter fst]. destruct (dir_eqb r p) eqn:R.
    + cbn [map snd upd fst]. destruct (dir_eqb d' d); [|destruct (k' <=? k)]; cbn [filter fst]; rewrite R; reflexivity.
    + cbn [filter fst]. now rewrite R.
  - apply dir_eqb_no in Q. induction m as [|[r [d' k']] m IH]; [reflexivity|]. cbn [override filter fst]. destruct (dir_eqb r p) eqn:R.
    + apply dir_eqb_iff in R. subst r. assert (dir_eqb p q = false) as E by (apply dir_eqb_no; congruence).
      destruct (dir_eqb d' d); [|destruct (k' <=? k)]; cbn [filter fst]; rewrite E; reflexivity.
    + cbn [filter fst]. destruct (dir_eqb r q); cbn [map]; now rewrite IH.
Qed.
Lemma entries_enter m p d k q : entries (enter m p d k) q = if dir_eqb q p then put p (entries m p) (d, k) else entries m q.
Proof.
  unfold enter, has. rewrite has_entries. destruct (entries m p) as [|e l] eqn:E; cbn [negb].
  - rewrite entries_app. unfold entries at 2. cbn [filter fst]. destruct (dir_eqb q p) eqn:Q.
    + apply dir_eqb_iff in Q. subst q. rewrite dir_eqb_refl, E. reflexivity.
    + assert (dir_eqb p q = false) as -> by (apply dir_eqb_no; apply dir_eqb_no in Q; congruence). apply app_nil_r.
  - destruct p as [|n p]; [rewrite entries_insert|rewrite entries_override].
    + destruct q as [|x q]; cbn [dir_eqb put]; [now rewrite E | reflexivity].
    + destruct (dir_eqb q (n :: p)); [|reflexivity]. now rewrite E.
Qed.
Lemma entries_all n m P d k q : n <= length P ->
  entries (enter_all n m P d k) q = if (length q <=? n) && dir_eqb (firstn (length q) P) q then put q (entries m q) (d, k + (n - length q)) else entries m q.
Proof.
  revert m k. induction n as [|n IH]; intros m k L; cbn [enter_all].
  - rewrite entries_enter. cbn [firstn]. destruct q as [|x q]; cbn; [now rewrite Nat.add_0_r | reflexivity].
  - rewrite IH by lia. rewrite entries_enter. destruct (dir_eqb q (firstn (S n) P)) eqn:E.
    + apply dir_eqb_iff in E. assert (G : length q = S n) by (rewrite E; apply firstn_length_le; lia).
      rewrite <- E. rewrite G. replace (S n <=? n) with false by (symmetry; apply Nat.leb_gt; lia). cbn [andb]. rewrite Nat.leb_refl, <- E, dir_eqb_refl. cbn [andb].
      now rewrite Nat.sub_diag, Nat.add_0_r.
    + destruct (length q <=? n) eqn:G; cbn [andb].
      * apply Nat.leb_le in G. replace (length q <=? S n) with true by (symmetry; apply Nat.leb_le; lia). cbn [andb].
        replace (S k + (n - length q)) with (k + (S n - length q)) by lia. reflexivity.
      * destruct (length q <=? S n) eqn:G'; [|reflexivity]. cbn [andb]. apply Nat.leb_gt in G. apply Nat.leb_le in G'.
        assert (length q = S n) as H by lia. destruct (dir_eqb (firstn (length q) P) q) eqn:F; [|reflexivity].
        apply dir_eqb_iff in F. rewrite H in F. apply dir_eqb_no in E. congruence.
Qed.

(* Where an include directory leads. *)
Definition lead (x : list bytes * list bytes) (p : list bytes) : option nat :=
  let P := if sub (fst x) (snd x) then leaf (fst x) (snd x) else [] in
  if (length p <=? length P) && dir_eqb (firstn (length p) P) p then Some (length P - length p) else None.
Lemma lead_iff x p k : lead x p = Some k <-> leads x p k.
Proof.
  destruct x as [t d]. unfold lead. cbn [fst snd]. destruct (sub t d) eqn:U.
  - apply sub_under in U as (P & ->). rewrite leaf_app. split.
    + destruct ((length p <=? length P) && dir_eqb (firstn (length p) P) p) eqn:C; [|discriminate]. apply andb_true_iff in C as [C D].
      apply Nat.leb_le in C. apply dir_eqb_iff in D. intros E. assert (k = length P - length p) as -> by congruence.
      rewrite <- skipn_length. pattern P at 1. rewrite <- (firstn_skipn (length p) P), D. apply leads_under.
    + intros L. inversion L as [d' p' s E1 E2|t' d' N E1 E2]; subst.
      * apply app_inv_head in E1. subst P. rewrite app_length, firstn_app, Nat.sub_diag, firstn_all. cbn [firstn]. rewrite app_nil_r, dir_eqb_refl.
        replace (length p <=? length p + length s) with true by (symmetry; apply Nat.leb_le; lia). cbn [andb]. f_equal. lia.
      * exfalso. apply N. now exists P.
  - assert (N : ~ under t d) by (rewrite <- sub_under; congruence). split.
    + destruct p as [|n p]; cbn; [|discriminate]. intros E. injection E as <-. now constructor.
    + intros L. inversion L as [d' p' s E1 E2|t' d' N' E1 E2]; subst; [|reflexivity]. exfalso. apply N. now exists (p ++ s).
Qed.
Lemma entries_append m t d p : entries (append_prefix m t d) p = match lead (t, d) p with Some k => put p (entries m p) (d, k) | None => entries m p end.
Proof.
  unfold append_prefix, lead. cbn [fst snd]. rewrite entries_all by reflexivity. cbn [Nat.add].
  destruct ((length p <=? _) && _); reflexivity.
Qed.
Lemma leads_det x p k j : leads x p k -> leads x p j -> k = j.
Proof. rewrite <- !lead_iff. congruence. Qed.

Lemma map_snoc incs x : prefix_map_of (incs ++ [x]) = append_prefix (prefix_map_of incs) (fst x) (snd x).
Proof. unfold prefix_map_of. now rewrite fold_left_app. Qed.

Lemma led_snoc incs x p : led (incs ++ [x]) p <-> led incs p \/ exists k, leads x p k.
Proof.
  unfold led. split.
  - intros (y & k & I & L). apply in_app_or in I as [I|[-> | []]]; [left; now exists y, k | right; now exists k].
  - intros [(y & k & I & L)|(k & L)]; [exists y, k | exists x, k]; (split; [apply in_or_app|]; auto). right. now left.
Qed.
Lemma best_old incs p d k x : best incs p d k -> (forall j, leads x p j -> k <= j) -> best (incs ++ [x]) p d k.
Proof.
  intros (a & t & c & -> & L & A & C) N. exists a, t, (c ++ [x]). rewrite <- app_assoc. split; [reflexivity|]. split; [exact L|]. split; [exact A|].
  intros y j I Y. apply in_app_or in I as [I|[-> | []]]; [now apply (C y) | now apply N].
Qed.
Lemma best_all incs p d k x j : best incs p d k -> In x incs -> leads x p j -> k <= j.
Proof.
  intros (a & t & c & -> & L & A & C) I X. apply in_app_or in I as [I|[<-|I]].
  - specialize (A _ _ I X). lia.
  - rewrite (leads_det _ _ _ _ L X). reflexivity.
  - exact (C _ _ I X).
Qed.
Lemma best_new incs p d k t : leads (t, d) p k -> (forall x j, In x incs -> leads x p j -> k < j) -> best (incs ++ [(t, d)]) p d k.
Proof. intros L N. exists incs, t, []. repeat split; auto. intros x j []. Qed.
Lemma best_led incs p d k : best incs p d k -> led incs p.
Proof. intros (a & t & c & -> & L & _). exists (t, d), k. split; [apply in_elt | exact L]. Qed.
Lemma best_det incs p d k d' k' : best incs p d k -> best incs p d' k' -> d = d' /\ k = k'.
Proof.
  intros B B'. assert (K : k = k').
  { apply Nat.le_antisymm.
    - destruct B' as (a' & t' & c' & E & L' & _). eapply best_all; [exact B | rewrite E; apply in_elt | exact L'].
    - destruct B as (a & t & c & E & L & _). eapply best_all; [exact B' | rewrite E; apply in_elt | exact L]. }
  subst k'. split; [|reflexivity].
  destruct B as (a & t & c & E & L & A & _), B' as (a' & t' & c' & E' & L' & A' & _). rewrite E in E'.
  destruct (Nat.lt_trichotomy (length a) (length a')) as [H|[H|H]].
  - assert (I : In (t, d) a').
    { assert (F : firstn (length a') (a ++ (t, d) :: c) = a') by (rewrite E', firstn_app, Nat.sub_diag, firstn_all; apply app_nil_r).
      rewrite <- F, firstn_app. apply in_or_app. right. destruct (length a' - length a) eqn:Z; [lia | now left]. }
    specialize (A' _ _ I L). lia.
  - assert (skipn (length a) (a ++ (t, d) :: c) = skipn (length a') (a' ++ (t', d') :: c')) as F by (rewrite H at 1; now rewrite E').
    rewrite !skipn_app, !skipn_all, !Nat.sub_diag in F. cbn in F. now injection F.
  - assert (I : In (t', d') a).
    { assert (F : firstn (length a) (a' ++ (t', d') :: c') = a) by (rewrite <- E', firstn_app, Nat.sub_diag, firstn_all; apply app_nil_r).
      rewrite <- F, firstn_app. apply in_or_app. right. destruct (length a - length a') eqn:Z; [lia | now left]. }
    specialize (A _ _ I L'). lia.
Qed.

Lemma prefix_entries incs p : p <> [] ->
  entries (prefix_map_of incs) p = [] /\ ~ led incs p \/ exists d k, entries (prefix_map_of incs) p = [(d, k)] /\ best incs p d k.
Proof.
  intros NE. induction incs as [|[t d] incs IH] using rev_ind; [left; split; [reflexivity | intros (x & k & [] & _)]|].
  rewrite map_snoc. cbn [fst snd]. rewrite entries_append. destruct (lead (t, d) p) as [j|] eqn:L.
  - apply lead_iff in L. right. destruct IH as [[-> N]|(d' & k & -> & B)].
    + exists d, j. split; [reflexivity|]. apply best_new; [exact L|]. intros x i I X. exfalso. apply N. now exists x, i.
    + cbn [put]. destruct p as [|n p]; [contradiction|]. cbn [upd fst snd].
      destruct (j <? k) eqn:J.
      * apply Nat.ltb_lt in J. exists d, j. assert (best (incs ++ [(t, d)]) (n :: p) d j) as B'.
        { apply best_new; [exact L|]. intros x i I X. assert (k <= i) by (eapply best_all; eassumption). lia. }
        split; [|exact B']. destruct (dir_eqb d' d) eqn:D; [apply dir_eqb_iff in D; now subst d'|].
        replace (k <=? j) with false by (symmetry; apply Nat.leb_gt; lia). reflexivity.
      * apply Nat.ltb_ge in J. exists d', k. split.
        -- destruct (dir_eqb d' d); [reflexivity|]. replace (k <=? j) with true by (symmetry; apply Nat.leb_le; lia). reflexivity.
        -- apply best_old; [exact B|]. intros i X. now rewrite (leads_det _ _ _ _ X L).
  - assert (N' : forall k, ~ leads (t, d) p k) by (intros k X; apply lead_iff in X; congruence).
    destruct IH as [[-> N]|(d' & k & -> & B)]; [left; split; [reflexivity|] | right; exists d', k; split; [reflexivity|]].
    + rewrite led_snoc. intros [X|(k & X)]; [contradiction | now apply N' in X].
    + apply best_old; [exact B|]. intros i X. now apply N' in X.
Qed.

(* Without a prefix. *)
Lemma ins_in l e x : In x (ins l e) <-> x = e \/ In x l.
Proof.
  induction l as [|y l IH]; cbn [ins In]; [split; intros [H|[]]; left; congruence|]. destruct (snd e <? snd y); cbn [In].
  - split; (intros [H|H]; [left; congruence | now right]).
  - rewrite IH. split; intros [H|[H|H]]; auto.
Qed.
Lemma ins_sorted l e : sorted l -> sorted (ins l e).
Proof.
  induction 1 as [|y l A S IH]; cbn [ins]; [repeat constructor; intros x []|]. destruct (snd e <? snd y) eqn:L.
  - apply Nat.ltb_lt in L. constructor; [|now constructor]. intros x [<-|I]; [lia | specialize (A _ I); lia].
  - apply Nat.ltb_ge in L. constructor; [|exact IH]. intros x I. apply ins_in in I as [-> |I]; [exact L | now apply A].
Qed.
Lemma ins_filter l e k : sorted l -> filter (fun x => snd x =? k) (ins l e) = filter (fun x => snd x =? k) l ++ (if snd e =? k then [e] else []).
Proof.
  induction 1 as [|y l A S IH]; cbn [ins filter]; [now destruct (snd e =? k)|]. destruct (snd e <? snd y) eqn:L.
  - apply Nat.ltb_lt in L. cbn [filter]. destruct (snd e =? k) eqn:E; [|now rewrite app_nil_r].
    apply Nat.eqb_eq in E. assert (F : filter (fun x => snd x =? k) (y :: l) = []).
    { destruct (filter (fun x => snd x =? k) (y :: l)) as [|z r] eqn:F; [reflexivity|]. assert (I : In z (filter (fun x => snd x =? k) (y :: l))) by (rewrite F; now left).
      apply filter_In in I as [I Z]. apply Nat.eqb_eq in Z. destruct I as [<-|I]; [lia | specialize (A _ I); lia]. }
    cbn [filter] in F. rewrite F. reflexivity.
  - cbn [filter]. rewrite IH. now destruct (snd y =? k).
Qed.
Lemma combine_snoc {A B} (l : list A) (l' : list B) x y : length l = length l' -> combine (l ++ [x]) (l' ++ [y]) = combine l l' ++ [(x, y)].
Proof. revert l'. induction l as [|a l IH]; intros [|c l'] E; try discriminate; [reflexivity|]. cbn. now rewrite IH by (cbn in E; lia). Qed.
Lemma prefixless incs : ordered incs (entries (prefix_map_of incs) []).
Proof.
  induction incs as [|[t d] incs IH] using rev_ind; [split; [constructor | exists []; split; [constructor | reflexivity]]|].
  rewrite map_snoc. cbn [fst snd]. rewrite entries_append. assert (exists j, lead (t, d) [] = Some j) as (j & L) by (unfold lead; cbn; eauto).
  rewrite L. apply lead_iff in L. destruct IH as (S & ks & F & E). set (l := entries (prefix_map_of incs) []) in *.
  assert (put [] l (d, j) = ins l (d, j)) as -> by (now destruct l).
  split; [now apply ins_sorted|]. exists (ks ++ [j]). split; [apply Forall2_app; [exact F | now constructor]|].
  intros k. rewrite ins_filter by exact S. rewrite E, map_app. cbn [map]. rewrite combine_snoc, filter_app by (rewrite map_length; clear - F; induction F; cbn; congruence). reflexivity.
Qed.

(* The most qualified prefix. *)
Lemma sup_some {A} (m : list (list bytes * A)) d n p : n <= length d -> sup m d n = Some p ->
  entries m p <> [] /\ (exists s, d = p ++ s) /\ forall q s, d = q ++ s -> length q <= n -> entries m q <> [] -> length q <= length p.
Proof.
  assert (U : forall n d p, n <= length d -> (if existsb (fun e => dir_eqb (fst e) (firstn n d)) m then Some (firstn n d) else None) = Some p ->
    entries m p <> [] /\ (exists s, d = p ++ s) /\ length p = n).
  { clear n d p. intros n d p L E. rewrite has_entries in E. destruct (entries m (firstn n d)) as [|e r] eqn:F; [discriminate|]. cbn in E.
    injection E as <-. split; [congruence|]. split; [exists (skipn n d); now rewrite firstn_skipn | now apply firstn_length_le]. }
  induction n as [|n IH]; intros L E; cbn [sup] in E.
  - specialize (U 0 d p L). destruct (existsb _ m); [|discriminate]. destruct (U E) as (X & Y & Z). split; [exact X|]. split; [exact Y|]. intros. lia.
  - specialize (U (S n) d p L). destruct (existsb (fun e => dir_eqb (fst e) (firstn (S n) d)) m) eqn:H.
    + destruct (U E) as (X & Y & Z). split; [exact X|]. split; [exact Y|]. intros. lia.
    + destruct (IH ltac:(lia) E) as (X & Y & Z). split; [exact X|]. split; [exact Y|]. intros q s Q G N.
      destruct (Nat.eq_dec (length q) (S n)) as [G'|]; [|apply (Z q s); auto; lia]. exfalso. rewrite has_entries in H.
      assert (firstn (S n) d = q) as W by (rewrite Q, <- G', firstn_app, Nat.sub_diag, firstn_all; apply app_nil_r). rewrite W in H.
      destruct (entries m q); [contradiction | discriminate].
Qed.
Lemma sup_none {A} (m : list (list bytes * A)) d n : n <= length d -> sup m d n = None -> forall q s, d = q ++ s -> length q <= n -> entries m q = [].
Proof.
  induction n as [|n IH]; intros L E q s Q G; cbn [sup] in E.
  - rewrite has_entries in E. destruct q; [|cbn in G; lia]. cbn [firstn] in E. destruct (entries m []); [reflexivity | discriminate].
  - destruct (existsb _ m) eqn:H in E; [discriminate|]. destruct (Nat.eq_dec (length q) (S n)) as [G'|]; [|apply (IH ltac:(lia) E q s); auto; lia].
    rewrite has_entries in H. assert (firstn (S n) d = q) as W by (rewrite Q, <- G', firstn_app, Nat.sub_diag, firstn_all; apply app_nil_r). rewrite W in H.
    destruct (entries m q); [reflexivity | discriminate].
Qed.
Lemma sup_is {A} (m : list (list bytes * A)) p s : entries m p <> [] ->
  (forall q r, p ++ s = q ++ r -> length p < length q -> entries m q = []) -> sup m (p ++ s) (length (p ++ s)) = Some p.
Proof.
  intros N F. destruct (sup m (p ++ s) (length (p ++ s))) as [q|] eqn:E.
  - destruct (sup_some _ _ _ _ (Nat.le_refl _) E) as (X & (r & R) & Z). assert (G : length p <= length q) by (apply (Z p s); auto; rewrite app_length; lia).
    f_equal. destruct (Nat.eq_dec (length p) (length q)) as [H|H].
    + assert (firstn (length p) (p ++ s) = firstn (length q) (q ++ r)) as W by (rewrite <- R; now rewrite H).
      rewrite !firstn_app, !Nat.sub_diag, !firstn_all in W. cbn in W. rewrite !app_nil_r in W. congruence.
    + exfalso. apply X. apply (F q r R). lia.
  - exfalso. apply N. apply (sup_none _ _ _ (Nat.le_refl _) E p s); [reflexivity | rewrite app_length; lia].
Qed.
