From Coq Require Import Sorted.
From Verif Require Import Base ScopeModel ScopeSpec.

Lemma dir_eqb_eq x y : dir_eqb x y = true <-> x = y.
Proof. unfold dir_eqb. destruct (list_eq_dec Nat.eq_dec x y); split; congruence. Qed.
Lemma dir_eqb_refl x : dir_eqb x x = true.
Proof. apply dir_eqb_eq. reflexivity. Qed.
Lemma dir_eqb_neq x y : dir_eqb x y = false <-> x <> y.
Proof. unfold dir_eqb. destruct (list_eq_dec Nat.eq_dec x y); split; congruence. Qed.
Definition dir_dec : forall x y : dir, {x = y} + {x <> y} := list_eq_dec Nat.eq_dec.
Lemma opt_eqb_eq x y : opt_eqb x y = true <-> x = y.
Proof. destruct x, y; cbn; try rewrite dir_eqb_eq; split; congruence. Qed.
Lemma opt_eqb_neq x y : opt_eqb x y = false <-> x <> y.
Proof. split; intros H; [intros X; apply opt_eqb_eq in X; congruence|destruct (opt_eqb x y) eqn:E; [apply opt_eqb_eq in E; contradiction|reflexivity]]. Qed.

(* Prefixes. *)
Lemma within_refl x : within x x.
Proof. exists []. rewrite app_nil_r. reflexivity. Qed.
Lemma within_trans x y z : within x y -> within y z -> within x z.
Proof. intros (a & ->) (c & ->). exists (a ++ c). rewrite app_assoc. reflexivity. Qed.
Lemma within_antisym x y : within x y -> within y x -> x = y.
Proof. intros (a & ->) (c & H). rewrite <- app_assoc in H. rewrite <- (app_nil_r x) in H at 1. apply app_inv_head in H. symmetry in H. apply app_eq_nil in H. destruct H as [-> _]. rewrite app_nil_r. reflexivity. Qed.
Lemma above_iff x y : above x y <-> within x y /\ x <> y.
Proof.
  split.
  - intros (a & z & ->). split; [exists (a :: z); reflexivity|]. intros H. rewrite <- (app_nil_r x) in H at 1. apply app_inv_head in H. discriminate H.
  - intros ((z & ->) & N). destruct z as [|a z]; [rewrite app_nil_r in N; contradiction|]. exists a, z. reflexivity.
Qed.
Lemma comparable x y d : within x d -> within y d -> within x y \/ within y x.
Proof.
  revert y d. induction x as [|a x IH]; intros y d (u & E) (v & F); [left; exists y; reflexivity|]. destruct y as [|c y]; [right; exists (a :: x); reflexivity|]. subst d. cbn in F. injection F as <- F.
  destruct (IH y (x ++ u)) as [(w & ->)|(w & ->)]; [exists u; reflexivity|exists v; exact F|left|right]; exists w; reflexivity.
Qed.
Lemma within_length x y : within x y -> length x <= length y.
Proof. intros (z & ->). rewrite app_length. lia. Qed.
Lemma above_length x y : above x y -> length x < length y.
Proof. intros (a & z & ->). rewrite app_length. cbn. lia. Qed.
Lemma above_within x y : above x y -> within x y.
Proof. intros H. apply above_iff in H. tauto. Qed.
Lemma above_trans_l x y z : above x y -> within y z -> above x z.
Proof. intros (a & u & ->) (v & ->). exists a, (u ++ v). rewrite <- app_assoc. reflexivity. Qed.
Lemma above_trans_r x y z : within x y -> above y z -> above x z.
Proof. intros W A. apply above_iff. apply above_iff in A. destruct A as [A N]. split; [exact (within_trans _ _ _ W A)|]. intros ->. apply N. exact (within_antisym _ _ A W). Qed.
Lemma nil_within d : within [] d.
Proof. exists d. reflexivity. Qed.
Lemma sub_within x : forall y, sub x y = true <-> within x y.
Proof.
  induction x as [|a x IH]; intros y; [cbn; split; [intros _; apply nil_within|reflexivity]|]. destruct y as [|c y]; cbn.
  - split; [discriminate|]. intros (z & H). discriminate H.
  - rewrite andb_true_iff, Nat.eqb_eq, IH. split; [intros (-> & z & ->); exists z; reflexivity|]. intros (z & H). injection H as -> ->. split; [reflexivity|exists z; reflexivity].
Qed.
Lemma removelast_above d x : d <> [] -> (above x d <-> within x (removelast d)).
Proof.
  intros N. destruct (exists_last N) as (l & a & ->). rewrite removelast_last. split.
  - intros (c & z & E). destruct (@exists_last _ (c :: z)) as (z' & e & Ez); [discriminate|]. rewrite Ez, app_assoc in E. apply app_inj_tail in E. destruct E as [-> _]. exists z'. reflexivity.
  - intros W. apply (above_trans_r _ l); [exact W|]. exists a, []. reflexivity.
Qed.

(* The order. *)
Lemma less_irrefl x : less x x = false.
Proof. induction x as [|a x IH]; [reflexivity|]. change ((a <? a) || ((a =? a) && less x x) = false). rewrite Nat.ltb_irrefl, Nat.eqb_refl, IH. reflexivity. Qed.
Lemma less_cons a x c y : less (a :: x) (c :: y) = true <-> a < c \/ (a = c /\ less x y = true).
Proof. change ((a <? c) || ((a =? c) && less x y) = true <-> a < c \/ (a = c /\ less x y = true)). rewrite orb_true_iff, andb_true_iff, Nat.ltb_lt, Nat.eqb_eq. tauto. Qed.
Lemma less_trans x : forall y z, less x y = true -> less y z = true -> less x z = true.
Proof.
  induction x as [|a x IH]; intros [|c y] [|e z] H1 H2; try discriminate; try reflexivity. apply less_cons in H1. apply less_cons in H2. apply less_cons. destruct H1 as [H1|[-> H1]], H2 as [H2|[-> H2]]; [left; lia|left; lia|left; lia|right; split; [reflexivity|exact (IH _ _ H1 H2)]].
Qed.
Lemma less_total x : forall y, x <> y -> less x y = false -> less y x = true.
Proof.
  induction x as [|a x IH]; intros [|c y] N H; try reflexivity; try discriminate; [contradiction|]. apply less_cons. destruct (Nat.lt_trichotomy a c) as [L|[-> | L]].
  - exfalso. assert (X : less (a :: x) (c :: y) = true) by (apply less_cons; left; exact L). congruence.
  - right. split; [reflexivity|]. apply IH; [congruence|]. destruct (less x y) eqn:E; [|reflexivity]. assert (X : less (c :: x) (c :: y) = true) by (apply less_cons; auto). congruence.
  - left. exact L.
Qed.
Lemma above_less x y : above x y -> less x y = true.
Proof. intros (a & z & ->). induction x as [|c x IH]; [reflexivity|]. cbn [app]. apply less_cons. right. auto. Qed.

Notation sorted := (StronglySorted (fun x y => less x y = true)).
Lemma insert_key_in k ks x : In x (insert_key k ks) <-> x = k \/ In x ks.
Proof.
  induction ks as [|k' ks IH]; cbn; [intuition|]. destruct (dir_eqb k k') eqn:E; [apply dir_eqb_eq in E; subst; cbn; intuition|]. destruct (less k k'); cbn; [intuition|]. rewrite IH. intuition.
Qed.
Lemma insert_key_sorted k ks : sorted ks -> sorted (insert_key k ks).
Proof.
  intros H. induction H as [|k' ks Hs IH Hf]; cbn; [repeat constructor|]. destruct (dir_eqb k k') eqn:E; [constructor; assumption|]. apply dir_eqb_neq in E. destruct (less k k') eqn:L.
  - constructor; [constructor; assumption|]. constructor; [exact L|]. rewrite Forall_forall in *. intros x I. exact (less_trans _ _ _ L (Hf x I)).
  - constructor; [exact IH|]. rewrite Forall_forall in *. intros x I. apply insert_key_in in I. destruct I as [-> | I]; [apply less_total; [exact E|exact L]|exact (Hf x I)].
Qed.
Lemma filter_sorted f ks : sorted ks -> sorted (filter f ks).
Proof.
  intros H. induction H as [|k ks Hs IH Hf]; cbn; [constructor|]. destruct (f k); [|exact IH]. constructor; [exact IH|]. rewrite Forall_forall in *. intros x I. apply filter_In in I. apply Hf, I.
Qed.
Lemma sorted_nodup ks : sorted ks -> NoDup ks.
Proof. intros H. induction H as [|k ks Hs IH Hf]; constructor; [|exact IH]. intros I. rewrite Forall_forall in Hf. specialize (Hf k I). rewrite less_irrefl in Hf. discriminate Hf. Qed.

Lemma find_sub_in m k c : In c (find_sub m k) <-> In c (keys m) /\ above k c.
Proof. unfold find_sub. rewrite filter_In, andb_true_iff, sub_within, negb_true_iff, dir_eqb_neq, above_iff. tauto. Qed.

(* Directories this one is in. *)
Lemma firstn_within n d : within (firstn n d) d.
Proof. exists (skipn n d). symmetry. apply firstn_skipn. Qed.
Lemma within_firstn x d : within x d -> x = firstn (length x) d.
Proof. intros (z & ->). rewrite firstn_app, Nat.sub_diag, firstn_all. cbn. rewrite app_nil_r. reflexivity. Qed.
Definition sups_below (k : dir) (n : nat) : list dir := map (fun n => firstn n k) (rev (seq 0 n)).
Lemma find_sups (f : dir -> bool) k : forall n, n <= S (length k) ->
  match List.find f (sups_below k n) with
  | Some x => f x = true /\ within x k /\ length x < n /\ forall y, within y k -> f y = true -> length y < n -> within y x
  | None => forall y, within y k -> length y < n -> f y = false
  end.
Proof.
  induction n as [|n IH]; intros L; [cbn; lia|]. unfold sups_below in *. rewrite seq_S, rev_app_distr. cbn [Nat.add rev app map List.find]. assert (Ln : length (firstn n k) = n) by (apply firstn_length_le; lia).
  destruct (f (firstn n k)) eqn:E.
  - split; [exact E|]. split; [apply firstn_within|]. split; [lia|]. intros y W _ Ly. rewrite (within_firstn _ _ W). exists (firstn (n - length y) (skipn (length y) k)).
    pose proof (firstn_skipn (length y) k) as Hk. rewrite <- Hk at 1. rewrite firstn_app. rewrite <- (within_firstn _ _ W). rewrite firstn_all2 by lia. reflexivity.
  - specialize (IH ltac:(lia)). destruct (List.find f _) as [x|].
    + destruct IH as (F & W & Lx & A). split; [exact F|]. split; [exact W|]. split; [lia|]. intros y Wy Fy Ly. destruct (Nat.eq_dec (length y) n) as [En|En]; [|apply A; [exact Wy|exact Fy|lia]]. exfalso. rewrite (within_firstn _ _ Wy), En in Fy. congruence.
    + intros y Wy Ly. destruct (Nat.eq_dec (length y) n) as [En|En]; [rewrite (within_firstn _ _ Wy), En; exact E|apply IH; [exact Wy|lia]].
Qed.
Lemma find_sups_some f k x : List.find f (sups k) = Some x <-> innermost (fun d => f d = true) k x.
Proof.
  change (sups k) with (sups_below k (S (length k))). pose proof (find_sups f k (S (length k)) (le_n _)) as H. destruct (List.find f _) as [y|]; split.
  - intros X. injection X as <-. destruct H as (F & W & _ & A). split; [exact F|]. split; [exact W|]. intros z Fz Wz. apply A; [exact Wz|exact Fz|]. pose proof (within_length _ _ Wz). lia.
  - intros (F & W & A). destruct H as (F' & W' & _ & A'). f_equal. apply within_antisym; [apply A; assumption|]. apply A'; [exact W|exact F|]. pose proof (within_length _ _ W). lia.
  - discriminate.
  - intros (F & W & _). rewrite (H x W) in F; [discriminate F|]. pose proof (within_length _ _ W). lia.
Qed.
Lemma find_sups_none f k : List.find f (sups k) = None -> forall y, within y k -> f y = false.
Proof. change (sups k) with (sups_below k (S (length k))). pose proof (find_sups f k (S (length k)) (le_n _)) as H. intros E. rewrite E in H. intros y W. apply H; [exact W|]. pose proof (within_length _ _ W). lia. Qed.

Lemma in_keys ks d : existsb (dir_eqb d) ks = true <-> In d ks.
Proof. rewrite existsb_exists. split; [intros (x & I & E); apply dir_eqb_eq in E; subst; exact I|intros I; exists d; split; [exact I|apply dir_eqb_refl]]. Qed.

(* The loop of adoption. *)
Definition renew (k : dir) (rt : bool) (P : dir) (rP : option dir) (sc : scope) : scope :=
  mkscope (if opt_eqb (Some P) (parent sc) then Some k else parent sc) (if rt && opt_eqb (root sc) rP then Some k else root sc).
Lemma adopt_some k rt P sP cs : forall m, NoDup cs -> ~ In P cs -> out m P = Some sP ->
  exists m', adopt m k rt cs (Some P) = Some (m', Some P) /\ keys m' = keys m /\ src m' = src m /\
    forall d, out m' d = if in_dec dir_dec d cs then option_map (renew k rt P (root sP)) (out m d) else out m d.
Proof.
  induction cs as [|c cs IH]; intros m ND NP EP.
  - exists m. repeat split. 
  - inversion ND as [|? ? Nc ND']; subst. assert (NP' : ~ In P cs) by (intros I; apply NP; right; exact I). assert (Ncp : P <> c) by (intros ->; apply NP; left; reflexivity). cbn [adopt].
    destruct (out m c) as [sc|] eqn:Ec.
    + set (m1 := set_out m c (renew k rt P (root sP) sc)). assert (E1 : out m1 P = Some sP) by (unfold m1; cbn; apply dir_eqb_neq in Ncp; rewrite Ncp; exact EP).
      destruct (IH m1 ND' NP' E1) as (m' & A & K & Sr & H). exists m'. split.
      * rewrite EP. cbn [option_map]. destruct rt; [rewrite <- A|rewrite <- A]; unfold m1, renew; cbn [andb]; reflexivity.
      * split; [exact K|]. split; [exact Sr|]. intros d. rewrite H. unfold m1. cbn [set_out out]. destruct (in_dec dir_dec d (c :: cs)) as [I|I], (in_dec dir_dec d cs) as [I'|I'].
        -- assert (N : d <> c) by congruence. apply dir_eqb_neq in N. rewrite N. reflexivity.
        -- destruct I as [<-|I]; [|contradiction]. rewrite dir_eqb_refl, Ec. reflexivity.
        -- destruct I. right. exact I'.
        -- assert (N : d <> c) by (intros ->; apply I; left; reflexivity). apply dir_eqb_neq in N. rewrite N. reflexivity.
    + destruct (IH m ND' NP' EP) as (m' & A & K & Sr & H). exists m'. split; [exact A|]. split; [exact K|]. split; [exact Sr|]. intros d. rewrite H. destruct (in_dec dir_dec d (c :: cs)) as [I|I], (in_dec dir_dec d cs) as [I'|I']; try reflexivity.
      * destruct I as [<-|I]; [|contradiction]. rewrite Ec. reflexivity.
      * destruct I. right. exact I'.
Qed.
Lemma adopt_none k rt cs m : (forall c, In c cs -> out m c = None) -> adopt m k rt cs None = Some (m, None).
Proof. induction cs as [|c cs IH]; intros H; [reflexivity|]. cbn. rewrite (H c) by (left; reflexivity). apply IH. intros x I. apply H. right. exact I. Qed.
Lemma adopt_first k rt cs m P : (exists l1 c l2 sc, cs = l1 ++ c :: l2 /\ (forall x, In x l1 -> out m x = None) /\ out m c = Some sc /\ parent sc = Some P) -> adopt m k rt cs None = adopt m k rt cs (Some P).
Proof.
  intros (l1 & c & l2 & sc & -> & H & Ec & Ep). induction l1 as [|x l1 IH].
  - cbn. rewrite Ec, Ep. reflexivity.
  - cbn. rewrite (H x) by (left; reflexivity). apply IH. intros y I. apply H. right. exact I.
Qed.
Lemma first_out m cs : (forall c, In c cs -> out m c = None) \/ exists l1 c l2 sc, cs = l1 ++ c :: l2 /\ (forall x, In x l1 -> out m x = None) /\ out m c = Some sc.
Proof.
  induction cs as [|c cs [IH|(l1 & c' & l2 & sc & -> & H & E)]]; [left; intros c []| |].
  - destruct (out m c) as [sc|] eqn:E; [right; exists [], c, cs, sc; split; [reflexivity|split; [intros x []|exact E]]|left; intros x [<-|I]; auto].
  - right. destruct (out m c) as [sc'|] eqn:E'; [exists [], c, (l1 ++ c' :: l2), sc'; split; [reflexivity|split; [intros x []|exact E']]|]. exists (c :: l1), c', l2, sc. split; [reflexivity|]. split; [intros x [<-|I]; auto|exact E].
Qed.
Lemma upgrade_ok k old cs : forall m, NoDup cs -> let m' := upgrade m k old cs in keys m' = keys m /\ src m' = src m /\
  forall d, out m' d = if in_dec dir_dec d cs then option_map (fun sc => mkscope (parent sc) (if opt_eqb (root sc) old then Some k else root sc)) (out m d) else out m d.
Proof.
  induction cs as [|c cs IH]; intros m ND; cbn [upgrade]; [repeat split|]. inversion ND as [|? ? Nc ND']; subst. destruct (out m c) as [sc|] eqn:Ec.
  - set (m1 := if opt_eqb (root sc) old then _ else m). destruct (IH m1 ND') as (K & Sr & H). assert (K1 : keys m1 = keys m /\ src m1 = src m) by (unfold m1; destruct (opt_eqb (root sc) old); split; reflexivity). split; [rewrite K; apply K1|]. split; [rewrite Sr; apply K1|].
    assert (O1 : forall d, d <> c -> out m1 d = out m d) by (intros d N; unfold m1; destruct (opt_eqb (root sc) old); [|reflexivity]; cbn; apply dir_eqb_neq in N; rewrite N; reflexivity).
    intros d. rewrite H. destruct (in_dec dir_dec d (c :: cs)) as [I|I], (in_dec dir_dec d cs) as [I'|I'].
    + rewrite O1 by congruence. reflexivity.
    + destruct I as [<-|I]; [|contradiction]. unfold m1. rewrite Ec. cbn. destruct (opt_eqb (root sc) old); [cbn; rewrite dir_eqb_refl; reflexivity|rewrite Ec; destruct sc; reflexivity].
    + destruct I. right. exact I'.
    + apply O1. intros ->. apply I. left. reflexivity.
  - destruct (IH m ND') as (K & Sr & H). split; [exact K|]. split; [exact Sr|]. intros d. rewrite H. destruct (in_dec dir_dec d (c :: cs)) as [I|I], (in_dec dir_dec d cs) as [I'|I']; try reflexivity.
    + destruct I as [<-|I]; [|contradiction]. rewrite Ec. reflexivity.
    + destruct I. right. exact I'.
Qed.

(* The invariant, for the sets of scopes (O) and of roots (R). *)
Definition parent_ok (O : dir -> Prop) (d : dir) (p : option dir) : Prop := match p with Some p => nearest O d p | None => d = [] end.
Definition root_ok (R : dir -> Prop) (d : dir) (r : option dir) : Prop := match r with Some r => innermost R d r | None => forall r, R r -> ~ within r d end.
Record Inv (O R : dir -> Prop) (S : dir -> dir -> Prop) (m : scope_map) : Prop := {
  i_sorted : sorted (keys m);
  i_keys : forall d, In d (keys m) <-> O d \/ exists s, S d s;
  i_global : O [];
  i_out : forall d, O d <-> exists s, out m d = Some s;
  i_roots : forall d, R d -> O d;
  i_parent : forall d s, out m d = Some s -> parent_ok O d (parent s);
  i_root : forall d s, out m d = Some s -> root_ok R d (root s);
  i_src : forall d s, In s (src m d) <-> S d s
}.
Lemma find_out_iff O R S m d x : Inv O R S m -> (find_out m d = Some x <-> innermost O d x).
Proof.
  intros I. unfold find_out. rewrite find_sups_some. assert (E : forall y, existsb (dir_eqb y) (keys m) && match out m y with Some _ => true | None => false end = true <-> O y).
  { intros y. rewrite andb_true_iff, in_keys, (i_keys _ _ _ _ I). pose proof (i_out _ _ _ _ I y) as H. destruct (out m y) as [s|] eqn:Ey.
    - split; [intros _; apply H; exists s; reflexivity|intros Oy; split; [left; exact Oy|reflexivity]].
    - split; [intros [_ X]; discriminate X|intros Oy; apply H in Oy; destruct Oy as (s & X); discriminate X]. }
  unfold innermost. rewrite E. split; intros (A & B & C); (split; [exact A|split; [exact B|]]); intros y Oy; apply C; apply E, Oy.
Qed.
Lemma find_out_some O R S m d : Inv O R S m -> exists x, find_out m d = Some x.
Proof.
  intros I. destruct (find_out m d) as [x|] eqn:E; [exists x; reflexivity|]. unfold find_out in E. pose proof (find_sups_none _ _ E [] (nil_within d)) as X. cbn in X.
  rewrite andb_false_iff in X. destruct X as [X|X].
  - assert (Y : In [] (keys m)) by (apply (i_keys _ _ _ _ I); left; apply (i_global _ _ _ _ I)). apply in_keys in Y. congruence.
  - destruct (proj1 (i_out _ _ _ _ I []) (i_global _ _ _ _ I)) as (s & Y). rewrite Y in X. discriminate X.
Qed.
Lemma Inv_ext (O O' R R' : dir -> Prop) (S S' : dir -> dir -> Prop) m : (forall d, O d <-> O' d) -> (forall d, R d <-> R' d) -> (forall d s, S d s <-> S' d s) -> Inv O R S m -> Inv O' R' S' m.
Proof.
  intros EO ER ES [A B C D E F G H]. constructor.
  - exact A.
  - intros d. rewrite B, EO. assert (X : (exists s, S d s) <-> exists s, S' d s) by (split; intros (s & Y); exists s; apply ES, Y). rewrite X. reflexivity.
  - apply EO, C.
  - intros d. rewrite <- EO. apply D.
  - intros d X. apply EO, E, ER, X.
  - intros d s X. specialize (F d s X). unfold parent_ok, nearest in *. destruct (parent s) as [p|]; [|exact F]. destruct F as (F1 & F2 & F3). split; [apply EO, F1|]. split; [exact F2|]. intros y Oy. apply F3, EO, Oy.
  - intros d s X. specialize (G d s X). unfold root_ok, innermost in *. destruct (root s) as [r|]; [|intros r Rr; apply G, ER, Rr]. destruct G as (F1 & F2 & F3). split; [apply ER, F1|]. split; [exact F2|]. intros y Oy. apply F3, ER, Oy.
  - intros d s. rewrite <- ES. apply H.
Qed.

Section New.
Context (O R : dir -> Prop) (S : dir -> dir -> Prop) (m : scope_map) (I : Inv O R S m) (k : dir) (rt : bool) (Nk : ~ O k).

Lemma has_parent : exists P sP, nearest O k P /\ out m P = Some sP /\ find_out m (removelast k) = Some P.
Proof.
  assert (N : k <> []) by (intros ->; apply Nk, (i_global _ _ _ _ I)). destruct (find_out_some _ _ _ _ (removelast k) I) as (P & E). pose proof (proj1 (find_out_iff _ _ _ _ _ _ I) E) as (H1 & H2 & H3). destruct (proj1 (i_out _ _ _ _ I P) H1) as (sP & Es). exists P, sP. split; [|split; [exact Es|exact E]]. split; [exact H1|]. split; [apply removelast_above; assumption|]. intros y Oy Ay. apply H3; [exact Oy|apply removelast_above; assumption].
Qed.
Lemma nearest_unique (Q : dir -> Prop) d x y : nearest Q d x -> nearest Q d y -> x = y.
Proof. intros (A1 & B1 & C1) (A2 & B2 & C2). apply within_antisym; auto. Qed.
Lemma innermost_unique (Q : dir -> Prop) d x y : innermost Q d x -> innermost Q d y -> x = y.
Proof. intros (A1 & B1 & C1) (A2 & B2 & C2). apply within_antisym; auto. Qed.

Definition O' (d : dir) := O d \/ d = k.
Definition R' (d : dir) := R d \/ (d = k /\ rt = true).
Lemma insert_new : exists m', insert_out m k rt = Some m' /\ Inv O' R' S m'.
Proof.
  destruct has_parent as (P & sP & HP & EP & FP). pose proof HP as (OP & AP & MP).
  assert (Ek : out m k = None) by (destruct (out m k) as [s|] eqn:E; [destruct Nk; apply (i_out _ _ _ _ I); exists s; exact E|reflexivity]).
  unfold insert_out. cbn [emplace out]. rewrite Ek. set (m0 := set_out (emplace m k) k (mkscope None None)).
  assert (K0 : keys m0 = insert_key k (keys m)) by reflexivity.
  assert (S0 : sorted (keys m0)) by (rewrite K0; apply insert_key_sorted, (i_sorted _ _ _ _ I)).
  assert (I0 : forall d, In d (keys m0) <-> d = k \/ In d (keys m)) by (intros d; rewrite K0; apply insert_key_in).
  assert (Out0 : forall d, d <> k -> out m0 d = out m d) by (intros d N; unfold m0; cbn; apply dir_eqb_neq in N; rewrite N; reflexivity).
  assert (NPk : P <> k) by (intros ->; contradiction).
  assert (NK : k <> []) by (intros ->; apply Nk, (i_global _ _ _ _ I)).
  assert (Len : 1 <? length (keys m0) = true).
  { apply Nat.ltb_lt. assert (X : incl [k; []] (keys m0)) by (intros x [<-|[<-|[]]]; apply I0; [left; reflexivity|right; apply (i_keys _ _ _ _ I); left; apply (i_global _ _ _ _ I)]). assert (ND : NoDup [k; []]) by (constructor; [intros [Y|[]]; congruence|repeat constructor; auto]). exact (NoDup_incl_length ND X). }
  rewrite Len. set (cs := find_sub m0 k).
  assert (Ics : forall c, In c cs <-> In c (keys m) /\ above k c).
  { intros c. unfold cs. rewrite find_sub_in, I0. split; [intros [[-> | X] A]; [apply above_iff in A; destruct A as [_ A]; contradiction|auto]|intros [X A]; auto]. }
  assert (NDcs : NoDup cs) by (apply sorted_nodup, filter_sorted, S0).
  assert (NPcs : ~ In P cs) by (intros X; apply Ics in X; destruct X as [_ A]; pose proof (above_length _ _ A); pose proof (above_length _ _ AP); lia).
  assert (EP0 : out m0 P = Some sP) by (rewrite Out0 by exact NPk; exact EP).
  (* The new scopes. *)
  assert (Main : exists m1, (match adopt m0 k rt cs None with
               | Some (m, Some p) => Some (m, Some p)
               | Some (m, None) => match find_out m (removelast k) with Some p => Some (m, Some p) | None => None end
               | None => None end) = Some (m1, Some P) /\ keys m1 = keys m0 /\ src m1 = src m0 /\
      forall d, out m1 d = if in_dec dir_dec d cs then option_map (renew k rt P (root sP)) (out m0 d) else out m0 d).
  { destruct (first_out m0 cs) as [H|(l1 & c & l2 & sc & Ecs & H & Ec)].
    - rewrite (adopt_none _ _ _ _ H). exists m0. split; [|split; [reflexivity|split; [reflexivity|]]].
      + assert (F0 : find_out m0 (removelast k) = Some P).
        { unfold find_out. apply find_sups_some. assert (E : forall y, within y (removelast k) -> (existsb (dir_eqb y) (keys m0) && match out m0 y with Some _ => true | None => false end = true <-> O y)).
          { intros y Wy. assert (Ny : y <> k) by (intros ->; apply removelast_above in Wy; [apply above_iff in Wy; destruct Wy as [_ X]; contradiction|exact NK]). rewrite Out0 by exact Ny. rewrite andb_true_iff, in_keys, I0, (i_keys _ _ _ _ I). pose proof (i_out _ _ _ _ I y) as X. destruct (out m y) as [s|] eqn:Ey.
            - split; [intros _; apply X; exists s; reflexivity|intros Oy; split; [right; left; exact Oy|reflexivity]].
            - split; [intros [_ Z]; discriminate Z|intros Oy; apply X in Oy; destruct Oy as (s & Z); discriminate Z]. }
          assert (WP : within P (removelast k)) by (apply removelast_above; assumption). split; [apply E; assumption|]. split; [exact WP|]. intros y Fy Wy. apply MP; [apply E; assumption|apply removelast_above; assumption]. }
        rewrite F0. reflexivity.
      + intros d. destruct (in_dec dir_dec d cs) as [Id|Id]; [rewrite (H d Id); reflexivity|reflexivity].
    - assert (Ic : In c cs) by (rewrite Ecs; apply in_or_app; right; left; reflexivity). pose proof (proj1 (Ics c) Ic) as [Ick Ac]. assert (Nc : c <> k) by (intros ->; apply above_iff in Ac; destruct Ac as [_ Y]; contradiction).
      assert (Pc : parent sc = Some P).
      { rewrite Out0 in Ec by exact Nc. pose proof (i_parent _ _ _ _ I c sc Ec) as Hp. unfold parent_ok in Hp. destruct (parent sc) as [q|]; [|subst c; destruct Ac as (a & z & Y); destruct k; discriminate Y]. f_equal. destruct Hp as (Oq & Aq & Mq).
        assert (Wq : within q k).
        { destruct (comparable q k c (above_within _ _ Aq) (above_within _ _ Ac)) as [X|X]; [exact X|]. destruct (dir_dec k q) as [<-|Nq]; [contradiction|]. exfalso.
          assert (Iq : In q cs) by (apply Ics; split; [apply (i_keys _ _ _ _ I); left; exact Oq|apply above_iff; auto]). rewrite Ecs in Iq. apply in_app_iff in Iq.
          assert (Oq0 : out m0 q <> None) by (rewrite Out0 by congruence; destruct (proj1 (i_out _ _ _ _ I q) Oq) as (sq & Z); rewrite Z; discriminate).
          destruct Iq as [Iq|[<-|Iq]]; [exact (Oq0 (H q Iq))|apply above_iff in Aq; destruct Aq as [_ Z]; contradiction|].
          pose proof (filter_sorted (fun c => sub k c && negb (dir_eqb k c)) _ S0) as Sc. change (sorted cs) in Sc. rewrite Ecs in Sc. clear - Sc Iq Aq. induction l1 as [|x l1 IH]; [|inversion Sc; auto]. cbn in Sc. inversion Sc as [|? ? _ F]; subst. rewrite Forall_forall in F. pose proof (less_trans _ _ _ (F q Iq) (above_less _ _ Aq)) as Z. rewrite less_irrefl in Z. discriminate Z. }
        apply (nearest_unique O k); [|exact HP]. split; [exact Oq|]. split; [apply above_iff; split; [exact Wq|intros ->; contradiction]|]. intros y Oy Ay. apply Mq; [exact Oy|]. exact (above_trans_l _ _ _ Ay (above_within _ _ Ac)). }
      rewrite (adopt_first k rt cs m0 P) by (exists l1, c, l2, sc; auto). destruct (adopt_some k rt P sP cs m0 NDcs NPcs EP0) as (m1 & A & K1 & Sr1 & H1). exists m1. rewrite A. auto. }
  destruct Main as (m1 & EM & K1 & Sr1 & H1). rewrite EM. eexists. split; [reflexivity|].
  assert (EP1 : out m1 P = Some sP) by (rewrite H1; destruct (in_dec dir_dec P cs); [contradiction|exact EP0]). rewrite EP1.
  set (m2 := set_out m1 k _).
  (* Pointwise. *)
  assert (Q1 : out m2 k = Some (mkscope (Some P) (if rt then Some k else root sP))) by (unfold m2; cbn; rewrite dir_eqb_refl; reflexivity).
  assert (Q2 : forall d, above k d -> out m2 d = option_map (renew k rt P (root sP)) (out m d)).
  { intros d A. assert (N : d <> k) by (intros ->; apply above_iff in A; destruct A as [_ Y]; contradiction). unfold m2. cbn. rewrite (proj2 (dir_eqb_neq d k) N). rewrite H1. rewrite Out0 by exact N. destruct (in_dec dir_dec d cs) as [Id|Id]; [reflexivity|]. destruct (out m d) as [s|] eqn:Ed; [|reflexivity]. destruct Id. apply Ics. split; [apply (i_keys _ _ _ _ I); left; apply (i_out _ _ _ _ I); exists s; exact Ed|exact A]. }
  assert (Q3 : forall d, d <> k -> ~ above k d -> out m2 d = out m d).
  { intros d N A. unfold m2. cbn. rewrite (proj2 (dir_eqb_neq d k) N). rewrite H1, Out0 by exact N. destruct (in_dec dir_dec d cs) as [Id|Id]; [|reflexivity]. apply Ics in Id. tauto. }
  assert (Dec : forall d, d = k \/ above k d \/ (d <> k /\ ~ above k d)).
  { intros d. destruct (dir_dec d k) as [E|N]; [left; exact E|right]. destruct (sub k d) eqn:Sb; [left; apply above_iff; split; [apply sub_within, Sb|congruence]|right; split; [exact N|]]. intros A. apply above_within, sub_within in A. congruence. }
  assert (RP : root_ok R P (root sP)) by exact (i_root _ _ _ _ I P sP EP).
  assert (Rk : forall y, R y -> within y k -> within y P).
  { intros y Ry Wy. apply MP; [apply (i_roots _ _ _ _ I), Ry|]. apply above_iff. split; [exact Wy|]. intros ->. apply Nk, (i_roots _ _ _ _ I), Ry. }
  constructor.
  - unfold m2. cbn. rewrite K1. exact S0.
  - intros d. unfold m2, O'. cbn. rewrite K1, I0, (i_keys _ _ _ _ I). tauto.
  - left. exact (i_global _ _ _ _ I).
  - intros d. unfold O'. destruct (Dec d) as [-> | [A|[N A]]].
    + rewrite Q1. split; [eexists; reflexivity|auto].
    + rewrite (Q2 d A), (i_out _ _ _ _ I d). assert (N : d <> k) by (intros ->; apply above_iff in A; destruct A as [_ Y]; contradiction). destruct (out m d) as [s|]; cbn; split; [eexists; reflexivity|left; eexists; reflexivity|intros [(s & Y)|Y]; [discriminate Y|contradiction]|intros (s & Y); discriminate Y].
    + rewrite (Q3 d N A), (i_out _ _ _ _ I d). tauto.
  - intros d [X|[X _]]; [left; apply (i_roots _ _ _ _ I), X|right; exact X].
  - intros d s E. destruct (Dec d) as [-> | [A|[N A]]].
    + rewrite Q1 in E. injection E as <-. cbn. split; [left; exact OP|]. split; [exact AP|]. intros y [Oy| ->] Ay; [apply MP; assumption|]. apply above_iff in Ay. destruct Ay as [_ Y]; contradiction.
    + rewrite (Q2 d A) in E. destruct (out m d) as [s0|] eqn:Ed; [|discriminate E]. injection E as <-. unfold renew. cbn [parent]. pose proof (i_parent _ _ _ _ I d s0 Ed) as Hp. unfold parent_ok in Hp. destruct (parent s0) as [q|]; [|subst d; destruct A as (a & z & Y); destruct k; discriminate Y]. destruct Hp as (Oq & Aq & Mq).
      destruct (opt_eqb (Some P) (Some q)) eqn:Eq.
      * apply opt_eqb_eq in Eq. injection Eq as <-. cbn. split; [right; reflexivity|]. split; [exact A|]. intros y [Oy| ->] Ay; [|apply within_refl]. exact (within_trans _ _ _ (Mq y Oy Ay) (above_within _ _ AP)).
      * apply opt_eqb_neq in Eq. cbn. split; [left; exact Oq|]. split; [exact Aq|]. intros y [Oy| ->] Ay; [apply Mq; assumption|]. destruct (comparable k q d (above_within _ _ A) (above_within _ _ Aq)) as [X|X]; [exact X|]. exfalso. apply Eq. f_equal. apply (nearest_unique O k); [exact HP|]. split; [exact Oq|]. split; [apply above_iff; split; [exact X|intros ->; contradiction]|]. intros y Oy Ayk. apply Mq; [exact Oy|exact (above_trans_l _ _ _ Ayk (above_within _ _ A))].
    + rewrite (Q3 d N A) in E. pose proof (i_parent _ _ _ _ I d s E) as Hp. unfold parent_ok in *. destruct (parent s) as [q|]; [|exact Hp]. destruct Hp as (Oq & Aq & Mq). split; [left; exact Oq|]. split; [exact Aq|]. intros y [Oy| ->] Ay; [apply Mq; assumption|contradiction].
  - intros d s E. destruct (Dec d) as [-> | [A|[N A]]].
    + rewrite Q1 in E. injection E as <-. cbn [root]. destruct rt eqn:Ert.
      * cbn. split; [right; rewrite Ert; auto|]. split; [apply within_refl|]. intros y _ Wy. exact Wy.
      * unfold root_ok in *. destruct (root sP) as [r|].
        -- destruct RP as (R1 & R2 & R3). split; [left; exact R1|]. split; [exact (within_trans _ _ _ R2 (above_within _ _ AP))|]. intros y [Ry|[_ Y]] Wy; [|congruence]. apply R3; [exact Ry|apply Rk; assumption].
        -- intros y [Ry|[_ Y]] Wy; [|congruence]. exact (RP y Ry (Rk y Ry Wy)).
    + rewrite (Q2 d A) in E. destruct (out m d) as [s0|] eqn:Ed; [|discriminate E]. injection E as <-. unfold renew. cbn [root]. pose proof (i_root _ _ _ _ I d s0 Ed) as Hr. destruct rt eqn:Ert.
      * cbn [andb]. destruct (opt_eqb (root s0) (root sP)) eqn:Eq.
        -- apply opt_eqb_eq in Eq. cbn. split; [right; rewrite Ert; auto|]. split; [exact (above_within _ _ A)|]. intros y [Ry|[-> _]] Wy; [|apply within_refl]. rewrite Eq in Hr. unfold root_ok in *. destruct (root sP) as [r|]; [|destruct (Hr y Ry Wy)]. destruct Hr as (_ & _ & H3). exact (within_trans _ _ _ (H3 y Ry Wy) (within_trans _ _ _ (proj1 (proj2 RP)) (above_within _ _ AP))).
        -- apply opt_eqb_neq in Eq. assert (WPd : within P d) by exact (within_trans _ _ _ (above_within _ _ AP) (above_within _ _ A)). unfold root_ok in *. destruct (root s0) as [r|].
           ++ destruct Hr as (R1 & R2 & R3). split; [left; exact R1|]. split; [exact R2|]. intros y [Ry|[-> _]] Wy; [apply R3; assumption|]. destruct (comparable k r d (above_within _ _ A) R2) as [X|X]; [exact X|]. exfalso. pose proof (Rk r R1 X) as WrP. destruct (root sP) as [r2|]; [|exact (RP r R1 WrP)]. apply Eq. f_equal. destruct RP as (P1 & P2 & P3). apply within_antisym; [apply P3; assumption|]. apply R3; [exact P1|exact (within_trans _ _ _ P2 WPd)].
           ++ exfalso. destruct (root sP) as [r2|]; [|congruence]. destruct RP as (P1 & P2 & _). exact (Hr r2 P1 (within_trans _ _ _ P2 WPd)).
      * cbn [andb]. unfold root_ok in *. destruct (root s0) as [r|].
        -- destruct Hr as (R1 & R2 & R3). split; [left; exact R1|]. split; [exact R2|]. intros y [Ry|[_ Y]] Wy; [apply R3; assumption|congruence].
        -- intros y [Ry|[_ Y]] Wy; [exact (Hr y Ry Wy)|congruence].
    + rewrite (Q3 d N A) in E. pose proof (i_root _ _ _ _ I d s E) as Hr. assert (NW : ~ within k d) by (intros W; apply A, above_iff; split; [exact W|congruence]). unfold root_ok in *. destruct (root s) as [r|].
      * destruct Hr as (R1 & R2 & R3). split; [left; exact R1|]. split; [exact R2|]. intros y [Ry|[-> _]] Wy; [apply R3; assumption|contradiction].
      * intros y [Ry|[-> _]] Wy; [exact (Hr y Ry Wy)|contradiction].
  - intros d s. unfold m2. cbn. rewrite Sr1. exact (i_src _ _ _ _ I d s).
Qed.
End New.
