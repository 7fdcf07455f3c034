(* Proofs about overriding variables: the cache. *)
From Verif Require Import Base VarModel OvrModel OvrSpec OvrProofs OvrProofs2.

Section Cache.
Context {V N : Type} (w : oops V N) (sub : nat -> nat -> bool) (ovrs : list (override N)) (overs : nat -> nat -> nat).
Hypothesis Hsub : forall p, sub p p = false.
Hypothesis Hglobal : forall v, In v ovrs -> ovis v = OGlobal.
Notation place := (place N).
Notation look r := (lookup_override w sub ovrs (original r) (for_target r) overs (from r)).

Definition same (c d : place) : Prop := in_scope_ c = in_scope_ d /\ which c = which d /\ what c = what d.
Lemma same_has c d : same c d -> has c = has d.
Proof. intros (H1 & H2 & H3). unfold has. rewrite H1, H3. reflexivity. Qed.
Lemma same_affix c d : same c d -> affix c = affix d.
Proof. intros H. unfold affix. rewrite (same_has c d H). destruct H as (H1 & H2 & ->). reflexivity. Qed.
Lemma at_scope_same i j s : forall js, Forall2 same (at_scope i s js) (at_scope j s js).
Proof. induction js as [|k js IH]; constructor; [repeat split|exact IH]. Qed.
Lemma order_same : forall rest i j, Forall2 same (order_from ovrs i rest) (order_from ovrs j rest).
Proof. induction rest as [|s rest IH]; intros i j; [constructor|]. unfold order_from. cbn [indexed flat_map fst snd]. apply Forall2_app; [apply at_scope_same|apply IH]. Qed.
Lemma latest_same : forall rest i j, Forall2 same (latest_from ovrs i rest) (latest_from ovrs j rest).
Proof. induction rest as [|s rest IH]; intros i j; [constructor|]. unfold latest_from. cbn [indexed flat_map fst snd]. apply Forall2_app; [apply at_scope_same|apply IH]. Qed.
Lemma find_same (f g : place -> bool) : forall l m, Forall2 same l m -> (forall c d, In c l -> In d m -> same c d -> f c = g d) ->
  match List.find f l, List.find g m with Some c, Some d => same c d | None, None => True | _, _ => False end.
Proof.
  intros l m H. induction H as [|c d l m Hs H IH]; intros E; cbn [List.find]; [exact I|]. rewrite (E c d (or_introl eq_refl) (or_introl eq_refl) Hs). destruct (g d); [exact Hs|].
  apply IH. intros x y Hx Hy. apply E; right; assumption.
Qed.
Lemma filter_same (f g : place -> bool) : forall l m, Forall2 same l m -> (forall c d, same c d -> f c = g d) -> Forall2 same (filter f l) (filter g m).
Proof. intros l m H E. induction H as [|c d l m Hs H IH]; cbn [filter]; [constructor|]. rewrite (E c d Hs). destruct (g d); [constructor; assumption|exact IH]. Qed.
Lemma fold_same : forall l m, Forall2 same l m -> forall v, fold_left (add_affix w) l v = fold_left (add_affix w) m v.
Proof.
  intros l m H. induction H as [|c d l m Hs H IH]; intros v; [reflexivity|]. cbn [fold_left]. rewrite IH. f_equal. unfold add_affix. rewrite (same_has c d Hs). destruct Hs as (_ & _ & ->). reflexivity.
Qed.
Lemma order_app bf rest : by_order ovrs (bf ++ rest) = order_from ovrs 0 bf ++ order_from ovrs (length bf) rest.
Proof. unfold by_order, order_from. rewrite indexed_app, flat_map_app. reflexivity. Qed.
Lemma latest_app bf rest : by_latest ovrs (bf ++ rest) = latest_from ovrs 0 bf ++ latest_from ovrs (length bf) rest.
Proof. unfold by_latest, latest_from. rewrite indexed_app, flat_map_app. reflexivity. Qed.
Lemma latest_in_order c i rest : In c (latest_from ovrs i rest) -> In c (order_from ovrs i rest).
Proof. unfold latest_from, order_from. rewrite !in_flat_map. intros [x [H1 H2]]. exists x. split; [exact H1|]. unfold at_scope in *. apply in_map_iff in H2. destruct H2 as [j [<- H2]]. apply in_map_iff. exists j. split; [reflexivity|]. apply in_rev. exact H2. Qed.
Lemma in_order_global c i rest : In c (order_from ovrs i rest) -> ovis (what c) = OGlobal.
Proof.
  unfold order_from. intros H. apply in_flat_map in H. destruct H as [x [_ H]]. unfold at_scope in H. apply in_map_iff in H. destruct H as [[k v] [<- H]]. apply indexed_in in H. cbn [what snd]. apply Hglobal. eapply nth_error_In. exact (proj2 H).
Qed.
Lemma filter_nothing {X} (f : X -> bool) : forall l, (forall x, In x l -> f x = false) -> filter f l = [].
Proof. induction l as [|x l IH]; intros H; [reflexivity|]. cbn [filter]. rewrite (H x (or_introl eq_refl)). apply IH. intros y Hy. apply H. right. exact Hy. Qed.
Lemma find_nothing {X} (f : X -> bool) : forall l, (forall x, In x l -> f x = false) -> List.find f l = None.
Proof. induction l as [|x l IH]; intros H; [reflexivity|]. cbn [List.find]. rewrite (H x (or_introl eq_refl)). apply IH. intros y Hy. apply H. right. exact Hy. Qed.

Definition is_assignment (c : place) : bool := match kind (what c), has c with KAssign, Some _ => true | _, _ => false end.
Lemma assignment_global chain o c i rest : In c (order_from ovrs i rest) -> assignment (V := V) sub chain o c = is_assignment c.
Proof.
  intros H. apply in_order_global in H. unfold assignment, is_assignment, applies_to. rewrite H. destruct (kind (what c)); try reflexivity. destruct (has c); [|reflexivity].
  destruct o as [x|]; [apply Bool.orb_true_r|reflexivity].
Qed.
Definition empty (bf : list oscope) : Prop := forall c, In c (order_from ovrs 0 bf) -> has c = None.
Lemma stem_rest bf rest (o : option (orig V)) : empty bf ->
  List.find (assignment sub (bf ++ rest) o) (by_latest ovrs (bf ++ rest)) = List.find is_assignment (latest_from ovrs (length bf) rest).
Proof.
  intros H. rewrite latest_app, find_app, find_nothing.
  - apply find_ext. intros c Hc. apply (assignment_global _ _ c (length bf) rest). apply latest_in_order. exact Hc.
  - intros c Hc. unfold assignment. rewrite (H c (latest_in_order _ _ _ Hc)). destruct (kind (what c)); reflexivity.
Qed.
Lemma affixes_rest bf rest st : empty bf -> the_affixes (V := V) ovrs (bf ++ rest) st = filter (fun c => affix c && negb (superseded st c)) (order_from ovrs (length bf) rest).
Proof.
  intros H. unfold the_affixes. rewrite order_app, filter_app, filter_nothing; [reflexivity|]. intros c Hc. unfold affix. rewrite (H c Hc). destruct (kind (what c)); reflexivity.
Qed.

(* The value of a lookup. *)
Lemma value_global (r : request V) v m d f i p st : good_request r -> look r = Overridden v m d f i p st ->
  let st' := the_stem sub ovrs (from r) (original r) in
  v = fold_left (add_affix w) (the_affixes ovrs (from r) st') (stem_value w st') /\ st = model_stem w (for_target r) overs (from r) st' /\
  inner_loop sub ovrs (original r) (for_target r) (from r) (inner_at (original r) (from r) []) = Some (Some (i, p)).
Proof.
  intros [G1 G2] E st'. destruct (lookup_cases w sub ovrs (original r) (for_target r) overs (from r) G1 G2) as [[K _]|(m' & p' & K1 & K2)]; [congruence|].
  cbn zeta in K2. rewrite K2 in E. fold st' in E. destruct (affix_loop _ _ _ _ _ _ _) as [a|] eqn:Ea; [|discriminate]. injection E as <- _ _ _ <- <- <-.
  split; [|split; [reflexivity|exact K1]].
  apply (affix_result w sub ovrs (original r) (for_target r) overs (from r) G1 G2) in Ea. fold st' in Ea. rewrite Ea.
  assert (Hn : forall c, In c (the_affixes ovrs (from r) st') -> ovis (what c) = OGlobal). { intros c Hc. unfold the_affixes in Hc. apply filter_In in Hc. apply (in_order_global c 0 (from r)). exact (proj1 Hc). }
  assert (Hf : forall q, filter (in_project sub q) (the_affixes ovrs (from r) st') = the_affixes ovrs (from r) st').
  { intros q. assert (A : forall l : list place, (forall c, In c l -> in_project sub q c = true) -> filter (in_project sub q) l = l).
    { induction l as [|c l IH]; intros Hl; [reflexivity|]. cbn [filter]. rewrite (Hl c (or_introl eq_refl)), IH; [reflexivity|]. intros x Hx. apply Hl. right. exact Hx. }
    apply A. intros c Hc. unfold in_project. rewrite (Hn c Hc). reflexivity. }
  unfold st' in *. destruct (the_stem sub ovrs (from r) (original r)) as [c|x|]; cbn [start].
  - rewrite (fold_project w sub (for_target r)); [|intros y Hy; rewrite (Hn y Hy); discriminate|discriminate]. cbn [a_proj cv]. rewrite Hf. reflexivity.
  - rewrite (fold_project w sub (for_target r)); [|intros y Hy; rewrite (Hn y Hy); discriminate|discriminate]. cbn [a_proj cv]. rewrite Hf. reflexivity.
  - rewrite (fold_project_none w sub (for_target r) Hsub); [|intros y Hy; rewrite (Hn y Hy); discriminate]. rewrite Hf. reflexivity.
Qed.
(* Where its innermost value is. *)
Lemma inner_global (r : request V) i p : good_request r -> inner_loop sub ovrs (original r) (for_target r) (from r) (inner_at (original r) (from r) []) = Some (Some (i, p)) ->
  (exists x t, original r = Some x /\ vars x = MTarget t /\ i = MTarget t) \/
  (exists bf s rest, from r = bf ++ s :: rest /\ empty bf /\ (i = MScope (osid s) \/ exists q, i = MPattern (osid s) q)).
Proof.
  intros [G1 G2] E. assert (D : (exists x, original r = Some x /\ seen [] x = true) \/ forall x, original r = Some x -> seen [] x = false).
  { destruct (original r) as [x|]; [|right; discriminate]. destruct (seen [] x) eqn:S; [left; eauto|right; intros y F; injection F as <-; exact S]. }
  destruct D as [[x [Ho S]]|D].
  - left. exists x. assert (exists t, vars x = MTarget t) as [t Ht] by (unfold seen in S; destruct (vars x); try discriminate; eauto). exists t. split; [exact Ho|]. split; [exact Ht|].
    assert (I : inner_at (original r) (from r) [] = Some (vars x, project_of (from r) x)) by (unfold inner_at; rewrite Ho, S; reflexivity). rewrite I in E.
    assert (R : forall l z, inner_loop sub ovrs (original r) (for_target r) l (Some (vars x, project_of (from r) x)) = Some (Some z) -> z = (vars x, project_of (from r) x)).
    { clear. intros l. induction l as [|u l IHl]; intros z H; [discriminate|]. cbn [inner_loop] in H. destruct (any_applies _ _ _ _) as [[|]|]; [congruence|apply IHl; exact H|discriminate]. }
    apply R in E. injection E as -> _. exact Ht.
  - right. destruct (inner_some sub ovrs (original r) (for_target r) (from r) G1 G2 (from r) [] i p eq_refl E D) as (bf & s & out & K1 & K2 & _ & K4).
    exists bf, s, out. split; [exact K1|]. split; [exact K2|]. destruct K4 as [->|(x & J1 & -> & J3 & J4)]; [auto|]. cbn [app] in *.
    unfold seen in *. destruct (vars x) as [a|a q|a]; [left|right; exists q|discriminate].
    + rewrite existsb_app, J4 in J3. cbn [existsb orb] in J3. rewrite Bool.orb_false_r in J3. apply Nat.eqb_eq in J3. congruence.
    + rewrite existsb_app, J4 in J3. cbn [existsb orb] in J3. rewrite Bool.orb_false_r in J3. apply Nat.eqb_eq in J3. congruence.
Qed.
Definition stem_key (st : option (stem V)) : option (mapid * nat) := match st with Some x => Some (st_vars x, st_version x) | None => None end.
Lemma same_value rs (r q : request V) v m d f i p st v' m' d' f' st' : consistent rs -> In r rs -> In q rs -> good_request r -> good_request q ->
  look r = Overridden v m d f i p st -> look q = Overridden v' m' d' f' i p st' -> stem_key st = stem_key st' -> v = v'.
Proof.
  intros HC Hr Hq Gr Gq Er Eq Hk. destruct (HC r q Hr Hq) as (C1 & C2 & C3).
  destruct (value_global r _ _ _ _ _ _ _ Gr Er) as (A1 & A2 & A3). destruct (value_global q _ _ _ _ _ _ _ Gq Eq) as (B1 & B2 & B3).
  apply (inner_global r i p Gr) in A3. apply (inner_global q i p Gq) in B3.
  assert (R : exists bf bf' rest, from r = bf ++ rest /\ from q = bf' ++ rest /\ empty bf /\ empty bf').
  { destruct A3 as [(x & t & X1 & X2 & X3)|(bf & s & rest & X1 & X2 & X3)], B3 as [(y & u & Y1 & Y2 & Y3)|(bf' & s' & rest' & Y1 & Y2 & Y3)].
    - exists [], [], (from r). split; [reflexivity|]. split; [cbn [app]; symmetry; apply (C3 x y t X1 Y1 X2); congruence|]. split; intros c [].
    - exfalso. destruct Y3 as [Y3|[z Y3]]; congruence.
    - exfalso. destruct X3 as [X3|[z X3]]; congruence.
    - assert (osid s = osid s') by (destruct X3 as [X3|[z X3]], Y3 as [Y3|[z' Y3]]; congruence). destruct (C1 _ _ _ _ _ _ X1 Y1 H) as [<- <-]. exists bf, bf', (s :: rest). auto. }
  destruct R as (bf & bf' & rest & R1 & R2 & E1 & E2). subst v v' st st'.
  set (st1 := the_stem sub ovrs (from r) (original r)) in *. set (st2 := the_stem sub ovrs (from q) (original q)) in *.
  assert (S : (stem_value w st1 = stem_value w st2) /\ forall c d, same c d -> superseded st1 c = superseded st2 d).
  { pose proof (stem_rest bf rest (original r) E1) as F1. pose proof (stem_rest bf' rest (original q) E2) as F2. rewrite <- R1 in F1. rewrite <- R2 in F2.
    pose proof (find_same is_assignment is_assignment _ _ (latest_same rest (length bf) (length bf'))) as F.
    assert (FE : forall c d, In c (latest_from ovrs (length bf) rest) -> In d (latest_from ovrs (length bf') rest) -> same c d -> is_assignment c = is_assignment d).
    { intros c d0 _ _ Hs. unfold is_assignment. rewrite (same_has c d0 Hs). destruct Hs as (_ & _ & ->). reflexivity. }
    specialize (F FE). rewrite <- F1, <- F2 in F. unfold st1, st2, the_stem in *. clear F1 F2 FE.
    destruct (List.find (assignment sub (from r) (original r)) (by_latest ovrs (from r))) as [c|], (List.find (assignment sub (from q) (original q)) (by_latest ovrs (from q))) as [c'|]; try contradiction.
    - split; [cbn [stem_value]; rewrite (same_has c c' F); reflexivity|]. intros x y (X1 & X2 & X3). destruct F as (Y1 & Y2 & Y3). cbn [superseded]. rewrite X1, X2, Y1, Y2. reflexivity.
    - destruct (original r) as [x|], (original q) as [y|]; cbn [model_stem stem_key orig_stem st_vars st_version] in Hk; try discriminate; [|split; reflexivity].
      injection Hk as Hk1 Hk2. split; [cbn [stem_value]; rewrite (C2 x y eq_refl eq_refl Hk1 Hk2); reflexivity|reflexivity]. }
  destruct S as [S1 S2]. rewrite S1, R1, R2, !affixes_rest by assumption. apply fold_same. apply filter_same; [apply order_same|]. intros c d0 Hs. rewrite (same_affix c d0 Hs), (S2 c d0 Hs). reflexivity.
Qed.

Lemma key_eqb_eq k j : key_eqb k j = true -> k = j.
Proof.
  destruct k as [[p|] m], j as [[q|] n]; unfold key_eqb; cbn [fst snd]; intros H; try discriminate.
  - apply Bool.andb_true_iff in H. destruct H as [H1 H2]. apply Nat.eqb_eq in H1. apply mapid_eqb_eq in H2. congruence.
  - apply mapid_eqb_eq in H. congruence.
Qed.
Lemma stem_eqb_eq x y : stem_eqb x y = true -> x = y.
Proof.
  destruct x as [[m n]|], y as [[m' n']|]; cbn [stem_eqb]; intros H; try discriminate; [|reflexivity]. apply Bool.andb_true_iff in H. destruct H as [H1 H2]. apply mapid_eqb_eq in H1. apply Nat.eqb_eq in H2. congruence.
Qed.
Lemma cache_find_in k c (e : entry V) : cache_find k c = Some e -> exists j, In (j, e) c /\ k = j.
Proof.
  induction c as [|[j e'] c IH]; cbn [cache_find]; [discriminate|]. destruct (key_eqb k j) eqn:E; intros H.
  - injection H as ->. exists j. split; [left; reflexivity|apply key_eqb_eq; exact E].
  - destruct (IH H) as [j' [H1 H2]]. exists j'. split; [right; exact H1|exact H2].
Qed.
Fixpoint run (c : cache V) (rs : list (request V)) : list (result V) :=
  match rs with [] => [] | r :: rs' => let (x, c') := cached c (look r) in x :: run c' rs' end.
Definition from_history (rs : list (request V)) (c : cache V) : Prop :=
  forall p i e, In ((p, i), e) c -> exists r m d f st, In r rs /\ look r = Overridden (e_value e) m d f i p st /\ e_stem e = stem_key st.
Lemma run_transparent all : consistent all -> (forall r, In r all -> good_request r) -> forall rs c, incl rs all -> from_history all c -> run c rs = map (fun r => look r) rs.
Proof.
  intros HC HG. induction rs as [|r rs IH]; intros c Hi Hh; [reflexivity|]. cbn [run map].
  assert (Hr : In r all) by (apply Hi; left; reflexivity). assert (Hi' : incl rs all) by (intros x Hx; apply Hi; right; exact Hx).
  assert (K : exists c', cached c (look r) = (look r, c') /\ from_history all c').
  { destruct (look r) as [| |v m d f i p st] eqn:E; [exists c; split; [reflexivity|exact Hh]|exists c; split; [reflexivity|exact Hh]|]. cbn [cached]. fold (stem_key st).
    assert (N1 : from_history all (((p, i), mkentry v (stem_key st)) :: c)).
    { intros p' i' e [X|X]; [|exact (Hh _ _ _ X)]. injection X as <- <- <-. exists r, m, d, f, st. cbn [e_value e_stem]. auto. }
    destruct (cache_find (p, i) c) as [e|] eqn:F; [|eexists; split; [reflexivity|exact N1]].
    destruct (stem_eqb (e_stem e) (stem_key st)) eqn:Q; [|eexists; split; [reflexivity|exact N1]]. apply stem_eqb_eq in Q. exists c. split; [|exact Hh].
    destruct (cache_find_in _ _ _ F) as [j [F1 <-]]. destruct (Hh _ _ _ F1) as (r' & m' & d' & f' & st' & J1 & J2 & J3).
    rewrite (same_value all r r' v m d f i p st (e_value e) m' d' f' st' HC Hr J1 (HG r Hr) (HG r' J1) E J2); [reflexivity|congruence]. }
  destruct K as (c' & -> & K). f_equal. apply IH; assumption.
Qed.
End Cache.
