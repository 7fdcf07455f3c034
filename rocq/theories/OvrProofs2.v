(* Proofs about overriding variables: the result. *)
From Verif Require Import Base VarModel OvrModel OvrSpec OvrProofs.

Section Proofs.
Context {V N : Type} (w : oops V N) (sub : nat -> nat -> bool) (ovrs : list (override N)) (o : option (orig V)) (target : bool) (overs : nat -> nat -> nat) (chain : list oscope).
Hypothesis Hchain : good_chain chain.
Hypothesis Horig : forall x, o = Some x -> good_orig target chain x.
Notation place := (place N).
Notation step := (step w sub target).
Notation applies_to := (applies_to sub).

(* When it is defined. *)
Lemma affixes_total s d : forall vs n skip (a : acc V),
  ((forall v, In v vs -> ovis v <> OProject) \/ a_vars a = None \/ (a_proj a = None -> oroot s = None)) ->
  exists a', affixes w sub s d skip vs n a = Some a' /\ ((a_proj a' = a_proj a /\ (a_vars a = None <-> a_vars a' = None)) \/ (a_vars a = None /\ a_vars a' <> None /\ a_proj a' = oroot s)).
Proof.
  induction vs as [|v vs IH]; intros n skip a H; cbn [affixes]; [exists a; split; [reflexivity|left; tauto]|].
  assert (H' : (forall u, In u vs -> ovis u <> OProject) \/ a_vars a = None \/ (a_proj a = None -> oroot s = None)) by (destruct H as [H|H]; [left; intros u Hu; apply H; right; exact Hu|right; exact H]).
  destruct skip as [k|]; [apply IH; exact H'|].
  assert (A : match a_vars a with Some m => applies sub s v m (a_proj a) | None => Some true end <> None).
  { destruct (a_vars a) as [m|]; [|discriminate]. unfold applies. destruct (ovis v) eqn:Ev; try discriminate. destruct (oroot s) as [rs|]; [|discriminate].
    destruct (a_proj a) as [p|]; [discriminate|]. destruct H as [H|[H|H]]; [exfalso; exact (H v (or_introl eq_refl) Ev)|discriminate|discriminate (H eq_refl)]. }
  destruct (match a_vars a with Some m => applies sub s v m (a_proj a) | None => Some true end) as [[|]|]; [|apply IH; exact H'|contradiction].
  assert (U : forall c, exists a', affixes w sub s d None vs (S n) (match a_vars a with
     | None => mkacc c d (Some (MScope (osid s))) (oroot s)
     | Some _ => if d <? a_depth a then mkacc c d (Some (MScope (osid s))) (a_proj a) else mkacc c (a_depth a) (a_vars a) (a_proj a) end) = Some a' /\
     ((a_proj a' = a_proj a /\ (a_vars a = None <-> a_vars a' = None)) \/ (a_vars a = None /\ a_vars a' <> None /\ a_proj a' = oroot s))).
  { intros c. destruct (a_vars a) as [m|] eqn:Em.
    - destruct (d <? a_depth a).
      + destruct (IH (S n) None (mkacc c d (Some (MScope (osid s))) (a_proj a))) as (a' & K1 & K2); [cbn [a_vars a_proj]; destruct H' as [H'|[H'|H']]; [auto|discriminate|auto]|].
        exists a'. split; [exact K1|]. cbn [a_vars a_proj] in K2. destruct K2 as [[K2 K3]|[K2 _]]; [left; split; [exact K2|]|discriminate]. split; [discriminate|]. intros X. apply K3 in X. discriminate.
      + destruct (IH (S n) None (mkacc c (a_depth a) (Some m) (a_proj a))) as (a' & K1 & K2); [cbn [a_vars a_proj]; destruct H' as [H'|[H'|H']]; [auto|discriminate|auto]|].
        exists a'. split; [exact K1|]. cbn [a_vars a_proj] in K2. exact K2.
    - destruct (IH (S n) None (mkacc c d (Some (MScope (osid s))) (oroot s))) as (a' & K1 & K2); [cbn [a_vars a_proj]; auto|].
      exists a'. split; [exact K1|]. cbn [a_vars a_proj] in K2. right. destruct K2 as [[K2 K3]|[K2 _]]; [|discriminate]. split; [reflexivity|]. split; [|exact K2]. intros X. apply K3 in X. discriminate. }
  destruct (kind v); [apply IH; exact H'| |]; (destruct (oval v (osid s)); [apply U|apply IH; exact H']).
Qed.
Lemma affix_loop_total st : forall rest d (a : acc V), good_chain rest ->
  ((forall v, In v ovrs -> ovis v <> OProject) \/ a_vars a = None \/ (a_proj a = None -> forall s, In s rest -> oroot s = None)) ->
  exists a', affix_loop w sub ovrs st rest d a = Some a'.
Proof.
  induction rest as [|s outer IH]; intros d a G H; cbn [affix_loop]; [eauto|]. destruct G as (G1 & G2 & G3).
  destruct (affixes_total s (S d) ovrs 0 (match st with Some x => if st_depth x =? S d then st_ovr x else None | None => None end) a) as (a' & K1 & K2).
  { destruct H as [H|[H|H]]; auto. right. right. intros E. apply (H E). left. reflexivity. }
  rewrite K1. apply IH; [exact G3|]. destruct H as [H|[H|H]]; [auto| |].
  - destruct K2 as [[K2 K3]|[K2 [K3 K4]]]; [right; left; apply K3; exact H|]. right. right. rewrite K4. apply G2.
  - right. right. destruct K2 as [[K2 K3]|[K2 [K3 K4]]]; [rewrite K2; intros E t Ht; apply (H E); right; exact Ht|rewrite K4; apply G2].
Qed.

(* Without overrides of the scope: what applies is decided by the project. *)
Lemma applies_project (c : place) m p : ovis (what c) <> OScope -> applies_to c m p = in_project sub p c.
Proof. intros H. unfold OvrSpec.applies_to, in_project. destruct (ovis (what c)); [reflexivity| |contradiction]. destruct (oroot (in_scope_ c)); reflexivity. Qed.
Lemma fold_project : forall cs (a : acc V), (forall c, In c cs -> ovis (what c) <> OScope) -> a_vars a <> None ->
  cv (fold_left step cs a) = fold_left (add_affix w) (filter (in_project sub (a_proj a)) cs) (cv a).
Proof.
  induction cs as [|c cs IH]; intros a H Ha; [reflexivity|]. cbn [fold_left filter].
  assert (S1 : step a c = if in_project sub (a_proj a) c then (if d0 target + S (where_ c) <? a_depth a then mkacc (add_affix w (cv a) c) (d0 target + S (where_ c)) (Some (MScope (osid (in_scope_ c)))) (a_proj a)
                else mkacc (add_affix w (cv a) c) (a_depth a) (a_vars a) (a_proj a)) else a).
  { unfold OvrProofs.step. destruct (a_vars a) as [m|]; [|contradiction]. rewrite (applies_project c m _ (H c (or_introl eq_refl))). reflexivity. }
  rewrite S1. destruct (in_project sub (a_proj a) c) eqn:Ei; [|apply IH; [intros x Hx; apply H; right; exact Hx|exact Ha]].
  cbn [fold_left]. destruct (_ <? _); rewrite IH; cbn [a_vars a_proj cv]; try (intros x Hx; apply H; right; exact Hx); try discriminate; try exact Ha; reflexivity.
Qed.
Lemma fold_project_none : (forall p, sub p p = false) -> forall cs v d, (forall c, In c cs -> ovis (what c) <> OScope) ->
  cv (fold_left step cs (mkacc v d None None)) = fold_left (add_affix w) (filter (in_project sub (match cs with c :: _ => oroot (in_scope_ c) | [] => None end)) cs) v.
Proof.
  intros Hsub [|c cs] v d H; [reflexivity|]. cbn [fold_left filter].
  assert (in_project sub (oroot (in_scope_ c)) c = true) as ->.
  { unfold in_project. destruct (ovis (what c)); try reflexivity. destruct (oroot (in_scope_ c)) as [p|]; [rewrite Hsub|]; reflexivity. }
  cbn [fold_left]. unfold OvrProofs.step at 2. cbn [a_vars cv]. rewrite fold_project; [reflexivity|intros x Hx; apply H; right; exact Hx|discriminate].
Qed.

(* Without a target: the location is exact. *)
Definition in_chain (c : place) : Prop := nth_error chain (where_ c) = Some (in_scope_ c).
Definition located (a : acc V) (at_ : option (nat * option nat)) : Prop :=
  match at_ with
  | None => a_vars a = None
  | Some (i, p) => exists s, nth_error chain i = Some s /\ a_vars a = Some (MScope (osid s)) /\ a_depth a = S i /\ a_proj a = p
  end.
Lemma same_scope i j s t : nth_error chain i = Some s -> nth_error chain j = Some t -> (osid s =? osid t) = (i =? j).
Proof.
  intros H1 H2. pose proof (position_nth chain Hchain _ _ H1) as P1. pose proof (position_nth chain Hchain _ _ H2) as P2.
  destruct (Nat.eqb_spec i j) as [->|Hn]; [rewrite H1 in H2; injection H2 as ->; apply Nat.eqb_refl|]. apply Nat.eqb_neq. intros E. rewrite E in P1. congruence.
Qed.
Lemma fold_located : target = false -> forall cs (a : acc V) at_, (forall c, In c cs -> in_chain c) -> located a at_ ->
  let r := put_together w sub (cv a) at_ cs in
  cv (fold_left step cs a) = fst r /\ located (fold_left step cs a) (snd r).
Proof.
  intros Ht. assert (Hd : d0 target = 0) by (rewrite Ht; reflexivity). induction cs as [|c cs IH]; intros a at_ Hc L; [split; [reflexivity|exact L]|]. cbn [fold_left put_together].
  assert (Hc' : forall x, In x cs -> in_chain x) by (intros x Hx; apply Hc; right; exact Hx). pose proof (Hc c (or_introl eq_refl)) as Cc. unfold in_chain in Cc.
  destruct at_ as [[i p]|]; cbn [located applies_at] in *.
  - destruct L as (s & L1 & L2 & L3 & L4).
    assert (A : applies_to c (MScope (osid s)) p = match ovis (what c) with OScope => where_ c =? i | _ => in_project sub p c end).
    { unfold OvrSpec.applies_to, in_project. destruct (ovis (what c)); [reflexivity|destruct (oroot (in_scope_ c)); reflexivity|]. cbn [mapid_eqb]. rewrite (same_scope _ _ _ _ L1 Cc). apply Nat.eqb_sym. }
    unfold OvrProofs.step at 2 4. rewrite L2, L4, A. destruct (match ovis (what c) with OScope => where_ c =? i | _ => in_project sub p c end).
    + rewrite Hd. cbn [Nat.add]. rewrite L3. destruct (Nat.ltb_spec (S (where_ c)) (S i)).
      * match goal with |- context [fold_left step cs ?x] => refine (IH x _ Hc' _) end. cbn [located]. rewrite Nat.min_r by lia. exists (in_scope_ c). auto.
      * match goal with |- context [fold_left step cs ?x] => refine (IH x _ Hc' _) end. cbn [located]. rewrite Nat.min_l by lia. exists s. auto.
    + match goal with |- context [fold_left step cs ?x] => refine (IH x _ Hc' _) end. exists s. auto.
  - unfold OvrProofs.step at 2 4. rewrite L. match goal with |- context [fold_left step cs ?x] => refine (IH x _ Hc' _) end. cbn [located]. exists (in_scope_ c). rewrite Hd. auto.
Qed.
Lemma order_in (c : place) : In c (by_order ovrs chain) -> in_chain c /\ nth_error ovrs (which c) = Some (what c).
Proof.
  unfold by_order, in_chain. intros H. apply in_flat_map in H. destruct H as [[i s] [H1 H2]]. apply in_map_iff in H2. destruct H2 as [[k v] [<- H3]].
  cbn [where_ in_scope_ which what fst snd] in *. apply indexed_in in H1. apply indexed_in in H3. rewrite Nat.sub_0_r in *. tauto.
Qed.
Lemma latest_order (c : place) : In c (by_latest ovrs chain) <-> In c (by_order ovrs chain).
Proof.
  unfold by_latest, by_order. rewrite !in_flat_map. split; intros [i [H1 H2]]; exists i; (split; [exact H1|]); apply in_map_iff in H2; destruct H2 as [j [<- H2]]; apply in_map_iff; exists j; (split; [reflexivity|]); [apply in_rev; exact H2|apply -> in_rev; exact H2].
Qed.

(* The result. *)
Definition start (st : stem_is V N) : acc V :=
  match st with
  | IsOverride c => mkacc (stem_value w st) (d0 target + S (where_ c)) (Some (MScope (osid (in_scope_ c)))) (oroot (in_scope_ c))
  | IsOriginal x => mkacc (stem_value w st) (depth x) (Some (vars x)) (project_of chain x)
  | IsNothing => mkacc (stem_value w st) 0 None None
  end.
Lemma stem_has (c : place) : the_stem sub ovrs chain o = IsOverride c -> In c (by_order ovrs chain) /\ assignment sub chain o c = true.
Proof. unfold the_stem. destruct (List.find _ _) eqn:F; [|destruct o; discriminate]. intros E. injection E as <-. apply find_some in F. rewrite latest_order in F. exact F. Qed.
Lemma stem_original x : the_stem sub ovrs chain o = IsOriginal x -> o = Some x.
Proof. unfold the_stem. destruct (List.find _ _); [discriminate|]. destruct o; [congruence|discriminate]. Qed.
Lemma stem_nothing : the_stem sub ovrs chain o = IsNothing -> o = None.
Proof. unfold the_stem. destruct (List.find _ _); [discriminate|]. destruct o; [discriminate|reflexivity]. Qed.
Lemma lookup_cases : 
  (lookup_override w sub ovrs o target overs chain = Original /\ forall c, In c (by_order ovrs chain) -> has c <> None -> exists x, o = Some x /\ reached chain x (where_ c) = true /\ applies_to c (vars x) (project_of chain x) = false) \/
  exists m p, inner_loop sub ovrs o target chain (inner_at o chain []) = Some (Some (m, p)) /\
    let st := the_stem sub ovrs chain o in
    lookup_override w sub ovrs o target overs chain =
    match affix_loop w sub ovrs (model_stem w target overs chain st) chain (d0 target) (start st) with
    | None => Undefined
    | Some a => Overridden (cv a) (a_vars a) (a_depth a) (match st with IsOriginal _ => true | _ => false end) m p (model_stem w target overs chain st)
    end.
Proof.
  pose proof (inner_init sub ovrs o target chain Hchain Horig) as I. pose proof (stem_init w sub ovrs o target overs chain Hchain Horig) as J.
  unfold lookup_override. fold (base_ chain). rewrite I.
  destruct (inner_loop sub ovrs o target chain (inner_at o chain [])) as [[[m p]|]|] eqn:E.
  - right. exists m, p. split; [reflexivity|]. cbn zeta. fold (d0 target). rewrite J. pose proof stem_has as Hh.
    destruct (the_stem sub ovrs chain o) as [c|x|]; cbn [model_stem start of_place orig_stem st_value st_vars st_proj st_depth st_ovr stem_value].
    + destruct (Hh c eq_refl) as [_ A]. unfold assignment in A. destruct (kind (what c)); try discriminate. destruct (has c) as [n|] eqn:Hc; [|discriminate]. unfold of_place. cbn [st_depth st_vars st_proj st_value]. rewrite Hc. reflexivity.
    + reflexivity.
    + reflexivity.
  - left. split; [reflexivity|]. exact (inner_none sub ovrs o target chain Hchain Horig chain [] eq_refl E).
  - exfalso. exact (inner_total sub ovrs o target chain Hchain Horig chain [] eq_refl E).
Qed.
Lemma affix_result a : let st := the_stem sub ovrs chain o in
  affix_loop w sub ovrs (model_stem w target overs chain st) chain (d0 target) (start st) = Some a -> a = fold_left step (the_affixes ovrs chain st) (start st).
Proof.
  intros st H. pose proof (affix_loop_spec w sub ovrs o target overs chain Hchain Horig st eq_refl chain [] (start st) a eq_refl) as K.
  cbn [length] in K. rewrite Nat.add_0_r in K. exact (K H).
Qed.
End Proofs.
