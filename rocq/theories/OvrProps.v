(* C35, C46: overriding variables from the command line. *)
From Verif Require Import Base VarModel VarProps OvrModel OvrSpec OvrProofs OvrProofs2 OvrProofs3.

Section Props.
Context {V N : Type} (w : oops V N) (sub : nat -> nat -> bool) (ovrs : list (override N)) (overs : nat -> nat -> nat).
Notation look r := (lookup_override w sub ovrs (original r) (for_target r) overs (from r)).
Notation stem_of r := (the_stem sub ovrs (from r) (original r)).

(* C35: the value is the one that the specification gives, provided that the
   prefixes and suffixes are not limited to a scope. If no override applies then
   it is the original. *)
Theorem C35_value (r : request V) : good_request r -> (forall p, sub p p = false) -> (forall v, In v ovrs -> kind v <> KAssign -> ovis v <> OScope) ->
  match look r with
  | Undefined => True
  | Original => the_value w sub ovrs (from r) (original r) = copy w (option_map value (original r))
  | Overridden v _ _ by_original _ _ _ =>
      v = the_value w sub ovrs (from r) (original r) /\ (by_original = true <-> exists x, stem_of r = IsOriginal x)
  end.
Proof.
  intros [G1 G2] Hsub Hs. destruct (lookup_cases w sub ovrs (original r) (for_target r) overs (from r) G1 G2) as [[-> K]|(m & p & _ & K)].
  - (* nothing applies *)
    unfold the_value. assert (Hst : stem_of r = match original r with Some x => IsOriginal x | None => IsNothing end).
    { unfold the_stem. destruct (List.find _ _) as [c|] eqn:F; [|reflexivity]. exfalso. apply find_some in F. destruct F as [F1 F2]. apply latest_order in F1. unfold assignment in F2.
      destruct (kind (what c)); try discriminate. destruct (has c) eqn:Hc; [|discriminate]. destruct (K c F1) as (x & X1 & X2 & X3); [congruence|]. rewrite X1, X2, X3 in F2. discriminate. }
    rewrite Hst. assert (Hf : filter (in_project sub (stem_project ovrs (from r) (match original r with Some x => IsOriginal x | None => IsNothing end))) (the_affixes ovrs (from r) (match original r with Some x => IsOriginal x | None => IsNothing end)) = []).
    { apply filter_nothing. intros c Hc. unfold the_affixes in Hc. apply filter_In in Hc. destruct Hc as [Hc1 Hc2]. unfold affix in Hc2. destruct (has c) eqn:Hh; [|destruct (kind (what c)); discriminate].
      destruct (K c Hc1) as (x & X1 & X2 & X3); [congruence|]. rewrite X1. cbn [stem_project]. rewrite <- X3. symmetry. apply applies_project.
      destruct (order_in sub ovrs overs (from r) c Hc1) as [_ J]. apply Hs; [eapply nth_error_In; exact J|]. intros E. rewrite E in Hc2. discriminate. }
    rewrite Hf. cbn [fold_left]. destruct (original r) as [x|]; reflexivity.
  - cbn zeta in K. rewrite K. destruct (affix_loop _ _ _ _ _ _ _) as [a|] eqn:Ea; [|exact I]. apply (affix_result w sub ovrs (original r) (for_target r) overs (from r) G1 G2) in Ea.
    assert (Hn : forall c, In c (the_affixes ovrs (from r) (stem_of r)) -> ovis (what c) <> OScope).
    { intros c Hc. unfold the_affixes in Hc. apply filter_In in Hc. destruct Hc as [Hc1 Hc2]. destruct (order_in sub ovrs overs (from r) c Hc1) as [_ J]. apply Hs; [eapply nth_error_In; exact J|].
      intros E. unfold affix in Hc2. rewrite E in Hc2. discriminate. }
    split.
    + rewrite Ea. unfold the_value. destruct (stem_of r) as [c|x|]; cbn [start].
      * rewrite (fold_project w sub (for_target r)); [reflexivity|exact Hn|discriminate].
      * rewrite (fold_project w sub (for_target r)); [reflexivity|exact Hn|discriminate].
      * rewrite (fold_project_none w sub (for_target r) Hsub); [reflexivity|exact Hn].
    + destruct (stem_of r) as [c|x|]; split; try discriminate; try (intros [y Y]; discriminate); [eauto|reflexivity].
Qed.

(* C35: without a target this is so for any overrides, and the location and depth
   of the result are those of its innermost part. *)
Theorem C35_value_and_place (r : request V) : good_request r -> for_target r = false ->
  match look r with
  | Undefined => True
  | Original => the_value_and_place w sub ovrs (from r) (original r) =
      (copy w (option_map value (original r)), match original r with Some x => Some (position (match vars x with MScope a => a | _ => 0 end) (from r), project_of (from r) x) | None => None end)
  | Overridden v m d _ _ _ _ =>
      v = fst (the_value_and_place w sub ovrs (from r) (original r)) /\
      match snd (the_value_and_place w sub ovrs (from r) (original r)) with
      | Some (i, _) => exists s, nth_error (from r) i = Some s /\ m = Some (MScope (osid s)) /\ d = S i
      | None => m = None
      end
  end.
Proof.
  intros [G1 G2] Ht. assert (Hx : forall x, original r = Some x -> exists n s, nth_error (from r) n = Some s /\ vars x = MScope (osid s) /\ depth x = S n /\ position (osid s) (from r) = n).
  { intros x Ex. specialize (G2 x Ex). unfold good_orig in G2. rewrite Ht in G2. destruct (vars x) as [a|a q|a]; [|destruct G2; discriminate|destruct G2; discriminate].
    destruct G2 as (n & s & H1 & H2 & H3). exists n, s. split; [exact H1|]. split; [congruence|]. split; [exact H3|]. exact (position_nth _ G1 _ _ H1). }
  destruct (lookup_cases w sub ovrs (original r) (for_target r) overs (from r) G1 G2) as [[-> K]|(m & p & _ & K)].
  - unfold the_value_and_place. assert (Hst : stem_of r = match original r with Some x => IsOriginal x | None => IsNothing end).
    { unfold the_stem. destruct (List.find _ _) as [c|] eqn:F; [|reflexivity]. exfalso. apply find_some in F. destruct F as [F1 F2]. apply latest_order in F1. unfold assignment in F2.
      destruct (kind (what c)); try discriminate. destruct (has c) eqn:Hc; [|discriminate]. destruct (K c F1) as (x & X1 & X2 & X3); [congruence|]. rewrite X1, X2, X3 in F2. discriminate. }
    rewrite Hst. destruct (original r) as [x|] eqn:Eo.
    + destruct (Hx x eq_refl) as (n & s & X1 & X2 & X3 & X4). cbn [stem_value stem_at option_map]. rewrite X2.
      assert (G : forall cs v, (forall c, In c cs -> In c (by_order ovrs (from r)) /\ has c <> None) -> put_together w sub v (Some (position (osid s) (from r), project_of (from r) x)) cs = (v, Some (position (osid s) (from r), project_of (from r) x))).
      { induction cs as [|c cs IH]; intros v H; [reflexivity|]. cbn [put_together]. destruct (H c (or_introl eq_refl)) as [Hc1 Hc2]. destruct (K c Hc1 Hc2) as (y & Y1 & Y2 & Y3). injection Y1 as <-.
        assert (applies_at sub c (Some (position (osid s) (from r), project_of (from r) x)) = false) as ->.
        { cbn [applies_at]. rewrite <- Y3. unfold applies_to, in_project. rewrite X2. destruct (ovis (what c)); [reflexivity|destruct (oroot (in_scope_ c)); reflexivity|]. cbn [mapid_eqb].
          destruct (order_in sub ovrs overs (from r) c Hc1) as [J _]. rewrite (same_scope (from r) G1 _ _ _ _ X1 J), X4. apply Nat.eqb_sym. }
        apply IH. intros y Hy. apply H. right. exact Hy. }
      rewrite G; [reflexivity|]. intros c Hc. unfold the_affixes in Hc. apply filter_In in Hc. split; [exact (proj1 Hc)|]. intros E. destruct Hc as [_ Hc]. unfold affix in Hc. rewrite E in Hc. destruct (kind (what c)); discriminate.
    + cbn [stem_value stem_at option_map]. assert (the_affixes ovrs (from r) (@IsNothing V N) = []) as ->; [|reflexivity].
      unfold the_affixes. apply filter_nothing. intros c Hc. unfold affix. destruct (has c) eqn:E; [|destruct (kind (what c)); reflexivity]. destruct (K c Hc) as (y & Y1 & _); congruence.
  - cbn zeta in K. rewrite K. destruct (affix_loop _ _ _ _ _ _ _) as [a|] eqn:Ea; [|exact I]. apply (affix_result w sub ovrs (original r) (for_target r) overs (from r) G1 G2) in Ea.
    assert (Hn : forall c, In c (the_affixes ovrs (from r) (stem_of r)) -> in_chain (from r) c). { intros c Hc. unfold the_affixes in Hc. apply filter_In in Hc. exact (proj1 (order_in sub ovrs overs (from r) c (proj1 Hc))). }
    assert (L : located (from r) (start w (for_target r) (from r) (stem_of r)) (stem_at (from r) (stem_of r))).
    { destruct (stem_of r) as [c|x|] eqn:Es; cbn [start stem_at located].
      - destruct (stem_has sub ovrs (original r) (for_target r) (from r) G2 c Es) as [J _]. destruct (order_in sub ovrs overs (from r) c J) as [J1 _]. exists (in_scope_ c). rewrite Ht. auto.
      - apply (stem_original sub ovrs (original r) (for_target r) (from r) G2) in Es. destruct (Hx x Es) as (n & s & X1 & X2 & X3 & X4). exists s. cbn [a_vars a_depth a_proj]. rewrite X2, X4. auto.
      - reflexivity. }
    destruct (fold_located w sub (for_target r) (from r) G1 Ht _ _ _ Hn L) as [F1 F2]. rewrite <- Ea in F1, F2.
    assert (C : cv (start w (for_target r) (from r) (stem_of r)) = stem_value w (stem_of r)) by (destruct (stem_of r); reflexivity). rewrite C in *.
    unfold the_value_and_place. split; [exact F1|]. destruct (snd _) as [[i q]|]; cbn [located] in F2; [destruct F2 as (s & J1 & J2 & J3 & J4); exists s; auto|exact F2].
Qed.

(* C35: an override that is not set in any of the scopes does not matter. *)
Theorem C35_no_overrides (r : request V) : good_request r -> (forall v s, In v ovrs -> In s (from r) -> oval v (osid s) = None) -> look r = Original.
Proof.
  intros [G1 G2] H. unfold lookup_override.
  assert (A : forall l at_, incl l (from r) -> match inner_loop sub ovrs (original r) (for_target r) l at_ with Some (Some _) => False | _ => True end).
  { induction l as [|s l IH]; intros at_ Hl; [exact I|]. cbn [inner_loop]. 
    assert (B : forall i vs, incl vs ovrs -> any_applies sub s i vs <> Some true).
    { intros i. induction vs as [|v vs IHv]; intros Hv; [discriminate|]. cbn [any_applies]. rewrite (H v s (Hv v (or_introl eq_refl)) (Hl s (or_introl eq_refl))).
      assert (any_applies sub s i vs <> Some true) by (apply IHv; intros x Hx; apply Hv; right; exact Hx). destruct (match i with Some (m, p) => applies sub s v m p | None => Some true end) as [[|]|]; [exact H0|exact H0|discriminate]. }
    specialize (B (match at_, original r with None, Some x => if belongs (for_target r) s (vars x) then Some (vars x, oroot s) else None | _, _ => at_ end) (rev ovrs)).
    destruct (any_applies _ _ _ _) as [[|]|]; [exfalso; apply B; [intros x Hx; apply in_rev; exact Hx|reflexivity]|apply IH; intros x Hx; apply Hl; right; exact Hx|exact I]. }
  fold (base_ (from r)). rewrite (inner_init sub ovrs (original r) (for_target r) (from r) G1 G2).
  specialize (A (from r) (inner_at (original r) (from r) []) (fun x Hx => Hx)). pose proof (inner_total sub ovrs (original r) (for_target r) (from r) G1 G2 (from r) [] eq_refl) as T.
  destruct (inner_loop _ _ _ _ _ _) as [[x|]|]; [contradiction|reflexivity|contradiction].
Qed.

(* C35: the result is defined unless there are overrides of the project while the stem
   is from outside of any project. *)
Theorem C35_defined (r : request V) : good_request r ->
  (forall v, In v ovrs -> ovis v <> OProject) \/ (stem_of r <> IsNothing -> stem_project ovrs (from r) (stem_of r) <> None) -> look r <> Undefined.
Proof.
  intros [G1 G2] H. destruct (lookup_cases w sub ovrs (original r) (for_target r) overs (from r) G1 G2) as [[-> K]|(m & p & _ & K)]; [discriminate|].
  cbn zeta in K. rewrite K. destruct (affix_loop_total w sub ovrs overs (model_stem w (for_target r) overs (from r) (stem_of r)) (from r) (d0 (for_target r)) (start w (for_target r) (from r) (stem_of r)) G1) as [a ->]; [|discriminate].
  destruct H as [H|H]; [left; exact H|]. right. destruct (stem_of r) as [c|x|]; cbn [start a_vars a_proj stem_project] in *; [right|right|left; reflexivity].
  - intros E. exfalso. apply H; [discriminate|exact E].
  - intros E. exfalso. apply H; [discriminate|exact E].
Qed.

(* C46: the cache makes no difference if all the overrides are of the whole
   amalgamation. Missing: other overrides, for which this is not so, see below. *)
Theorem C46_cache_partial (rs : list (request V)) : (forall p, sub p p = false) -> (forall v, In v ovrs -> ovis v = OGlobal) ->
  (forall r, In r rs -> good_request r) -> consistent rs ->
  run w sub ovrs overs [] rs = map (fun r => look r) rs.
Proof. intros H1 H2 H3 H4. apply (run_transparent w sub ovrs overs H1 H2 rs H4 H3); [intros x Hx; exact Hx|]. intros p i e []. Qed.
End Props.
Print Assumptions C35_value.
Print Assumptions C35_value_and_place.
Print Assumptions C35_no_overrides.
Print Assumptions C35_defined.
Print Assumptions C46_cache_partial.

(* A project (root scope 1) in the global scope (0), with subproject (2) and a directory
   in it (3). Values as lists of numbers, or NULL. *)
Definition exw : oops (option (list nat)) (list nat) := mkoops _ _ ex_ops (fun n => n).
Definition s0 := mkoscope 0 None. Definition s1 := mkoscope 1 (Some 1). Definition s2 := mkoscope 2 (Some 2). Definition s3 := mkoscope 3 (Some 2).
Definition subp (p q : nat) : bool := (p =? 1) && (q =? 2).
Definition set_in (s : nat) (v : list nat) : nat -> option (option (list nat)) := fun t => if t =? s then Some (Some v) else None.
Definition ver1 (_ _ : nat) : nat := 1.
Notation ask ovrs o t c := (lookup_override exw subp ovrs o t ver1 c).
Example C35_good_ex : good_chain [s3; s2; s1; s0] /\ good_orig false [s3; s2; s1; s0] (mkorig (Some [7]) (MScope 2) 1 2) /\
  good_orig true [s3; s2; s1; s0] (mkorig (Some [7]) (MTarget 5) 1 1) /\ good_orig true [s3; s2; s1; s0] (mkorig (Some [7]) (MPattern 2 0) 1 6).
Proof.
  split; [|split; [|split]].
  - cbn; repeat split; try (intros t [<-|[<-|[<-|[]]]]; discriminate); try (intros t [<-|[<-|[]]]; discriminate); try (intros t [<-|[]]; discriminate); try discriminate; try (intros t []); intros; contradiction.
  - exists 1, s2. repeat split.
  - split; [reflexivity|left; reflexivity].
  - split; [reflexivity|]. exists 1, s2. repeat split. cbn. lia.
Qed.
(* x=1 x+=2 x=+3 *)
Example C35_ex :
  let ovrs := [mkoverride KAssign OGlobal (set_in 1 [1]); mkoverride KSuffix OGlobal (set_in 1 [2]); mkoverride KPrefix OGlobal (set_in 1 [3])] in
  let o := Some (mkorig (Some [7]) (MScope 2) 1 2) in
  (exists m d f i p st, ask ovrs o false [s3; s2; s1; s0] = Overridden (Some [3; 1; 2]) m d f i p st) /\
  (exists m d f i p st, ask (rev ovrs) o false [s3; s2; s1; s0] = Overridden (Some [1]) m d f i p st) /\
  (exists m d f i p st, ask (tl ovrs) o false [s3; s2; s1; s0] = Overridden (Some [3; 7; 2]) m d f i p st) /\
  ask ovrs o false [s0] = Original /\
  the_value exw subp ovrs [s3; s2; s1; s0] o = Some [3; 1; 2].
Proof. cbv zeta. split; [|split; [|split; [|split]]]; try reflexivity; repeat eexists. Qed.
(* %x=1 does not apply to the value in the subproject but does to the inherited one. *)
Example C35_project_ex :
  let ovrs := [mkoverride KAssign OProject (set_in 1 [1])] in
  ask ovrs (Some (mkorig (Some [7]) (MScope 2) 1 2)) false [s3; s2; s1; s0] = Original /\
  (exists m d f i p st, ask ovrs (Some (mkorig (Some [7]) (MScope 1) 1 3)) false [s3; s2; s1; s0] = Overridden (Some [1]) m d f i p st).
Proof. cbv zeta. split; [reflexivity|]. repeat eexists. Qed.
Example C46_cache_ex :
  let rs := [mkrequest [s3; s2; s1; s0] (Some (mkorig (Some [7]) (MScope 2) 1 2)) false; mkrequest [s2; s1; s0] (Some (mkorig (Some [8]) (MScope 2) 2 1)) false; mkrequest [s3; s2; s1; s0] (Some (mkorig (Some [9]) (MTarget 5) 1 1)) true] in
  let ovrs := [mkoverride KSuffix OGlobal (set_in 1 [1])] in
  consistent rs /\ run exw subp ovrs ver1 [] rs = map (fun r => ask ovrs (original r) (for_target r) (from r)) rs.
Proof.
  cbv zeta. split; [|reflexivity]. intros r q Hr Hq. split; [|split].
  - assert (T : forall c, c = [s3; s2; s1; s0] \/ c = [s2; s1; s0] -> forall a s t, c = a ++ s :: t -> (s = s3 /\ t = [s2; s1; s0]) \/ (s = s2 /\ t = [s1; s0]) \/ (s = s1 /\ t = [s0]) \/ (s = s0 /\ t = [])).
    { intros c Hc a s t E. destruct Hc as [-> | ->]; repeat (destruct a as [|? a]; cbn [app] in E; [injection E as <- <-; tauto|injection E as _ E]); destruct a; discriminate. }
    assert (F : forall r, In r [mkrequest [s3; s2; s1; s0] (Some (mkorig (Some [7]) (MScope 2) 1 2)) false; mkrequest [s2; s1; s0] (Some (mkorig (Some [8]) (MScope 2) 2 1)) false; mkrequest [s3; s2; s1; s0] (Some (mkorig (Some [9]) (MTarget 5) 1 1)) true] -> from r = [s3; s2; s1; s0] \/ from r = [s2; s1; s0]).
    { intros x [<-|[<-|[<-|[]]]]; cbn; auto. }
    intros a s c a' s' c' E1 E2 E. destruct (T _ (F r Hr) _ _ _ E1) as [[-> ->]|[[-> ->]|[[-> ->]|[-> ->]]]], (T _ (F q Hq) _ _ _ E2) as [[-> ->]|[[-> ->]|[[-> ->]|[-> ->]]]]; try discriminate E; auto.
  - destruct Hr as [<-|[<-|[<-|[]]]], Hq as [<-|[<-|[<-|[]]]]; cbn [original]; intros x y E1 E2 E3 E4; injection E1 as <-; injection E2 as <-; try discriminate; reflexivity.
  - destruct Hr as [<-|[<-|[<-|[]]]], Hq as [<-|[<-|[<-|[]]]]; cbn [original]; intros x y t E1 E2 E3 E4; injection E1 as <-; injection E2 as <-; try discriminate; reflexivity.
Qed.

(* Undefined behavior: b '!x=1' '%x+=2'. *)
Theorem C35_defined_refuted : exists ovrs (r : request (option (list nat))), good_request r /\ ask ovrs (original r) (for_target r) (from r) = Undefined.
Proof.
  exists [mkoverride KAssign OGlobal (set_in 0 [1]); mkoverride KSuffix OProject (set_in 1 [2])], (mkrequest [s1; s0] None false). split; [|reflexivity].
  split; [cbn; repeat split; try (intros t [<-|[]]; discriminate); try discriminate; try (intros t []); intros; contradiction|discriminate].
Qed.
(* For a target the location is not that of the innermost part: here the original is in
   the directory (3) while the suffix and the result are in the project (2). Also, a
   suffix of the scope (/x+=3) is then applied for a target but not without it. *)
Theorem C35_place_of_target_refuted :
  let ovrs := [mkoverride KSuffix OGlobal (set_in 2 [1]); mkoverride KSuffix OScope (set_in 2 [3])] in
  (exists d f i p st, ask ovrs (Some (mkorig (Some [7]) (MScope 3) 1 5)) true [s3; s2; s1; s0] = Overridden (Some [7; 1; 3]) (Some (MScope 2)) d f i p st) /\
  (exists d f i p st, ask ovrs (Some (mkorig (Some [7]) (MScope 3) 1 1)) false [s3; s2; s1; s0] = Overridden (Some [7; 1]) (Some (MScope 3)) d f i p st).
Proof. cbv zeta. split; repeat eexists. Qed.
(* The order of unrelated suffixes on the command line matters: the one of the scope is
   applied only if it is after the one of the amalgamation. *)
Theorem C35_scope_order_refuted :
  let x := mkoverride KSuffix OGlobal (set_in 2 [1]) in let y := mkoverride KSuffix OScope (set_in 2 [3]) in
  let o := Some (mkorig (Some [7]) (MScope 0) 1 4) in
  (exists m d f i p st, ask [x; y] o false [s3; s2; s1; s0] = Overridden (Some [7; 1; 3]) m d f i p st) /\
  (exists m d f i p st, ask [y; x] o false [s3; s2; s1; s0] = Overridden (Some [7; 1]) m d f i p st).
Proof. cbv zeta. split; repeat eexists. Qed.
(* The cache: x=1 %x=2 in the project (1) and x+=3 in its subproject (2). If the value of
   x is later assigned in the subproject then it is x=1 that applies, not %x=2. But the
   cached value is for the latter. *)
Theorem C46_cache_refuted : exists ovrs (r q : request (option (list nat))),
  good_request r /\ good_request q /\ consistent [r; q] /\ (forall v, In v ovrs -> ovis v <> OScope) /\
  run exw subp ovrs ver1 [] [r; q] <> map (fun r => ask ovrs (original r) (for_target r) (from r)) [r; q].
Proof.
  exists [mkoverride KAssign OGlobal (set_in 1 [1]); mkoverride KAssign OProject (set_in 1 [2]); mkoverride KSuffix OGlobal (set_in 2 [3])],
    (mkrequest [s2; s1; s0] None false), (mkrequest [s2; s1; s0] (Some (mkorig (Some [7]) (MScope 2) 1 1)) false).
  assert (G : good_chain [s2; s1; s0]) by (cbn; repeat split; try (intros t [<-|[<-|[]]]; discriminate); try (intros t [<-|[]]; discriminate); try discriminate; try (intros t []); intros; contradiction).
  split; [split; [exact G|discriminate]|]. split; [split; [exact G|intros x E; injection E as <-; exists 0, s2; repeat split]|]. split; [|split; [intros v [<-|[<-|[<-|[]]]]; discriminate|intros E; discriminate E]].
  intros r q Hr Hq. split; [|split].
  - assert (T : forall a s t, [s2; s1; s0] = a ++ s :: t -> (s = s2 /\ t = [s1; s0]) \/ (s = s1 /\ t = [s0]) \/ (s = s0 /\ t = [])).
    { intros a s t E. repeat (destruct a as [|? a]; cbn [app] in E; [injection E as <- <-; tauto|injection E as _ E]); destruct a; discriminate. }
    intros a s c a' s' c' E1 E2 E. assert (F1 : from r = [s2; s1; s0]) by (destruct Hr as [<-|[<-|[]]]; reflexivity). assert (F2 : from q = [s2; s1; s0]) by (destruct Hq as [<-|[<-|[]]]; reflexivity).
    rewrite F1 in E1. rewrite F2 in E2. destruct (T _ _ _ E1) as [[-> ->]|[[-> ->]|[-> ->]]], (T _ _ _ E2) as [[-> ->]|[[-> ->]|[-> ->]]]; try discriminate E; auto.
  - destruct Hr as [<-|[<-|[]]], Hq as [<-|[<-|[]]]; cbn [original]; intros x y E1 E2 E3 E4; try discriminate. injection E1 as <-; injection E2 as <-; reflexivity.
  - destruct Hr as [<-|[<-|[]]], Hq as [<-|[<-|[]]]; cbn [original]; intros x y t E1 E2 E3 E4; try discriminate. injection E1 as <-; injection E2 as <-; discriminate.
Qed.
(* The cache and values that are specific to target names: file{f*}: x = 0 in the project
   and file{*}: x += 1 in the directory. For foo the value is 0 1 and for bar it is 1 but
   both are (new values) from the same variable map. With x+=2, bar then gets the value of foo. *)
Theorem C46_cache_patterns_refuted :
  let prj := mkscope 2 true None (fun k => if k =? 0 then Some (0, PAssign (Some [0])) else None) in
  let dir := mkscope 3 false None (fun k => Some (0, PAppend (Some [1]))) in
  let foo := mktarget 10 None None 0 [] [dir; prj] in let bar := mktarget 11 None None 1 [] [dir; prj] in
  lookup_target ex_ops VGlobal LNone foo = (Some (Some [0; 1], MPattern 3 0), Some 3) /\
  lookup_target ex_ops VGlobal LNone bar = (Some (Some [1], MPattern 3 0), Some 3) /\
  let ovrs := [mkoverride KSuffix OGlobal (set_in 2 [2])] in
  let rs := [mkrequest [s3; s2; s1; s0] (Some (mkorig (Some [0; 1]) (MPattern 3 0) 1 3)) true; mkrequest [s3; s2; s1; s0] (Some (mkorig (Some [1]) (MPattern 3 0) 1 3)) true] in
  exists m d f i p st m' d' f' i' p' st', run exw subp ovrs ver1 [] rs = [Overridden (Some [0; 1; 2]) m d f i p st; Overridden (Some [0; 1; 2]) m' d' f' i' p' st'].
Proof. cbv zeta. split; [reflexivity|]. split; [reflexivity|]. repeat eexists. Qed.
Print Assumptions C35_defined_refuted.
Print Assumptions C35_place_of_target_refuted.
Print Assumptions C35_scope_order_refuted.
Print Assumptions C46_cache_refuted.
Print Assumptions C46_cache_patterns_refuted.
