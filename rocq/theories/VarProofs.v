(* Proofs about looking up variables. *)
From Verif Require Import Base NameModel NameProofs VarModel VarSpec.

Section Proofs.
Context {V N K : Type} (w : vops V N).
Notation scope := (scope V N K).

Lemma visible_cons vis (s : scope) outer : vis <> VPrereq -> visible vis (s :: outer) = s :: (if stops vis s then [] else visible vis outer).
Proof. intros H. destruct vis; cbn; try reflexivity; contradiction. Qed.

Lemma places_cons ks (s : scope) ss : places ks (s :: ss) = specific s 0 ks ++ Plain s :: places ks ss.
Proof. unfold places. cbn [flat_map]. rewrite <- app_assoc. reflexivity. Qed.

(* What is below the number is skipped. *)
Lemma skip_low plain all i (s : scope) : forall ks j ps, j + length ks <= i -> meaning w plain all i (specific s j ks ++ ps) = meaning w plain all i ps.
Proof.
  induction ks as [|k ks IH]; intros j ps H; [reflexivity|]. cbn [specific app meaning length] in *.
  destruct (j <? i) eqn:E; [apply IH; lia|]. apply Nat.ltb_ge in E. lia.
Qed.
Lemma specific_app (s : scope) : forall a j c, specific s j (a ++ c) = specific s j a ++ specific s (j + length a) c.
Proof. induction a as [|k a IH]; intros j c; cbn [app specific length]; [rewrite Nat.add_0_r; reflexivity|]. rewrite IH. cbn [app]. f_equal. f_equal. f_equal. lia. Qed.

Definition next_of vis (s : scope) (outer : list scope) := fun ks limit start d => if stops vis s then (None, None) else look w vis ks limit start d outer.

Lemma skipn_cons {X} j (l : list X) x r : skipn j l = x :: r -> skipn (S j) l = r.
Proof. revert l. induction j as [|j IH]; intros [|y l] H; cbn [skipn] in *; try discriminate; [congruence|]. apply IH. exact H. Qed.

Lemma groups_meaning vis (s : scope) (outer : list scope) full
  (IH : forall i k gs limit start d, skipn i full = k :: gs -> start <= S d ->
     fst (look w vis (Some (k, gs)) limit start d outer) = meaning w (negb (is_target vis)) (negb limit) i (places full (visible vis outer))) :
  forall rem i j tk gs limit start d, i <= j -> skipn i full = tk :: gs -> skipn j full = rem -> start <= S d ->
    fst (in_groups w vis s (next_of vis s outer) tk gs rem limit start d) =
    meaning w (negb (is_target vis)) (negb limit) i (specific s j rem ++ Plain s :: places full (if stops vis s then [] else visible vis outer)).
Proof.
  induction rem as [|g rem IHr]; intros i j tk gs limit start d Hij Hs Hj Hd.
  - cbn [in_groups specific app meaning]. unfold in_scope. assert ((start <=? S d) = true) as -> by (apply Nat.leb_le; exact Hd). cbn [andb].
    assert (K1 : fst (next_of vis s outer (Some (tk, gs)) limit start (S d)) = meaning w (negb (is_target vis)) (negb limit) i (places full (if stops vis s then [] else visible vis outer))).
    { unfold next_of. destruct (stops vis s); [reflexivity|]. apply IH; [exact Hs|lia]. }
    destruct (negb limit), (negb (is_target vis)); cbn [andb]; try exact K1.
    destruct (svars s); [reflexivity|exact K1].
  - cbn [in_groups specific app meaning]. assert ((j <? i) = false) as -> by (apply Nat.ltb_ge; exact Hij).
    destruct (sfind s g) as [[m p]|] eqn:E.
    + cbn [fst]. rewrite (IHr j (S j) g rem false 2 2 ltac:(lia) Hj (skipn_cons _ _ _ _ Hj) ltac:(lia)). cbn [negb].
      unfold pre_app, value_of. destruct (meaning _ _ _ _ _) as [[v mm]|]; reflexivity.
    + apply (IHr i (S j)); [lia|exact Hs|apply (skipn_cons _ _ _ _ Hj)|exact Hd].
Qed.

Lemma skipn_firstn_specific full i (s : scope) k gs : skipn i full = k :: gs ->
  exists a, length a = i /\ specific s 0 full = specific s 0 a ++ Specific s i k :: specific s (S i) gs.
Proof.
  intros H. exists (firstn i full). assert (i < length full). { assert (length (skipn i full) = length full - i) by apply skipn_length. rewrite H in H0. cbn in H0. lia. }
  split; [apply firstn_length_le; lia|]. rewrite <- (firstn_skipn i full) at 1. rewrite specific_app, H, firstn_length_le by lia. reflexivity.
Qed.

Lemma look_meaning vis (full : list K) : vis <> VPrereq -> forall (chain : list scope) i k gs limit start d, skipn i full = k :: gs -> start <= S d ->
  fst (look w vis (Some (k, gs)) limit start d chain) = meaning w (negb (is_target vis)) (negb limit) i (places full (visible vis chain)).
Proof.
  intros Hv. induction chain as [|s outer IH]; intros i k gs limit start d Hs Hd; [destruct vis; reflexivity|].
  rewrite visible_cons by exact Hv. rewrite places_cons. cbn [look]. fold (next_of vis s outer).
  destruct (skipn_firstn_specific full i s k gs Hs) as [a [Ha ->]]. rewrite <- app_assoc, skip_low by (cbn; lia).
  cbn [app meaning]. rewrite Nat.ltb_irrefl.
  assert ((start <=? S d) = true) as -> by (apply Nat.leb_le; exact Hd).
  assert ((start <=? S (S d)) = true) as -> by (apply Nat.leb_le; lia).
  destruct (sfind s k) as [[m p]|] eqn:E.
  - cbn [fst]. rewrite (groups_meaning vis s outer full IH gs i (S i) k gs false 2 2 ltac:(lia) Hs (skipn_cons _ _ _ _ Hs) ltac:(lia)). cbn [negb].
    unfold pre_app, value_of. destruct (meaning _ _ _ _ _) as [[v mm]|]; reflexivity.
  - apply (groups_meaning vis s outer full IH); [lia|exact Hs|apply (skipn_cons _ _ _ _ Hs)|lia].
Qed.

Lemma look_meaning_scope vis : vis <> VPrereq -> forall (chain : list scope) limit start d, start <= S d ->
  fst (look w vis None limit start d chain) = meaning w (negb (is_target vis)) (negb limit) 0 (places [] (visible vis chain)).
Proof.
  intros Hv. induction chain as [|s outer IH]; intros limit start d Hd; [destruct vis; reflexivity|].
  rewrite visible_cons by exact Hv. rewrite places_cons. cbn [look specific app meaning]. fold (next_of vis s outer). unfold in_scope.
  assert ((start <=? S d) = true) as -> by (apply Nat.leb_le; exact Hd). cbn [andb].
  assert (K1 : fst (next_of vis s outer None limit start (S d)) = meaning w (negb (is_target vis)) (negb limit) 0 (places [] (if stops vis s then [] else visible vis outer))).
  { unfold next_of. destruct (stops vis s); [reflexivity|]. apply IH. lia. }
  destruct (negb limit), (negb (is_target vis)); cbn [andb]; try exact K1. destruct (svars s); [reflexivity|exact K1].
Qed.

(* The depth. *)
Definition at_depth (step : nat) (d0 : nat) (ss : list scope) (f : found V) (od : option nat) : Prop :=
  match f with
  | None => od = None
  | Some (v, m) => exists n s k, nth_error ss n = Some s /\ od = Some (d0 + step * n + k) /\
      match m with
      | MScope x => x = sid s /\ k = step
      | MPattern x _ => x = sid s /\ step = 3 /\ (k = 1 \/ k = 2)
      | MTarget _ => False
      end
  end.
Lemma at_depth_S step d0 s ss f od : at_depth step (d0 + step) ss f od -> at_depth step d0 (s :: ss) f od.
Proof.
  unfold at_depth. destruct f as [[v m]|]; [|auto]. intros [n [x [k [H1 [H2 H3]]]]]. exists (S n), x, k. split; [exact H1|]. split; [rewrite H2; f_equal; lia|exact H3].
Qed.
Lemma groups_depth vis (s : scope) (outer : list scope) d0 start
  (IH : forall k gs limit, at_depth 3 (d0 + 3) (if stops vis s then [] else visible vis outer)
          (fst (next_of vis s outer (Some (k, gs)) limit start (d0 + 3))) (snd (next_of vis s outer (Some (k, gs)) limit start (d0 + 3)))) :
  forall rem tk gs limit, at_depth 3 d0 (s :: if stops vis s then [] else visible vis outer)
    (fst (in_groups w vis s (next_of vis s outer) tk gs rem limit start (d0 + 2))) (snd (in_groups w vis s (next_of vis s outer) tk gs rem limit start (d0 + 2))).
Proof.
  induction rem as [|g rem IHr]; intros tk gs limit.
  - cbn [in_groups]. unfold in_scope. replace (S (d0 + 2)) with (d0 + 3) by lia.
    destruct (_ && _ && _); [|apply at_depth_S, IH]. destruct (svars s) as [v|]; [|apply at_depth_S, IH].
    cbn [fst snd at_depth]. exists 0, s, 3. split; [reflexivity|]. split; [f_equal; lia|]. auto.
  - cbn [in_groups]. destruct (sfind s g) as [[m p]|]; [|apply IHr]. cbn [fst snd at_depth]. exists 0, s, 2. split; [reflexivity|]. split; [f_equal; lia|]. auto.
Qed.
Lemma look_depth vis : vis <> VPrereq -> forall (chain : list scope) k gs limit start d, 
  at_depth 3 d (visible vis chain) (fst (look w vis (Some (k, gs)) limit start d chain)) (snd (look w vis (Some (k, gs)) limit start d chain)).
Proof.
  intros Hv. induction chain as [|s outer IH]; intros k gs limit start d; [destruct vis; reflexivity|].
  rewrite visible_cons by exact Hv. cbn [look]. fold (next_of vis s outer).
  assert (G : forall rem, at_depth 3 d (s :: if stops vis s then [] else visible vis outer)
    (fst (in_groups w vis s (next_of vis s outer) k gs rem limit start (S (S d)))) (snd (in_groups w vis s (next_of vis s outer) k gs rem limit start (S (S d))))).
  { intros rem. replace (S (S d)) with (d + 2) by lia. apply groups_depth. intros k' gs' limit'. unfold next_of. destruct (stops vis s); [reflexivity|]. apply IH. }
  destruct (if start <=? S d then sfind s k else None) as [[m p]|]; [|apply G].
  cbn [fst snd at_depth]. exists 0, s, 1. split; [reflexivity|]. split; [f_equal; lia|]. auto.
Qed.
Lemma look_depth_scope vis : vis <> VPrereq -> forall (chain : list scope) limit start d, 
  at_depth 1 d (visible vis chain) (fst (look w vis None limit start d chain)) (snd (look w vis None limit start d chain)).
Proof.
  intros Hv. induction chain as [|s outer IH]; intros limit start d; [destruct vis; reflexivity|].
  rewrite visible_cons by exact Hv. cbn [look]. fold (next_of vis s outer). unfold in_scope.
  assert (G : at_depth 1 d (s :: if stops vis s then [] else visible vis outer) (fst (next_of vis s outer None limit start (S d))) (snd (next_of vis s outer None limit start (S d)))).
  { apply at_depth_S. replace (d + 1) with (S d) by lia. unfold next_of. destruct (stops vis s); [reflexivity|]. apply IH. }
  destruct (_ && _ && _); [|exact G]. destruct (svars s) as [v|]; [|exact G].
  cbn [fst snd at_depth]. exists 0, s, 1. split; [reflexivity|]. split; [f_equal; lia|]. auto.
Qed.
End Proofs.

(* The patterns. *)
Lemma less_specific p q : pattern_less p q = true <-> more_specific q p.
Proof.
  assert (F : scompare (text q) (text p) = Gt <-> scompare (text p) (text q) = Lt) by (apply (wo_flip _ wo_string)).
  unfold pattern_less, more_specific.
  assert (L : Bool.eqb (regex p) (regex q) = true -> ((if negb (length (text p) =? length (text q)) then length (text p) <? length (text q) else match scompare (text p) (text q) with Lt => true | _ => false end) = true
    <-> length (text q) > length (text p) \/ length (text q) = length (text p) /\ scompare (text q) (text p) = Gt)).
  { intros _. rewrite F. destruct (Nat.eqb_spec (length (text p)) (length (text q))) as [E|E]; cbn [negb].
    - split; [intros X; right; split; [lia|]; destruct (scompare (text p) (text q)); congruence|intros [X|[_ X]]; [lia|rewrite X; reflexivity]].
    - rewrite Nat.ltb_lt. split; [intros X; left; lia|intros [X|[X _]]; lia]. }
  destruct (regex p), (regex q); cbn [Bool.eqb negb] in *.
  1, 4: rewrite (L eq_refl); split; [intros X; right; auto|intros [[X Y]|[_ X]]; [discriminate|exact X]].
  all: split; [intros X; try discriminate X; left; auto|intros [[X Y]|[X _]]; congruence].
Qed.
Lemma scompare_neq x y : x <> y -> scompare x y = Lt \/ scompare x y = Gt.
Proof. intros H. destruct (scompare x y) eqn:E; auto. apply scompare_eq in E. contradiction. Qed.
Lemma more_total p q : p = q \/ more_specific p q \/ more_specific q p.
Proof.
  destruct p as [rp tp], q as [rq tq]. unfold more_specific. cbn [regex text].
  destruct (Bool.bool_dec rp rq) as [->|Hr]; [|destruct rp, rq; try congruence; auto].
  destruct (lt_eq_lt_dec (length tp) (length tq)) as [[E|E]|E]; [right; right; auto| |right; left; auto].
  destruct (list_eq_dec Ascii.ascii_dec tp tq) as [->|Hn]; [left; reflexivity|].
  destruct (scompare_neq _ _ Hn) as [S|S]; [right; right; right; split; [reflexivity|]; right; split; [lia|apply (wo_flip _ wo_string); exact S]|right; left; right; auto].
Qed.
Lemma more_trans p q r : more_specific p q -> more_specific q r -> more_specific p r.
Proof.
  unfold more_specific. intros [[A1 A2]|[A1 A2]] [[B1 B2]|[B1 B2]]; try congruence; [left; split; congruence|left; split; congruence|].
  right. split; [congruence|]. destruct A2 as [A2|[A2 A3]], B2 as [B2|[B2 B3]]; try (left; lia). right. split; [lia|].
  apply (wo_flip _ wo_string). apply (wo_flip _ wo_string) in A3. apply (wo_flip _ wo_string) in B3. apply (wo_lt _ wo_string _ _ _ B3). rewrite A3. discriminate.
Qed.
Lemma more_irrefl p : ~ more_specific p p.
Proof. intros [[A1 A2]|[_ [A|[_ A]]]]; [congruence|lia|]. rewrite (wo_refl _ wo_string) in A. discriminate. Qed.

(* The map is sorted, the least specific first. *)
Section Map.
Context {X : Type}.
Implicit Types m : list (pattern * X).
Definition below (p : pattern) m : Prop := forall q y, In (q, y) m -> more_specific q p.
Fixpoint sorted m : Prop := match m with [] => True | (p, _) :: m' => below p m' /\ sorted m' end.
Lemma insert_in p (x : X) q y : forall m, sorted m -> (In (q, y) (pattern_insert p x m) <-> (q = p /\ y = x) \/ (q <> p /\ In (q, y) m)).
Proof.
  induction m as [|[r z] m IH]; cbn [pattern_insert sorted]; intros H; [cbn; intuition congruence|]. destruct H as [H1 H2].
  destruct (pattern_less p r) eqn:E1.
  - apply less_specific in E1. cbn [In]. split.
    + intros [E|[E|E]]; [left; split; congruence| |].
      * right. split; [|left; exact E]. intros ->. injection E as -> ->. exact (more_irrefl _ E1).
      * right. split; [|right; exact E]. intros ->. exact (more_irrefl _ (more_trans _ _ _ (H1 _ _ E) E1)).
    + intros [[-> ->]|[_ E]]; auto.
  - destruct (pattern_less r p) eqn:E2.
    + apply less_specific in E2. cbn [In]. rewrite (IH H2). split.
      * intros [E|[E|[E1' E]]]; [|left; exact E|right; auto]. right. split; [|left; exact E]. intros ->. injection E as -> ->. exact (more_irrefl _ E2).
      * intros [E|[E1' [E|E]]]; [right; left; exact E|left; exact E|right; right; auto].
    + assert (r = p) as ->. { destruct (more_total r p) as [E|[E|E]]; [exact E| |]; apply less_specific in E; congruence. }
      cbn [In]. split.
      * intros [E|E]; [left; split; congruence|]. right. split; [|right; exact E]. intros ->. exact (more_irrefl _ (H1 _ _ E)).
      * intros [[-> ->]|[E1' [E|E]]]; [left; reflexivity|congruence|right; exact E].
Qed.
Lemma insert_sorted p (x : X) : forall m, sorted m -> sorted (pattern_insert p x m).
Proof.
  induction m as [|[r z] m IH]; cbn [pattern_insert]; intros H; [cbn; split; [intros q y []|exact I]|]. destruct H as [H1 H2]. 
  destruct (pattern_less p r) eqn:E1.
  - apply less_specific in E1. cbn [sorted]. split; [|split; assumption]. intros q y [E|E]; [injection E as <- <-; exact E1|]. exact (more_trans _ _ _ (H1 _ _ E) E1).
  - destruct (pattern_less r p) eqn:E2.
    + apply less_specific in E2. cbn [sorted]. split; [|apply IH; exact H2]. intros q y E. apply insert_in in E; [|exact H2]. destruct E as [[-> _]|[_ E]]; [exact E2|exact (H1 _ _ E)].
    + cbn [sorted]. split; assumption.
Qed.
Lemma filled_sorted : forall ps m, sorted m -> sorted (fold_left (fun m i => pattern_insert (fst i) (snd i) m) ps m).
Proof. induction ps as [|[p x] ps IH]; intros m H; [exact H|]. cbn [fold_left fst snd]. apply IH, insert_sorted, H. Qed.

Lemma filled_in q y : forall ps m, sorted m -> (In (q, y) (fold_left (fun m i => pattern_insert (fst i) (snd i) m) ps m) <->
  assigned q y ps \/ ((forall z, ~ In (q, z) ps) /\ In (q, y) m)).
Proof.
  induction ps as [|[p x] ps IH]; intros m H; cbn [fold_left fst snd assigned In]; [tauto|].
  rewrite (IH _ (insert_sorted p x m H)), (insert_in p x q y m H). split.
  - intros [E|[E1 [[-> ->]|[E2 E3]]]]; [auto|auto|]. right. split; [|exact E3]. intros z [E|E]; [congruence|exact (E1 _ E)].
  - intros [[E|[-> [-> E]]]|[E1 E2]]; [auto|auto|]. right. split; [intros z E; exact (E1 _ (or_intror E))|]. right. split; [|exact E2]. intros ->. exact (E1 _ (or_introl eq_refl)).
Qed.

Context {Y : Type} (matches : pattern -> bool) (value : X -> option Y).
Definition candidate (p : pattern) (x : X) (y : Y) : Prop := matches p = true /\ value x = Some y.
Lemma find_in_app : forall m1 m2, find_in matches value (m1 ++ m2) = match find_in matches value m1 with Some y => Some y | None => find_in matches value m2 end.
Proof. induction m1 as [|[p x] m1 IH]; intros m2; [reflexivity|]. cbn [app find_in]. rewrite IH. destruct (matches p); [destruct (value x)|]; reflexivity. Qed.
Lemma find_in_none m : find_in matches value (rev m) = None <-> forall p x y, In (p, x) m -> ~ candidate p x y.
Proof.
  induction m as [|[p x] m IH]; cbn [rev find_in]; [split; [intros _ q z y []|reflexivity]|]. rewrite find_in_app. cbn [find_in]. unfold candidate. split.
  - intros H q z y [E|E] [C1 C2].
    + injection E as <- <-. rewrite C1, C2 in H. destruct (find_in matches value (rev m)); discriminate.
    + assert (find_in matches value (rev m) = None) as F by (destruct (find_in matches value (rev m)); [discriminate|reflexivity]). exact (proj1 IH F _ _ _ E (conj C1 C2)).
  - intros H. assert (find_in matches value (rev m) = None) as -> by (apply IH; intros q z y E; apply H; right; exact E).
    destruct (matches p) eqn:M; [|reflexivity]. destruct (value x) eqn:W; [|reflexivity]. exfalso. exact (H p x y (or_introl eq_refl) (conj M W)).
Qed.
Lemma find_in_spec y : forall m, sorted m -> find_in matches value (rev m) = Some y ->
  exists p x, In (p, x) m /\ candidate p x y /\ forall q z t, In (q, z) m -> candidate q z t -> (q, z) = (p, x) \/ more_specific p q.
Proof.
  induction m as [|[p x] m IH]; cbn [rev find_in sorted]; [discriminate|]. intros [H1 H2].
  rewrite find_in_app. cbn [find_in]. destruct (find_in matches value (rev m)) as [y'|] eqn:E; intros H.
  - destruct (IH H2 H) as [q [z [K1 [K2 K3]]]]. exists q, z. split; [right; exact K1|]. split; [exact K2|]. intros r u t [J|J] J2; [|exact (K3 _ _ _ J J2)].
    injection J as <- <-. right. exact (H1 _ _ K1).
  - destruct (matches p) eqn:M; [|discriminate]. destruct (value x) as [v|] eqn:W; [|discriminate]. injection H as ->.
    exists p, x. split; [left; reflexivity|]. split; [split; assumption|]. intros q z t [J|J] J2; [left; congruence|]. exfalso. exact (proj1 (find_in_none m) E _ _ _ J J2).
Qed.
End Map.
