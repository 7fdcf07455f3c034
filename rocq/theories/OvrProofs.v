(* Proofs about overriding variables. *)
From Verif Require Import Base VarModel OvrModel OvrSpec.

Lemma mapid_eqb_eq x y : mapid_eqb x y = true <-> x = y.
Proof.
  destruct x as [a|a p|a], y as [c|c q|c]; cbn [mapid_eqb]; rewrite ?Bool.andb_true_iff, ?Nat.eqb_eq; split; intros H; try discriminate; try congruence.
  - destruct H; congruence.
  - injection H; auto.
Qed.
Lemma mapid_eqb_refl x : mapid_eqb x x = true.
Proof. apply mapid_eqb_eq. reflexivity. Qed.

Lemma indexed_app {X} : forall (l : list X) n c, indexed n (l ++ c) = indexed n l ++ indexed (n + length l) c.
Proof. induction l as [|x l IH]; intros n c; cbn [app indexed length]; [rewrite Nat.add_0_r; reflexivity|]. rewrite IH. cbn [app]. do 3 f_equal. lia. Qed.
Lemma indexed_in {X} : forall (l : list X) n i x, In (i, x) (indexed n l) <-> n <= i /\ nth_error l (i - n) = Some x.
Proof.
  induction l as [|y l IH]; intros n i x; cbn [indexed In]; [split; [intros []|]; intros [_ H]; destruct (i - n); discriminate|].
  rewrite IH. split.
  - intros [E|[H1 H2]]; [injection E as <- <-; rewrite Nat.sub_diag; auto|]. split; [lia|]. replace (i - n) with (S (i - S n)) by lia. exact H2.
  - intros [H1 H2]. destruct (Nat.eq_dec i n) as [->|Hn]; [rewrite Nat.sub_diag in H2; injection H2 as ->; auto|]. right. split; [lia|]. replace (i - n) with (S (i - S n)) in H2 by lia. exact H2.
Qed.
Lemma find_app {X} (f : X -> bool) : forall l1 l2, List.find f (l1 ++ l2) = match List.find f l1 with Some x => Some x | None => List.find f l2 end.
Proof. induction l1 as [|x l1 IH]; intros l2; [reflexivity|]. cbn [app List.find]. destruct (f x); [reflexivity|apply IH]. Qed.
Lemma find_map {X Y} (f : Y -> bool) (g : X -> Y) : forall l, List.find f (map g l) = option_map g (List.find (fun x => f (g x)) l).
Proof. induction l as [|x l IH]; [reflexivity|]. cbn [map List.find]. destruct (f (g x)); [reflexivity|exact IH]. Qed.
Lemma find_ext {X} (f g : X -> bool) : forall l, (forall x, In x l -> f x = g x) -> List.find f l = List.find g l.
Proof. induction l as [|x l IH]; intros H; [reflexivity|]. cbn [List.find]. rewrite (H x (or_introl eq_refl)). rewrite IH; [reflexivity|]. intros y Hy. apply H. right. exact Hy. Qed.

Lemma good_app : forall pre rest, good_chain (pre ++ rest) -> good_chain rest /\ forall s t, In s pre -> In t rest -> osid t <> osid s /\ (oroot s = None -> oroot t = None).
Proof.
  induction pre as [|x pre IH]; intros rest H; cbn [app good_chain] in H; [split; [exact H|intros s t []]|]. destruct H as (H1 & H2 & H3). destruct (IH _ H3) as [K1 K2]. split; [exact K1|].
  intros s t [<-|Hs] Ht; [|exact (K2 s t Hs Ht)]. split; [apply H1, in_or_app; auto|]. intros E. apply H2; [exact E|apply in_or_app; auto].
Qed.
Lemma good_same chain : good_chain chain -> forall s t, In s chain -> In t chain -> osid s = osid t -> s = t.
Proof.
  induction chain as [|x chain IH]; intros H s t; [intros []|]. destruct H as (H1 & H2 & H3). intros [<-|Hs] [<-|Ht] E; [reflexivity| | |apply IH; assumption].
  - exfalso. exact (H1 t Ht (eq_sym E)).
  - exfalso. exact (H1 s Hs E).
Qed.
Lemma position_nth chain : good_chain chain -> forall n s, nth_error chain n = Some s -> position (osid s) chain = n.
Proof.
  induction chain as [|x chain IH]; intros H [|n] s E; cbn [nth_error] in E; try discriminate; cbn [position].
  - injection E as ->. rewrite Nat.eqb_refl. reflexivity.
  - destruct H as (H1 & H2 & H3). destruct (Nat.eqb_spec (osid x) (osid s)) as [K|K]; [exfalso; apply (H1 s); [eapply nth_error_In; exact E|congruence]|]. f_equal. apply IH; assumption.
Qed.

Section Proofs.
Context {V N : Type} (w : oops V N) (sub : nat -> nat -> bool) (ovrs : list (override N)) (o : option (orig V)) (target : bool) (overs : nat -> nat -> nat) (chain : list oscope).
Hypothesis Hchain : good_chain chain.
Hypothesis Horig : forall x, o = Some x -> good_orig target chain x.
Notation place := (place N).
Notation applies_to := (applies_to sub).
Notation assignment := (assignment sub chain o).

Definition at_scope (i : nat) (s : oscope) (js : list (nat * override N)) : list place := map (fun j => mkplace i s (fst j) (snd j)) js.
Definition latest_from (i : nat) (rest : list oscope) : list place := flat_map (fun i => at_scope (fst i) (snd i) (rev (indexed 0 ovrs))) (indexed i rest).
Definition order_from (i : nat) (rest : list oscope) : list place := flat_map (fun i => at_scope (fst i) (snd i) (indexed 0 ovrs)) (indexed i rest).

Lemma applies_some i s k (v : override N) m p : (p = None -> oroot s = None) -> applies sub s v m p = Some (applies_to (mkplace i s k v) m p).
Proof.
  intros H. unfold applies, OvrSpec.applies_to. cbn [what in_scope_]. destruct (ovis v); try reflexivity. destruct (oroot s) as [rs|]; [|reflexivity].
  destruct p as [p|]; [reflexivity|]. discriminate (H eq_refl).
Qed.
Lemma applies_any i s k (v : override N) m p r : applies sub s v m p = Some r -> applies_to (mkplace i s k v) m p = r.
Proof.
  unfold applies, OvrSpec.applies_to. cbn [what in_scope_]. destruct (ovis v); try congruence. destruct (oroot s) as [rs|]; [|congruence]. destruct p as [p|]; congruence.
Qed.

(* The original, as far as it has been seen. *)
Definition seen (pre : list oscope) (x : orig V) : bool := match vars x with MTarget _ => true | MScope a | MPattern a _ => existsb (fun s => osid s =? a) pre end.
Lemma reached_seen pre s outer x : chain = pre ++ s :: outer -> reached chain x (length pre) = seen (pre ++ [s]) x.
Proof.
  intros E. unfold reached, seen. assert (F : firstn (S (length pre)) chain = pre ++ [s]).
  { rewrite E. replace (pre ++ s :: outer) with ((pre ++ [s]) ++ outer) by (rewrite <- app_assoc; reflexivity). rewrite firstn_app. replace (S (length pre)) with (length (pre ++ [s])) by (rewrite app_length; cbn; lia). rewrite firstn_all, Nat.sub_diag, app_nil_r. reflexivity. }
  rewrite F. reflexivity.
Qed.
Lemma belongs_seen pre s outer x : chain = pre ++ s :: outer -> good_orig target chain x ->
  (if belongs target s (vars x) then Some (oroot s) else if seen pre x then Some (project_of chain x) else None) = (if seen (pre ++ [s]) x then Some (project_of chain x) else None).
Proof.
  intros E G. unfold belongs, seen, project_of, good_orig in *. rewrite E in Hchain. destruct (good_app _ _ Hchain) as [_ Hd].
  assert (M : forall a, (if a =? osid s then Some (oroot s) else if existsb (fun t => osid t =? a) pre then Some (match List.find (fun t => osid t =? a) chain with Some t => oroot t | None => None end) else None)
     = (if existsb (fun t => osid t =? a) (pre ++ [s]) then Some (match List.find (fun t => osid t =? a) chain with Some t => oroot t | None => None end) else None)).
  { intros a. rewrite existsb_app. cbn [existsb]. rewrite Bool.orb_false_r, (Nat.eqb_sym (osid s) a). destruct (Nat.eqb_spec a (osid s)) as [->|Hn]; [|rewrite Bool.orb_false_r; reflexivity].
    rewrite Bool.orb_true_r, E, find_app. assert (List.find (fun t => osid t =? osid s) pre = None) as ->.
    { destruct (List.find _ pre) as [t|] eqn:F; [|reflexivity]. apply find_some in F. destruct F as [F1 F2]. apply Nat.eqb_eq in F2. exfalso. apply (proj1 (Hd t s F1 (or_introl eq_refl))). congruence. }
    cbn [List.find]. rewrite Nat.eqb_refl. reflexivity. }
  destruct (vars x) as [a|a p|a]; [apply M| |reflexivity]. destruct G as [-> _]. cbn [andb]. apply M.
Qed.
(* If it comes from no project then there is none further out. *)
Lemma seen_root pre s outer x : chain = pre ++ s :: outer -> seen (pre ++ [s]) x = true -> project_of chain x = None -> oroot s = None.
Proof.
  intros E S P. rewrite E in Hchain. destruct (good_app _ _ Hchain) as [_ Hd]. unfold seen, project_of in *.
  assert (M : forall a, existsb (fun t => osid t =? a) (pre ++ [s]) = true -> match List.find (fun t => osid t =? a) chain with Some t => oroot t | None => None end = None -> oroot s = None).
  { intros a. rewrite E, existsb_app, find_app. cbn [existsb]. rewrite Bool.orb_false_r. destruct (List.find (fun t => osid t =? a) pre) as [t|] eqn:F.
    - apply find_some in F. intros _ R. exact (proj2 (Hd t s (proj1 F) (or_introl eq_refl)) R).
    - assert (existsb (fun t => osid t =? a) pre = false) as ->. { destruct (existsb _ pre) eqn:X; [|reflexivity]. apply existsb_exists in X. destruct X as [t [X1 X2]]. pose proof (find_none _ _ F t X1) as Y. cbn in Y. congruence. }
      cbn [orb List.find]. intros ->. auto. }
  destruct (vars x) as [a|a p|a]; [exact (M a S P)|exact (M a S P)|]. rewrite E in P. destruct pre as [|t pre]; cbn [app] in P; [exact P|]. exact (proj2 (Hd t s (or_introl eq_refl) (or_introl eq_refl)) P).
Qed.
Lemma seen_all x : o = Some x -> seen chain x = true.
Proof.
  intros E. specialize (Horig x E). unfold good_orig, seen in *. destruct (vars x) as [a|a p|a]; [| |reflexivity].
  - destruct Horig as (n & s & H1 & H2 & _). apply existsb_exists. exists s. split; [eapply nth_error_In; exact H1|apply Nat.eqb_eq; exact H2].
  - destruct Horig as (_ & n & s & H1 & H2 & _). apply existsb_exists. exists s. split; [eapply nth_error_In; exact H1|apply Nat.eqb_eq; exact H2].
Qed.
Lemma seen_app pre post x : seen pre x = true -> seen (pre ++ post) x = true.
Proof. unfold seen. destruct (vars x) as [a|a p|a]; auto; rewrite existsb_app; intros ->; reflexivity. Qed.

(* The first loop. *)
Definition inner_at (pre : list oscope) : option (mapid * option nat) :=
  match o with Some x => if seen pre x then Some (vars x, project_of chain x) else None | None => None end.
Lemma any_applies_spec i s at_ : (forall m p, at_ = Some (m, p) -> p = None -> oroot s = None) -> forall vs,
  any_applies sub s at_ (map snd vs) = Some (existsb (fun c => match has c with Some _ => match at_ with Some (m, p) => applies_to c m p | None => true end | None => false end) (at_scope i s vs)).
Proof.
  intros H. induction vs as [|[k v] vs IH]; [reflexivity|]. cbn [map snd any_applies at_scope existsb fst]. fold (at_scope i s vs). unfold has at 1. cbn [what in_scope_].
  destruct at_ as [[m p]|].
  - rewrite (applies_some i s k v m p (H m p eq_refl)). destruct (applies_to _ m p), (oval v (osid s)); cbn [orb]; try exact IH; reflexivity.
  - destruct (oval v (osid s)); [reflexivity|exact IH].
Qed.
Lemma map_snd_indexed {X} : forall (l : list X) n, map snd (indexed n l) = l.
Proof. induction l as [|x l IH]; intros n; [reflexivity|]. cbn [indexed map snd]. rewrite IH. reflexivity. Qed.
Definition ap (at_ : option (mapid * option nat)) (c : place) : bool := match has c with Some _ => match at_ with Some (m, p) => applies_to c m p | None => true end | None => false end.
Lemma inner_step pre s outer : chain = pre ++ s :: outer ->
  inner_loop sub ovrs o target (s :: outer) (inner_at pre) =
  if existsb (ap (inner_at (pre ++ [s]))) (at_scope (length pre) s (indexed 0 ovrs))
  then Some (Some (match inner_at (pre ++ [s]) with Some i => i | None => (MScope (osid s), oroot s) end))
  else inner_loop sub ovrs o target outer (inner_at (pre ++ [s])).
Proof.
  intros E. cbn [inner_loop].
  assert (I : match inner_at pre, o with None, Some x => if belongs target s (vars x) then Some (vars x, oroot s) else None | _, _ => inner_at pre end = inner_at (pre ++ [s])).
  { unfold inner_at. pose proof (fun x H => belongs_seen pre s outer x E (Horig x H)) as B0. destruct o as [x|]; [|reflexivity]. pose proof (B0 x eq_refl) as B.
    destruct (seen pre x) eqn:S; [rewrite (seen_app pre [s] x S); reflexivity|]. destruct (belongs target s (vars x)), (seen (pre ++ [s]) x); congruence. }
  rewrite I. assert (A : forall vs, any_applies sub s (inner_at (pre ++ [s])) (map snd vs) = Some (existsb (ap (inner_at (pre ++ [s]))) (at_scope (length pre) s vs))).
  { apply any_applies_spec. intros m p F. unfold inner_at in F. destruct o as [x|]; [|discriminate]. destruct (seen (pre ++ [s]) x) eqn:S; [|discriminate]. injection F as <- <-. apply (seen_root pre s outer x E S). }
  rewrite <- (map_snd_indexed ovrs 0), <- map_rev, A. rewrite (map_snd_indexed ovrs 0).
  assert (R : existsb (ap (inner_at (pre ++ [s]))) (at_scope (length pre) s (rev (indexed 0 ovrs))) = existsb (ap (inner_at (pre ++ [s]))) (at_scope (length pre) s (indexed 0 ovrs))).
  { unfold at_scope. rewrite map_rev. generalize (map (fun j => mkplace (length pre) s (fst j) (snd j)) (indexed 0 ovrs)). intros l.
    destruct (existsb _ l) eqn:X.
    - apply existsb_exists in X. destruct X as [c [X1 X2]]. apply existsb_exists. exists c. split; [apply -> in_rev; exact X1|exact X2].
    - destruct (existsb _ (rev l)) eqn:Y; [|reflexivity]. apply existsb_exists in Y. destruct Y as [c [Y1 Y2]]. apply in_rev in Y1. assert (existsb (ap (inner_at (pre ++ [s]))) l = true) by (apply existsb_exists; eauto). congruence. }
  rewrite R. reflexivity.
Qed.

(* If nothing applies then all there is is in or outside of the scope of the original. *)
Lemma inner_none : forall rest pre, chain = pre ++ rest -> inner_loop sub ovrs o target rest (inner_at pre) = Some None ->
  forall c, In c (order_from (length pre) rest) -> has c <> None -> exists x, o = Some x /\ reached chain x (where_ c) = true /\ applies_to c (vars x) (project_of chain x) = false.
Proof.
  induction rest as [|s outer IH]; intros pre E H c; [intros []|]. rewrite (inner_step pre s outer E) in H.
  destruct (existsb _ _) eqn:X; [discriminate|]. unfold order_from. cbn [indexed flat_map fst snd]. intros Hc Hh. apply in_app_or in Hc. destruct Hc as [Hc|Hc].
  - assert (ap (inner_at (pre ++ [s])) c = false) as A. { destruct (ap (inner_at (pre ++ [s])) c) eqn:A; [|reflexivity]. assert (existsb (ap (inner_at (pre ++ [s]))) (at_scope (length pre) s (indexed 0 ovrs)) = true) by (apply existsb_exists; eauto). congruence. }
    unfold ap in A. destruct (has c); [|congruence]. unfold inner_at in A. destruct o as [x|]; [|discriminate]. destruct (seen (pre ++ [s]) x) eqn:Sx; [|discriminate].
    exists x. split; [reflexivity|]. split; [|exact A]. unfold at_scope in Hc. apply in_map_iff in Hc. destruct Hc as [j [<- _]]. cbn [where_]. rewrite (reached_seen pre s outer x E). exact Sx.
  - replace (S (length pre)) with (length (pre ++ [s])) in Hc by (rewrite app_length; cbn; lia).
    apply (IH (pre ++ [s])); [rewrite <- app_assoc; exact E|exact H|exact Hc|exact Hh].
Qed.
Lemma inner_total : forall rest pre, chain = pre ++ rest -> inner_loop sub ovrs o target rest (inner_at pre) <> None.
Proof.
  induction rest as [|s outer IH]; intros pre E; [discriminate|]. rewrite (inner_step pre s outer E). destruct (existsb _ _); [discriminate|]. apply IH. rewrite <- app_assoc. exact E.
Qed.
(* Where the innermost value is: nothing is defined in the scopes before. *)
Lemma inner_some : forall rest pre m p, chain = pre ++ rest -> inner_loop sub ovrs o target rest (inner_at pre) = Some (Some (m, p)) ->
  (forall x, o = Some x -> seen pre x = false) ->
  exists bf s outer, rest = bf ++ s :: outer /\ (forall c, In c (order_from (length pre) bf) -> has c = None) /\
    (p = oroot s) /\ (m = MScope (osid s) \/ exists x, o = Some x /\ m = vars x /\ seen (pre ++ bf ++ [s]) x = true /\ seen (pre ++ bf) x = false).
Proof.
  induction rest as [|s outer IH]; intros pre m p E H Hs; [discriminate|]. rewrite (inner_step pre s outer E) in H.
  assert (D : (exists x, o = Some x /\ seen (pre ++ [s]) x = true) \/ forall x, o = Some x -> seen (pre ++ [s]) x = false).
  { destruct o as [x|]; [|right; discriminate]. destruct (seen (pre ++ [s]) x) eqn:Sx; [left; eauto|right; intros y F; injection F as <-; exact Sx]. }
  destruct D as [[x [Ho Sx]]|D].
  - (* the original is here *)
    assert (I : inner_at (pre ++ [s]) = Some (vars x, oroot s)).
    { pose proof (belongs_seen pre s outer x E (Horig x Ho)) as B. unfold inner_at. rewrite Ho, Sx. rewrite Sx, (Hs x Ho) in B. destruct (belongs target s (vars x)); [|discriminate]. injection B as <-. reflexivity. }
    rewrite I in H. assert (R : forall l i, inner_loop sub ovrs o target l (Some (vars x, oroot s)) = Some (Some i) -> i = (vars x, oroot s)).
    { clear. induction l as [|t l IHl]; intros i H; [discriminate|]. cbn [inner_loop] in H. destruct (any_applies _ _ _ _) as [[|]|]; [congruence|apply IHl; exact H|discriminate]. }
    assert (mp : (m, p) = (vars x, oroot s)). { destruct (existsb _ _); [congruence|]. exact (R _ _ H). } injection mp as -> ->.
    exists [], s, outer. split; [reflexivity|]. split; [intros c []|]. split; [reflexivity|]. right. exists x. rewrite !app_nil_r. cbn [app]. auto.
  - assert (I : inner_at (pre ++ [s]) = None). { unfold inner_at. destruct o as [x|]; [|reflexivity]. rewrite (D x eq_refl). reflexivity. }
    rewrite I in H. destruct (existsb (ap None) (at_scope (length pre) s (indexed 0 ovrs))) eqn:X.
    + injection H as <- <-. exists [], s, outer. split; [reflexivity|]. split; [intros c []|]. auto.
    + rewrite <- I in H. destruct (IH (pre ++ [s]) m p) as (bf & t & out' & K1 & K2 & K3 & K4); [rewrite <- app_assoc; exact E|exact H|exact D|].
      exists (s :: bf), t, out'. split; [rewrite K1; reflexivity|]. split.
      * intros c. unfold order_from. cbn [indexed flat_map fst snd]. intros Hc. apply in_app_or in Hc. destruct Hc as [Hc|Hc].
        -- destruct (has c) eqn:Hh; [|reflexivity]. assert (existsb (ap None) (at_scope (length pre) s (indexed 0 ovrs)) = true); [|congruence]. apply existsb_exists. exists c. split; [exact Hc|]. unfold ap. rewrite Hh. reflexivity.
        -- apply K2. rewrite app_length. cbn [length]. rewrite Nat.add_comm. exact Hc.
      * split; [exact K3|]. destruct K4 as [K4|(x & J1 & J2 & J3 & J4)]; [auto|]. right. exists x. rewrite <- app_assoc in J3, J4. auto.
Qed.

(* The second loop. *)
Definition d0 : nat := if target then 2 else 0.
Definition orig_at (pre : list oscope) : option (stem V) := match o with Some x => if seen pre x then Some (orig_stem x (project_of chain x)) else None | None => None end.
Definition of_place (c : place) : stem V :=
  mkstem (of_names w (match has c with Some n => n | None => None end)) (MScope (osid (in_scope_ c))) (overs (which c) (osid (in_scope_ c))) (d0 + S (where_ c)) (oroot (in_scope_ c)) (Some (which c)).

Fixpoint down (n : nat) (l : list (override N)) : list (nat * override N) := match l with [] => [] | v :: l' => (n - 1, v) :: down (n - 1) l' end.
Lemma down_rev : forall l, rev (indexed 0 l) = down (length l) (rev l).
Proof.
  induction l as [|v l IH] using rev_ind; [reflexivity|]. rewrite indexed_app, !rev_app_distr, app_length. cbn [indexed rev app length Nat.add down].
  replace (length l + 1 - 1) with (length l) by lia. rewrite IH. reflexivity.
Qed.
Definition as_ (st : option (stem V)) (c : place) : bool :=
  match kind (what c), has c with KAssign, Some _ => match st with Some x => applies_to c (st_vars x) (st_proj x) | None => true end | _, _ => false end.
Lemma find_assign_spec i s st : (forall x, st = Some x -> st_proj x = None -> oroot s = None) -> forall vs n,
  find_assign w sub overs s st (d0 + S i) vs n = Some (option_map of_place (List.find (as_ st) (at_scope i s (down n vs)))).
Proof.
  intros H. induction vs as [|v vs IH]; intros n; [reflexivity|]. cbn [find_assign down at_scope map List.find fst snd]. fold (at_scope i s (down (n - 1) vs)).
  unfold as_ at 1. unfold has. cbn [what in_scope_].
  destruct st as [x|].
  - rewrite (applies_some i s (n - 1) v _ _ (H x eq_refl)). destruct (applies_to _ _ _); destruct (kind v); try apply IH; destruct (oval v (osid s)) eqn:Ev; try apply IH.
    cbn [option_map]. unfold of_place, has. cbn [what in_scope_ which where_]. rewrite Ev. reflexivity.
  - destruct (kind v); try apply IH; destruct (oval v (osid s)) eqn:Ev; try apply IH.
    cbn [option_map]. unfold of_place, has. cbn [what in_scope_ which where_]. rewrite Ev. reflexivity.
Qed.
Lemma stem_loop_spec : forall rest pre, chain = pre ++ rest ->
  stem_loop w sub ovrs o target overs rest (d0 + length pre) (orig_at pre) =
  Some (match List.find assignment (latest_from (length pre) rest) with Some c => Some (of_place c) | None => orig_at chain end).
Proof.
  induction rest as [|s outer IH]; intros pre E; [rewrite app_nil_r in E; subst pre; reflexivity|].
  unfold latest_from. cbn [stem_loop indexed flat_map fst snd].
  assert (I : match o with Some x => if belongs target s (vars x) then Some (orig_stem x (oroot s)) else orig_at pre | None => orig_at pre end = orig_at (pre ++ [s])).
  { unfold orig_at. pose proof (fun x H => belongs_seen pre s outer x E (Horig x H)) as B0. destruct o as [x|]; [|reflexivity]. pose proof (B0 x eq_refl) as B.
    destruct (belongs target s (vars x)), (seen (pre ++ [s]) x), (seen pre x); try congruence. }
  rewrite I, find_app. replace (S (d0 + length pre)) with (d0 + S (length pre)) by lia.
  rewrite find_assign_spec; [|].
  2: { intros x F. unfold orig_at in F. destruct o as [y|]; [|discriminate]. destruct (seen (pre ++ [s]) y) eqn:Sy; [|discriminate]. injection F as <-. cbn [orig_stem st_proj]. apply (seen_root pre s outer y E Sy). }
  rewrite <- down_rev.
  assert (F : List.find (as_ (orig_at (pre ++ [s]))) (at_scope (length pre) s (rev (indexed 0 ovrs))) = List.find assignment (at_scope (length pre) s (rev (indexed 0 ovrs)))).
  { apply find_ext. intros c Hc. unfold at_scope in Hc. apply in_map_iff in Hc. destruct Hc as [j [<- _]]. unfold as_, OvrSpec.assignment. cbn [what where_].
    destruct (kind (snd j)); try reflexivity. destruct (has _); [|reflexivity]. unfold orig_at. destruct o as [x|]; [|reflexivity]. rewrite (reached_seen pre s outer x E).
    destruct (seen (pre ++ [s]) x); reflexivity. }
  rewrite F. destruct (List.find assignment (at_scope (length pre) s (rev (indexed 0 ovrs)))) as [c|]; [reflexivity|]. cbn [option_map].
  replace (d0 + S (length pre)) with (d0 + length (pre ++ [s])) by (rewrite app_length; cbn; lia).
  rewrite (IH (pre ++ [s])) by (rewrite <- app_assoc; exact E). rewrite app_length. cbn [length]. rewrite Nat.add_1_r. reflexivity.
Qed.
Definition model_stem (st : stem_is V N) : option (stem V) :=
  match st with IsOverride c => Some (of_place c) | IsOriginal x => Some (orig_stem x (project_of chain x)) | IsNothing => None end.
Definition base_ : option nat := match chain with s :: _ => oroot s | [] => None end.
(* The special case of the target makes no difference otherwise. *)
Lemma targetspec_seen x : o = Some x -> targetspec o target = true -> seen (firstn 1 chain) x = true /\ project_of chain x = base_.
Proof.
  intros E H. specialize (Horig x E). unfold targetspec in H. rewrite E in H. apply Bool.andb_true_iff in H. destruct H as [-> H]. 
  assert (D : depth x <= 2) by (apply Bool.orb_true_iff in H; destruct H as [H|H]; apply Nat.eqb_eq in H; lia).
  unfold good_orig, seen, project_of, base_ in *. assert (M : forall a n s, nth_error chain n = Some s -> osid s = a -> n = 0 ->
    existsb (fun t => osid t =? a) (firstn 1 chain) = true /\ match List.find (fun t => osid t =? a) chain with Some t => oroot t | None => None end = match chain with t :: _ => oroot t | [] => None end).
  { clear. intros a n s H1 H2 ->. destruct chain as [|t l]; [discriminate|]. injection H1 as ->. cbn [firstn existsb List.find]. subst a. rewrite Nat.eqb_refl. auto. }
  destruct (vars x) as [a|a p|a]; [| |auto].
  - destruct Horig as (n & s & H1 & H2 & H3). apply (M a n s H1 H2 (H3 D)).
  - destruct Horig as (_ & n & s & H1 & H2 & H3). apply (M a n s H1 H2 (H3 D)).
Qed.
Lemma target_spec x : o = Some x -> seen [] x = true -> targetspec o target = true.
Proof.
  intros E S. specialize (Horig x E). unfold seen, good_orig in *. destruct (vars x) as [a|a p|a] eqn:Ev; try discriminate. destruct Horig as [-> D].
  unfold targetspec. rewrite E. cbn [andb]. destruct D as [-> | ->]; reflexivity.
Qed.

Lemma init_cases : (exists x, o = Some x /\ targetspec o target = true /\ seen [] x = false /\ seen (firstn 1 chain) x = true /\ project_of chain x = base_) \/
  ((exists x, o = Some x /\ targetspec o target = true /\ seen [] x = true /\ project_of chain x = base_) \/ (targetspec o target = false /\ forall x, o = Some x -> seen [] x = false)).
Proof.
  pose proof targetspec_seen as A. pose proof target_spec as B. destruct o as [x|]; [|right; right; split; [reflexivity|discriminate]]. destruct (targetspec (Some x) target) eqn:T.
  - destruct (A x eq_refl eq_refl) as [A1 A2]. destruct (seen [] x) eqn:S; [right; left; exists x; auto|left; exists x; auto].
  - right. right. split; [reflexivity|]. intros y F. injection F as <-. destruct (seen [] x) eqn:S; [|reflexivity]. pose proof (B x eq_refl S). congruence.
Qed.
Lemma belongs_first x : o = Some x -> seen [] x = false -> seen (firstn 1 chain) x = true -> exists s outer, chain = s :: outer /\ belongs target s (vars x) = true.
Proof.
  intros E S S1. assert (C : chain = [] \/ exists s outer, chain = s :: outer) by (clear; destruct chain as [|s outer]; eauto).
  destruct C as [C|(s & outer & C)]; [rewrite C in S1; cbn [firstn] in S1; congruence|]. exists s, outer. split; [exact C|].
  pose proof (belongs_seen [] s outer x C (Horig x E)) as B. rewrite C in S1. cbn [firstn app] in S1, B. rewrite S1, S in B. destruct (belongs target s (vars x)); [reflexivity|discriminate].
Qed.
Lemma inner_init : inner_loop sub ovrs o target chain (match o with Some x => if targetspec o target then Some (vars x, base_) else None | None => None end) = inner_loop sub ovrs o target chain (inner_at []).
Proof.
  destruct init_cases as [(x & E & T & S & S1 & P)|[(x & E & T & S & P)|[T S]]].
  - destruct (belongs_first x E S S1) as (s & outer & C & B). rewrite T. unfold inner_at, base_. rewrite E, S, C. cbn [inner_loop]. rewrite B. reflexivity.
  - rewrite T. unfold inner_at. rewrite E, S, P. reflexivity.
  - rewrite T. unfold inner_at. destruct o as [x|]; [rewrite (S x eq_refl)|]; reflexivity.
Qed.
Lemma stem_init : stem_loop w sub ovrs o target overs chain d0 (match o with Some x => if targetspec o target then Some (orig_stem x base_) else None | None => None end) = Some (model_stem (the_stem sub ovrs chain o)).
Proof.
  transitivity (stem_loop w sub ovrs o target overs chain (d0 + length (@nil oscope)) (orig_at [])).
  - cbn [length]. rewrite Nat.add_0_r. destruct init_cases as [(x & E & T & S & S1 & P)|[(x & E & T & S & P)|[T S]]].
    + destruct (belongs_first x E S S1) as (s & outer & C & B). rewrite T. unfold orig_at. rewrite E, S, C. cbn [stem_loop]. rewrite B. reflexivity.
    + rewrite T. unfold orig_at. rewrite E, S, P. reflexivity.
    + rewrite T. unfold orig_at. destruct o as [x|]; [rewrite (S x eq_refl)|]; reflexivity.
  - rewrite (stem_loop_spec chain []) by reflexivity. unfold the_stem. change (latest_from (length (@nil oscope)) chain) with (by_latest ovrs chain).
    destruct (List.find assignment (by_latest ovrs chain)) as [c|]; [reflexivity|]. unfold orig_at. pose proof seen_all as A. destruct o as [x|]; [rewrite (A x eq_refl)|]; reflexivity.
Qed.

(* The third loop. *)
Definition step (a : acc V) (c : place) : acc V :=
  if match a_vars a with Some m => applies_to c m (a_proj a) | None => true end then
    match a_vars a with
    | None => mkacc (add_affix w (cv a) c) (d0 + S (where_ c)) (Some (MScope (osid (in_scope_ c)))) (oroot (in_scope_ c))
    | Some _ => if d0 + S (where_ c) <? a_depth a then mkacc (add_affix w (cv a) c) (d0 + S (where_ c)) (Some (MScope (osid (in_scope_ c)))) (a_proj a)
                else mkacc (add_affix w (cv a) c) (a_depth a) (a_vars a) (a_proj a)
    end
  else a.
Definition after (skip : option nat) (c : place) : bool := affix c && negb (match skip with Some k => which c <=? k | None => false end).
Lemma affixes_spec i s : forall vs n skip a a', (forall k, skip = Some k -> n <= k) -> affixes w sub s (d0 + S i) skip vs n a = Some a' ->
  a' = fold_left step (filter (after skip) (at_scope i s (indexed n vs))) a.
Proof.
  induction vs as [|v vs IH]; intros n skip a a' Hsk H; cbn [affixes indexed at_scope map filter fst snd] in *; [cbn [fold_left]; congruence|]. fold (at_scope i s (indexed (S n) vs)).
  assert (L : forall k, k < S n -> forall a, fold_left step (filter (after (Some k)) (at_scope i s (indexed (S n) vs))) a = fold_left step (filter (after None) (at_scope i s (indexed (S n) vs))) a).
  { intros k Hk b0. f_equal. apply filter_ext_in. intros c Hc. unfold at_scope in Hc. apply in_map_iff in Hc. destruct Hc as [[j u] [<- Hj]]. apply indexed_in in Hj. unfold after. cbn [which fst]. f_equal. f_equal. apply Nat.leb_gt. lia. }
  destruct skip as [k|].
  - destruct (Nat.eqb_spec k n) as [->|Hk].
    + apply IH in H; [|discriminate]. unfold after at 1. cbn [which]. rewrite Nat.leb_refl, Bool.andb_false_r. rewrite H. symmetry. apply L. lia.
    + specialize (Hsk k eq_refl). apply IH in H; [|intros j Ej; injection Ej as <-; lia]. unfold after at 1. cbn [which]. rewrite (proj2 (Nat.leb_le n k) Hsk), Bool.andb_false_r. exact H.
  - destruct (match a_vars a with Some m => applies sub s v m (a_proj a) | None => Some true end) as [r|] eqn:Ea; [|discriminate].
    assert (Ep : match a_vars a with Some m => applies_to (mkplace i s n v) m (a_proj a) | None => true end = r).
    { destruct (a_vars a) as [m|]; [exact (applies_any i s n v m _ r Ea)|congruence]. }
    assert (No : forall k, @None nat = Some k -> S n <= k) by discriminate.
    destruct r.
    + destruct (kind v) eqn:Ek.
      * apply IH in H; [|exact No]. unfold after at 1, affix. cbn [what]. rewrite Ek. exact H.
      * destruct (oval v (osid s)) as [x|] eqn:Ev; apply IH in H; try exact No; unfold after at 1, affix, has; cbn [what in_scope_]; rewrite Ek, Ev; cbn [andb negb]; [|exact H].
        cbn [fold_left]. unfold step at 2. rewrite Ep. unfold add_affix, has. cbn [what in_scope_ where_]. rewrite Ek, Ev. destruct x; exact H.
      * destruct (oval v (osid s)) as [x|] eqn:Ev; apply IH in H; try exact No; unfold after at 1, affix, has; cbn [what in_scope_]; rewrite Ek, Ev; cbn [andb negb]; [|exact H].
        cbn [fold_left]. unfold step at 2. rewrite Ep. unfold add_affix, has. cbn [what in_scope_ where_]. rewrite Ek, Ev. destruct x; exact H.
    + apply IH in H; [|exact No]. destruct (after None (mkplace i s n v)); [|exact H]. cbn [fold_left]. unfold step at 2. rewrite Ep. exact H.
Qed.
Lemma filter_flat {X Y} (f : Y -> bool) (g : X -> list Y) : forall l, filter f (flat_map g l) = flat_map (fun x => filter f (g x)) l.
Proof. induction l as [|x l IH]; [reflexivity|]. cbn [flat_map]. rewrite filter_app, IH. reflexivity. Qed.
Definition wanted (st : stem_is V N) (c : place) : bool := affix c && negb (superseded st c).
Lemma find_place (c : place) : forall n rest f, List.find f (flat_map (fun i => at_scope (fst i) (snd i) (rev (indexed 0 ovrs))) (indexed n rest)) = Some c ->
  n <= where_ c /\ nth_error rest (where_ c - n) = Some (in_scope_ c) /\ nth_error ovrs (which c) = Some (what c) /\ f c = true.
Proof.
  intros n rest f H. apply find_some in H. destruct H as [H Hf]. apply in_flat_map in H. destruct H as [[i s] [H1 H2]]. unfold at_scope in H2. apply in_map_iff in H2. destruct H2 as [[k v] [<- H3]].
  cbn [where_ in_scope_ which what fst snd] in *. apply indexed_in in H1. apply in_rev in H3. apply indexed_in in H3. rewrite Nat.sub_0_r in H3. tauto.
Qed.
Lemma affix_loop_spec st : the_stem sub ovrs chain o = st -> forall rest pre a a', chain = pre ++ rest ->
  affix_loop w sub ovrs (model_stem st) rest (d0 + length pre) a = Some a' -> a' = fold_left step (filter (wanted st) (order_from (length pre) rest)) a.
Proof.
  intros Est. induction rest as [|s outer IH]; intros pre a a' E H; cbn [affix_loop] in H; [unfold order_from; cbn; congruence|].
  unfold order_from. cbn [indexed flat_map fst snd]. rewrite filter_app, fold_left_app.
  set (skip := match model_stem st with Some x => if st_depth x =? S (d0 + length pre) then st_ovr x else None | None => None end) in H.
  replace (S (d0 + length pre)) with (d0 + S (length pre)) in H by lia.
  destruct (affixes _ _ _ _ _ _ _ _) as [a1|] eqn:Ea; [|discriminate]. apply affixes_spec in Ea; [|intros; lia].
  replace (d0 + S (length pre)) with (d0 + length (pre ++ [s])) in H by (rewrite app_length; cbn; lia).
  apply (IH (pre ++ [s])) in H; [|rewrite <- app_assoc; exact E]. rewrite H, Ea, app_length. cbn [length]. rewrite Nat.add_1_r. f_equal. f_equal.
  apply filter_ext_in. intros c Hc. unfold at_scope in Hc. apply in_map_iff in Hc. destruct Hc as [j [<- _]]. unfold after, wanted. f_equal. f_equal. unfold skip, superseded. cbn [which in_scope_].
  destruct st as [c|x|]; cbn [model_stem].
  - cbn [of_place st_depth st_ovr]. unfold the_stem in Est. destruct (List.find _ _) as [c'|] eqn:F; [injection Est as ->|destruct o; discriminate].
    apply (find_place c 0 chain) in F. destruct F as (_ & F & _). rewrite Nat.sub_0_r in F.
    assert (Hs : nth_error chain (length pre) = Some s) by (rewrite E, nth_error_app2, Nat.sub_diag by lia; reflexivity).
    destruct (Nat.eqb_spec (d0 + S (where_ c)) (S (d0 + length pre))) as [Q|Q].
    + replace (where_ c) with (length pre) in F by lia. rewrite Hs in F. injection F as <-. rewrite Nat.eqb_refl. reflexivity.
    + destruct (Nat.eqb_spec (osid s) (osid (in_scope_ c))) as [Q2|Q2]; [|reflexivity]. exfalso. apply Q.
      pose proof (position_nth chain Hchain _ _ F) as P1. pose proof (position_nth chain Hchain _ _ Hs) as P2. rewrite Q2 in P2. lia.
  - cbn [orig_stem st_depth st_ovr]. destruct (_ =? _); reflexivity.
  - reflexivity.
Qed.
End Proofs.
