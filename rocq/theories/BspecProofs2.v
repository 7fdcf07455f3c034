(* Proofs about buildspecs: parsing. *)
From Verif Require Import Base BspecModel BspecSpec BspecProofs.
From Coq Require Import Lia.

Definition is_word (n : nm) : bool := match opname n with Some _ => true | None => false end.
Lemma opname_word n s : opname n = Some s -> is_word n = true /\ word n = s /\ s <> [].
Proof.
  unfold is_word. intros H. rewrite H. split; [reflexivity |]. destruct n as [[| c v] | | | |]; cbn in H; try discriminate.
  destruct (_ && _); [| discriminate]. injection H as <-. split; [reflexivity | discriminate].
Qed.
Lemma is_word_opname n : is_word n = true -> opname n = Some (word n) /\ word n <> [].
Proof.
  unfold is_word. destruct (opname n) as [s |] eqn:E; [| discriminate]. intros _. destruct (opname_word n s E) as (_ & <- & N). auto.
Qed.
Lemma opname_iff n s : opname n = Some s <-> Word n s.
Proof.
  unfold Word. split.
  - intros H. destruct n as [[| c v] | | | |]; cbn in H; try discriminate.
    destruct (_ && _) eqn:E; [| discriminate]. injection H as <-. split; [reflexivity |]. exists c, v. split; [reflexivity |].
    apply andb_true_iff in E. destruct E as [E F]. apply orb_true_iff in E. split.
    + destruct E as [E | E]; [left; apply ceqb_eq; exact E | right; left; exact E].
    + apply Forall_forall. intros x Hx. rewrite forallb_forall in F. specialize (F x Hx). apply orb_true_iff in F.
      destruct F as [F | F]; [left; apply ceqb_eq; exact F | right; right; auto].
  - intros (-> & c & r & -> & C & R). cbn.
    assert (E : (ceqb c "-" || alpha c) && forallb (fun c => ceqb c "-" || alnum c) r = true).
    { apply andb_true_iff. split.
      - destruct C as [-> | [-> | [C _]]]; [reflexivity | apply orb_true_r | discriminate].
      - apply forallb_forall. intros x Hx. rewrite Forall_forall in R. destruct (R x Hx) as [-> | [A | [_ A]]].
        + reflexivity.
        + unfold alnum. rewrite A. apply orb_true_r.
        + rewrite A. apply orb_true_r. }
    rewrite E. reflexivity.
Qed.
Lemma opnames_iff ns l : opnames ns = Some l <-> Forall (fun n => is_word n = true) ns /\ l = map word ns.
Proof.
  revert l. induction ns as [| n ns IH]; intros l; cbn.
  - split; [intros [= <-]; auto | intros [_ ->]; reflexivity].
  - destruct (opname n) as [s |] eqn:E.
    + destruct (opname_word n s E) as (W & <- & _). destruct (opnames ns) as [r |].
      * destruct (IH r) as [H _]. destruct (H eq_refl) as [F ->]. split; [intros [= <-]; auto |]. intros [_ ->]. reflexivity.
      * split; [discriminate |]. intros [F _]. inversion F; subst. destruct (IH (map word ns)) as [_ H]. discriminate H. auto.
    + split; [discriminate |]. intros [F _]. inversion F as [| ? ? W]; subst. unfold is_word in W. rewrite E in W. discriminate.
Qed.

(* Adding to the last operation and the last meta-operation. *)
Local Notation osnoc := (snoc oun omg).
Local Notation msnoc := (snoc mun mmg).
Local Notation name_op := (name_op is_word).
Local Notation item_ops := (item_ops is_word).
Local Notation item_metas := (item_metas is_word).
Local Notation has_op := (has_op is_word).
Local Notation meta_call := (meta_call is_word).
Local Notation Valid := (Valid is_word).
Local Notation meaning := (meaning is_word).

Definition with_ops (m : metaopspec) (os : list opspec) : metaopspec := mkmeta (mname m) (mparams m) os.
Lemma name_op_OP n : OP (name_op n).
Proof. unfold BspecSpec.name_op, OP. destruct (is_word n); reflexivity. Qed.
Lemma name_ops_OP ns : Forall OP (map name_op ns).
Proof. apply Forall_forall. intros o H. apply in_map_iff in H. destruct H as (n & <- & _). apply name_op_OP. Qed.
Lemma push_op_snoc s ps ts m : s <> [] -> push_op (mkop s ps ts) m = with_ops m (osnoc (ops m) (mkop s ps ts)).
Proof.
  intros N. unfold push_op, with_ops. f_equal. unfold snoc, oun. cbn. apply unnamed_false in N. rewrite N.
  destruct (snoc_cases (ops m)) as [-> | (l & x & ->)]; [reflexivity |]. rewrite back_snoc, andb_false_r. reflexivity.
Qed.
Lemma push_target_snoc n m : Forall OP (ops m) -> push_target n m = with_ops m (osnoc (ops m) (mkop [] [] [n])).
Proof.
  intros H. unfold push_target, with_ops. f_equal. destruct (snoc_cases (ops m)) as [E | (l & x & E)]; rewrite E in *; [reflexivity |].
  rewrite snoc_snoc, back_snoc. unfold oun. cbn [oname unnamed]. rewrite andb_true_r. destruct (unnamed (oname x)) eqn:U.
  - rewrite on_last_snoc. apply unnamed_true in U. apply Forall_app in H. destruct H as [_ H]. inversion H as [| ? ? Hx]; subst.
    unfold omg. rewrite U, (Hx U). reflexivity.
  - rewrite on_last_snoc. reflexivity.
Qed.
Lemma osnoc_OP l x : Forall OP l -> OP x -> Forall OP (osnoc l x).
Proof.
  intros H Hx. destruct (snoc_cases l) as [-> | (r & y & ->)]; [repeat constructor; auto |]. rewrite snoc_snoc.
  apply Forall_app in H. destruct H as [H1 H2]. inversion H2; subst. destruct (oun y && oun x).
  - apply Forall_app. split; [exact H1 |]. constructor; [apply omg_P; assumption | constructor].
  - apply Forall_app. split; [apply Forall_app; auto |]. repeat constructor; auto.
Qed.
Lemma add_names_ok ns : forall m, Forall OP (ops m) ->
  add_names m ns = if existsb (fun n => match n with Qualified | BadPair => true | _ => false end) ns then None
                   else Some (with_ops m (fold_left osnoc (map name_op ns) (ops m))).
Proof.
  induction ns as [| n ns IH]; intros m H.
  - cbn. destruct m; reflexivity.
  - assert (K : add_names (match opname n with Some s => push_op (mkop s [] []) m | None => push_target n m end) ns =
      if existsb (fun n => match n with Qualified | BadPair => true | _ => false end) ns then None
      else Some (with_ops m (fold_left osnoc (map name_op (n :: ns)) (ops m)))).
    { assert (E : (match opname n with Some s => push_op (mkop s [] []) m | None => push_target n m end) = with_ops m (osnoc (ops m) (name_op n))).
      { unfold BspecSpec.name_op. destruct (opname n) as [s |] eqn:O.
        - destruct (opname_word n s O) as (W & <- & N). rewrite W. apply push_op_snoc, N.
        - unfold is_word. rewrite O. apply push_target_snoc, H. }
      rewrite E, IH; [reflexivity |]. cbn. apply osnoc_OP; [exact H | apply name_op_OP]. }
    cbn [add_names existsb]. destruct n; try exact K; reflexivity.
Qed.

Local Notation J := (joined mun mmg).
Lemma J_P R : Forall MP R -> Forall MP (J R).
Proof. apply joined_P. exact mmg_P. Qed.
Lemma J_snoc R m : Forall MP R -> MP m -> J (R ++ [m]) = msnoc (J R) m.
Proof. apply joined_snoc; [exact mmg_un | exact mmg_P | exact mmg_assoc]. Qed.
Lemma fold_osnoc os xs : Forall OP os -> Forall OP xs -> joined_ops os = os -> fold_left osnoc xs os = joined_ops (os ++ joined_ops xs).
Proof.
  intros Ho Hx E. rewrite !joined_ops_eq in *. rewrite (joined_app_r oun omg OP) by (auto using omg_un, omg_P, omg_assoc).
  rewrite (joined_fold oun omg OP) by (auto using omg_un, omg_P, omg_assoc). rewrite E. reflexivity.
Qed.

(* Adding operations to the last meta-operation without a name. *)
Lemma default_meta_cases bs : Forall MP bs -> exists l m, default_meta bs = l ++ [m] /\ mname m = [] /\ MP m /\
  (forall os, Forall OP os -> l ++ [with_ops m (fold_left osnoc os (ops m))] = msnoc bs (mkmeta [] [] (joined_ops os))).
Proof.
  intros H. unfold default_meta. assert (M0 : MP (mkmeta [] [] [])) by (split; [constructor | split; reflexivity]).
  destruct (snoc_cases bs) as [-> | (l & m & ->)].
  - exists [], (mkmeta [] [] []). split; [reflexivity |]. split; [reflexivity |]. split; [exact M0 |]. intros os Hos. cbn.
    unfold with_ops. cbn. rewrite fold_osnoc by (auto; reflexivity). cbn. rewrite joined_ops_idem by exact Hos. reflexivity.
  - rewrite back_snoc. apply Forall_app in H. destruct H as [Hl Hm]. inversion Hm as [| ? ? Pm]; subst.
    destruct (unnamed (mname m)) eqn:U.
    + apply unnamed_true in U. exists l, m. split; [reflexivity |]. split; [exact U |]. split; [exact Pm |]. intros os Hos.
      rewrite snoc_snoc. unfold mun. cbn. rewrite U. cbn. destruct Pm as (P1 & P2 & P3). unfold with_ops, mmg. cbn.
      rewrite (P3 U), U, fold_osnoc by auto. reflexivity.
    + exists (l ++ [m]), (mkmeta [] [] []). split; [reflexivity |]. split; [reflexivity |]. split; [exact M0 |]. intros os Hos.
      rewrite snoc_snoc. unfold mun. cbn. rewrite U. cbn. unfold with_ops. cbn. rewrite fold_osnoc by (auto; reflexivity). cbn.
      rewrite joined_ops_idem by exact Hos. reflexivity.
Qed.

Lemma item_ops_OP i : Valid i -> Forall OP (item_ops i).
Proof.
  intros H. destruct i as [ns | ns inner ps t]; cbn.
  - apply name_ops_OP.
  - inversion H; subst. apply Forall_forall. intros o Ho. apply in_map_iff in Ho. destruct Ho as (n & <- & Hn).
    unfold OP. cbn. rewrite Forall_forall in H5. destruct (is_word_opname n (H5 n Hn)) as [_ N]. congruence.
Qed.
Lemma items_ops_OP is : Forall Valid is -> Forall OP (flat_map item_ops is).
Proof. induction 1; cbn; [constructor |]. apply Forall_app. split; [apply item_ops_OP; assumption | assumption]. Qed.
Lemma item_metas_MP i : Valid i -> Forall MP (item_metas i).
Proof.
  intros H. destruct i as [ns | ns inner ps t]; cbn [BspecSpec.item_metas].
  - constructor; [| constructor]. apply MP_joined; [apply (item_ops_OP _ H) | reflexivity].
  - destruct (existsb has_op inner).
    + inversion H; subst. apply Forall_forall. intros o Ho. apply in_map_iff in Ho. destruct Ho as (n & <- & Hn).
      apply MP_joined; [apply items_ops_OP; assumption |]. rewrite Forall_forall in H5. destruct (is_word_opname n (H5 n Hn)) as [_ N]. congruence.
    + constructor; [| constructor]. apply MP_joined; [apply (item_ops_OP _ H) | reflexivity].
Qed.
Lemma items_metas_MP is : Forall Valid is -> Forall MP (flat_map item_metas is).
Proof. induction 1; cbn; [constructor |]. apply Forall_app. split; [apply item_metas_MP; assumption | assumption]. Qed.

(* Plain names. *)
Lemma add_plain_ok R ns : Forall MP R ->
  add_plain (J R) ns = if existsb (fun n => match n with Qualified | BadPair => true | _ => false end) ns then None
                       else Some (J (R ++ item_metas (Plain ns))).
Proof.
  intros H. destruct (default_meta_cases (J R) (J_P R H)) as (l & m & E & N & Pm & K). unfold add_plain. rewrite E, back_snoc.
  rewrite add_names_ok by apply Pm. destruct (existsb _ ns); [reflexivity |]. rewrite on_last_snoc, K by apply name_ops_OP.
  cbn [BspecSpec.item_metas BspecSpec.item_ops]. rewrite J_snoc; [reflexivity | exact H |]. apply MP_joined; [apply name_ops_OP | reflexivity].
Qed.
Lemma bad_names ns : existsb (fun n => match n with Qualified | BadPair => true | _ => false end) ns = false <-> ~ In Qualified ns /\ ~ In BadPair ns.
Proof.
  induction ns as [| n ns IH]; cbn; [tauto |]. rewrite orb_false_iff, IH. destruct n; intuition congruence.
Qed.

(* Nested ones. *)
Lemma nested_metas inner : inner <> [] -> Forall Valid inner -> Forall (fun i => meta_call i = false) inner ->
  J (flat_map item_metas inner) = [mkmeta [] [] (joined_ops (flat_map item_ops inner))].
Proof.
  intros N V C. assert (E : forall i, Valid i -> meta_call i = false -> item_metas i = [mkmeta [] [] (joined_ops (item_ops i))]).
  { intros i _ H. destruct i as [ns | ns inn ps t]; [reflexivity |]. cbn in H. cbn [BspecSpec.item_metas]. rewrite H. reflexivity. }
  induction inner as [| i inner IH]; [congruence |]. inversion V as [| ? ? Vi Vr]; subst. inversion C as [| ? ? Ci Cr]; subst.
  cbn [flat_map]. rewrite (E i Vi Ci). cbn [app joined fold_right]. fold (joined mun mmg (flat_map item_metas inner)).
  destruct inner as [| i2 inner].
  - cbn. rewrite app_nil_r. reflexivity.
  - rewrite IH by (auto; discriminate). cbn [join mun mname unnamed andb]. unfold mmg. cbn [ops]. f_equal. f_equal.
    pose proof (item_ops_OP i Vi) as P1. pose proof (items_ops_OP (i2 :: inner) Vr) as P2. rewrite !joined_ops_eq in *.
    rewrite (joined_app_r oun omg OP) by (auto using omg_un, omg_P, omg_assoc).
    rewrite (joined_app_l oun omg OP) by (auto using omg_un, omg_P, omg_assoc). reflexivity.
Qed.
Lemma nested_named inner : Forall Valid inner -> forallb mun (J (flat_map item_metas inner)) = forallb (fun i => negb (meta_call i)) inner.
Proof.
  intros V. rewrite joined_un by exact mmg_un. induction V as [| i inner Vi V IH]; [reflexivity |]. cbn [flat_map forallb].
  rewrite forallb_app, IH. f_equal. destruct i as [ns | ns inn ps t]; [reflexivity |]. cbn [BspecSpec.item_metas BspecSpec.meta_call].
  destruct (existsb has_op inn); [| reflexivity]. inversion Vi as [| ? ? ? ? Nn W]; subst. destruct ns as [| n ns]; [congruence |].
  inversion W as [| ? ? Wn]; subst. cbn. unfold mun at 1. cbn. destruct (is_word_opname n Wn) as [_ N]. apply unnamed_false in N. rewrite N. reflexivity.
Qed.
Lemma nested_ops inner : Forall Valid inner -> forallb oun (joined_ops (flat_map item_ops inner)) = negb (existsb has_op inner).
Proof.
  intros V. rewrite joined_ops_eq, joined_un by exact omg_un. induction V as [| i inner Vi V IH]; [reflexivity |]. cbn [flat_map existsb].
  rewrite forallb_app, IH, negb_orb. f_equal. destruct i as [ns | ns inn ps t]; cbn [BspecSpec.item_ops BspecSpec.has_op].
  - clear. induction ns as [| n ns IH]; [reflexivity |]. cbn. rewrite IH, negb_orb. f_equal. unfold oun, BspecSpec.name_op.
    destruct (is_word n) eqn:W; [| reflexivity]. destruct (is_word_opname n W) as [_ N]. apply unnamed_false in N. exact N.
  - inversion Vi as [| ? ? ? ? Nn W]; subst. destruct ns as [| n ns]; [congruence |].
    inversion W as [| ? ? Wn]; subst. cbn. unfold oun at 1. cbn. destruct (is_word_opname n Wn) as [_ N]. apply unnamed_false in N. rewrite N. reflexivity.
Qed.
Lemma nested_targets inner : inner <> [] -> Forall Valid inner -> existsb has_op inner = false ->
  joined_ops (flat_map item_ops inner) = [mkop [] [] (all_names inner)].
Proof.
  intros N V O. assert (E : flat_map item_ops inner = map (fun n => mkop [] [] [n]) (all_names inner) /\ all_names inner <> []).
  { split.
    - clear N. induction inner as [| i inner IH]; [reflexivity |]. inversion V; subst. cbn in O. apply orb_false_iff in O. destruct O as [O1 O2].
      cbn [flat_map all_names]. fold (all_names inner). rewrite IH by assumption. rewrite map_app. f_equal.
      destruct i as [ns |]; [| discriminate]. cbn in *. apply map_ext_in. intros n Hn. unfold BspecSpec.name_op.
      destruct (is_word n) eqn:W; [| reflexivity]. exfalso. assert (X : existsb is_word ns = true) by (apply existsb_exists; eauto). congruence.
    - destruct inner as [| i inner]; [congruence |]. inversion V as [| ? ? Vi]; subst. cbn in O. apply orb_false_iff in O. destruct O as [O1 _].
      destruct i as [ns |]; [| discriminate]. inversion Vi; subst. cbn. destruct ns; [congruence | discriminate]. }
  destruct E as [-> Na]. revert Na. generalize (all_names inner) as l. clear. induction l as [| n l IH]; [congruence |]. intros _.
  destruct l as [| n2 l]; [reflexivity |]. change (joined_ops (map (fun n => mkop [] [] [n]) (n :: n2 :: l)))
    with (join_ops (mkop [] [] [n]) (joined_ops (map (fun n => mkop [] [] [n]) (n2 :: l)))). rewrite IH by discriminate. reflexivity.
Qed.

Lemma fold_push ns ps ts : forall m, Forall (fun n => is_word n = true) ns ->
  fold_left (fun m n => push_op (mkop n ps ts) m) (map word ns) m = with_ops m (fold_left osnoc (map (fun n => mkop (word n) ps ts) ns) (ops m)).
Proof.
  induction ns as [| n ns IH]; intros m W; cbn; [destruct m; reflexivity |]. inversion W; subst.
  rewrite push_op_snoc by (apply is_word_opname; assumption). rewrite IH by assumption. reflexivity.
Qed.
Lemma merge_ok R ns ps t inner r : Forall MP R -> ns <> [] -> Forall (fun n => is_word n = true) ns -> inner <> [] -> Forall Valid inner ->
  merge (J R) (map word ns) (params_of ps t) (J (flat_map item_metas inner)) r =
  if existsb meta_call inner then PFail else POk (J (R ++ item_metas (Call ns inner ps t))) r.
Proof.
  intros HR Nn W N V. unfold merge. change (fun m => unnamed (mname m)) with mun. change (fun o => unnamed (oname o)) with oun.
  rewrite nested_named by exact V. assert (E : forallb (fun i => negb (meta_call i)) inner = negb (existsb meta_call inner)).
  { clear. induction inner as [| i l IH]; [reflexivity |]. cbn. rewrite IH, negb_orb. reflexivity. }
  rewrite E, negb_involutive. destruct (existsb meta_call inner) eqn:M; [reflexivity |].
  assert (C : Forall (fun i => meta_call i = false) inner).
  { apply Forall_forall. intros i Hi. destruct (meta_call i) eqn:X; [| reflexivity].
    assert (Y : existsb meta_call inner = true) by (apply existsb_exists; eauto). congruence. }
  assert (VC : Valid (Call ns inner ps t)) by (constructor; assumption).
  rewrite nested_metas by assumption. cbn [ops]. rewrite nested_ops by exact V. rewrite negb_involutive.
  pose proof (item_metas_MP _ VC) as MPs. cbn [BspecSpec.item_metas] in *.
  destruct (existsb has_op inner) eqn:O.
  - f_equal. rewrite map_map. symmetry. apply joined_named with (P := MP); auto using mmg_un, mmg_P, mmg_assoc.
    apply forallb_forall. intros m Hm. apply in_map_iff in Hm. destruct Hm as (n & <- & Hn). unfold mun. cbn.
    rewrite Forall_forall in W. destruct (is_word_opname n (W n Hn)) as [_ X]. apply unnamed_false in X. rewrite X. reflexivity.
  - rewrite nested_targets by assumption. f_equal. destruct (default_meta_cases (J R) (J_P R HR)) as (l & m & D & Nm & Pm & K).
    rewrite D, on_last_snoc. cbn [targets]. rewrite fold_push by exact W. rewrite K by (apply (item_ops_OP _ VC)).
    symmetry. cbn [BspecSpec.item_ops]. inversion MPs; subst. apply J_snoc; assumption.
Qed.
