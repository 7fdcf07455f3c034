(* Proofs about execution of buildspecs: operations. *)
From Verif Require Import Base RunModel RunSpec.
From Coq Require Import Lia.

Section Proofs.
Context (builtin : bytes -> bool) (defines_meta defines_op : nat -> bytes -> bool) (builtin_op : bytes -> bool)
        (meta_of : nat -> bytes -> option metainfo) (op_of : nat -> bytes -> option opinfo) (here : nat).
Notation known_meta := (known_meta builtin defines_meta).
Notation known_op := (known_op defines_op builtin_op).
Notation bootstrap := (bootstrap builtin defines_meta defines_op builtin_op meta_of op_of).
Notation run_ops := (run_ops builtin defines_meta defines_op builtin_op meta_of op_of here).
Notation first_target := (first_target op_of).
Notation other_target := (other_target op_of).
Notation is_meta := (is_meta builtin defines_meta here).
Notation OpRuns := (OpRuns builtin defines_meta meta_of op_of here).
Notation Agrees := (Agrees meta_of op_of).
Notation Resolves := (Resolves op_of).
Notation targets_of := (targets_of here).
Notation first := (first here).
Context (sane : Sane builtin defines_meta defines_op builtin_op meta_of op_of).

Definition is_metab (o : opspec) : bool := negb (is_empty (oname o)) && (builtin (oname o) || defines_meta (first o) (oname o)).
Lemma is_metab_iff o : is_metab o = true <-> is_meta o.
Proof.
  unfold is_metab, RunSpec.is_meta. rewrite andb_true_iff, negb_true_iff, orb_true_iff.
  destruct (oname o) as [| c s]; cbn; intuition congruence.
Qed.
Lemma is_metab_false o : is_metab o = false <-> ~ is_meta o.
Proof. rewrite <- is_metab_iff. destruct (is_metab o); intuition congruence. Qed.

Lemma is_empty_true s : is_empty s = true <-> s = [].
Proof. destruct s; cbn; intuition congruence. Qed.
Lemma is_empty_false s : is_empty s = false <-> s <> [].
Proof. destruct s; cbn; intuition congruence. Qed.

Lemma targets_cons o : exists ts, targets_of o = first o :: ts.
Proof. unfold RunSpec.first, RunSpec.targets_of. destruct (targets o) as [| t ts]; cbn; eauto. Qed.

(* Events. *)
Lemma op_events_eq m x p ts r :
  info x = ro r -> id x = oid (ro r) -> outer_info x = router r -> pre_info x = rpre r -> post_info x = rpost r ->
  OpPre m (oid (r0 r)) :: perform_op m x p ts = op_events m r p ts.
Proof.
  intros E1 E2 E3 E4 E5. unfold perform_op, op_events, main_enter, main_leave, auxiliary, proper, within, act, matched_and_executed.
  rewrite E1, E2, E3, E4, E5. destruct (rpre r), (rpost r), (router r); cbn [app]; rewrite ?app_nil_r, <- ?app_assoc; cbn [app];
    rewrite <- ?app_assoc; cbn [app]; rewrite <- ?app_assoc; cbn [app]; reflexivity.
Qed.

(* Resolution. *)
Lemma lookup_ok t n : match lookup op_of t n with Some i => Optional op_of t n i | None => forall i, ~ Optional op_of t n i end.
Proof.
  unfold lookup, Optional. destruct (is_empty n) eqn:E.
  - apply is_empty_true in E. auto.
  - apply is_empty_false in E. destruct (op_of t n) eqn:O.
    + right. eauto.
    + intros i [[H _] | [_ (j & H & _)]]; congruence.
Qed.
Lemma Optional_fun t n i j : Optional op_of t n i -> Optional op_of t n j -> i = j.
Proof. unfold Optional. intros [[? ->] | [? (x & ? & ->)]] [[? ->] | [? (y & ? & ->)]]; congruence. Qed.

Definition of_resolved (m : bytes) (r : resolved) : operation :=
  mkoperation (oid (ro r)) (rname r) (ro r) (router r) (pre (ro r) m) (rpre r) (post (ro r) m) (rpost r).
Lemma first_target_ok m mi t o :
  match first_target m mi t o with
  | Some (e, x) => exists r, Resolves m mi t o r /\ x = of_resolved m r /\ e = [OpPre m (oid (r0 r))]
  | None => forall r, ~ Resolves m mi t o r
  end.
Proof.
  unfold RunModel.first_target, RunSpec.Resolves.
  assert (A : (if is_empty o then default else o) = match o with [] => default | _ => o end) by (destruct o; reflexivity).
  rewrite A. set (asked := match o with [] => default | _ => o end) in *. clearbody asked. clear A.
  destruct (op_of t asked) as [i0 |] eqn:O.
  2: { intros r (H & _). congruence. }
  assert (K : forall orig i, (translate mi (oid i0) = oid i0 /\ orig = asked /\ i = i0 \/
      translate mi (oid i0) <> oid i0 /\ orig = translate mi (oid i0) /\ op_of t (translate mi (oid i0)) = Some i) ->
    match match lookup op_of t (outer i), lookup op_of t (pre i m), lookup op_of t (post i m) with
          | Some oi, Some pi, Some qi => Some ([OpPre m (oid i0)], mkoperation (oid i) orig i oi (pre i m) pi (post i m) qi)
          | _, _, _ => None
          end with
    | Some (e, x) => exists r : resolved, (Some i0 = Some (r0 r) /\
        (translate mi (oid (r0 r)) = oid (r0 r) /\ rname r = asked /\ ro r = r0 r \/
         translate mi (oid (r0 r)) <> oid (r0 r) /\ rname r = translate mi (oid (r0 r)) /\ op_of t (translate mi (oid (r0 r))) = Some (ro r)) /\
        Optional op_of t (outer (ro r)) (router r) /\ Optional op_of t (pre (ro r) m) (rpre r) /\ Optional op_of t (post (ro r) m) (rpost r)) /\
        x = of_resolved m r /\ e = [OpPre m (oid (r0 r))]
    | None => forall r : resolved, ~ (Some i0 = Some (r0 r) /\
        (translate mi (oid (r0 r)) = oid (r0 r) /\ rname r = asked /\ ro r = r0 r \/
         translate mi (oid (r0 r)) <> oid (r0 r) /\ rname r = translate mi (oid (r0 r)) /\ op_of t (translate mi (oid (r0 r))) = Some (ro r)) /\
        Optional op_of t (outer (ro r)) (router r) /\ Optional op_of t (pre (ro r) m) (rpre r) /\ Optional op_of t (post (ro r) m) (rpost r))
    end).
  { intros orig i Hi.
    assert (U : forall r : resolved, Some i0 = Some (r0 r) ->
        (translate mi (oid (r0 r)) = oid (r0 r) /\ rname r = asked /\ ro r = r0 r \/
         translate mi (oid (r0 r)) <> oid (r0 r) /\ rname r = translate mi (oid (r0 r)) /\ op_of t (translate mi (oid (r0 r))) = Some (ro r)) -> ro r = i).
    { intros r [= <-] Hr. destruct Hi as [(? & ? & ->) | (? & ? & Hi)], Hr as [(? & ? & ->) | (? & ? & Hr)]; congruence. }
    pose proof (lookup_ok t (outer i)) as L1. pose proof (lookup_ok t (pre i m)) as L2. pose proof (lookup_ok t (post i m)) as L3.
    destruct (lookup op_of t (outer i)) as [oi |]. 2: { intros r (E & Hr & H & _). rewrite (U r E Hr) in H. exact (L1 _ H). }
    destruct (lookup op_of t (pre i m)) as [pi |]. 2: { intros r (E & Hr & _ & H & _). rewrite (U r E Hr) in H. exact (L2 _ H). }
    destruct (lookup op_of t (post i m)) as [qi |]. 2: { intros r (E & Hr & _ & _ & H). rewrite (U r E Hr) in H. exact (L3 _ H). }
    exists (mkresolved i0 orig i oi pi qi). cbn. repeat split; auto. }
  destruct (beqb (oid i0) (translate mi (oid i0))) eqn:B.
  - apply beqb_eq in B. apply K. left. auto.
  - assert (N : translate mi (oid i0) <> oid i0) by (intros E; rewrite E, beqb_refl in B; discriminate).
    destruct (op_of t (translate mi (oid i0))) as [i |] eqn:O1.
    + apply K. right. auto.
    + intros r ([= <-] & [(H & _) | (_ & _ & H)] & _); congruence.
Qed.

Lemma same_ok t n i : same op_of t n (Some i) = true <-> SameImpl op_of t n i.
Proof.
  unfold same, SameImpl. destruct (op_of t n) as [j |].
  - rewrite Nat.eqb_eq. split; [eauto |]. intros (k & [= <-] & ?). auto.
  - split; [discriminate |]. intros (k & ? & _). discriminate.
Qed.
Lemma same_opt t n i : same op_of t n i = true <-> (forall j, i = Some j -> SameImpl op_of t n j).
Proof.
  destruct i as [i |]; [rewrite same_ok | cbn].
  - split; [intros H j [= <-]; exact H | intros H; exact (H i eq_refl)].
  - split; [discriminate | reflexivity].
Qed.
Definition MetaAgrees (m : bytes) (mi : metainfo) (t : nat) : Prop := exists mj, meta_of t m = Some mj /\ mimpl mj = mimpl mi.
Lemma other_target_ok m mi r t : MetaAgrees m mi t -> (other_target t (of_resolved m r) = true <-> Agrees m mi r t).
Proof.
  intros M. unfold RunModel.other_target, RunSpec.Agrees, of_resolved. cbn. rewrite !andb_true_iff.
  change (match op_of t (rname r) with Some j => oimpl j =? oimpl (ro r) | None => false end) with (same op_of t (rname r) (Some (ro r))).
  rewrite same_ok, !same_opt. unfold MetaAgrees in M. tauto.
Qed.
(* The first target agrees with itself. *)
Lemma Resolves_agrees m mi t o r : MetaAgrees m mi t -> Resolves m mi t o r -> Agrees m mi r t.
Proof.
  intros M (H0 & H1 & H2 & H3 & H4). cbv zeta in *. unfold RunSpec.Agrees.
  assert (O : forall n i, Optional op_of t n i -> forall j, i = Some j -> SameImpl op_of t n j).
  { intros n i [[? ->] | [? (j & ? & ->)]] k; [discriminate |]. intros [= <-]. exists j. auto. }
  split; [exact M |]. split; [| split; [| split]]; eauto.
  destruct H1 as [(? & -> & ->) | (? & -> & ?)]; eexists; eauto.
Qed.
Lemma Resolves_fun m mi t o r r' : Resolves m mi t o r -> Resolves m mi t o r' -> r = r'.
Proof.
  intros (H0 & H1 & H2 & H3 & H4) (G0 & G1 & G2 & G3 & G4). cbv zeta in *.
  destruct r as [r0 rn ro ru rp rq], r' as [r0' rn' ro' ru' rp' rq']; cbn in *.
  assert (r0 = r0') by congruence. subst r0'.
  assert (rn = rn' /\ ro = ro') as [-> ->]. { destruct H1 as [(? & -> & ->) | (? & -> & ?)], G1 as [(? & -> & ->) | (? & -> & ?)]; split; congruence. }
  f_equal; eapply Optional_fun; eauto.
Qed.

(* Bootstrapping. *)
Lemma known_meta_cons t boot n : known_meta (t :: boot) n = defines_meta t n || known_meta boot n.
Proof. unfold RunModel.known_meta. cbn. destruct (builtin n), (defines_meta t n); reflexivity. Qed.
Lemma known_op_cons t boot n : known_op (t :: boot) n = defines_op t n || known_op boot n.
Proof. unfold RunModel.known_op. cbn. destruct (builtin_op n), (defines_op t n); reflexivity. Qed.
Lemma meta_known t boot m mi : meta_of t m = Some mi -> known_meta (t :: boot) m = true.
Proof.
  intros H. destruct sane as (S & _). unfold RunModel.known_meta. cbn.
  destruct (S t m ltac:(congruence)) as [-> | ->]; [reflexivity | apply orb_true_r].
Qed.
Lemma op_known t boot o i : op_of t o = Some i -> known_op (t :: boot) o = true.
Proof.
  intros H. destruct sane as (_ & S & _). unfold RunModel.known_op. cbn.
  destruct (S t o ltac:(congruence)) as [-> | ->]; [reflexivity | apply orb_true_r].
Qed.

Section Boot.
Context (U : list nat) (mn : bytes) (mp : nat).
Let m := if is_empty mn then perform else mn.

Definition Unknown (on : bytes) : Prop := forall boot, incl boot U -> on <> [] -> known_meta boot on = false.

Lemma bootstrap_rest on mi r : Unknown on -> forall ts boot es,
  incl boot U -> incl ts U -> (mn <> [] -> known_meta boot mn = true) -> (on <> [] -> known_op boot on = true) ->
  match bootstrap mn mp on boot (Some (m, mi)) (Some (of_resolved m r)) es ts with
  | BOk boot' mb' x' es' => incl boot' U /\ mb' = (m, mi) /\ x' = of_resolved m r /\ es' = es /\ (forall t, In t ts -> Agrees m mi r t)
  | BFail es' => es' = es /\ exists t, In t ts /\ ~ Agrees m mi r t
  | _ => False
  end.
Proof.
  intros Hu ts. induction ts as [| t ts IH]; intros boot es Hb Ht Hm Ho; cbn [RunModel.bootstrap].
  - refine (conj Hb (conj eq_refl (conj eq_refl (conj eq_refl _)))). intros t [].
  - assert (Hb' : incl (t :: boot) U). { intros y [<- | Hy]; [apply Ht; left; reflexivity | auto]. }
    assert (K1 : negb (is_empty on) && known_meta (t :: boot) on = false).
    { destruct on as [| c on']; [reflexivity |]. cbn [is_empty negb andb]. apply Hu; [exact Hb' | discriminate]. }
    assert (Hm' : mn <> [] -> known_meta (t :: boot) mn = true). { intros N. rewrite known_meta_cons, (Hm N). apply orb_true_r. }
    assert (Ho' : on <> [] -> known_op (t :: boot) on = true). { intros N. rewrite known_op_cons, (Ho N). apply orb_true_r. }
    assert (K2 : negb (is_empty mn) && negb (known_meta (t :: boot) mn) = false).
    { destruct (is_empty mn) eqn:E; [reflexivity |]. rewrite Hm' by (apply is_empty_false; exact E). reflexivity. }
    assert (K3 : negb (is_empty on) && negb (known_op (t :: boot) on) = false).
    { destruct (is_empty on) eqn:E; [reflexivity |]. rewrite Ho' by (apply is_empty_false; exact E). reflexivity. }
    rewrite K1, K2, K3.
    destruct (meta_of t m) as [mj |] eqn:M.
    2: { split; [reflexivity |]. exists t. split; [left; reflexivity |]. intros ((mj & H & _) & _). congruence. }
    destruct (mimpl mj =? mimpl mi) eqn:I.
    2: { apply Nat.eqb_neq in I. split; [reflexivity |]. exists t. split; [left; reflexivity |]. intros ((mk & H & G) & _). congruence. }
    apply Nat.eqb_eq in I. assert (MA : MetaAgrees m mi t) by (exists mj; auto).
    destruct (other_target t (of_resolved m r)) eqn:O.
    + apply (other_target_ok m mi) in O; [| exact MA]. rewrite app_nil_r.
      specialize (IH (t :: boot) es Hb' ltac:(intros y Hy; apply Ht; right; exact Hy) Hm' Ho').
      destruct (bootstrap mn mp on (t :: boot) (Some (m, mi)) (Some (of_resolved m r)) es ts); try contradiction.
      * destruct IH as (-> & u & Hi & Hn). split; [reflexivity |]. exists u. split; [right; exact Hi | exact Hn].
      * destruct IH as (H1 & H2 & H3 & H4 & H5). refine (conj H1 (conj H2 (conj H3 (conj H4 _)))). intros u [<- | Hi]; [exact O | exact (H5 u Hi)].
    + split; [apply app_nil_r |]. exists t. split; [left; reflexivity |]. intros A. apply (other_target_ok m mi) in A; [| exact MA]. congruence.
Qed.

(* The meta-operation of the batch. *)
Definition Meta (mb : option batch) (t : nat) (mi : metainfo) : Prop :=
  match mb with None => meta_of t m = Some mi | Some q => q = (m, mi) end.
Definition start (mb : option batch) : list event := match mb with None => [MetaPre m mp] | Some _ => [] end.

Lemma bootstrap_first o mb boot : ~ is_meta o -> Unknown (oname o) -> incl boot U -> incl (targets_of o) U ->
  (mb = None \/ exists mi, mb = Some (m, mi)) ->
  match bootstrap mn mp (oname o) boot mb None [] (targets_of o) with
  | BOk boot' mb' x es => incl boot' U /\ exists mi r, mb' = (m, mi) /\ Meta mb (first o) mi /\ x = of_resolved m r /\
      OpRuns m mi o (op_events m r (oparams o) (targets_of o)) /\ es = start mb ++ [OpPre m (oid (r0 r))]
  | BFail es => (es = [] \/ exists mi tail, Meta mb (first o) mi /\ es = start mb ++ tail /\ (tail = [] \/ exists q, tail = [OpPre m q])) /\
      (forall mi, Meta mb (first o) mi -> forall e, ~ OpRuns m mi o e)
  | _ => False
  end.
Proof.
  intros Hn Hu Hb Ht Hmb. destruct (targets_cons o) as (ts & E).
  set (on := oname o) in *. set (t := first o) in *.
  assert (RT : forall mi e, OpRuns m mi o e -> exists r, Resolves m mi t on r /\ (forall u, In u (t :: ts) -> Agrees m mi r u)).
  { intros mi e (_ & r & R & A & _). exists r. split; [exact R |]. intros u Hi. apply A. rewrite E. exact Hi. }
  assert (RO : forall mi r, Resolves m mi t on r -> (forall u, In u (t :: ts) -> Agrees m mi r u) -> OpRuns m mi o (op_events m r (oparams o) (targets_of o))).
  { intros mi r R A. split; [exact Hn |]. exists r. split; [exact R |]. split; [| reflexivity]. intros u Hi. apply A. rewrite E in Hi. exact Hi. }
  rewrite E in Ht. replace (bootstrap mn mp on boot mb None [] (targets_of o)) with (bootstrap mn mp on boot mb None [] (t :: ts)) by (rewrite E; reflexivity). cbn [RunModel.bootstrap].
  assert (Hb' : incl (t :: boot) U). { intros y [<- | Hy]; [apply Ht; left; reflexivity | auto]. }
  assert (K1 : negb (is_empty on) && known_meta (t :: boot) on = false).
  { destruct on as [| c on']; [reflexivity |]. cbn [is_empty negb andb]. apply Hu; [exact Hb' | discriminate]. }
  rewrite K1.
  destruct (negb (is_empty mn) && negb (known_meta (t :: boot) mn)) eqn:K2.
  { apply andb_true_iff in K2. destruct K2 as [N K2]. apply negb_true_iff in K2, N. split; [left; reflexivity |].
    intros mi _ e H. destruct (RT mi e H) as (r & _ & A). destruct (A t (or_introl eq_refl)) as ((mj & M & _) & _).
    unfold m in M. rewrite N in M. rewrite (meta_known t boot _ _ M) in K2. discriminate. }
  destruct (negb (is_empty on) && negb (known_op (t :: boot) on)) eqn:K3.
  { apply andb_true_iff in K3. destruct K3 as [N K3]. apply negb_true_iff in K3, N. split; [left; reflexivity |].
    intros mi _ e H. destruct (RT mi e H) as (r & (R & _) & _). destruct on as [| c on']; [discriminate |].
    rewrite (op_known t boot _ _ R) in K3. discriminate. }
  assert (Hm' : mn <> [] -> known_meta (t :: boot) mn = true).
  { intros N. apply is_empty_false in N. rewrite N in K2. destruct (known_meta (t :: boot) mn); [reflexivity | discriminate]. }
  assert (Ho' : on <> [] -> known_op (t :: boot) on = true).
  { intros N. apply is_empty_false in N. rewrite N in K3. destruct (known_op (t :: boot) on); [reflexivity | discriminate]. }
  assert (Ht' : incl ts U) by (intros y Hy; apply Ht; right; exact Hy).
  assert (Tail : forall mi, Meta mb t mi -> MetaAgrees m mi t ->
    match match first_target m mi t on with
          | None => BFail ([] ++ start mb)
          | Some (e2, x) => bootstrap mn mp on (t :: boot) (Some (m, mi)) (Some x) ([] ++ start mb ++ e2) ts
          end with
    | BOk boot' mb' x es => incl boot' U /\ exists mi r, mb' = (m, mi) /\ Meta mb t mi /\ x = of_resolved m r /\
        OpRuns m mi o (op_events m r (oparams o) (targets_of o)) /\ es = start mb ++ [OpPre m (oid (r0 r))]
    | BFail es => (es = [] \/ exists mi tail, Meta mb t mi /\ es = start mb ++ tail /\ (tail = [] \/ exists q, tail = [OpPre m q])) /\
        (forall mi, Meta mb t mi -> forall e, ~ OpRuns m mi o e)
    | _ => False
    end).
  { intros mi Hmi MA. assert (UM : forall mi', Meta mb t mi' -> mi' = mi).
    { intros mi' H. unfold Meta in *. destruct mb as [q |]; congruence. }
    pose proof (first_target_ok m mi t on) as F. destruct (first_target m mi t on) as [[e2 x] |].
    - destruct F as (r & R & -> & ->).
      pose proof (bootstrap_rest on mi r Hu ts (t :: boot) ([] ++ start mb ++ [OpPre m (oid (r0 r))]) Hb' Ht' Hm' Ho') as B.
      destruct (bootstrap mn mp on (t :: boot) (Some (m, mi)) (Some (of_resolved m r)) ([] ++ start mb ++ [OpPre m (oid (r0 r))]) ts); try contradiction.
      + destruct B as (-> & u & Hu' & NA). split.
        * right. exists mi, [OpPre m (oid (r0 r))]. split; [exact Hmi |]. split; [reflexivity |]. right. eauto.
        * intros mi' H' e H. rewrite (UM mi' H') in H. destruct (RT mi e H) as (r' & R' & A).
          rewrite (Resolves_fun _ _ _ _ _ _ R' R) in A. apply NA, A. right. exact Hu'.
      + destruct B as (H1 & H2 & H3 & H4 & H5). split; [exact H1 |]. exists mi, r. refine (conj H2 (conj Hmi (conj H3 (conj _ H4)))).
        apply RO; [exact R |]. intros u [<- | Hi]; [apply (Resolves_agrees m mi t on r MA R) | auto].
    - split.
      + right. exists mi, []. split; [exact Hmi |]. rewrite app_nil_r. auto.
      + intros mi' H' e H. rewrite (UM mi' H') in H. destruct (RT mi e H) as (r' & R' & A). exact (F r' R'). }
  destruct Hmb as [-> | (mi & ->)].
  - fold m. destruct (meta_of t m) as [mi |] eqn:M.
    + apply (Tail mi); [exact M | exists mi; auto].
    + split; [left; reflexivity |]. intros mi H. unfold Meta in H. congruence.
  - destruct (meta_of t m) as [mj |] eqn:M.
    + destruct (mimpl mj =? mimpl mi) eqn:I.
      * apply Nat.eqb_eq in I. apply (Tail mi); [reflexivity | exists mj; auto].
      * apply Nat.eqb_neq in I. split; [left; reflexivity |]. intros mi' H' e H. injection H' as <-.
        destruct (RT _ e H) as (r & _ & A). destruct (A t (or_introl eq_refl)) as ((mk & ? & ?) & _). congruence.
    + split; [left; reflexivity |]. intros mi' H' e H. destruct (RT _ e H) as (r & _ & A). destruct (A t (or_introl eq_refl)) as ((mk & ? & ?) & _). congruence.
Qed.
End Boot.
End Proofs.
