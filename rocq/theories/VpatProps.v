(* C36: the most specific variable pattern applies. *)
From Verif Require Import Base VarModel VpatModel VpatSpec VpatProofs.
From Coq Require Import Lia.

Section C36.
Context {T : Type}.
Notation vpat := (vpat T).

(* Matching is splitting the name into the prefix, the stem and the suffix. *)
Theorem C36_match : forall n (p : vpat), match_pattern n (pfx p) (sfx p) (multi p) = true <-> matches n p.
Proof. intros. apply matches_iff. Qed.

(* The pattern that is used has the longest prefix and suffix of all that match, whatever
   the order of insertion and the shape of the tree. *)
Theorem C36_longest : forall (ps l : list vpat) n, inserted ps l -> In DOT n ->
  match applicable n l with
  | Some p => In p ps /\ matches n p /\ forall q, In q ps -> matches n q -> weight q <= weight p
  | None => forall q, In q ps -> ~ matches n q
  end.
Proof.
  intros ps l n H D. unfold applicable. rewrite (proj2 (existsb_dot n) D). destruct (List.find _ _) as [p|] eqn:F.
  - apply (find_weight n ps l p H F).
  - intros q I M. apply matches_iff in M. apply (inserted_In _ _ H) in I. apply in_rev in I.
    apply (find_none _ _ F) in I. cbn in I. congruence.
Qed.
(* Names of a single component are not matched. *)
Theorem C36_unqualified : forall (l : list vpat) n, ~ In DOT n -> applicable n l = None.
Proof. intros l n D. unfold applicable. rewrite (proj2 (existsb_ndot n) D). reflexivity. Qed.

(* It is the most specific one and of these the one inserted last, as documented, but
   only if the patterns were inserted orderly. *)
Theorem C36_best : forall (ps l : list vpat) n p, inserted ps l -> orderly ps -> applicable n l = Some p -> best ps n p.
Proof. intros ps l n p H O. unfold applicable. destruct (existsb _ n); [|discriminate]. apply find_best; assumption. Qed.

(* A new pattern is applied to an existing qualified variable if and only if it is the
   pattern that would be used for it. *)
Theorem C36_retro : forall (ps : list vpat) p t n, inserted ps (elements t) -> orderly (ps ++ [p]) ->
  (applied_retro n p t = true <-> matches n p /\ forall q, In q ps -> matches n q -> ~ more_specific q p).
Proof.
  intros ps p t n H O. pose proof (inserted_starred _ _ H (orderly_init _ _ O)) as S.
  destruct (place_best ps p t H O S) as [B1 B2]. destruct (place_elements p t) as [E1 _].
  unfold applied_retro. rewrite Bool.andb_true_iff, matches_iff, negb_true_iff. split.
  - intros [M N]. split; [exact M|]. intros q I Mq. apply (inserted_In _ _ H) in I. rewrite E1 in I. apply in_app_iff in I.
    destruct I as [I|I]; [auto|]. apply matches_iff in Mq.
    assert (X : existsb (fun q => match_pattern n (pfx q) (sfx q) (multi q)) (snd (tree_place p t)) = true) by (apply existsb_exists; eauto). congruence.
  - intros [M N]. split; [exact M|]. destruct (existsb _ _) eqn:X; [|reflexivity]. exfalso.
    apply existsb_exists in X. destruct X as (q & I & Mq). apply matches_iff in Mq. apply (N q); [|exact Mq|auto].
    apply (inserted_In _ _ H). rewrite E1. apply in_or_app. auto.
Qed.

(* The accepted patterns. *)
Theorem C36_parse : forall p a z m, parse_pattern p = Some (a, z, m) <-> p = a ++ stars m ++ z /\ ~ In STAR a /\ good_prefix a /\ good_suffix z.
Proof. intros. apply parse_iff. Qed.

Context (teq : T -> T -> bool).
Hypothesis teq_eq : forall x y, teq x y = true <-> x = y.
Ltac brk := repeat match goal with
  | H : context [match ?x with _ => _ end] |- _ => first [is_var x; destruct x | let E := fresh "E" in destruct x eqn:E]; try discriminate
  end.

(* A new variable gets what is in the pattern that must be matched. What is given can only
   be less restrictive. *)
Theorem C36_new_must_match : forall ps n t v o p x, applicable n ps = Some p -> must_match p = true ->
  pool_insert teq ps n None t v o = Done x ->
  (forall ty, ptype p = Some ty -> vtype x = ty) /\ (forall y, t = Some y -> vtype x = Some y) /\
  (forall y, pvis p = Some y -> vvis x = y) /\ (forall y, v = Some y -> rank y <= rank (vvis x)) /\
  (v = None -> pvis p = None -> vvis x = VProject) /\ (t = None -> ptype p = None -> vtype x = None).
Proof.
  intros ps n t v o p x A Mu H. unfold pool_insert in H. rewrite A in H.
  destruct (merge teq p t v o) as [[[pt pv] po]|] eqn:E; [|discriminate]. injection H as <-. cbn.
  unfold merge in E. destruct (merge_type teq p t) as [a|] eqn:E1; [|discriminate]. destruct (merge_vis p v) as [c|] eqn:E2; [|discriminate].
  destruct (merge_ovr p o) as [d|] eqn:E3; [|discriminate]. injection E as -> -> ->.
  unfold merge_type in E1. unfold merge_vis in E2. rewrite Mu in *.
  repeat split.
  - intros ty P. rewrite P in E1. destruct t as [y|]; [|congruence]. destruct ty as [z|]; [|discriminate]. destruct (teq y z) eqn:Q; [|discriminate].
    apply teq_eq in Q. congruence.
  - intros y ->. destruct (ptype p) as [[z|]|]; [destruct (teq y z); congruence | discriminate | congruence].
  - intros y P. rewrite P in E2. destruct v as [u|]; [|injection E2 as <-; reflexivity].
    destruct (rank u <? rank y); [injection E2 as <-; reflexivity|]. destruct (rank u =? rank y) eqn:R; [|discriminate]. injection E2 as <-.
    apply Nat.eqb_eq in R. destruct u, y; cbn in R; congruence || discriminate.
  - intros y ->. destruct (pvis p) as [u|]; [|injection E2 as <-; reflexivity]. destruct (rank y <? rank u) eqn:R; [apply Nat.ltb_lt in R; injection E2 as <-; lia|].
    destruct (rank y =? rank u); [|discriminate]. injection E2 as <-. lia.
  - intros -> P. rewrite P in E2. injection E2 as <-. reflexivity.
  - intros -> P. rewrite P in E1. injection E1 as <-. reflexivity.
Qed.
(* Otherwise the pattern is only used for what is not given. *)
Theorem C36_new_fallback : forall ps n t v o p, applicable n ps = Some p -> must_match p = false ->
  pool_insert teq ps n None t v o =
  Done (mkvar (match t, ptype p with Some y, _ => Some y | None, Some ty => ty | None, None => None end)
              (match v, pvis p with Some y, _ => y | None, Some y => y | None, None => VProject end) false).
Proof.
  intros ps n t v o p A Mu. unfold pool_insert, merge, merge_type, merge_vis, merge_ovr. rewrite A, Mu.
  destruct (ptype p) as [[z|]|], t, (pvis p), v, (povr p), o; reflexivity.
Qed.
Theorem C36_new_unmatched : forall ps n t v o, applicable n ps = None ->
  pool_insert teq ps n None t v o = Done (mkvar t (match v with Some y => y | None => VProject end) false).
Proof. intros ps n t v o A. unfold pool_insert. rewrite A. reflexivity. Qed.

(* An existing variable keeps its type and can only become more restricted. *)
Theorem C36_existing : forall ps n x t v o y, pool_insert teq ps n (Some x) t v o = Done y ->
  (forall ty, vtype x = Some ty -> vtype y = Some ty) /\ (forall ty, t = Some ty -> vtype y = Some ty) /\
  rank (vvis x) <= rank (vvis y) /\ (forall u, v = Some u -> rank u <= rank (vvis y)) /\
  overridden y = overridden x.
Proof.
  intros ps n x t v o y H.
  assert (X : exists pt pv po, update teq x pt pv po = Done y /\ (forall ty, t = Some ty -> pt = Some ty) /\ (forall u, v = Some u -> exists w, pv = Some w /\ rank u <= rank w)).
  { unfold pool_insert in H. destruct (applicable n ps) as [p|].
    2: { exists t, v, (match o with None => Some false | _ => o end). repeat split; [exact H | auto|]. intros u ->. exists u. auto. }
    destruct (merge teq p t v o) as [[[pt pv] po]|] eqn:E; [|discriminate].
    assert (Mrg : forall t1 v1 o1 t2 v2 o2, merge teq p t1 v1 o1 = Some (t2, v2, o2) -> (forall ty, t1 = Some ty -> t2 = Some ty) /\ (forall u, v1 = Some u -> exists w, v2 = Some w /\ rank u <= rank w)).
    { clear. intros t1 v1 o1 t2 v2 o2 E. unfold merge in E. destruct (merge_type teq p t1) as [a|] eqn:E1; [|discriminate]. destruct (merge_vis p v1) as [c|] eqn:E2; [|discriminate].
      destruct (merge_ovr p o1) as [d|] eqn:E3; [|discriminate]. injection E as -> -> ->. unfold merge_type in E1. unfold merge_vis in E2. split.
      - intros y ->. destruct (ptype p) as [[z|]|]; [destruct (must_match p); [destruct (teq y z)|]; congruence | destruct (must_match p); congruence | congruence].
      - intros y ->. destruct (pvis p) as [u|]; [|injection E2 as <-; eauto]. destruct (must_match p); [|injection E2 as <-; eauto].
        destruct (rank y <? rank u) eqn:R; [apply Nat.ltb_lt in R; injection E2 as <-; exists u; split; [reflexivity | lia]|].
        destruct (rank y =? rank u); [|discriminate]. injection E2 as <-. eauto. }
    destruct (must_match p).
    - apply Mrg in E. destruct E as [A C]. eauto 10.
    - destruct (merge teq p (match t with Some _ => t | None => vtype x end) _ _) as [[[pt' pv'] po']|] eqn:E'; [|discriminate].
      apply Mrg in E'. destruct E' as [A C]. eexists pt', pv', _. split; [exact H|]. split; [intros ty ->; auto | intros u ->; auto]. }
  destruct X as (pt & pv & po & U & A & C). unfold update in U. destruct (match po with Some false => overridden x | _ => false end); [discriminate|].
  destruct (match pt with None => _ | Some _ => _ end) as [ty|] eqn:Et; [|discriminate].
  destruct (match pv with None => _ | Some _ => _ end) as [vi|] eqn:Ev; [|discriminate].
  injection U as <-. cbn. repeat split.
  - intros z Z. rewrite Z in Et. destruct pt as [q|]; [destruct (teq z q)|]; congruence.
  - intros z Z. apply A in Z. subst pt. destruct (vtype x) as [q|]; [|congruence]. destruct (teq q z) eqn:Q; [|discriminate]. apply teq_eq in Q. congruence.
  - destruct pv as [u|]; [|injection Ev as <-; lia]. destruct (rank u =? _); [injection Ev as <-; lia|]. destruct (rank (vvis x) <? rank u) eqn:R; [|discriminate].
    apply Nat.ltb_lt in R. injection Ev as <-. lia.
  - intros u Z. apply C in Z. destruct Z as (w & -> & L). destruct (rank w =? _) eqn:R; [apply Nat.eqb_eq in R; injection Ev as <-; lia|].
    destruct (_ <? _); [|discriminate]. injection Ev as <-. exact L.
Qed.
(* A variable that is overridden must be overridable. *)
Theorem C36_overridable : forall ps n x t v o y, overridden x = true -> pool_insert teq ps n (Some x) t v o = Done y ->
  o <> Some false /\ (forall p, applicable n ps = Some p -> must_match p = true -> povr p <> Some false) /\
  (applicable n ps = None -> o = Some true).
Proof.
  intros ps n x t v o y Ov H.
  assert (Up : forall pt pv po, update teq x pt pv po = Done y -> po <> Some false).
  { intros pt pv po U ->. unfold update in U. rewrite Ov in U. discriminate. }
  unfold pool_insert in H. destruct (applicable n ps) as [p|].
  2: { apply Up in H. destruct o as [[]|]; try congruence. repeat split; congruence. }
  destruct (merge teq p t v o) as [[[pt pv] po]|] eqn:E; [|discriminate].
  assert (Mrg : forall t1 v1 o1 t2 v2 o2, merge teq p t1 v1 o1 = Some (t2, v2, o2) -> merge_ovr p o1 = Some o2).
  { clear. intros t1 v1 o1 t2 v2 o2 E. unfold merge in E. destruct (merge_type teq p t1); [|discriminate]. destruct (merge_vis p v1); [|discriminate].
    destruct (merge_ovr p o1); [|discriminate]. congruence. }
  destruct (must_match p) eqn:Mu.
  - apply Mrg in E. apply Up in H. unfold merge_ovr in E. rewrite Mu in E. repeat split; [| |discriminate].
    + intros ->. destruct (povr p) as [[]|]; cbn in E; try discriminate; injection E as <-; congruence.
    + intros q Q Mq F. injection Q as ->. rewrite F in E. destruct o as [[]|]; injection E as <-; congruence.
  - destruct (merge teq p (match t with Some _ => t | None => vtype x end) _ _) as [[[pt' pv'] po']|] eqn:E'; [|discriminate].
    apply Mrg in E'. apply Up in H. unfold merge_ovr in E'. rewrite Mu in E'. repeat split; [|congruence|discriminate].
    intros ->. destruct (povr p); injection E' as <-; congruence.
Qed.
End C36.
Print Assumptions C36_match. Print Assumptions C36_longest. Print Assumptions C36_best. Print Assumptions C36_retro. Print Assumptions C36_parse.
Print Assumptions C36_new_must_match. Print Assumptions C36_new_fallback. Print Assumptions C36_existing. Print Assumptions C36_overridable. Print Assumptions C36_unqualified. Print Assumptions C36_new_unmatched.

(* Examples and refutations. *)
Definition pat (a z : bytes) (m : bool) : vpat nat := mkvpat a z m true None None None.
Fixpoint depth {T} (t : tree T) : nat := match t with Leaf => 0 | Node l _ r => S (Nat.max (depth l) (depth r)) end.

(* * does not always win over **: it does not if there are other patterns of the same weight
   between which the search goes. With a.*, b.* and c.* any tree of depth 2 (such as a
   balanced one) has b.* as the root. *)
Theorem C36_star_refuted : forall t : tree nat,
  elements t = [pat (b "a.") [] false; pat (b "b.") [] false; pat (b "c.") [] false] -> depth t <= 2 ->
  inserted [pat (b "a.") [] false; pat (b "b.") [] false; pat (b "c.") [] false] (elements t) /\
  narrower (pat (b "a.") [] false) (pat (b "a.") [] true) /\ matches (b "a.x") (pat (b "a.") [] false) /\
  applicable (b "a.x") (elements (tree_insert (pat (b "a.") [] true) t)) = Some (pat (b "a.") [] true).
Proof.
  intros t E D. split; [|split; [|split]].
  - rewrite E. apply (ins_more [(pat (b "a.") [] false); (pat (b "b.") [] false)] (pat (b "c.") [] false) (Node Leaf (pat (b "a.") [] false) (Node Leaf (pat (b "b.") [] false) Leaf))).
    apply (ins_more [(pat (b "a.") [] false)] (pat (b "b.") [] false) (Node Leaf (pat (b "a.") [] false) Leaf)).
    apply (ins_more [] (pat (b "a.") [] false) Leaf). constructor.
  - repeat split.
  - exists (b "x"). cbn. repeat split; [discriminate|]. intros _ [X|[]]. discriminate.
  - destruct t as [|l x r]; [discriminate|].
    assert (L : forall u : tree nat, depth u <= 1 -> u = Leaf \/ exists y, u = Node Leaf y Leaf).
    { intros [|u1 y u2] Hu; [auto|]. right. exists y. cbn in Hu. destruct u1, u2; cbn in Hu; try lia. reflexivity. }
    cbn in D. destruct (L l) as [-> | [y ->]]; [lia | |]; destruct (L r) as [-> | [z ->]]; try lia; cbn in E; try discriminate.
    injection E as -> -> ->. vm_compute. reflexivity.
Qed.
Print Assumptions C36_star_refuted.
(* Names of a single component are not considered for pattern matching, except when a
   pattern is applied to existing variables. *)
Theorem C36_retro_unqualified_refuted : applied_retro (b "foo") (pat [] [] false) Leaf = true /\ applicable (b "foo") (elements (tree_insert (pat [] [] false) Leaf)) = None.
Proof. split; reflexivity. Qed.

Definition ex_ps := [pat (b "a.") [] true; pat (b "a.") [] false; pat (b "b.") [] false; pat (b "a.") (b ".c") true].
Example ex_orderly : orderly ex_ps.
Proof.
  intros u q w E x y Ix Iy (N1 & N2 & N3 & N4) W.
  destruct u as [|u1 [|u2 [|u3 [|u4 u]]]]; cbn in E; injection E; intros; subst; cbn in *; try contradiction; try discriminate.
  - destruct Ix as [<- | [<- | [<- | []]]]; discriminate.
  - destruct u; discriminate.
Qed.
Example ex_inserted : inserted ex_ps [pat (b "a.") [] true; pat (b "a.") [] false; pat (b "b.") [] false; pat (b "a.") (b ".c") true].
Proof.
  apply (ins_more [(pat (b "a.") [] true); (pat (b "a.") [] false); (pat (b "b.") [] false)] (pat (b "a.") (b ".c") true) (Node Leaf (pat (b "a.") [] true) (Node Leaf (pat (b "a.") [] false) (Node Leaf (pat (b "b.") [] false) Leaf)))).
    apply (ins_more [(pat (b "a.") [] true); (pat (b "a.") [] false)] (pat (b "b.") [] false) (Node Leaf (pat (b "a.") [] true) (Node Leaf (pat (b "a.") [] false) Leaf))).
    apply (ins_more [(pat (b "a.") [] true)] (pat (b "a.") [] false) (Node Leaf (pat (b "a.") [] true) Leaf)).
    apply (ins_more [] (pat (b "a.") [] true) Leaf). constructor.
Qed.
Example ex_applicable : map (fun n => applicable n ex_ps) [b "a.x"; b "a.x.y"; b "a.x.c"; b "c.x"; b "a"] =
  [Some (pat (b "a.") [] false); Some (pat (b "a.") [] true); Some (pat (b "a.") (b ".c") true); None; None].
Proof. reflexivity. Qed.
(* ** after * with nothing else of the same weight. *)
Example ex_star_last : orderly [pat (b "a.") [] false; pat (b "a.") [] true] /\
  applicable (b "a.x") (elements (tree_insert (pat (b "a.") [] true) (tree_insert (pat (b "a.") [] false) Leaf))) = Some (pat (b "a.") [] false).
Proof.
  split; [|reflexivity]. intros u q w E x y Ix Iy N W.
  destruct u as [|u1 [|u2 u]]; cbn in E; injection E; intros; subst; cbn in *; try contradiction.
  - destruct Ix as [<- | []], Iy as [<- | []]. split; reflexivity.
  - destruct u; discriminate.
Qed.
Example ex_parse : map parse_pattern [b "config.**"; b "config.*.version"; b "**.booted"; b "x*"; b ".*"; b "foo"; b "*."] =
  [Some (b "config.", [], true); Some (b "config.", b ".version", false); Some ([], b ".booted", true); None; None; None; None].
Proof. reflexivity. Qed.
Definition ex_p : vpat nat := mkvpat (b "config.") [] true true (Some (Some 1)) (Some VGlobal) (Some true).
Example ex_insert : map (fun x => pool_insert Nat.eqb [ex_p] (b "config.x") (fst x) (snd x) None None)
    [(None, None); (None, Some 1); (None, Some 2); (Some (mkvar None VGlobal true), None); (Some (mkvar (Some 2) VGlobal true), None)] =
  [Done (mkvar (Some 1) VGlobal false); Done (mkvar (Some 1) VGlobal false); Assertion; Done (mkvar (Some 1) VGlobal true); Assertion].
Proof. reflexivity. Qed.
Example ex_not_overridable : pool_insert Nat.eqb [] (b "config.x") (Some (mkvar None VGlobal true)) None None None = CannotOverride.
Proof. reflexivity. Qed.
