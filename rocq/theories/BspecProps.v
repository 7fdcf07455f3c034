(* The properties of parsing of buildspecs. *)
From Verif Require Import Base BspecModel BspecSpec BspecProofs BspecProofs2 BspecProofs3.

(* C71: A buildspec is accepted if and only if it is a sequence of names and calls where names of calls are words, calls are not
   empty and calls with operations inside (meta-operations) are not nested. It then means what the specification says: words are
   operations, other names are targets of the nearest operation without a name and calls are operations with all the targets
   inside or meta-operations with all the operations inside, in this order. Assertions do not fail. *)
Theorem C71_parse (w : nm -> bool) (fuel : nat) (ts : list token) :
  (forall n, w n = true <-> exists s, Word n s) -> length ts < fuel ->
  match parse fuel ts with
  | POk bs r => r = [] /\ exists is, ts = flat_map write is /\ Forall (Valid w) is /\ bs = meaning w is
  | PFail => ~ exists is, ts = flat_map write is /\ Forall (Valid w) is
  | PAssert | PMore => False
  end.
Proof.
  intros Hw L. pose proof (is_word_any w Hw) as E. assert (E' : forall n, is_word n = w n) by (intros; symmetry; apply E).
  pose proof (parse_spec fuel ts L) as P. destruct (parse fuel ts); try exact P.
  - intros (is & Et & V). apply P. exists is. split; [exact Et |]. revert V. apply Forall_impl. apply Valid_ext, E.
  - destruct P as (-> & is & -> & V & ->). split; [reflexivity |]. exists is. split; [reflexivity |]. split.
    + revert V. apply Forall_impl. apply Valid_ext, E'.
    + apply meaning_ext, E'.
Qed.
Print Assumptions C71_parse.

(* A buildspec written in a valid way is read back with its meaning. *)
Theorem C71_read_back (w : nm -> bool) (is : list item) (fuel : nat) :
  (forall n, w n = true <-> exists s, Word n s) -> Forall (Valid w) is -> length (flat_map write is) < fuel ->
  parse fuel (flat_map write is) = POk (meaning w is) [].
Proof.
  intros Hw V L. pose proof (is_word_any w Hw) as E. assert (V' : Forall (Valid is_word) is) by (revert V; apply Forall_impl; apply Valid_ext, E).
  rewrite (meaning_ext _ _ E), meaning_J. unfold parse. destruct is as [| i is]; [reflexivity |].
  pose proof (clause_complete fuel [] true (i :: is) [] (Forall_nil _) V' (fun _ => ltac:(discriminate)) I) as C.
  rewrite app_nil_r in C. specialize (C L). change (joined mun mmg []) with (@nil metaopspec) in C. cbn [app] in C. rewrite C.
  destruct (flat_map write (i :: is)) eqn:K; [| reflexivity]. pose proof (write_cons (i :: is)) as X. rewrite K in X. discriminate.
Qed.
Print Assumptions C71_read_back.

(* What this means for targets: every target of the buildspec is there, once, in this order, and nothing else is. Names in
   operations that are called by several names are repeated for each one. *)
Fixpoint targets_of (w : nm -> bool) (i : item) : list nm :=
  match i with
  | Plain ns => filter (fun n => negb (w n)) ns
  | Call ns inner ps t => flat_map (fun _ => flat_map (targets_of w) inner) ns
  end.
Lemma joined_ops_targets os : flat_map targets (joined_ops os) = flat_map targets os.
Proof.
  induction os as [| o os IH]; [reflexivity |]. cbn [joined_ops fold_right flat_map]. fold (joined_ops os). rewrite <- IH.
  unfold join_ops. destruct (oname o); [| reflexivity]. destruct (joined_ops os) as [| o' r]; [reflexivity |].
  destruct (oname o'); [| reflexivity]. cbn. rewrite app_assoc. reflexivity.
Qed.
Definition all_targets (ms : list metaopspec) : list nm := flat_map targets (flat_map ops ms).
Lemma all_targets_app l r : all_targets (l ++ r) = all_targets l ++ all_targets r.
Proof. unfold all_targets. rewrite flat_map_app, flat_map_app. reflexivity. Qed.
Lemma joined_metas_targets ms : all_targets (joined_metas ms) = all_targets ms.
Proof.
  induction ms as [| m ms IH]; [reflexivity |]. cbn [joined_metas fold_right]. fold (joined_metas ms).
  change (m :: ms) with ([m] ++ ms). rewrite all_targets_app, <- IH, <- all_targets_app. cbn [app].
  unfold join_metas. destruct (mname m); [| reflexivity]. destruct (joined_metas ms) as [| m' r]; [reflexivity |].
  destruct (mname m'); [| reflexivity]. unfold all_targets. cbn. rewrite !flat_map_app, joined_ops_targets, flat_map_app, app_assoc. reflexivity.
Qed.
Lemma name_ops_targets w ns : flat_map targets (map (name_op w) ns) = filter (fun n => negb (w n)) ns.
Proof. induction ns as [| n ns IH]; [reflexivity |]. cbn. rewrite IH. unfold name_op. destruct (w n); reflexivity. Qed.
Lemma all_names_targets w is : existsb (has_op w) is = false -> all_names is = flat_map (targets_of w) is.
Proof.
  induction is as [| i is IH]; [reflexivity |]. cbn. intros H. apply orb_false_iff in H. destruct H as [H1 H2]. fold (all_names is). rewrite IH by exact H2. f_equal.
  destruct i as [ns |]; [| discriminate]. cbn in *. clear - H1. induction ns as [| n ns IH]; [reflexivity |]. cbn in *.
  apply orb_false_iff in H1. destruct H1 as [-> H]. cbn. rewrite <- IH by exact H. reflexivity.
Qed.
Lemma item_ops_targets w i : meta_call w i = false -> flat_map targets (item_ops w i) = targets_of w i.
Proof.
  destruct i as [ns | ns inner ps t]; cbn; intros H; [apply name_ops_targets |]. rewrite (all_names_targets w inner H).
  induction ns as [| n ns IH]; [reflexivity |]. cbn. rewrite IH. reflexivity.
Qed.
Lemma item_metas_targets w i : Valid w i -> all_targets (item_metas w i) = targets_of w i.
Proof.
  intros V. assert (D : forall i, all_targets [mkmeta [] [] (joined_ops (item_ops w i))] = flat_map targets (item_ops w i)).
  { intros j. unfold all_targets. cbn. rewrite app_nil_r. apply joined_ops_targets. }
  destruct i as [ns | ns inner ps t]; cbn [item_metas].
  - rewrite D. apply item_ops_targets. reflexivity.
  - destruct (existsb (has_op w) inner) eqn:O.
    + inversion V as [| ? ? ? ? _ _ _ _ M]; subst.
      assert (I : flat_map targets (flat_map (item_ops w) inner) = flat_map (targets_of w) inner).
      { clear - M. induction M as [| i l Mi M IH]; [reflexivity |]. cbn. rewrite flat_map_app, IH, item_ops_targets by exact Mi. reflexivity. }
      cbn [targets_of]. rewrite <- I. clear. unfold all_targets. induction ns as [| n ns IH]; [reflexivity |]. cbn. rewrite flat_map_app, IH, joined_ops_targets. reflexivity.
    + rewrite D. apply item_ops_targets. exact O.
Qed.
Theorem C71_targets (w : nm -> bool) (is : list item) : Forall (Valid w) is ->
  flat_map targets (flat_map ops (meaning w is)) = flat_map (targets_of w) is.
Proof.
  intros V. change (all_targets (meaning w is) = flat_map (targets_of w) is). unfold meaning. rewrite joined_metas_targets.
  induction V as [| i is Vi V IH]; [reflexivity |]. cbn [flat_map]. rewrite all_targets_app, IH, item_metas_targets by exact Vi. reflexivity.
Qed.
Print Assumptions C71_targets.

(* Examples: foo/ bar/ update(baz/) test configure(clean(x/) y/, p) z/ *)
Definition exb_is : list item :=
  [Plain [Typed 1; Typed 2]; Call [Simple (b "update")] [Plain [Typed 3]] [] false; Plain [Simple (b "test")];
   Call [Simple (b "configure"); Simple (b "dist")] [Call [Simple (b "clean")] [Plain [Typed 4]] [] false; Plain [Pair 5 6]] [7] true;
   Plain [Simple (b "x.y")]].
Example C71_valid : Forall (Valid is_word) exb_is.
Proof. unfold exb_is. repeat (constructor; try discriminate; try (cbn; intuition discriminate)). Qed.
Example C71_word : forall n, is_word n = true <-> exists s, Word n s.
Proof. intros n. split; [intros X; exists (word n); apply opname_iff, is_word_opname, X | intros (s & X); apply opname_iff in X; unfold is_word; rewrite X; reflexivity]. Qed.
Example C71_example : parse 30 (flat_map write exb_is) = POk
  [mkmeta [] [] [mkop [] [] [Typed 1; Typed 2]; mkop (b "update") [] [Typed 3]; mkop (b "test") [] []];
   mkmeta (b "configure") [7; 0] [mkop (b "clean") [] [Typed 4]; mkop [] [] [Pair 5 6]];
   mkmeta (b "dist") [7; 0] [mkop (b "clean") [] [Typed 4]; mkop [] [] [Pair 5 6]];
   mkmeta [] [] [mkop [] [] [Simple (b "x.y")]]] [].
Proof. vm_compute. reflexivity. Qed.
(* a(b(c(x/))), x/(y/), update() and update(x/ are not valid. *)
Example C71_rejected :
  parse 30 [Names [Simple (b "a")]; LParen; Names [Simple (b "b")]; LParen; Names [Simple (b "c")]; LParen; Names [Typed 1]; RParen; RParen; RParen] = PFail /\
  parse 30 [Names [Typed 1]; LParen; Names [Typed 2]; RParen] = PFail /\
  parse 30 [Names [Simple (b "update")]; LParen; RParen] = PFail /\
  parse 30 [Names [Simple (b "update")]; LParen; Names [Typed 1]] = PFail.
Proof. repeat split. Qed.
