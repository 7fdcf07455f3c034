(* Proofs about execution of buildspecs: whole buildspecs. *)
From Verif Require Import Base RunModel RunSpec RunProofs RunProofs2.
From Coq Require Import Lia.

Section Proofs.
Context (builtin : bytes -> bool) (defines_meta defines_op : nat -> bytes -> bool) (builtin_op : bytes -> bool)
        (meta_of : nat -> bytes -> option metainfo) (op_of : nat -> bytes -> option opinfo) (here : nat).
Notation run_ops := (run_ops builtin defines_meta defines_op builtin_op meta_of op_of here).
Notation bootstrap := (bootstrap builtin defines_meta defines_op builtin_op meta_of op_of).
Notation run := (run builtin defines_meta defines_op builtin_op meta_of op_of here).
Notation is_meta := (is_meta builtin defines_meta here).
Notation is_metab := (is_metab builtin defines_meta here).
Notation OpRuns := (OpRuns builtin defines_meta meta_of op_of here).
Notation JobRuns := (JobRuns builtin defines_meta meta_of op_of here).
Notation Jobs := (Jobs builtin defines_meta here).
Notation Plan := (Plan builtin defines_meta here).
Notation Stopped := (Stopped builtin defines_meta meta_of op_of here).
Notation Support := (Support meta_of here).
Notation targets_of := (targets_of here).
Notation first := (first here).
Context (sane : Sane builtin defines_meta defines_op builtin_op meta_of op_of).

(* Plans as functions. *)
Definition lifted_job (o : opspec) : job := mkjob (oname o) (oparams o) [mkop [] 0 (targets_of o)].
Definition ord (p : nat) (l : list opspec) (js : list job) : list job := match l with [] => js | _ => mkjob perform p l :: js end.
Fixpoint split (p : nat) (os : list opspec) : list opspec * list job :=
  match os with
  | [] => ([], [])
  | o :: r => let (l, js) := split p r in if is_metab o then ([], lifted_job o :: ord p l js) else (o :: l, js)
  end.
Definition jobs (p : nat) (os : list opspec) : list job := let (l, js) := split p os in ord p l js.
Fixpoint plan (ms : list metaopspec) : list job :=
  match ms with
  | [] => []
  | m :: ms => (if is_empty (mname m) then jobs (mparams m) (all_ops m) else [mkjob (mname m) (mparams m) (all_ops m)]) ++ plan ms
  end.

Lemma jobs_meta p o r : is_meta o -> jobs p (o :: r) = lifted_job o :: jobs p r.
Proof. intros H. apply is_metab_iff in H. unfold jobs. cbn. rewrite H. destruct (split p r). reflexivity. Qed.
Lemma split_app p l r : (forall o, In o l -> ~ is_meta o) -> split p (l ++ r) = (l ++ fst (split p r), snd (split p r)).
Proof.
  induction l as [| o l IH]; intros H; cbn [app split].
  - destruct (split p r). reflexivity.
  - rewrite IH by (intros x Hx; apply H; right; exact Hx).
    assert (E : is_metab o = false) by (apply is_metab_false, H; left; reflexivity). rewrite E. reflexivity.
Qed.
Lemma split_start p os : os = [] \/ (exists o os', os = o :: os' /\ is_meta o) -> fst (split p os) = [].
Proof.
  intros [-> | (o & os' & -> & H)]; [reflexivity |]. apply is_metab_iff in H. cbn. destruct (split p os'). rewrite H. reflexivity.
Qed.
Lemma jobs_run p l os : l <> [] -> (forall o, In o l -> ~ is_meta o) -> os = [] \/ (exists o os', os = o :: os' /\ is_meta o) ->
  jobs p (l ++ os) = mkjob perform p l :: jobs p os.
Proof.
  intros N H S. unfold jobs. rewrite split_app by exact H. pose proof (split_start p os S) as F.
  destruct (split p os) as [l' js]. cbn in *. subst l'. rewrite app_nil_r. destruct l; [congruence | reflexivity].
Qed.
Lemma Jobs_fun p os js : Jobs p os js -> js = jobs p os.
Proof.
  induction 1 as [| o os js H _ IH | l os js N H S _ IH].
  - reflexivity.
  - rewrite jobs_meta by exact H. rewrite IH. reflexivity.
  - rewrite jobs_run by auto. rewrite IH. reflexivity.
Qed.
Lemma Jobs_split p os : let (l, js) := split p os in
  exists r, os = l ++ r /\ (forall o, In o l -> ~ is_meta o) /\ (r = [] \/ exists o r', r = o :: r' /\ is_meta o) /\ Jobs p r js.
Proof.
  induction os as [| o os IH]; cbn [split].
  - exists []. split; [reflexivity |]. split; [intros o [] |]. split; [auto | constructor].
  - destruct (split p os) as [l js]. destruct IH as (r & -> & H1 & H2 & H3). destruct (is_metab o) eqn:E.
    + apply is_metab_iff in E. exists (o :: l ++ r). split; [reflexivity |]. split; [intros x [] |]. split; [right; eauto |].
      apply J_meta; [exact E |]. destruct l as [| o' l]; [exact H3 |]. cbn [ord]. apply J_run; auto. discriminate.
    + apply is_metab_false in E. exists r. split; [reflexivity |]. split; [intros x [<- | Hx]; auto | auto].
Qed.
Lemma Jobs_ex p os : Jobs p os (jobs p os).
Proof.
  unfold jobs. pose proof (Jobs_split p os) as H. destruct (split p os) as [l js]. destruct H as (r & -> & H1 & H2 & H3).
  destruct l as [| o l]; [exact H3 |]. cbn [ord]. apply J_run; auto. discriminate.
Qed.
Lemma Plan_fun ms js : Plan ms js -> js = plan ms.
Proof.
  induction 1 as [| m ms js N _ IH | m ms js js' N H _ IH]; cbn [plan].
  - reflexivity.
  - apply is_empty_false in N. rewrite N, IH. reflexivity.
  - rewrite N. cbn [is_empty]. rewrite (Jobs_fun _ _ _ H), IH. reflexivity.
Qed.
Lemma Plan_ex ms : Plan ms (plan ms).
Proof.
  induction ms as [| m ms IH]; cbn [plan]; [constructor |]. destruct (is_empty (mname m)) eqn:E.
  - apply is_empty_true in E. apply P_unnamed; auto. apply Jobs_ex.
  - apply is_empty_false in E. apply (P_named _ _ _ m); auto.
Qed.
Lemma jobs_nonempty p os : os <> [] -> jobs p os <> [].
Proof.
  destruct os as [| o os]; [congruence |]. intros _. destruct (is_metab o) eqn:E.
  - apply is_metab_iff in E. rewrite jobs_meta by exact E. discriminate.
  - unfold jobs. cbn. rewrite E. destruct (split p os). cbn. discriminate.
Qed.

Lemma in_contexts_cons e ess : ess <> [] -> in_contexts (e :: ess) = e ++ Fresh :: in_contexts ess.
Proof. destruct ess; [congruence | reflexivity]. Qed.
Lemma Stopped_cons j e js es : JobRuns j e -> Stopped js es -> Stopped (j :: js) (e ++ Fresh :: es).
Proof.
  intros H (js1 & j' & js2 & ess1 & e' & os1 & o & os2 & -> & F & -> & Ej & D).
  exists (j :: js1), j', js2, (e :: ess1), e', os1, o, os2. split; [reflexivity |]. split; [constructor; assumption |].
  split; [| split; assumption]. cbn [app]. rewrite in_contexts_cons; [reflexivity |]. destruct ess1; discriminate.
Qed.

Section Run.
Context (U : list nat).
Notation CoherentOp := (CoherentOp builtin defines_meta here U).

Definition rest (m : metaopspec) (skip : nat) : list job :=
  if is_empty (mname m) then jobs (mparams m) (skipn skip (all_ops m)) else [mkjob (mname m) (mparams m) (all_ops m)].
Definition remaining (lifted : option opspec) (skip : nat) (ms : list metaopspec) : list job :=
  match ms with
  | [] => []
  | m :: ms => match lifted with
               | None => rest m skip
               | Some o => mkjob (oname o) (oparams o) [mkop [] 0 (targets o)] :: jobs (mparams m) (skipn skip (all_ops m))
               end ++ plan ms
  end.
Definition Inv (lifted : option opspec) (skip : nat) (ms : list metaopspec) : Prop :=
  match ms with
  | [] => True
  | m :: _ => (skip <> 0 -> mname m = []) /\ skip <= length (all_ops m) /\
              match lifted with None => True | Some o => mname m = [] /\ oname o <> [] /\ targets o <> [] /\ incl (targets o) U /\ skip <> 0 end
  end.
Definition cost (ms : list metaopspec) : nat := fold_right (fun m n => 2 + 2 * length (all_ops m) + n) 0 ms.
Definition measure (lifted : option opspec) (skip : nat) (ms : list metaopspec) : nat :=
  match ms with
  | [] => 0
  | m :: ms => 2 * (length (all_ops m) - skip) + match lifted with None => 1 | Some _ => 2 end + cost ms
  end.
Definition before (dirty : bool) (es : list event) : list event := if dirty then es ++ [Fresh] else es.

Definition Outcome (dirty : bool) (es : list event) (J : list job) (r : result) : Prop :=
  match r with
  | RDone es' => exists ess, Forall2 JobRuns J ess /\ es' = match J with [] => es | _ => before dirty es ++ in_contexts ess end
  | RFail es' => (exists e, es' = before dirty es ++ e /\ Stopped J e) /\ (forall ess, ~ Forall2 JobRuns J ess)
  | RAssert => False
  | RMore => True
  end.
Lemma Outcome_cons dirty es j e J r : JobRuns j e -> Outcome true (before dirty es ++ e) J r -> Outcome dirty es (j :: J) r.
Proof.
  intros H O. destruct r as [es' | | es' |]; cbn in *; auto.
  - destruct O as ((e' & -> & S) & N). split.
    + exists (e ++ Fresh :: e'). split; [rewrite <- !app_assoc; reflexivity | apply Stopped_cons; assumption].
    + intros ess F. inversion F; subst. eapply N; eauto.
  - destruct O as (ess & F & ->). exists (e :: ess). split; [constructor; assumption |].
    destruct F as [| j' e' J ess H' F].
    + reflexivity.
    + rewrite (in_contexts_cons e (e' :: ess)) by discriminate. rewrite <- !app_assoc. reflexivity.
Qed.

(* One iteration. *)
Definition LOps (lifted : option opspec) (skip : nat) (m : metaopspec) : list opspec :=
  match lifted with None => skipn skip (all_ops m) | Some o => [mkop [] 0 (targets o)] end.
Lemma bootstrap_default mn mp ts : forall boot mb x es, match bootstrap mn mp [] boot mb x es ts with BLift _ => False | _ => True end.
Proof.
  induction ts as [| t ts IH]; intros boot mb x es; cbn [RunModel.bootstrap].
  - destruct mb, x; exact I.
  - cbn [is_empty negb andb]. destruct (negb (is_empty mn) && _); [exact I |].
    match goal with |- context [match ?X with Some _ => _ | None => BFail es end] => destruct X as [[mb' e1] |] end; [| exact I].
    destruct x as [x |].
    + destruct (other_target op_of t x); [apply IH | exact I].
    + destruct (first_target op_of (fst mb') (snd mb') t []) as [[e2 x] |]; [apply IH | exact I].
Qed.
Lemma run_ops_lifted mn mp n boot mb es o : run_ops true mn mp n boot mb es [o] = run_ops false mn mp n boot mb es [mkop [] 0 (targets o)].
Proof.
  cbn. pose proof (bootstrap_default mn mp (match targets o with [] => [here] | ts => ts end) boot mb None []) as B.
  destruct (bootstrap mn mp [] boot mb None [] (match targets o with [] => [here] | ts => ts end)); [reflexivity | reflexivity | destruct B | reflexivity].
Qed.

Lemma failed_job mn mp l o r mb' evs tail :
  let m := if is_empty mn then perform else mn in
  Ran builtin defines_meta meta_of op_of here mn mp None l mb' evs -> Shape meta_of here mn mp mb' o tail ->
  (forall mi, Meta meta_of mn mb' (first o) mi -> forall e, ~ OpRuns m mi o e) ->
  (forall J, Stopped (mkjob m mp (l ++ o :: r) :: J) (evs ++ tail)) /\ (forall e, ~ JobRuns (mkjob m mp (l ++ o :: r)) e).
Proof.
  intros m R S N. unfold Ran in R. fold m in R. split.
  - intros J. exists [], (mkjob m mp (l ++ o :: r)), J, [], (evs ++ tail), l, o, r.
    split; [reflexivity |]. split; [constructor |]. split; [reflexivity |]. split; [reflexivity |]. cbn [jname jparams].
    destruct l as [| o' l].
    + destruct R as [-> ->]. destruct S as [-> | (mi & tl & M & -> & T)].
      * left. auto.
      * right. exists mi, [], tl. cbn [app concat start]. unfold Meta in M. fold m in M. cbn. split; [exact M |]. split; [constructor |]. split; [reflexivity | exact T].
    + right. destruct R as (mi & ess & Su & -> & F & ->). destruct S as [-> | (mi' & tl & M & -> & T)].
      * exists mi, ess, []. split; [exact Su |]. split; [exact F |]. rewrite !app_nil_r. auto.
      * exists mi, ess, tl. split; [exact Su |]. split; [exact F |]. auto.
  - intros e (mi & ess & Su & F & _). cbn [jname jparams jops] in *. apply Forall2_app_inv_l in F.
    destruct F as (e1 & e2 & F1 & F2 & _). inversion F2 as [| ? eo ? ? Ho]; subst.
    destruct l as [| o' l].
    + destruct R as [-> ->]. exact (N mi Su eo Ho).
    + destruct R as (mi' & ess' & Su' & -> & _ & _). cbn in Su, Su'. assert (mi' = mi) by congruence. subst mi'. exact (N mi eq_refl eo Ho).
Qed.
Lemma done_job mn mp os mb' evs : os <> [] ->
  let m := if is_empty mn then perform else mn in
  Ran builtin defines_meta meta_of op_of here mn mp None os mb' evs ->
  exists mi, mb' = Some (m, mi) /\ JobRuns (mkjob m mp os) (evs ++ meta_end mb').
Proof.
  intros N m R. unfold Ran in R. fold m in R. destruct os as [| o os]; [congruence |]. destruct R as (mi & ess & Su & -> & F & ->).
  exists mi. split; [reflexivity |]. exists mi, ess. cbn [jname jparams jops]. split; [exact Su |]. split; [exact F | reflexivity].
Qed.

Lemma skipn_cons_app {A} k (s l r : list A) (o : A) : skipn k s = l ++ o :: r -> skipn (k + length l + 1) s = r.
Proof.
  revert s. induction k as [| k IH]; intros s H.
  - cbn in H. subst s. replace (0 + length l + 1) with (length (l ++ [o])) by (rewrite app_length; cbn; lia).
    replace (l ++ o :: r) with ((l ++ [o]) ++ r) by (rewrite <- app_assoc; reflexivity).
    rewrite skipn_app, skipn_all, Nat.sub_diag. reflexivity.
  - destruct s as [| x s].
    + destruct l; discriminate.
    + cbn in *. exact (IH s H).
Qed.

Lemma run_ok fuel : forall lifted skip dirty boot es ms,
  incl boot U -> (forall m o, In m ms -> In o (all_ops m) -> CoherentOp o) -> Inv lifted skip ms ->
  Outcome dirty es (remaining lifted skip ms) (run fuel lifted skip dirty boot es ms) /\
  (measure lifted skip ms < fuel -> run fuel lifted skip dirty boot es ms <> RMore).
Proof.
  induction fuel as [| fuel IH]; intros lifted skip dirty boot es ms Hb Hc Hi.
  { cbn. split; [exact I | lia]. }
  destruct ms as [| m ms].
  { cbn. split; [| discriminate]. exists []. split; [constructor | reflexivity]. }
  cbn [RunModel.run]. fold (all_ops m).
  assert (Hcm : forall o, In o (all_ops m) -> CoherentOp o) by (intros o Ho; apply (Hc m); [left; reflexivity | exact Ho]).
  assert (Hcs : forall m' o, In m' ms -> In o (all_ops m') -> CoherentOp o) by (intros m' o H1 H2; apply (Hc m'); [right; exact H1 | exact H2]).
  assert (Next : forall d bt e, incl bt U ->
    Outcome d e (plan ms) (run fuel None 0 d bt e ms) /\ (cost ms < fuel -> run fuel None 0 d bt e ms <> RMore)).
  { intros d bt e Hbt. assert (E1 : remaining None 0 ms = plan ms).
    { destruct ms as [| m' ms']; [reflexivity |]. cbn. unfold rest. reflexivity. }
    assert (E2 : Inv None 0 ms). { destruct ms as [| m' ms']; [exact I |]. cbn. split; [congruence |]. split; [lia | exact I]. }
    destruct (IH None 0 d bt e ms Hbt Hcs E2) as [H1 H2]. rewrite E1 in H1. split; [exact H1 |]. intros L. apply H2.
    unfold measure, cost in *. destruct ms as [| m' ms']; cbn [fold_right] in *; lia. }
  assert (Hbd : incl (if dirty then [] else boot) U) by (destruct dirty; [intros x [] | exact Hb]).
  assert (Bf : (if dirty then es ++ [Fresh] else es) = before dirty es) by reflexivity. rewrite Bf.
  destruct Hi as (Hs & Hl & Hi). destruct lifted as [o |].
  - (* Lifted. *)
    destruct Hi as (Em & No & Nt & Ht & Nz). rewrite run_ops_lifted.
    assert (Co : forall x, In x [mkop [] 0 (targets o)] -> CoherentOp x).
    { intros x [<- | []]. split; [| cbn; congruence]. unfold RunSpec.targets_of. cbn. destruct (targets o); [congruence | exact Ht]. }
    pose proof (run_ops_ok builtin defines_meta defines_op builtin_op meta_of op_of here sane U (oname o) (oparams o)
      [mkop [] 0 (targets o)] 0 (if dirty then [] else boot) None (before dirty es) Hbd Co (or_introl eq_refl)) as R.
    set (RR := run_ops false (oname o) (oparams o) 0 (if dirty then [] else boot) None (before dirty es) [mkop [] 0 (targets o)]).
    match type of R with match ?X with _ => _ end => change X with RR in R end. clearbody RR.
    assert (Ne : is_empty (oname o) = false) by (apply is_empty_false; exact No).
    destruct RR as [e | | o' k b2 mb2 e | b2 mb2 e]; try contradiction.
    + destruct R as (l & o1 & r1 & mb' & evs & tail & El & H1 & H2 & H3 & -> & H4 & H5).
      destruct (failed_job _ _ l o1 r1 mb' evs tail H3 H4 H5) as [Q1 Q2]. rewrite Ne in *. rewrite <- El in *.
      split; [| discriminate]. cbn [Outcome remaining app]. split; [exists (evs ++ tail); auto |].
      intros ess F. inversion F; subst. eapply Q2; eauto.
    + destruct R as (E & _). congruence.
    + destruct R as (Hb2 & _ & evs & R & ->). assert (Nl : [mkop [] 0 (targets o)] <> []) by discriminate. destruct (done_job _ _ _ _ _ Nl R) as (mi & -> & J).
      rewrite Ne in J. destruct (skip =? 0) eqn:Z; [apply Nat.eqb_eq in Z; congruence |].
      rewrite <- app_assoc. cbn [remaining app].
      destruct (IH None skip true b2 (before dirty es ++ evs ++ meta_end (Some (if is_empty (oname o) then perform else oname o, mi))) (m :: ms) Hb2 Hc
        ltac:(cbn; split; [auto | split; [exact Hl | exact I]])) as [H1 H2].
      split.
      * rewrite Ne in H1. eapply Outcome_cons; [rewrite Ne in *; exact J |]. cbn [remaining] in H1. unfold rest in H1. rewrite Em in H1. cbn [is_empty] in H1.
        rewrite Ne. exact H1.
      * intros L. apply H2. cbn [measure] in *. lia.
  - (* Not lifted. *)
    destruct (skipn skip (all_ops m)) as [| o0 os0] eqn:Es.
    { destruct (Next dirty boot es Hb) as [H1 H2]. split; [| intros L; apply H2; cbn [measure] in L; lia].
      assert (Z : skip <> 0). { intros ->. cbn in Es. unfold RunSpec.all_ops in Es. destruct (ops m); discriminate. }
      cbn [remaining]. unfold rest. rewrite (Hs Z), Es. cbn [is_empty]. exact H1. }
    rewrite <- Es. cbn [Nat.eqb].
    assert (Co : forall x, In x (skipn skip (all_ops m)) -> CoherentOp x).
    { intros x Hx. apply Hcm. rewrite <- (firstn_skipn skip (all_ops m)). apply in_or_app. right. exact Hx. }
    pose proof (run_ops_ok builtin defines_meta defines_op builtin_op meta_of op_of here sane U (mname m) (mparams m)
      (skipn skip (all_ops m)) skip (if dirty then [] else boot) None (before dirty es) Hbd Co (or_introl eq_refl)) as R.
    set (RR := run_ops false (mname m) (mparams m) skip (if dirty then [] else boot) None (before dirty es) (skipn skip (all_ops m))).
    match type of R with match ?X with _ => _ end => change X with RR in R end. clearbody RR.
    cbn [remaining]. unfold rest.
    destruct RR as [e | | o' k b2 mb2 e | b2 mb2 e]; try contradiction.
    + split; [| discriminate].
      destruct R as (l & o1 & r1 & mb' & evs & tail & El & H1 & H2 & H3 & -> & H4 & H5).
      assert (X : exists J r, (if is_empty (mname m) then jobs (mparams m) (skipn skip (all_ops m)) else [mkjob (mname m) (mparams m) (all_ops m)]) ++ plan ms =
        mkjob (if is_empty (mname m) then perform else mname m) (mparams m) (l ++ o1 :: r) :: J).
      { destruct (is_empty (mname m)) eqn:E.
        - apply is_empty_true in E. rewrite El. unfold jobs.
          replace (l ++ o1 :: r1) with ((l ++ [o1]) ++ r1) by (rewrite <- app_assoc; reflexivity).
          rewrite split_app. 2: { intros x Hx. apply in_app_or in Hx. destruct Hx as [Hx | [<- | []]]; auto. }
          destruct (split (mparams m) r1) as [l' js]. cbn [fst snd]. rewrite <- app_assoc. cbn [app].
          exists (js ++ plan ms), l'. destruct l; reflexivity.
        - apply is_empty_false in E. assert (Z : skip = 0). { destruct skip; [reflexivity |]. destruct E. apply Hs. discriminate. }
          rewrite Z in El. cbn [skipn] in El. rewrite El. exists (plan ms), r1. reflexivity. }
      destruct X as (J & r & X).
      destruct (failed_job _ _ l o1 r mb' evs tail H3 H4 H5) as [Q1 Q2]. rewrite X. cbn [Outcome].
      split; [exists (evs ++ tail); auto |]. intros ess F. inversion F; subst. eapply Q2; eauto.
    + destruct R as (E & Hb2 & l & o1 & r1 & evs & El & H1 & H2 & -> & -> & H3 & ->).
      rewrite E. cbn [is_empty]. rewrite El.
      assert (Hk : skipn (skip + length l + 1) (all_ops m) = r1) by (eapply skipn_cons_app; exact El).
      assert (Lk : skip + length l + 1 <= length (all_ops m)).
      { assert (LL : length (skipn skip (all_ops m)) = length l + S (length r1)) by (rewrite El, app_length; reflexivity). rewrite skipn_length in LL. lia. }
      assert (Io : In o1 (all_ops m)). { rewrite <- (firstn_skipn skip (all_ops m)), El. apply in_or_app. right. apply in_or_app. right. left. reflexivity. }
      assert (I2 : Inv (Some (mkop (oname o1) (oparams o1) (targets_of o1))) (skip + length l + 1) (m :: ms)).
      { cbn. split; [auto |]. split; [exact Lk |]. split; [exact E |]. split; [apply H2 |]. split.
        - destruct (targets_cons here o1) as (ts & ->). discriminate.
        - split; [exact (proj1 (Hcm o1 Io)) | lia]. }
      assert (M2 : forall d bt e, incl bt U ->
        Outcome d e (lifted_job o1 :: jobs (mparams m) r1 ++ plan ms) (run fuel (Some (mkop (oname o1) (oparams o1) (targets_of o1))) (skip + length l + 1) d bt e (m :: ms)) /\
        (measure None skip (m :: ms) < S fuel -> run fuel (Some (mkop (oname o1) (oparams o1) (targets_of o1))) (skip + length l + 1) d bt e (m :: ms) <> RMore)).
      { intros d bt e Hbt. destruct (IH (Some (mkop (oname o1) (oparams o1) (targets_of o1))) (skip + length l + 1) d bt e (m :: ms) Hbt Hc I2) as [G1 G2].
        cbn [remaining targets oname oparams] in G1. rewrite Hk in G1. split; [exact G1 |]. intros L. apply G2. cbn [measure] in *. lia. }
      destruct l as [| o2 l].
      * destruct H3 as [-> ->]. rewrite !app_nil_r. destruct (M2 false b2 (before dirty es) Hb2) as [G1 G2]. split; [| exact G2].
        cbn [app]. rewrite jobs_meta by exact H2. exact G1.
      * assert (Nl : o2 :: l <> []) by discriminate. destruct (done_job _ _ _ _ _ Nl H3) as (mi & -> & JR). rewrite E in JR. cbn [is_empty] in JR. rewrite E. cbn [is_empty].
        rewrite <- app_assoc.
        destruct (M2 true b2 (before dirty es ++ evs ++ meta_end (Some (perform, mi))) Hb2) as [G1 G2]. split; [| exact G2].
        rewrite jobs_run by (try exact H1; try discriminate; right; eauto). rewrite jobs_meta by exact H2.
        cbn [app]. eapply Outcome_cons; [exact JR | exact G1].
    + destruct R as (Hb2 & H1 & evs & R & ->).
      assert (Ns : skipn skip (all_ops m) <> []) by (rewrite Es; discriminate).
      destruct (done_job _ _ _ _ _ Ns R) as (mi & -> & JR).
      rewrite <- app_assoc. destruct (Next true b2 (before dirty es ++ evs ++ meta_end (Some (if is_empty (mname m) then perform else mname m, mi))) Hb2) as [G1 G2].
      split; [| intros L; apply G2; cbn [measure] in L; lia].
      destruct (is_empty (mname m)) eqn:E.
      * replace (jobs (mparams m) (skipn skip (all_ops m))) with [mkjob perform (mparams m) (skipn skip (all_ops m))].
        2: { rewrite <- (app_nil_r (skipn skip (all_ops m))) at 2. rewrite jobs_run by auto. reflexivity. }
        cbn [app]. eapply Outcome_cons; [exact JR | exact G1].
      * apply is_empty_false in E. assert (Z : skip = 0). { destruct skip; [reflexivity |]. destruct E. apply Hs. discriminate. }
        subst skip. cbn [skipn] in JR. cbn [app]. eapply Outcome_cons; [exact JR | exact G1].
Qed.
End Run.
End Proofs.
