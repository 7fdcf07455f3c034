(* Proofs about execution of buildspecs: meta-operations. *)
From Verif Require Import Base RunModel RunSpec RunProofs.
From Coq Require Import Lia.

Section Proofs.
Context (builtin : bytes -> bool) (defines_meta defines_op : nat -> bytes -> bool) (builtin_op : bytes -> bool)
        (meta_of : nat -> bytes -> option metainfo) (op_of : nat -> bytes -> option opinfo) (here : nat).
Notation known_meta := (known_meta builtin defines_meta).
Notation bootstrap := (bootstrap builtin defines_meta defines_op builtin_op meta_of op_of).
Notation run_ops := (run_ops builtin defines_meta defines_op builtin_op meta_of op_of here).
Notation run := (run builtin defines_meta defines_op builtin_op meta_of op_of here).
Notation is_meta := (is_meta builtin defines_meta here).
Notation is_metab := (is_metab builtin defines_meta here).
Notation OpRuns := (OpRuns builtin defines_meta meta_of op_of here).
Notation JobRuns := (JobRuns builtin defines_meta meta_of op_of here).
Notation Support := (Support meta_of here).
Notation targets_of := (targets_of here).
Notation first := (first here).
Notation all_ops := all_ops.
Context (sane : Sane builtin defines_meta defines_op builtin_op meta_of op_of).
Context (U : list nat).

Definition CoherentOp (o : opspec) : Prop :=
  incl (targets_of o) U /\ forall t, In t U -> oname o <> [] -> defines_meta t (oname o) = true -> is_meta o.

Lemma known_is_meta o boot : CoherentOp o -> incl boot U -> oname o <> [] -> known_meta boot (oname o) = true -> is_meta o.
Proof.
  intros (_ & C) Hb N K. unfold RunModel.known_meta in K. apply orb_true_iff in K. destruct K as [K | K].
  - split; auto.
  - apply existsb_exists in K. destruct K as (t & Hi & D). apply (C t); auto.
Qed.
Lemma not_meta_unknown o : CoherentOp o -> ~ is_meta o -> Unknown builtin defines_meta U (oname o).
Proof.
  intros C N boot Hb E. destruct (known_meta boot (oname o)) eqn:K; [| reflexivity]. destruct N. exact (known_is_meta o boot C Hb E K).
Qed.

Section Ops.
Context (mn : bytes) (mp : nat).
Let m := if is_empty mn then perform else mn.
Notation Meta := (Meta meta_of mn).
Notation start := (start mn mp).

Definition Ran (mb : option batch) (l : list opspec) (mb' : option batch) (evs : list event) : Prop :=
  match mb with
  | Some q => mb' = Some q /\ exists ess, Forall2 (OpRuns m (snd q)) l ess /\ evs = concat ess
  | None => match l with
            | [] => mb' = None /\ evs = []
            | _ => exists mi ess, Support m mi l /\ mb' = Some (m, mi) /\ Forall2 (OpRuns m mi) l ess /\ evs = MetaPre m mp :: concat ess
            end
  end.
Lemma Ran_nil mb : Ran mb [] mb [].
Proof. destruct mb; cbn; eauto. Qed.
Lemma Ran_cons mb o mi e l mb' evs : Meta mb (first o) mi -> OpRuns m mi o e -> Ran (Some (m, mi)) l mb' evs -> Ran mb (o :: l) mb' (start mb ++ e ++ evs).
Proof.
  intros M H (-> & ess & F & ->). unfold Ran, RunProofs.Meta, RunProofs.start in *. cbn [snd] in F. destruct mb as [q |].
  - fold m in M. subst q. split; [reflexivity |]. exists (e :: ess). split; [constructor; assumption | reflexivity].
  - exists mi, (e :: ess). split; [exact M |]. split; [reflexivity |]. split; [constructor; assumption | reflexivity].
Qed.

Definition Shape (mb : option batch) (o : opspec) (es : list event) : Prop :=
  es = [] \/ exists mi tail, Meta mb (first o) mi /\ es = start mb ++ tail /\ (tail = [] \/ exists q, tail = [OpPre m q]).

Lemma run_ops_ok os : forall n boot mb es, incl boot U -> (forall o, In o os -> CoherentOp o) -> (mb = None \/ exists mi, mb = Some (m, mi)) ->
  match run_ops false mn mp n boot mb es os with
  | ODone boot' mb' es' => incl boot' U /\ (forall o, In o os -> ~ is_meta o) /\ exists evs, Ran mb os mb' evs /\ es' = es ++ evs
  | OLift o' k boot' mb' es' => mn = [] /\ incl boot' U /\ exists l o r evs, os = l ++ o :: r /\ (forall o, In o l -> ~ is_meta o) /\ is_meta o /\
      o' = mkop (oname o) (oparams o) (targets_of o) /\ k = n + length l + 1 /\ Ran mb l mb' evs /\ es' = es ++ evs
  | OFail es' => exists l o r mb' evs tail, os = l ++ o :: r /\ (forall o, In o l -> ~ is_meta o) /\ (mn = [] -> ~ is_meta o) /\
      Ran mb l mb' evs /\ es' = es ++ evs ++ tail /\ Shape mb' o tail /\ (forall mi, Meta mb' (first o) mi -> forall e, ~ OpRuns m mi o e)
  | OAssert => False
  end.
Proof.
  induction os as [| o os IH]; intros n boot mb es Hb Hc Hmb; cbn [RunModel.run_ops].
  - split; [exact Hb |]. split; [intros o [] |]. exists []. split; [apply Ran_nil | rewrite app_nil_r; reflexivity].
  - fold (targets_of o). assert (Co : CoherentOp o) by (apply Hc; left; reflexivity).
    assert (LiftOk : forall boot', is_meta o -> mn = [] -> incl boot' U ->
      mn = [] /\ incl boot' U /\ exists l o0 r evs, o :: os = l ++ o0 :: r /\ (forall o, In o l -> ~ is_meta o) /\ is_meta o0 /\
      mkop (oname o) (oparams o) (targets_of o) = mkop (oname o0) (oparams o0) (targets_of o0) /\ n + 1 = n + length l + 1 /\ Ran mb l mb evs /\ es = es ++ evs).
    { intros boot' Hm E Hb'. split; [exact E |]. split; [exact Hb' |]. exists [], o, os, []. split; [reflexivity |]. split; [intros x [] |].
      split; [exact Hm |]. split; [reflexivity |]. split; [cbn; lia |]. split; [apply Ran_nil | rewrite app_nil_r; reflexivity]. }
    assert (FailOk : is_meta o -> mn <> [] -> exists l o0 r mb' evs tail, o :: os = l ++ o0 :: r /\ (forall o, In o l -> ~ is_meta o) /\ (mn = [] -> ~ is_meta o0) /\
      Ran mb l mb' evs /\ es = es ++ evs ++ tail /\ Shape mb' o0 tail /\ (forall mi, Meta mb' (first o0) mi -> forall e, ~ OpRuns m mi o0 e)).
    { intros Hm N. exists [], o, os, mb, [], []. split; [reflexivity |]. split; [intros x [] |]. split; [congruence |].
      split; [apply Ran_nil |]. split; [rewrite app_nil_r; reflexivity |]. split; [left; reflexivity |]. intros mi _ e (H & _). exact (H Hm). }
    destruct (negb (is_empty (oname o)) && known_meta boot (oname o)) eqn:K.
    + apply andb_true_iff in K. destruct K as [N K]. apply negb_true_iff, is_empty_false in N.
      pose proof (known_is_meta o boot Co Hb N K) as Hm. case_eq (is_empty mn); intros E.
      * apply is_empty_true in E. apply LiftOk; auto.
      * apply is_empty_false in E. apply FailOk; auto.
    + destruct (is_metab o) eqn:IM.
      * apply is_metab_iff in IM. destruct (targets_cons here o) as (ts & ET).
        assert (Hb' : incl (first o :: boot) U). { intros y [<- | Hy]; [| auto]. destruct Co as (Ct & _). apply Ct. rewrite ET. left. reflexivity. }
        assert (K' : negb (is_empty (oname o)) && known_meta (first o :: boot) (oname o) = true).
        { destruct IM as (N & D). apply is_empty_false in N. rewrite N. cbn [negb andb]. unfold RunModel.known_meta. cbn.
          destruct D as [-> | ->]; [reflexivity | apply orb_true_r]. }
        assert (BV : bootstrap mn mp (oname o) boot mb None [] (targets_of o) = if is_empty mn then BLift (first o :: boot) else BFail []).
        { rewrite ET. cbn [RunModel.bootstrap]. rewrite K'. reflexivity. }
        rewrite BV. case_eq (is_empty mn); intros E.
        -- apply is_empty_true in E. apply LiftOk; auto.
        -- apply is_empty_false in E. rewrite app_nil_r. apply FailOk; auto.
      * apply is_metab_false in IM.
        pose proof (bootstrap_first builtin defines_meta defines_op builtin_op meta_of op_of here sane U mn mp o mb boot IM
          (not_meta_unknown o Co IM) Hb (proj1 Co) Hmb) as B. cbv zeta in B. fold m in B.
        destruct (bootstrap mn mp (oname o) boot mb None [] (targets_of o)) as [e | | boot' | boot' mb' x e]; try contradiction.
        -- destruct B as (Sh & NR). exists [], o, os, mb, [], e. split; [reflexivity |]. split; [intros y [] |]. split; [auto |].
           split; [apply Ran_nil |]. split; [reflexivity |]. split; [exact Sh | exact NR].
        -- destruct B as (Hb' & mi & r & -> & M & -> & R & ->). cbn [fst].
           assert (EV : (start mb ++ [OpPre m (oid (r0 r))]) ++ perform_op m (of_resolved m r) (oparams o) (targets_of o) =
             start mb ++ op_events m r (oparams o) (targets_of o)).
           { rewrite <- app_assoc. f_equal. cbn [app]. apply op_events_eq; reflexivity. }
           rewrite EV.
           specialize (IH (n + 1) boot' (Some (m, mi)) (es ++ start mb ++ op_events m r (oparams o) (targets_of o)) Hb'
             ltac:(intros y Hy; apply Hc; right; exact Hy) ltac:(right; eauto)).
           match type of IH with match ?X with _ => _ end => set (RR := X) in IH end.
           match goal with |- match ?X with _ => _ end => change X with RR end.
           clearbody RR. destruct RR as [e | | o' k b2 mb2 e | b2 mb2 e]; try contradiction.
           ++ destruct IH as (l & o1 & r1 & mb' & evs & tail & -> & H1 & H2 & H3 & -> & H4 & H5).
              exists (o :: l), o1, r1, mb', (start mb ++ op_events m r (oparams o) (targets_of o) ++ evs), tail.
              split; [reflexivity |]. split; [intros y [<- | Hy]; auto |]. split; [exact H2 |].
              split; [eapply Ran_cons; eauto |]. split; [rewrite <- !app_assoc; reflexivity | auto].
           ++ destruct IH as (E & H0 & l & o1 & r1 & evs & -> & H1 & H2 & -> & -> & H3 & ->).
              split; [exact E |]. split; [exact H0 |]. exists (o :: l), o1, r1, (start mb ++ op_events m r (oparams o) (targets_of o) ++ evs).
              split; [reflexivity |]. split; [intros y [<- | Hy]; auto |]. split; [exact H2 |]. split; [reflexivity |].
              split; [cbn; lia |]. split; [eapply Ran_cons; eauto |]. rewrite <- !app_assoc; reflexivity.
           ++ destruct IH as (H0 & H1 & evs & H2 & ->). split; [exact H0 |]. split; [intros y [<- | Hy]; auto |].
              exists (start mb ++ op_events m r (oparams o) (targets_of o) ++ evs). split; [eapply Ran_cons; eauto |].
              rewrite <- !app_assoc; reflexivity.
Qed.
End Ops.
End Proofs.
