(* Every expression is accepted and evaluates to its value. *)
From Verif Require Import Base EvalModel EvalSpec EvalProofs.

Scheme operand_ind' := Minimality for is_operand Sort Prop
  with bare_ind' := Minimality for is_bare Sort Prop
  with value_ind' := Minimality for is_value Sort Prop
  with comp_ind' := Minimality for is_comp Sort Prop
  with and_ind' := Minimality for is_and Sort Prop
  with or_ind' := Minimality for is_or Sort Prop
  with ternary_ind' := Minimality for is_ternary Sort Prop
  with list_ind' := Minimality for is_list Sort Prop
  with context_ind' := Minimality for is_context Sort Prop.
Combined Scheme syntax_ind from operand_ind', bare_ind', value_ind', comp_ind', and_ind', or_ind', ternary_ind', list_ind', context_ind'.

Arguments P_eval : simpl never. Arguments P_comma : simpl never. Arguments P_comma_loop : simpl never. Arguments P_ternary : simpl never. Arguments P_or : simpl never. Arguments P_or_loop : simpl never. Arguments P_and : simpl never. Arguments P_and_loop : simpl never. Arguments P_comp : simpl never. Arguments P_comp_loop : simpl never. Arguments P_value : simpl never. Arguments P_bare : simpl never. Arguments P_operand : simpl never.

Section Proofs.
Context {A B V : Type} (w : world A B V).
Notation toks := (list (tok A B)).
Notation log := (list (event A B)).
Notation res := (@res A B).
Notation expr := (@expr A B).

Definition level (t : tok A B) : nat :=
  match t with TCmp _ => 1 | TAnd => 2 | TOr => 3 | TQuestion => 4 | TColon => 5 | TComma => 6 | TRparen => 7 | _ => 0 end.
Definition stop (k : nat) (rest : toks) : Prop := match rest with t :: _ => k <= level t | [] => False end.
Definition colon (rest : toks) : Prop := match rest with TColon :: _ => True | _ => False end.
Lemma stop_le k k' rest : stop k rest -> k' <= k -> stop k' rest.
Proof. destruct rest; cbn; auto; lia. Qed.

Definition out {X} (m : meaning X) (rest : toks) : res X := match m with (Some v, l) => Ok v l rest | (None, l) => Fail l end.
Lemma out_bind {X Y} (m : meaning X) (k : X -> meaning Y) (f : X -> toks -> res Y) rest : (forall v, f v rest = out (k v) rest) -> andthen (out m rest) f = out (bind m k) rest.
Proof.
  intros H. destruct m as [[v|] l]; [|reflexivity]. cbn. rewrite H. destruct (k v) as [[v'|] l']; reflexivity.
Qed.
Lemma out_then {X Y} (m : meaning X) (f g : X -> toks -> res Y) rest : (forall v, f v rest = g v rest) -> andthen (out m rest) f = andthen (out m rest) g.
Proof. intros H. destruct m as [[v|] l]; [|reflexivity]. cbn. rewrite H. reflexivity. Qed.
Lemma then_ok {X} (r : res X) (f : X -> toks -> res X) : (forall v ts, f v ts = Ok v [] ts) -> andthen r f = r.
Proof. intros H. destruct r as [v l ts|l|]; try reflexivity. cbn. rewrite H, app_nil_r. reflexivity. Qed.
Lemma ok_then {X Y} (v : X) ts (f : X -> toks -> res Y) : andthen (Ok v [] ts) f = f v ts.
Proof. cbn. destruct (f v ts); reflexivity. Qed.
Lemma need_out {X} (o : option X) ts : need o ts = out (ret o) ts.
Proof. destruct o; reflexivity. Qed.

(* Loops that do not continue. *)
Lemma comp_loop_stop pp v rest : stop 2 rest -> P_comp_loop w pp v rest = Ok v [] rest.
Proof. intros H. rewrite P_comp_loop_unfold. destruct rest as [|[] rest]; try reflexivity. cbn in H. lia. Qed.
Lemma and_loop_stop pp v rest : stop 3 rest -> P_and_loop w pp v rest = Ok v [] rest.
Proof. intros H. rewrite P_and_loop_unfold. destruct rest as [|[] rest]; try reflexivity. cbn in H. lia. Qed.
Lemma or_loop_stop pp v rest : stop 4 rest -> P_or_loop w pp v rest = Ok v [] rest.
Proof. intros H. rewrite P_or_loop_unfold. destruct rest as [|[] rest]; try reflexivity. cbn in H. lia. Qed.
Lemma comma_loop_stop pp v rest : stop 7 rest -> P_comma_loop w pp v rest = Ok v [] rest.
Proof. intros H. rewrite P_comma_loop_unfold. destruct rest as [|[] rest]; try reflexivity. cbn in H. lia. Qed.
(* Once skipping, it makes no difference whether it is known. *)
Lemma and_loop_skip v ts : to_bool w v = Some false -> P_and_loop w false v ts = P_and_loop w true v ts.
Proof. intros H. rewrite !P_and_loop_unfold. destruct ts as [|[] ts]; try reflexivity. rewrite H. reflexivity. Qed.
Lemma or_loop_skip v ts : to_bool w v = Some true -> P_or_loop w false v ts = P_or_loop w true v ts.
Proof. intros H. rewrite !P_or_loop_unfold. destruct ts as [|[] ts]; try reflexivity. rewrite H. reflexivity. Qed.

Definition o_operand (ts : toks) (e : expr) : Prop :=
  (exists t ts', ts = t :: ts' /\ match t with TVal _ | TLparen => True | _ => False end) /\
  forall rest, P_operand w false (ts ++ rest) = out (eval w e) rest /\ exists v, P_operand w true (ts ++ rest) = Ok v [] rest.
Definition no_attr (ts : toks) : Prop := match ts with TAttr _ :: _ => False | _ => True end.
Definition o_bare (ts : toks) (e : expr) : Prop :=
  forall rest, stop 1 rest -> no_attr (ts ++ rest) /\ P_bare w false (ts ++ rest) = out (eval w e) rest /\ exists v, P_bare w true (ts ++ rest) = Ok v [] rest.
Definition o_value (ts : toks) (e : expr) : Prop :=
  forall f rest, stop 1 rest -> (f = true -> ~ colon rest) -> P_value w f false (ts ++ rest) = out (eval w e) rest /\ exists v, P_value w f true (ts ++ rest) = Ok v [] rest.
Definition o_comp (ts : toks) (e : expr) : Prop :=
  forall f rest, stop 1 rest -> (f = true -> ~ colon rest) ->
    P_comp w f false (ts ++ rest) = andthen (out (eval w e) rest) (fun v ts => P_comp_loop w false v ts) /\ exists v, P_comp w f true (ts ++ rest) = P_comp_loop w true v rest.
Definition o_and (ts : toks) (e : expr) : Prop :=
  forall f rest, stop 2 rest -> (f = true -> ~ colon rest) ->
    P_and w f false (ts ++ rest) = andthen (out (eval w e) rest) (fun v ts => P_and_loop w false v ts) /\ exists v, P_and w f true (ts ++ rest) = P_and_loop w true v rest.
Definition o_or (ts : toks) (e : expr) : Prop :=
  forall f rest, stop 3 rest -> (f = true -> ~ colon rest) ->
    P_or w f false (ts ++ rest) = andthen (out (eval w e) rest) (fun v ts => P_or_loop w false v ts) /\ exists v, P_or w f true (ts ++ rest) = P_or_loop w true v rest.
Definition o_ternary (ts : toks) (e : expr) : Prop :=
  forall f rest, stop 5 rest -> (f = true -> ~ colon rest) -> P_ternary w f false (ts ++ rest) = out (eval w e) rest /\ exists v, P_ternary w f true (ts ++ rest) = Ok v [] rest.
Definition o_list (ts : toks) (es : exprs) : Prop :=
  forall rest, stop 6 rest ->
    P_comma w false (ts ++ rest) = andthen (out (eval_list w es) rest) (fun vs ts => P_comma_loop w false vs ts) /\ exists vs, P_comma w true (ts ++ rest) = P_comma_loop w true vs rest.
Definition o_context (ts : toks) (c : context) : Prop :=
  forall rest, P_eval w false (ts ++ TRparen :: rest) = out (eval_ctx w c) (TRparen :: rest) /\ exists vs, P_eval w true (ts ++ TRparen :: rest) = Ok vs [] (TRparen :: rest).

Lemma app_app {X} (x : list X) a y z : (x ++ a :: y) ++ z = x ++ a :: y ++ z.
Proof. rewrite <- app_assoc. reflexivity. Qed.

Lemma value_case f pp ts v : no_attr ts -> (f = true -> ~ colon (match v with Ok _ _ r => r | _ => [] end)) -> P_bare w pp ts = v -> P_value w f pp ts = v.
Proof.
  intros Ha Hf Hb. rewrite P_value_unfold.
  replace (match ts with TAttr c :: ts0 => Ok (Some c) (if pp then [] else [EAttr c]) ts0 | _ => Ok None [] ts end) with (Ok (A := A) (B := B) (@None B) [] ts) by (destruct ts as [|[] ?]; try reflexivity; contradiction).
  rewrite ok_then, Hb. destruct v as [v l r|l|]; try reflexivity. cbn. destruct f; [specialize (Hf eq_refl)|destruct pp; rewrite app_nil_r; reflexivity].
  destruct r as [|[] r]; try (destruct pp; cbn; rewrite app_nil_r; reflexivity). contradiction Hf. exact I.
Qed.
Lemma attr_case f pp c ts v : (f = true -> ~ colon (match v with Ok _ _ r => r | _ => [] end)) -> P_bare w pp ts = v ->
  P_value w f pp (TAttr c :: ts) = andthen (Ok tt (if pp then [] else [EAttr c]) ts) (fun _ _ => andthen v (fun x r => if pp then Ok x [] r else need (attr w c x) r)).
Proof.
  intros Hf Hb. rewrite P_value_unfold. cbn [andthen]. rewrite Hb. destruct v as [v l r|l|]; try reflexivity. cbn [andthen]. destruct f; [specialize (Hf eq_refl)|reflexivity].
  destruct r as [|[] r]; try reflexivity. contradiction Hf. exact I.
Qed.

Definition nr (ts : toks) : Prop := match ts with TRparen :: _ => False | _ => True end.
Lemma nr_app ts1 t ts2 : nr ts1 -> nr [t] -> nr (ts1 ++ t :: ts2).
Proof. destruct ts1 as [|[] ?]; cbn; auto. Qed.
Lemma starts : (forall ts e, is_operand ts e -> nr ts) /\ (forall ts e, is_bare ts e -> nr ts) /\ (forall ts e, is_value ts e -> nr ts) /\ (forall ts e, is_comp ts e -> nr ts) /\ (forall ts e, is_and ts e -> nr ts) /\ (forall ts e, is_or ts e -> nr ts) /\ (forall ts e, is_ternary ts e -> nr ts) /\ (forall ts (es : @exprs A B), is_list ts es -> nr ts) /\ (forall ts (c : @context A B), is_context ts c -> True).
Proof. apply (syntax_ind A B (fun ts _ => nr ts) (fun ts _ => nr ts) (fun ts _ => nr ts) (fun ts _ => nr ts) (fun ts _ => nr ts) (fun ts _ => nr ts) (fun ts _ => nr ts) (fun ts _ => nr ts) (fun _ _ => True)); intros; try exact I; try (apply nr_app; [assumption|exact I]); try assumption. Qed.

Ltac lg := cbn; repeat first [rewrite app_nil_r | rewrite <- app_assoc | progress (cbn [app])]; reflexivity.
Lemma complete : (forall ts e, is_operand ts e -> o_operand ts e) /\ (forall ts e, is_bare ts e -> o_bare ts e) /\ (forall ts e, is_value ts e -> o_value ts e) /\
  (forall ts e, is_comp ts e -> o_comp ts e) /\ (forall ts e, is_and ts e -> o_and ts e) /\ (forall ts e, is_or ts e -> o_or ts e) /\
  (forall ts e, is_ternary ts e -> o_ternary ts e) /\ (forall ts es, is_list ts es -> o_list ts es) /\ (forall ts c, is_context ts c -> o_context ts c).
Proof.
  apply syntax_ind.
  - (* TVal *)
    intros a. split; [exists (TVal a), []; split; [reflexivity|exact I]|]. intros rest. cbn [app]. rewrite !P_operand_unfold. cbn [eval]. split; [destruct (value_of w a); reflexivity|exists (empty w); reflexivity].
  - (* ( context ) *)
    intros ts c _ IH. split; [exists TLparen, (ts ++ [TRparen]); split; [reflexivity|exact I]|]. intros rest. cbn [app]. rewrite !P_operand_unfold, <- !app_assoc. cbn [app]. destruct (IH rest) as [H1 [vs H2]]. rewrite H1, H2. split.
    + change (eval w (Nested c)) with (bind (eval_ctx w c) (fun vs => match vs with [] => ret (Some (empty w)) | [v] => ret (Some v) | _ => ret None end)).
      destruct (eval_ctx w c) as [[vs'|] l]; [|reflexivity]. cbn. destruct vs' as [|v [|]]; reflexivity.
    + exists (empty w). rewrite ok_then. reflexivity.
  - (* nothing *)
    intros rest Hs. cbn [app]. split; [destruct rest as [|[] ?]; try exact I; cbn in Hs; lia|]. rewrite !P_bare_unfold. destruct rest as [|[] ?]; try contradiction; cbn in Hs; try lia; (split; [reflexivity|exists (empty w); reflexivity]).
  - (* operand *)
    intros ts e _ [[t [ts' [-> Ht]]] IH] rest Hs. destruct (IH rest) as [H1 [v H2]]. split; [cbn; destruct t; try exact I; contradiction|]. rewrite !P_bare_unfold. cbn [app] in *. destruct t; try contradiction; cbn [no_value]; (split; [exact H1|exists v; exact H2]).
  - (* ! *)
    intros ts e _ IH rest Hs. split; [exact I|]. rewrite !P_bare_unfold. cbn [app]. destruct (IH false rest Hs ltac:(discriminate)) as [H1 [v H2]]. rewrite H1, H2. split.
    + cbn [eval]. destruct (eval w e) as [[v'|] l]; [|reflexivity]. cbn. unfold bool_of, ret. destruct (to_bool w v'); cbn; rewrite ?app_nil_r; reflexivity.
    + exists v. rewrite ok_then. reflexivity.
  - (* bare *)
    intros ts e _ IH f rest Hs Hf. destruct (IH rest Hs) as [Ha [H1 [v H2]]]. split.
    + apply value_case; [exact Ha| |exact H1]. destruct (eval w e) as [[v'|] l]; [exact Hf|]. intros _ [].
    + exists v. apply value_case; [exact Ha|exact Hf|exact H2].
  - (* attributes *)
    intros c ts e _ IH f rest Hs Hf. destruct (IH rest Hs) as [Ha [H1 [v H2]]]. cbn [app]. split.
    + assert (f = true -> ~ colon (match out (eval w e) rest with Ok _ _ r => r | _ => [] end)) as Hf' by (destruct (eval w e) as [[v'|] l]; [exact Hf|intros _ []]).
      rewrite (attr_case f false c _ _ Hf' H1). cbn [eval]. destruct (eval w e) as [[v'|] l]; [|reflexivity]. cbn. destruct (attr w c v'); reflexivity.
    + exists v. rewrite (attr_case f true c _ (Ok v [] rest) Hf H2). reflexivity.
  - (* comp *)
    intros ts e _ IH f rest Hs Hf. destruct (IH f rest Hs Hf) as [H1 [v H2]]. rewrite !P_comp_unfold. rewrite H1, H2. split; [reflexivity|]. exists v. (rewrite ok_then; reflexivity).
  - intros o ts1 e1 ts2 e2 _ IH1 _ IH2 f rest Hs Hf. rewrite app_app. destruct (IH1 f (TCmp o :: ts2 ++ rest)) as [H1 [v1 H2]]; [cbn; lia|intros _ []|]. rewrite H1, H2. destruct (IH2 false rest Hs ltac:(discriminate)) as [H3 [v2 H4]]. split.
    + cbn [eval]. destruct (eval w e1) as [[v'|] l]; [|reflexivity]. cbn [out andthen bind]. rewrite P_comp_loop_unfold, H3. destruct (eval w e2) as [[v2'|] l2]; [|reflexivity]. cbn [out andthen bind fst snd].
      destruct (cmp w o v' v2') as [x|]; cbn; [|rewrite !app_nil_r; reflexivity]. destruct (P_comp_loop w false (of_bool w x) rest); lg.
    + exists v1. rewrite P_comp_loop_unfold, H4. (rewrite ok_then; reflexivity).
  - (* and *)
    intros ts e _ IH f rest Hs Hf. destruct (IH f rest (stop_le _ 1 _ Hs ltac:(lia)) Hf) as [H1 [v H2]]. rewrite !P_and_unfold. rewrite H1, H2, comp_loop_stop by exact Hs. split; [|exists v; (rewrite ok_then; reflexivity)].
    rewrite andthen_assoc. apply out_then. intros v'. rewrite comp_loop_stop by exact Hs. (rewrite ok_then; reflexivity).
  - intros ts1 e1 ts2 e2 _ IH1 _ IH2 f rest Hs Hf. rewrite app_app. destruct (IH1 f (TAnd :: ts2 ++ rest)) as [H1 [v1 H2]]; [cbn; lia|intros _ []|]. rewrite H1, H2. destruct (IH2 false rest (stop_le _ 1 _ Hs ltac:(lia)) ltac:(discriminate)) as [H3 [v2 H4]].
    rewrite comp_loop_stop in H4 by exact Hs. split.
    + cbn [eval]. destruct (eval w e1) as [[v'|] l]; [|reflexivity]. cbn [out andthen bind]. rewrite P_and_loop_unfold. unfold bool_of, ret, val_of, ret. destruct (to_bool w v') as [[]|] eqn:Eb; cbn [need andthen negb andb]; [| |cbn; rewrite app_nil_r; reflexivity].
      * rewrite H3. destruct (eval w e2) as [[v2'|] l2]; [|reflexivity]. cbn [out andthen bind fst snd]. rewrite comp_loop_stop by exact Hs. cbn [andthen]. destruct (to_bool w v2') as [x|]; cbn; [|rewrite !app_nil_r; reflexivity]. destruct (P_and_loop w false (of_bool w x) rest); lg.
      * rewrite H4. rewrite ok_then. cbn. rewrite (and_loop_skip _ _ Eb). rewrite !app_nil_r. destruct (P_and_loop w true v' rest); reflexivity.
    + exists v1. rewrite P_and_loop_unfold. cbn [need]. rewrite ok_then. cbn [negb andb]. rewrite H4. (rewrite ok_then; reflexivity).
  - (* or *)
    intros ts e _ IH f rest Hs Hf. destruct (IH f rest (stop_le _ 2 _ Hs ltac:(lia)) Hf) as [H1 [v H2]]. rewrite !P_or_unfold. rewrite H1, H2, and_loop_stop by exact Hs. split; [|exists v; (rewrite ok_then; reflexivity)].
    rewrite andthen_assoc. apply out_then. intros v'. rewrite and_loop_stop by exact Hs. (rewrite ok_then; reflexivity).
  - intros ts1 e1 ts2 e2 _ IH1 _ IH2 f rest Hs Hf. rewrite app_app. destruct (IH1 f (TOr :: ts2 ++ rest)) as [H1 [v1 H2]]; [cbn; lia|intros _ []|]. rewrite H1, H2. destruct (IH2 false rest (stop_le _ 2 _ Hs ltac:(lia)) ltac:(discriminate)) as [H3 [v2 H4]].
    rewrite and_loop_stop in H4 by exact Hs. split.
    + cbn [eval]. destruct (eval w e1) as [[v'|] l]; [|reflexivity]. cbn [out andthen bind]. rewrite P_or_loop_unfold. unfold bool_of, ret, val_of, ret. destruct (to_bool w v') as [[]|] eqn:Eb; cbn [need andthen negb andb]; [| |cbn; rewrite app_nil_r; reflexivity].
      * rewrite H4. rewrite ok_then. cbn. rewrite (or_loop_skip _ _ Eb). rewrite !app_nil_r. destruct (P_or_loop w true v' rest); reflexivity.
      * rewrite H3. destruct (eval w e2) as [[v2'|] l2]; [|reflexivity]. cbn [out andthen bind fst snd]. rewrite and_loop_stop by exact Hs. cbn [andthen]. destruct (to_bool w v2') as [x|]; cbn; [|rewrite !app_nil_r; reflexivity]. destruct (P_or_loop w false (of_bool w x) rest); lg.
    + exists v1. rewrite P_or_loop_unfold. cbn [need]. rewrite ok_then. cbn [negb andb]. rewrite H4. (rewrite ok_then; reflexivity).
  - (* ternary *)
    intros ts e _ IH f rest Hs Hf. destruct (IH f rest (stop_le _ 3 _ Hs ltac:(lia)) Hf) as [H1 [v H2]]. rewrite !P_ternary_unfold. rewrite H1, H2, or_loop_stop by (apply (stop_le 5 4 _ Hs); lia).
    assert (forall v : V, match rest with TQuestion :: ts0 => Stuck | _ => Ok v [] rest end = Ok v [] rest) as _ by (intros; destruct rest as [|[] ?]; try reflexivity; cbn in Hs; lia).
    split.
    + rewrite andthen_assoc. destruct (eval w e) as [[v'|] l]; [|reflexivity]. cbn [out andthen]. rewrite or_loop_stop by (apply (stop_le 5 4 _ Hs); lia). rewrite ok_then.
      destruct rest as [|[] ?]; try contradiction; cbn in Hs; try lia; cbn; rewrite app_nil_r; reflexivity.
    + exists v. rewrite ok_then. destruct rest as [|[] ?]; try reflexivity. cbn in Hs. lia.
  - intros ts1 e1 ts2 e2 ts3 e3 _ IH1 _ IH2 _ IH3 f rest Hs Hf. rewrite app_app, app_app. destruct (IH1 f (TQuestion :: ts2 ++ TColon :: ts3 ++ rest)) as [H1 [v1 H2]]; [cbn; lia|intros _ []|].
    destruct (IH2 false (TColon :: ts3 ++ rest)) as [H3 [v2 H4]]; [cbn; lia|discriminate|]. destruct (IH3 false rest Hs ltac:(discriminate)) as [H5 [v3 H6]].
    rewrite !P_ternary_unfold. rewrite H1, H2, or_loop_stop by (cbn; lia). split.
    + rewrite andthen_assoc. cbn [eval]. destruct (eval w e1) as [[v'|] l]; [|reflexivity]. cbn [out andthen bind]. rewrite or_loop_stop by (cbn; lia). rewrite ok_then. unfold bool_of, ret.
      destruct (to_bool w v') as [[]|]; cbn [need]; [| |cbn; rewrite app_nil_r; reflexivity]; rewrite ok_then; cbn [negb fst snd bind].
      * rewrite H3. destruct (eval w e2) as [[v2'|] l2]; cbn [out andthen]; [|cbn; rewrite app_nil_r; reflexivity]. rewrite H6, ok_then. cbn. rewrite !app_nil_r. reflexivity.
      * rewrite H4, ok_then, H5. destruct (eval w e3) as [[v3'|] l3]; cbn; rewrite !app_nil_r; reflexivity.
    + exists v2. rewrite ok_then. cbn [need]. rewrite ok_then, H4, ok_then, H6. (rewrite ok_then; reflexivity).
  - (* list *)
    intros ts e _ IH rest Hs. destruct (IH true rest (stop_le _ 5 _ Hs ltac:(lia))) as [H1 [v H2]]; [intros _; destruct rest as [|[] ?]; cbn; auto; cbn in Hs; lia|]. rewrite !P_comma_unfold. rewrite H1, H2. split.
    + change (eval_list w (One e)) with (bind (eval w e) (fun v => ret (Some [v]))). destruct (eval w e) as [[v'|] l]; [|reflexivity]. cbn. rewrite app_nil_r. reflexivity.
    + exists []. (rewrite ok_then; reflexivity).
  - intros ts1 es ts2 e _ IH1 _ IH2 rest Hs. rewrite app_app. destruct (IH1 (TComma :: ts2 ++ rest)) as [H1 [v1 H2]]; [cbn; lia|]. rewrite H1, H2. destruct (IH2 false rest (stop_le _ 5 _ Hs ltac:(lia)) ltac:(discriminate)) as [H3 [v2 H4]]. split.
    + change (eval_list w (More es e)) with (bind (eval_list w es) (fun vs => bind (eval w e) (fun v => ret (Some (vs ++ [v]))))). destruct (eval_list w es) as [[vs|] l]; [|reflexivity]. cbn [out andthen bind]. rewrite P_comma_loop_unfold, H3.
      destruct (eval w e) as [[v'|] l2]; [|reflexivity]. cbn. destruct (P_comma_loop w false (vs ++ [v']) rest); lg.
    + exists v1. rewrite P_comma_loop_unfold, H4. (rewrite ok_then; reflexivity).
  - (* context *)
    intros rest. cbn [app]. rewrite !P_eval_unfold. split; [reflexivity|]. exists []. reflexivity.
  - intros ts es Hl IH Hne rest.
    assert (forall pp, P_eval w pp (ts ++ TRparen :: rest) = andthen (P_comma w pp (ts ++ TRparen :: rest)) (fun vs ts => match ts with TRparen :: _ => Ok vs [] ts | _ => Fail [] end)) as Hu.
    { intros pp. rewrite P_eval_unfold. destruct starts as (_ & _ & _ & _ & _ & _ & _ & S & _). specialize (S ts es Hl). destruct ts as [|[] ts]; try reflexivity; contradiction. }
    rewrite !Hu. destruct (IH (TRparen :: rest)) as [H1 [vs H2]]; [cbn; lia|]. rewrite H1, H2. split.
    + rewrite andthen_assoc. change (eval_ctx w (Values es)) with (eval_list w es). destruct (eval_list w es) as [[vs'|] l]; [|reflexivity]. cbn [out andthen]. rewrite comma_loop_stop by (cbn; lia). rewrite ok_then. cbn. rewrite app_nil_r. reflexivity.
    + exists vs. rewrite comma_loop_stop by (cbn; lia). (rewrite ok_then; reflexivity).
  - (* qualified *)
    intros ts1 e1 ts2 e2 Hb IH1 _ [_ IH2] rest. rewrite app_app. destruct (IH1 (TColon :: ts2 ++ TRparen :: rest)) as [Ha [H1 [v1 H2]]]; [cbn; lia|]. destruct (IH2 (TRparen :: rest)) as [H3 [v2 H4]].
    set (all := ts1 ++ TColon :: ts2 ++ TRparen :: rest) in *.
    assert (Hu : forall pp r, P_value w true pp all = r -> (match r with Ok _ _ ts => ts = TRparen :: rest | _ => True end) ->
      P_eval w pp all = andthen r (fun v ts => Ok (if pp then [] else [v]) [] ts)).
    { intros pp r Hr Hok.
      assert (P_eval w pp all = andthen (P_comma w pp all) (fun vs ts => match ts with TRparen :: _ => Ok vs [] ts | _ => Fail [] end)) as ->.
      { rewrite P_eval_unfold. destruct starts as (_ & S & _). specialize (S ts1 e1 Hb). unfold all. destruct ts1 as [|[] ts1]; try reflexivity; contradiction. }
      rewrite P_comma_unfold, P_ternary_unfold, P_or_unfold, P_and_unfold, P_comp_unfold, Hr. destruct r as [v l ts|l|]; try reflexivity. subst ts.
      rewrite !andthen_assoc. cbn [andthen]. rewrite comp_loop_stop by (cbn; lia). rewrite !ok_then, and_loop_stop by (cbn; lia). rewrite !ok_then, or_loop_stop by (cbn; lia). rewrite !ok_then, comma_loop_stop by (cbn; lia). cbn. rewrite !app_nil_r. reflexivity. }
    assert (Hv : forall pp, P_value w true pp all = andthen (P_bare w pp all) (fun v ts =>
      match ts with
      | TColon :: ts => andthen (P_operand w pp ts) (fun name ts => match ts with TRparen :: _ => if pp then Ok v [] ts else need (qual w v name) ts | _ => Fail [] end)
      | _ => Ok v [] ts
      end)).
    { intros pp. rewrite P_value_unfold.
      replace (match all with TAttr c :: ts0 => Ok (Some c) (if pp then [] else [EAttr c]) ts0 | _ => Ok None [] all end) with (Ok (A := A) (B := B) (@None B) [] all) by (destruct all as [|[] ?]; try reflexivity; contradiction).
      rewrite ok_then. destruct (P_bare w pp all) as [v l ts|l|]; try reflexivity. cbn. destruct ts as [|[] ts]; try reflexivity; destruct pp; reflexivity. }
    split.
    + rewrite (Hu false _ eq_refl).
      * rewrite Hv, H1. change (eval_ctx w (Qualified e1 e2)) with (bind (eval w e1) (fun v1 => bind (eval w e2) (fun v2 => bind (ret (qual w v1 v2)) (fun v => ret (Some [v]))))).
        destruct (eval w e1) as [[u1|] l1]; [|reflexivity]. cbn [out andthen bind]. rewrite H3. destruct (eval w e2) as [[u2|] l2]; [|reflexivity]. cbn. destruct (qual w u1 u2); cbn; rewrite ?app_nil_r; reflexivity.
      * rewrite Hv, H1. destruct (eval w e1) as [[u1|] l1]; [|exact I]. cbn [out andthen bind]. rewrite H3. destruct (eval w e2) as [[u2|] l2]; [|exact I]. cbn. destruct (qual w u1 u2); cbn; exact I || reflexivity.
    + exists []. assert (P_value w true true all = Ok v1 [] (TRparen :: rest)) as Hv1 by (rewrite Hv, H2, ok_then, H4, ok_then; reflexivity). rewrite (Hu true _ Hv1 eq_refl). (rewrite ok_then; reflexivity).
Qed.
End Proofs.
