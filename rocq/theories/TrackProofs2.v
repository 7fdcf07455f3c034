(* What is collected is all that is used, and so executions are the same. *)
From Verif Require Import Base NameModel FlowModel TrackModel TrackSpec TrackProofs.

(* Execution only depends on what the environment does for its lines. *)
Section Ext.
Context {St Val : Type} (e1 e2 : environment St Val) (thr : bool).
Definition agree (id : nat) : Prop :=
  (forall ii li sg st, e_cmd e1 id ii li sg st = e_cmd e2 id ii li sg st) /\
  (forall ii li st, e_cond e1 id ii li st = e_cond e2 id ii li st) /\
  (forall st, e_null e1 id st = e_null e2 id st) /\ (forall st, e_empty e1 id st = e_empty e2 id st) /\
  (forall st, e_values e1 id st = e_values e2 id st) /\ (forall v st, e_for e1 id v st = e_for e2 id v st) /\
  (forall ii li st, e_stream e1 id ii li st = e_stream e2 id ii li st) /\ (forall st, e_stream_end e1 id st = e_stream_end e2 id st).
Definition agree_line (l : line) : Prop :=
  (fst l = LVar -> forall st, e_set e1 (snd l) st = e_set e2 (snd l) st) /\ (has_exp (fst l) = true -> agree (snd l)).
Definition agree_task (t : @task Val) : Prop :=
  match t with
  | TLines ls _ => Forall agree_line ls
  | TWhile _ _ id ls => agree id /\ Forall agree_line ls
  | TFor _ id _ _ _ ls _ _ => agree id /\ Forall agree_line ls
  end.
Lemma fcend_forall (P : line -> Prop) e ls : forall n p x q k, fcend e n ls = Some (p, x, q, k) -> Forall P ls -> Forall P p /\ P x /\ Forall P q.
Proof.
  induction ls as [|l ls IH]; intros n p x q k; cbn; [discriminate|]. intros E F. inversion F as [|? ? L F']; subst. set (n' := if starts (fst l) then S n else n) in *.
  destruct ((n' =? 0) && stops e (fst l)); [injection E as <- <- <- <-; split; [constructor | split; assumption]|].
  destruct (fcend e _ ls) as [[[[p' x'] q'] k']|] eqn:G; [|discriminate]. injection E as <- <- <- <-. destruct (IH _ _ _ _ _ G F') as (A & B & C). split; [constructor; assumption | split; assumption].
Qed.
Lemma exec_ext steps : forall ii t st, agree_task t -> exec e1 thr steps ii t st = exec e2 thr steps ii t st.
Proof.
  induction steps as [|n IH]; intros ii t st A; [reflexivity|]. destruct t as [[|[t id] ls] li|wi wli id ls|stream id fi fli vs ls li found]; cbn [exec]; cbn [agree_task] in A.
  - reflexivity.
  - inversion A as [|? ? [AS AE] F]; subst. cbn [fst snd] in *.
    assert (BR : forall st li r,
      match r with
      | Fails => Some (Failed st)
      | Exits c => Some (leave thr c st)
      | Ok true =>
          match fcend false 0 ls with
          | None => Some Assert
          | Some (body, l, rest, _) =>
              match exec e1 thr n ii (TLines body li) st with
              | Some (Done li st) =>
                  if is_end (fst l) then exec e1 thr n ii (TLines rest li) st
                  else match fcend true 0 rest with
                       | None => Some Assert
                       | Some (_, _, rest, k) => exec e1 thr n ii (TLines rest (li + k)) st
                       end
              | r => r
              end
          end
      | Ok false =>
          match fcend false 0 ls with
          | None => Some Assert
          | Some (_, l, rest, k) => exec e1 thr n ii (TLines (if is_end (fst l) then rest else l :: rest) (li + k)) st
          end
      end =
      match r with
      | Fails => Some (Failed st)
      | Exits c => Some (leave thr c st)
      | Ok true =>
          match fcend false 0 ls with
          | None => Some Assert
          | Some (body, l, rest, _) =>
              match exec e2 thr n ii (TLines body li) st with
              | Some (Done li st) =>
                  if is_end (fst l) then exec e2 thr n ii (TLines rest li) st
                  else match fcend true 0 rest with
                       | None => Some Assert
                       | Some (_, _, rest, k) => exec e2 thr n ii (TLines rest (li + k)) st
                       end
              | r => r
              end
          end
      | Ok false =>
          match fcend false 0 ls with
          | None => Some Assert
          | Some (_, l, rest, k) => exec e2 thr n ii (TLines (if is_end (fst l) then rest else l :: rest) (li + k)) st
          end
      end).
    { intros s k [[|]|c|]; try reflexivity; destruct (fcend false 0 ls) as [[[[p x] q] j]|] eqn:G; try reflexivity; destruct (fcend_forall _ _ _ _ _ _ _ _ G F) as (FP & FX & FQ).
      - rewrite (IH ii (TLines p k) s FP). destruct (exec e2 thr n ii (TLines p k) s) as [[li' s'|c s'|br s'|s'|]|]; try reflexivity. destruct (is_end (fst x)); [apply IH; exact FQ|].
        destruct (fcend true 0 q) as [[[[p' x'] q'] j']|] eqn:G'; [|reflexivity]. apply IH. apply (fcend_forall _ _ _ _ _ _ _ _ G' FQ).
      - apply IH. cbn. destruct (is_end (fst x)); [exact FQ | constructor; assumption]. }
    destruct t as [| |k neg|k neg| | | | | | |]; cbn [has_exp] in AE.
    + rewrite (AS eq_refl). destruct (e_set e2 id st) as [s ok]. destruct ok; [apply IH; exact F | reflexivity].
    + destruct (AE eq_refl) as (AC & _). rewrite AC. destruct (e_cmd e2 id ii li _ st) as [s r]. destruct r; try reflexivity. apply IH. exact F.
    + destruct (AE eq_refl) as (_ & AC & AN & AM & _).
      replace (test e1 k neg id ii li st) with (test e2 k neg id ii li st) by (unfold test; destruct k; rewrite ?AC, ?AN, ?AM; reflexivity). destruct (test e2 k neg id ii li st) as [[s j] r]. apply BR.
    + destruct (AE eq_refl) as (_ & AC & AN & AM & _).
      replace (test e1 k neg id ii li st) with (test e2 k neg id ii li st) by (unfold test; destruct k; rewrite ?AC, ?AN, ?AM; reflexivity). destruct (test e2 k neg id ii li st) as [[s j] r]. apply BR.
    + apply (BR st li (Ok true)).
    + apply IH. split; [apply AE; reflexivity | exact F].
    + pose proof (AE eq_refl) as (_ & _ & _ & _ & _ & _ & AC & _). rewrite AC. destruct (e_stream e2 id ii li st) as [s [vs|]]; [|reflexivity]. apply IH. split; [apply AE; reflexivity | exact F].
    + pose proof (AE eq_refl) as (_ & _ & _ & _ & AC & _). rewrite AC. destruct (e_values e2 id st) as [s [vs|]]; [|reflexivity]. apply IH. split; [apply AE; reflexivity | exact F].
    + reflexivity.
    + reflexivity.
    + reflexivity.
  - destruct A as [A F]. pose proof A as (_ & AC & _). rewrite AC. destruct (e_cond e2 id (wi :: ii) wli st) as [s r]. destruct (fcend true 0 ls) as [[[[p x] q] j]|] eqn:G; [|reflexivity].
    destruct (fcend_forall _ _ _ _ _ _ _ _ G F) as (FP & FX & FQ). destruct r as [[|]|c|]; try reflexivity; [|apply IH; exact FQ].
    rewrite (IH (wi :: ii) (TLines p (S wli)) s FP). destruct (exec e2 thr n (wi :: ii) (TLines p (S wli)) s) as [[li' s'|c s'|[|] s'|s'|]|]; try reflexivity; apply IH; cbn; auto.
  - destruct A as [A F]. pose proof A as (_ & _ & _ & _ & _ & AF & _ & AE). destruct (fcend true 0 ls) as [[[[p x] q] j]|] eqn:G; [|reflexivity].
    destruct (fcend_forall _ _ _ _ _ _ _ _ G F) as (FP & FX & FQ). destruct vs as [|v vs].
    + destruct stream; [|apply IH; exact FQ]. rewrite AE. destruct (e_stream_end e2 id st) as [s [|]]; [apply IH; exact FQ | reflexivity].
    + rewrite AF. destruct (e_for e2 id v st) as [s [|]]; [|reflexivity].
      rewrite (IH (fi :: ii) (TLines p fli) s FP). destruct (exec e2 thr n (fi :: ii) (TLines p fli) s) as [[li' s'|c s'|[|] s'|s'|]|]; try reflexivity; try (apply IH; cbn; auto).
      destruct stream; [rewrite AE; destruct (e_stream_end e2 id s') as [? [|]]; reflexivity | reflexivity].
Qed.
End Ext.

Section Collect.
Context (fs : functions) (codes : nat -> code).

(* An expression only uses these variables. *)
Fixpoint covered (vars : list bytes) (e : exp) : Prop :=
  match e with
  | Lit _ => True
  | Var x => special x = true \/ In x vars
  | Computed _ | CallComputed _ _ => False
  | Call f a => f_find fs f <> Some false /\ covered vars a
  | Cond c a d => covered vars c /\ covered vars a /\ covered vars d
  | Or a d | And a d | Op _ a d => covered vars a /\ covered vars d
  end.
Lemma covered_mono vars vars' e : incl vars vars' -> covered vars e -> covered vars' e.
Proof. intros I. induction e; cbn; intuition. Qed.
Lemma mem_in x l : mem x l = true <-> In x l.
Proof.
  unfold mem. rewrite existsb_exists. split.
  - intros (y & I & E). apply beqb_eq in E. subst. exact I.
  - intros I. exists x. split; [exact I | apply beqb_eq; reflexivity].
Qed.

(* Flags stay set, variables are only added, the rest is unchanged. *)
Record le (p q : pre) : Prop := {
  le_impure : p_impure q = false -> p_impure p = false;
  le_computed : p_computed q = false -> p_computed p = false;
  le_vars : incl (p_vars p) (p_vars q);
  le_clear : p_clear q = p_clear p;
  le_value : p_value q = p_value p;
  le_preamble : p_preamble q = p_preamble p;
  le_body : p_body q = p_body p }.
Lemma le_refl p : le p p.
Proof. split; auto. apply incl_refl. Qed.
Lemma le_trans p q r : le p q -> le q r -> le p r.
Proof. intros [] []. split; auto; try congruence. eapply incl_tran; eassumption. Qed.
Lemma le_see_var x p : le p (see_var x p).
Proof.
  unfold see_var. destruct (special x); [apply le_refl|]. destruct (is_empty x); [split; cbn; auto; try discriminate; apply incl_refl|].
  destruct (p_clear p || mem x (p_vars p)); [apply le_refl|]. split; cbn; auto. apply incl_appl, incl_refl.
Qed.
Lemma le_see_call f p : le p (see_call fs f p).
Proof. unfold see_call. destruct (f_find fs f) as [[|]|]; try apply le_refl. split; cbn; auto; try discriminate. apply incl_refl. Qed.
Lemma le_see e : forall p, le p (see fs e p).
Proof.
  induction e; intros p; cbn; try apply le_refl; try apply le_see_var; eauto using le_trans, le_see_var, le_see_call.
  destruct (IHe p). split; cbn; auto. discriminate.
Qed.
Lemma see_covered e : forall p, p_clear p = false -> p_impure (see fs e p) = false -> p_computed (see fs e p) = false -> static_calls e -> covered (p_vars (see fs e p)) e.
Proof.
  assert (C2 : forall a d p, (forall p, p_clear p = false -> p_impure (see fs a p) = false -> p_computed (see fs a p) = false -> static_calls a -> covered (p_vars (see fs a p)) a) ->
    p_clear p = false -> p_impure (see fs d (see fs a p)) = false -> p_computed (see fs d (see fs a p)) = false -> static_calls a -> covered (p_vars (see fs d (see fs a p))) a).
  { intros a d p IH C I K SC. pose proof (le_see d (see fs a p)) as []. eapply covered_mono; [eassumption|]. apply IH; auto. }
  induction e as [v|x|e IH|f a IH|e IHe a IHa|c IHc a IHa d IHd|a IHa d IHd|a IHa d IHd|o a IHa d IHd]; intros p C I K SC; cbn in *; try contradiction; auto.
  - unfold see_var in *. destruct (special x); [left; reflexivity|]. right. destruct (is_empty x); [discriminate K|]. rewrite C in *. cbn in *.
    destruct (mem x (p_vars p)) eqn:M; [apply mem_in; exact M|]. cbn. apply in_app_iff. right. left. reflexivity.
  - discriminate K.
  - unfold see_call in *. destruct (f_find fs f) as [[|]|] eqn:F; try discriminate I; (split; [congruence | apply IH; auto]).
  - destruct SC as (S1 & S2 & S3). assert (CA : p_clear (see fs a (see fs c p)) = false) by (rewrite (le_clear _ _ (le_see a _)), (le_clear _ _ (le_see c p)); exact C).
    assert (CC : p_clear (see fs c p) = false) by (rewrite (le_clear _ _ (le_see c p)); exact C).
    split; [|split].
    + pose proof (le_see d (see fs a (see fs c p))) as []. eapply covered_mono; [eassumption|]. apply C2; auto.
    + apply C2; auto.
    + apply IHd; auto.
  - destruct SC. split; [apply C2; auto | apply IHd; auto; rewrite (le_clear _ _ (le_see a p)); exact C].
  - destruct SC. split; [apply C2; auto | apply IHd; auto; rewrite (le_clear _ _ (le_see a p)); exact C].
  - destruct SC. split; [apply C2; auto | apply IHd; auto; rewrite (le_clear _ _ (le_see a p)); exact C].
Qed.
Definition covered_line (vars : list bytes) (l : line) : Prop := has_exp (fst l) = true -> static_calls (c_exp (codes (snd l))) -> covered vars (c_exp (codes (snd l))).
Lemma le_see_line l p : le p (see_line fs codes p l).
Proof. unfold see_line. destruct (has_exp (fst l)); [apply le_see | apply le_refl]. Qed.
Lemma le_see_lines ls : forall p, le p (fold_left (see_line fs codes) ls p).
Proof. induction ls as [|l ls IH]; intros p; cbn; [apply le_refl|]. eapply le_trans; [apply le_see_line | apply IH]. Qed.
Lemma lines_mono vars vars' ls : incl vars vars' -> Forall (covered_line vars) ls -> Forall (covered_line vars') ls.
Proof. intros I. apply Forall_impl. intros l L H S. eapply covered_mono; [exact I | apply L; assumption]. Qed.
Lemma see_lines ls : forall p, p_clear p = false -> p_impure (fold_left (see_line fs codes) ls p) = false -> p_computed (fold_left (see_line fs codes) ls p) = false ->
  Forall (covered_line (p_vars (fold_left (see_line fs codes) ls p))) ls.
Proof.
  induction ls as [|l ls IH]; intros p C I K; cbn in *; [constructor|]. pose proof (le_see_lines ls (see_line fs codes p l)) as L. constructor; [|apply IH; auto; rewrite (le_clear _ _ (le_see_line l p)); exact C].
  intros E SC. eapply covered_mono; [apply (le_vars _ _ L)|]. pose proof (le_impure _ _ L I) as I'. pose proof (le_computed _ _ L K) as K'. unfold see_line in *. rewrite E in *. apply see_covered; auto.
Qed.
Definition body_covered (p : pre) : Prop := p_clear p = false -> p_impure p = false -> p_computed p = false -> Forall (covered_line (p_vars p)) (p_body p).
Lemma see_item_covered i p q : body_covered p -> see_item fs codes p i = Some q -> body_covered q.
Proof.
  intros B E. destruct i as [ls| |k e]; cbn in E.
  - injection E as <-. intros C I K. cbn in *. pose proof (le_see_lines ls p) as L. rewrite (le_clear _ _ L) in C. apply Forall_app. split; [|apply see_lines; assumption].
    rewrite (le_body _ _ L). eapply lines_mono; [apply (le_vars _ _ L)|]. apply B; [exact C | apply (le_impure _ _ L I) | apply (le_computed _ _ L K)].
  - destruct (p_clear p); [discriminate|]. destruct (p_preamble p); [|discriminate]. injection E as <-. intros C. discriminate C.
  - injection E as <-. intros _ _ _. match goal with |- context [see fs e ?r] => rewrite (le_body _ _ (le_see e r)) end. constructor.
Qed.
Lemma pre_parse_covered is p : pre_parse fs codes is = Some p -> p_clear p = false -> Forall (covered_line (p_vars p)) (p_body p).
Proof.
  unfold pre_parse. destruct (see_items fs codes is p_start) as [q|] eqn:E; [|discriminate]. destruct (p_impure q || p_computed q) eqn:F; [discriminate|]. intros [= <-] C.
  apply orb_false_iff in F. destruct F as [I K]. assert (B : body_covered q); [|apply B; assumption].
  assert (B0 : body_covered p_start) by (intros ? ? ?; constructor). revert B0 E. generalize p_start. clear I K C. induction is as [|i is IH]; intros r B E; cbn in E; [injection E as <-; exact B|].
  destruct (see_item fs codes r i) as [r'|] eqn:E'; [|discriminate]. eapply IH; [eapply see_item_covered; eassumption | exact E].
Qed.
End Collect.

Section Same.
Context (fs : functions) (sm : semantics) (codes : nat -> code) (p : pre) (w1 w2 : world).
Context (W : forall x, In x (p_vars p) \/ special x = true -> w_var w1 x = w_var w2 x).
Lemma eval_same e s : covered fs (p_vars p) e -> eval fs sm p w1 e s = eval fs sm p w2 e s.
Proof.
  induction e as [v|x|e IH|f a IH|e IHe a IHa|c IHc a IHa d IHd|a IHa d IHd|a IHa d IHd|o a IHa d IHd]; cbn; intros C; try contradiction.
  - reflexivity.
  - unfold lookup_variable, env_lookup. rewrite (W x) by tauto. reflexivity.
  - destruct C as [F C]. rewrite (IH C). destruct (eval fs sm p w2 a s); [|reflexivity]. unfold call_function. destruct (f_find fs f) as [[|]|]; congruence.
  - destruct C as (C1 & C2 & C3). rewrite (IHc C1), (IHa C2), (IHd C3). reflexivity.
  - destruct C as (C1 & C2). rewrite (IHa C1), (IHd C2). reflexivity.
  - destruct C as (C1 & C2). rewrite (IHa C1), (IHd C2). reflexivity.
  - destruct C as (C1 & C2). rewrite (IHa C1), (IHd C2). reflexivity.
Qed.
Lemma line_same l : covered_line fs codes (p_vars p) l -> line_ok codes (p_vars p) l -> agree_line (script_env fs sm codes p w1) (script_env fs sm codes p w2) l.
Proof.
  intros C [SC AP]. destruct l as [t id]. cbn in *.
  assert (EV : has_exp t = true -> forall s, eval fs sm p w1 (c_exp (codes id)) s = eval fs sm p w2 (c_exp (codes id)) s) by (intros H s; apply eval_same, C; auto).
  split; cbn.
  - intros -> s. unfold x_set. rewrite (EV eq_refl). destruct (eval fs sm p w2 _ s); [|reflexivity].
    assert (X : match c_kind (codes id) with Assign => null | _ => match fst (env_lookup w1 (c_var (codes id)) s) with Some o => o | None => null end end =
                match c_kind (codes id) with Assign => null | _ => match fst (env_lookup w2 (c_var (codes id)) s) with Some o => o | None => null end end).
    { destruct (AP eq_refl) as [->|V]; [reflexivity|]. unfold env_lookup. rewrite (W (c_var (codes id))) by tauto. reflexivity. }
    rewrite X. reflexivity.
  - intros H. specialize (EV H).
    assert (R : forall ii li s, x_run fs sm codes p w1 id ii li s = x_run fs sm codes p w2 id ii li s) by (intros ii li s; unfold x_run; rewrite EV; reflexivity).
    unfold agree. cbn. unfold x_cmd, x_cond, x_null, x_empty, x_values, x_stream. repeat split; intros; rewrite ?R, ?EV; reflexivity.
Qed.
Lemma body_same : Forall (covered_line fs codes (p_vars p)) (p_body p) -> Forall (line_ok codes (p_vars p)) (p_body p) ->
  forall steps li s, execute_body fs sm codes p w1 steps li s = execute_body fs sm codes p w2 steps li s.
Proof.
  intros C L steps li s. apply exec_ext. cbn. rewrite Forall_forall in *. intros l I. apply line_same; auto.
Qed.
End Same.
