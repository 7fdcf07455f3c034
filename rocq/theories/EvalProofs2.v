(* What is accepted is an expression and the result is its value. *)
From Verif Require Import Base EvalModel EvalSpec.

Section Proofs.
Context {A B V : Type} (w : world A B V).
Notation toks := (list (tok A B)).
Notation log := (list (event A B)).
Notation res := (@res A B).
Notation expr := (@expr A B).

Lemma andthen_ok {X Y} (r : res X) (k : X -> toks -> res Y) v l rest : andthen r k = Ok v l rest ->
  exists v1 l1 ts1 l2, r = Ok v1 l1 ts1 /\ k v1 ts1 = Ok v l2 rest /\ l = l1 ++ l2.
Proof.
  destruct r as [v1 l1 ts1|l1|]; try discriminate. cbn. destruct (k v1 ts1) as [v2 l2 ts2|l2|] eqn:E; try discriminate. intros [= -> <- ->]. exists v1, l1, ts1, l2. auto.
Qed.
Lemma need_ok {X} (o : option X) ts v l rest : (need o ts : res X) = Ok v l rest -> o = Some v /\ l = [] /\ rest = ts.
Proof. destruct o; [|discriminate]. intros [= -> <- <-]. auto. Qed.

Definition parsed (is : toks -> expr -> Prop) (pp : bool) (ts rest : toks) (v : V) (l : log) : Prop :=
  exists ts1 e, ts = ts1 ++ rest /\ is ts1 e /\ if pp then l = [] else eval w e = (Some v, l).
Definition qualified (e1 e2 : expr) : meaning V := bind (eval w e1) (fun v1 => bind (eval w e2) (fun v2 => ret (qual w v1 v2))).
Definition parsed_qual (pp : bool) (ts rest : toks) (v : V) (l : log) : Prop :=
  exists t1 e1 t2 e2 r, ts = (t1 ++ TColon :: t2) ++ rest /\ is_bare t1 e1 /\ is_operand t2 e2 /\ rest = TRparen :: r /\ if pp then l = [] else qualified e1 e2 = (Some v, l).
Definition parsed_first (is : toks -> expr -> Prop) (f pp : bool) (ts rest : toks) (v : V) (l : log) : Prop :=
  parsed is pp ts rest v l \/ (f = true /\ parsed_qual pp ts rest v l).
Definition loop_comp (pp : bool) (lhs : V) (ts rest : toks) (v : V) (l : log) : Prop :=
  forall ts0 e0 l0, is_comp ts0 e0 -> (pp = false -> eval w e0 = (Some lhs, l0)) ->
    exists ts1 e, ts = ts1 ++ rest /\ is_comp (ts0 ++ ts1) e /\ if pp then l = [] else eval w e = (Some v, l0 ++ l).
(* o: whether it was being skipped to start with; stop: what ends the evaluation. *)
Definition loop (is : toks -> expr -> Prop) (stop : bool) (pp : bool) (lhs : V) (ts rest : toks) (v : V) (l : log) : Prop :=
  forall (o : bool) ts0 e0 l0, (o = true -> pp = true) -> is ts0 e0 -> (o = false -> eval w e0 = (Some lhs, l0) /\ (pp = true -> to_bool w lhs = Some stop)) ->
    exists ts1 e, ts = ts1 ++ rest /\ is (ts0 ++ ts1) e /\ (pp = true -> l = []) /\ if o then l = [] else eval w e = (Some v, l0 ++ l).
Definition parsed_list (pp : bool) (ts rest : toks) (vs : list V) (l : log) : Prop :=
  exists ts1 es, ts = ts1 ++ rest /\ is_list ts1 es /\ if pp then l = [] else eval_list w es = (Some vs, l).
Definition loop_list (pp : bool) (vs0 : list V) (ts rest : toks) (vs : list V) (l : log) : Prop :=
  forall ts0 es0 l0, is_list ts0 es0 -> (pp = false -> eval_list w es0 = (Some vs0, l0)) ->
    exists ts1 es, ts = ts1 ++ rest /\ is_list (ts0 ++ ts1) es /\ if pp then l = [] else eval_list w es = (Some vs, l0 ++ l).
Definition parsed_ctx (pp : bool) (ts rest : toks) (vs : list V) (l : log) : Prop :=
  exists ts1 c r, ts = ts1 ++ rest /\ rest = TRparen :: r /\ is_context ts1 c /\ if pp then l = [] else eval_ctx w c = (Some vs, l).

Lemma ctx_qual e1 e2 : eval_ctx w (Qualified e1 e2) = bind (eval w e1) (fun v1 => bind (eval w e2) (fun v2 => bind (ret (qual w v1 v2)) (fun v => ret (Some [v])))).
Proof. reflexivity. Qed.
Lemma list_1 e : eval_list w (One e) = bind (eval w e) (fun v => ret (Some [v])).
Proof. reflexivity. Qed.
Lemma list_2 es e : eval_list w (More es e) = bind (eval_list w es) (fun vs => bind (eval w e) (fun v => ret (Some (vs ++ [v])))).
Proof. reflexivity. Qed.
Lemma eval_nested c : eval w (Nested c) = bind (eval_ctx w c) (fun vs => match vs with [] => ret (Some (empty w)) | [v] => ret (Some v) | _ => ret None end).
Proof. reflexivity. Qed.
Ltac logs := repeat match goal with K : ?x = ?a ++ ?c |- _ => is_var x; subst x end; cbn [app] in *.
Ltac inv_then H := apply andthen_ok in H; destruct H as (?v & ?l & ?ts & ?l & ?E & H & ?).

Definition P_all (n : nat) : Prop :=
  (forall pp ts vs l rest, p_eval w n pp ts = Ok vs l rest -> parsed_ctx pp ts rest vs l) /\
  (forall pp ts vs l rest, p_comma w n pp ts = Ok vs l rest -> parsed_list pp ts rest vs l \/ (exists v, parsed_qual pp ts rest v l /\ (pp = false -> vs = [v]))) /\
  (forall pp vs0 ts vs l rest, p_comma_loop w n pp vs0 ts = Ok vs l rest -> loop_list pp vs0 ts rest vs l) /\
  (forall f pp ts v l rest, p_ternary w n f pp ts = Ok v l rest -> parsed_first is_ternary f pp ts rest v l) /\
  (forall f pp ts v l rest, p_or w n f pp ts = Ok v l rest -> parsed_first is_or f pp ts rest v l) /\
  (forall pp lhs ts v l rest, p_or_loop w n pp lhs ts = Ok v l rest -> loop is_or true pp lhs ts rest v l) /\
  (forall f pp ts v l rest, p_and w n f pp ts = Ok v l rest -> parsed_first is_and f pp ts rest v l) /\
  (forall pp lhs ts v l rest, p_and_loop w n pp lhs ts = Ok v l rest -> loop is_and false pp lhs ts rest v l) /\
  (forall f pp ts v l rest, p_comp w n f pp ts = Ok v l rest -> parsed_first is_comp f pp ts rest v l) /\
  (forall pp lhs ts v l rest, p_comp_loop w n pp lhs ts = Ok v l rest -> loop_comp pp lhs ts rest v l) /\
  (forall f pp ts v l rest, p_value w n f pp ts = Ok v l rest -> parsed_first is_value f pp ts rest v l) /\
  (forall pp ts v l rest, p_bare w n pp ts = Ok v l rest -> parsed is_bare pp ts rest v l) /\
  (forall pp ts v l rest, p_operand w n pp ts = Ok v l rest -> parsed is_operand pp ts rest v l).

(* Loops do not continue at the closing parenthesis. *)
Lemma or_loop_end n pp lhs r v l rest : p_or_loop w n pp lhs (TRparen :: r) = Ok v l rest -> v = lhs /\ l = [] /\ rest = TRparen :: r.
Proof. destruct n; [discriminate|]. cbn. intros [= -> <- <-]. auto. Qed.
Lemma and_loop_end n pp lhs r v l rest : p_and_loop w n pp lhs (TRparen :: r) = Ok v l rest -> v = lhs /\ l = [] /\ rest = TRparen :: r.
Proof. destruct n; [discriminate|]. cbn. intros [= -> <- <-]. auto. Qed.
Lemma comp_loop_end n pp lhs r v l rest : p_comp_loop w n pp lhs (TRparen :: r) = Ok v l rest -> v = lhs /\ l = [] /\ rest = TRparen :: r.
Proof. destruct n; [discriminate|]. cbn. intros [= -> <- <-]. auto. Qed.
Lemma comma_loop_end n pp vs0 r vs l rest : p_comma_loop w n pp vs0 (TRparen :: r) = Ok vs l rest -> vs = vs0 /\ l = [] /\ rest = TRparen :: r.
Proof. destruct n; [discriminate|]. cbn. intros [= -> <- <-]. auto. Qed.

Lemma bind_some {X Y} (v : X) (l : log) (k : X -> meaning Y) : bind (Some v, l) k = (fst (k v), l ++ snd (k v)).
Proof. reflexivity. Qed.

Lemma all n : P_all n.
Proof.
  induction n as [|n IH]; [unfold P_all; repeat split; intros; discriminate|].
  destruct IH as (Ieval & Icomma & Icommal & Itern & Ior & Iorl & Iand & Iandl & Icomp & Icompl & Ivalue & Ibare & Iop).
  unfold P_all. repeat split.
  - (* p_eval *)
    intros pp ts vs l rest H. cbn [p_eval] in H.
    assert (K : forall ts, (exists r, ts = TRparen :: r /\ Ok [] [] ts = Ok vs l rest) \/
      andthen (p_comma w n pp ts) (fun vs ts => match ts with TRparen :: _ => Ok vs [] ts | _ => Fail [] end) = Ok vs l rest /\ (forall r, ts <> TRparen :: r) -> parsed_ctx pp ts rest vs l).
    { clear ts H. intros ts [[r [-> K]]|[K Hn]].
      - injection K as <- <- <-. exists [], NoValues, r. split; [reflexivity|]. split; [reflexivity|]. split; [constructor|]. destruct pp; reflexivity.
      - inv_then K. destruct ts0 as [|[] r]; try discriminate. injection K as -> <- <-. rewrite app_nil_r in H. subst l.
        destruct (Icomma _ _ _ _ _ E) as [(ts1 & es & -> & Hl & He)|(v & (t1 & e1 & t2 & e2 & r' & -> & H1 & H2 & Hr & He) & Hv)].
        + exists ts1, (Values es), r. split; [reflexivity|]. split; [reflexivity|]. split; [|exact He]. constructor; [exact Hl|]. intros ->. apply (Hn r). reflexivity.
        + exists (t1 ++ TColon :: t2), (Qualified e1 e2), r. split; [reflexivity|]. split; [reflexivity|]. split; [constructor; assumption|]. destruct pp; [exact He|]. rewrite (Hv eq_refl).
          unfold qualified in He. rewrite ctx_qual. destruct (eval w e1) as [[v1|] l1]; [|discriminate]. rewrite !bind_some in *. cbn [fst snd] in *. destruct (eval w e2) as [[v2|] l2']; [|discriminate].
          rewrite !bind_some in *. cbn [fst snd ret bind] in *. destruct (qual w v1 v2); [|discriminate]. cbn [fst snd ret bind app] in *. injection He as -> <-. rewrite !app_nil_r. reflexivity. }
    apply K. destruct ts as [|[] r]; try (right; split; [exact H|discriminate]). left. exists r. split; [reflexivity|exact H].
  - (* p_comma *)
    intros pp ts vs l rest H. cbn [p_comma] in H. inv_then H. destruct (Itern _ _ _ _ _ _ E) as [(ts1 & e & -> & Ht & He)|[_ Q]].
    + left. destruct (Icommal _ _ _ _ _ _ H ts1 (One e) l0 (list_one _ _ Ht)) as (ts2 & es & -> & Hl & Hes).
      { intros ->. rewrite list_1, He. cbn. rewrite app_nil_r. reflexivity. }
      exists (ts1 ++ ts2), es. split; [rewrite app_assoc; reflexivity|]. split; [exact Hl|]. subst l. destruct pp; [rewrite He, Hes; reflexivity|exact Hes].
    + right. exists v. destruct Q as (t1 & e1 & t2 & e2 & r & -> & H1 & H2 & -> & Hq). apply comma_loop_end in H. destruct H as [-> [-> ->]]. subst l. rewrite app_nil_r. split; [|intros ->; reflexivity].
      exists t1, e1, t2, e2, r. auto.
  - (* p_comma_loop *)
    intros pp vs0 ts vs l rest H ts0 es0 l0 Hl He. cbn [p_comma_loop] in H.
    assert (K : forall ts, Ok vs0 [] ts = Ok vs l rest -> exists ts1 es, ts = ts1 ++ rest /\ is_list (ts0 ++ ts1) es /\ if pp then l = [] else eval_list w es = (Some vs, l0 ++ l)).
    { intros ts' K. injection K as <- <- <-. exists [], es0. rewrite !app_nil_r. split; [reflexivity|]. split; [exact Hl|]. destruct pp; [reflexivity|]. exact (He eq_refl). }
    destruct ts as [|[] ts]; try (apply K; exact H). clear K. inv_then H.
    destruct (Itern _ _ _ _ _ _ E) as [(ts2 & e & -> & Ht & Hv)|[C _]]; [|discriminate].
    destruct (Icommal _ _ _ _ _ _ H (ts0 ++ TComma :: ts2) (More es0 e) (l0 ++ l1)) as (ts3 & es & -> & Hl' & Hes).
    + constructor; assumption.
    + intros ->. rewrite list_2, (He eq_refl), bind_some, Hv. cbn. rewrite app_nil_r. reflexivity.
    + exists (TComma :: ts2 ++ ts3), es. split; [cbn; rewrite app_assoc; reflexivity|]. split; [rewrite <- app_assoc in Hl'; exact Hl'|]. subst l. destruct pp; [rewrite Hv, Hes; reflexivity|]. rewrite <- app_assoc in Hes. exact Hes.
  - (* p_ternary *)
    intros f pp ts v l rest H. cbn [p_ternary] in H. inv_then H. destruct (Ior _ _ _ _ _ _ E) as [(ts1 & e1 & -> & Ho & Hv)|[Hf Q]].
    + left. assert (K : forall ts0, Ok v0 [] ts0 = Ok v l1 rest -> parsed is_ternary pp (ts1 ++ ts0) rest v l).
      { intros ts' K. injection K as -> <- <-. subst l. rewrite app_nil_r. exists ts1, e1. split; [reflexivity|]. split; [constructor; exact Ho|exact Hv]. }
      destruct ts0 as [|[] ts0]; try (apply K; exact H). clear K. inv_then H. apply need_ok in E0. destruct E0 as [Hq [-> ->]]. inv_then H. destruct ts as [|[] ts]; try discriminate.
      inv_then H. injection H as <- <- ->.
      destruct (Itern _ _ _ _ _ _ E0) as [(ts2 & e2 & -> & Ht2 & Hv2)|[C _]]; [|discriminate]. destruct (Itern _ _ _ _ _ _ E1) as [(ts3 & e3 & -> & Ht3 & Hv3)|[C _]]; [|discriminate].
      exists (ts1 ++ TQuestion :: ts2 ++ TColon :: ts3), (Cond e1 e2 e3). split; [rewrite <- !app_assoc; cbn; rewrite <- !app_assoc; reflexivity|]. split; [constructor; assumption|].
      logs. rewrite app_nil_r. destruct pp.
      * rewrite Hv, Hv2, Hv3. reflexivity.
      * cbn [eval]. rewrite Hv, bind_some. unfold bool_of, ret. rewrite Hq. cbn [fst snd]. rewrite bind_some, app_nil_r. destruct v1; cbn [negb] in *.
        -- rewrite Hv2, Hv3. cbn. rewrite app_nil_r. reflexivity.
        -- rewrite Hv2, Hv3. reflexivity.
    + right. split; [exact Hf|]. destruct Q as (t1 & e1 & t2 & e2 & r & -> & H1 & H2 & -> & Hq). injection H as <- <- <-. subst l. rewrite app_nil_r. exists t1, e1, t2, e2, r. auto.
  - (* p_or *)
    intros f pp ts v l rest H. cbn [p_or] in H. inv_then H. destruct (Iand _ _ _ _ _ _ E) as [(ts1 & e1 & -> & Ho & Hv)|[Hf Q]].
    + left. destruct (Iorl _ _ _ _ _ _ H pp ts1 e1 l0 ltac:(auto) (or_and _ _ Ho)) as (ts2 & e & -> & Hi & Hp & He).
      { intros ->. split; [exact Hv|discriminate]. }
      exists (ts1 ++ ts2), e. split; [rewrite app_assoc; reflexivity|]. split; [exact Hi|]. subst l. destruct pp; [rewrite Hv, He; reflexivity|exact He].
    + right. split; [exact Hf|]. destruct Q as (t1 & e1 & t2 & e2 & r & -> & H1 & H2 & -> & Hq). apply or_loop_end in H. destruct H as [-> [-> ->]]. subst l. rewrite app_nil_r. exists t1, e1, t2, e2, r. auto.
  - (* p_or_loop *)
    intros pp lhs ts v l rest H o ts0 e0 l0 Ho Hi He. cbn [p_or_loop] in H.
    assert (K : forall ts, Ok lhs [] ts = Ok v l rest -> exists ts1 e, ts = ts1 ++ rest /\ is_or (ts0 ++ ts1) e /\ (pp = true -> l = []) /\ if o then l = [] else eval w e = (Some v, l0 ++ l)).
    { intros ts' K. injection K as <- <- <-. exists [], e0. rewrite !app_nil_r. split; [reflexivity|]. split; [exact Hi|]. split; [reflexivity|]. destruct o; [reflexivity|]. exact (proj1 (He eq_refl)). }
    destruct ts as [|[] ts]; try (apply K; exact H). clear K. inv_then H. apply need_ok in E. destruct E as [Hc [-> ->]]. inv_then H. destruct (Iand _ _ _ _ _ _ E) as [(ts2 & e2 & -> & Hi2 & Hv2)|[C _]]; [|discriminate].
    assert (Hi' : is_or (ts0 ++ TOr :: ts2) (Or e0 e2)) by (constructor; assumption). logs.
    destruct pp; cbn [negb andb] in *.
    + (* Already skipping. *)
      subst l1. cbn [app].
      destruct (Iorl _ _ _ _ _ _ H o _ _ l0 ltac:(auto) Hi') as (ts3 & e & -> & Hi3 & Hp & He3).
      { intros K. destruct (He K) as [K1 K2]. split; [|auto]. cbn [eval]. rewrite K1, bind_some. unfold bool_of, ret. rewrite (K2 eq_refl). cbn. rewrite app_nil_r. reflexivity. }
      exists (TOr :: ts2 ++ ts3), e. split; [cbn; rewrite app_assoc; reflexivity|]. split; [rewrite <- app_assoc in Hi3; exact Hi3|]. split; [exact Hp|exact He3].
    + destruct o; [discriminate (Ho eq_refl)|]. destruct (He eq_refl) as [He1 _]. destruct v0; cbn [negb andb] in *.
      * (* Start skipping. *)
        subst l1. cbn [app].
        destruct (Iorl _ _ _ _ _ _ H false _ _ l0 ltac:(discriminate) Hi') as (ts3 & e & -> & Hi3 & Hp & He3).
        { intros _. split; [|auto]. cbn [eval]. rewrite He1, bind_some. unfold bool_of, ret. rewrite Hc. cbn. rewrite app_nil_r. reflexivity. }
        exists (TOr :: ts2 ++ ts3), e. split; [cbn; rewrite app_assoc; reflexivity|]. split; [rewrite <- app_assoc in Hi3; exact Hi3|]. split; [discriminate|exact He3].
      * inv_then H. apply need_ok in E0. destruct E0 as [Hx [-> ->]].
        destruct (Iorl _ _ _ _ _ _ H false _ _ (l0 ++ l1) ltac:(discriminate) Hi') as (ts3 & e & -> & Hi3 & Hp & He3).
        { intros _. split; [|discriminate]. cbn [eval]. rewrite He1, bind_some. unfold bool_of, ret, val_of, ret. rewrite Hc. cbn. rewrite Hv2. cbn. rewrite Hx. cbn. rewrite !app_nil_r. reflexivity. }
        exists (TOr :: ts2 ++ ts3), e. split; [cbn; rewrite app_assoc; reflexivity|]. split; [rewrite <- app_assoc in Hi3; exact Hi3|]. split; [discriminate|]. logs. rewrite He3, <- app_assoc. reflexivity.
  - (* p_and *)
    intros f pp ts v l rest H. cbn [p_and] in H. inv_then H. destruct (Icomp _ _ _ _ _ _ E) as [(ts1 & e1 & -> & Ho & Hv)|[Hf Q]].
    + left. destruct (Iandl _ _ _ _ _ _ H pp ts1 e1 l0 ltac:(auto) (and_comp _ _ Ho)) as (ts2 & e & -> & Hi & Hp & He).
      { intros ->. split; [exact Hv|discriminate]. }
      exists (ts1 ++ ts2), e. split; [rewrite app_assoc; reflexivity|]. split; [exact Hi|]. subst l. destruct pp; [rewrite Hv, He; reflexivity|exact He].
    + right. split; [exact Hf|]. destruct Q as (t1 & e1 & t2 & e2 & r & -> & H1 & H2 & -> & Hq). apply and_loop_end in H. destruct H as [-> [-> ->]]. subst l. rewrite app_nil_r. exists t1, e1, t2, e2, r. auto.
  - (* p_and_loop *)
    intros pp lhs ts v l rest H o ts0 e0 l0 Ho Hi He. cbn [p_and_loop] in H.
    assert (K : forall ts, Ok lhs [] ts = Ok v l rest -> exists ts1 e, ts = ts1 ++ rest /\ is_and (ts0 ++ ts1) e /\ (pp = true -> l = []) /\ if o then l = [] else eval w e = (Some v, l0 ++ l)).
    { intros ts' K. injection K as <- <- <-. exists [], e0. rewrite !app_nil_r. split; [reflexivity|]. split; [exact Hi|]. split; [reflexivity|]. destruct o; [reflexivity|]. exact (proj1 (He eq_refl)). }
    destruct ts as [|[] ts]; try (apply K; exact H). clear K. inv_then H. apply need_ok in E. destruct E as [Hc [-> ->]]. inv_then H. destruct (Icomp _ _ _ _ _ _ E) as [(ts2 & e2 & -> & Hi2 & Hv2)|[C _]]; [|discriminate].
    assert (Hi' : is_and (ts0 ++ TAnd :: ts2) (And e0 e2)) by (constructor; assumption). logs.
    destruct pp; cbn [negb andb] in *.
    + subst l1. cbn [app].
      destruct (Iandl _ _ _ _ _ _ H o _ _ l0 ltac:(auto) Hi') as (ts3 & e & -> & Hi3 & Hp & He3).
      { intros K. destruct (He K) as [K1 K2]. split; [|auto]. cbn [eval]. rewrite K1, bind_some. unfold bool_of, ret. rewrite (K2 eq_refl). cbn. rewrite app_nil_r. reflexivity. }
      exists (TAnd :: ts2 ++ ts3), e. split; [cbn; rewrite app_assoc; reflexivity|]. split; [rewrite <- app_assoc in Hi3; exact Hi3|]. split; [exact Hp|exact He3].
    + destruct o; [discriminate (Ho eq_refl)|]. destruct (He eq_refl) as [He1 _]. destruct v0; cbn [negb andb] in *.
      * inv_then H. apply need_ok in E0. destruct E0 as [Hx [-> ->]].
        destruct (Iandl _ _ _ _ _ _ H false _ _ (l0 ++ l1) ltac:(discriminate) Hi') as (ts3 & e & -> & Hi3 & Hp & He3).
        { intros _. split; [|discriminate]. cbn [eval]. rewrite He1, bind_some. unfold bool_of, ret, val_of, ret. rewrite Hc. cbn. rewrite Hv2. cbn. rewrite Hx. cbn. rewrite !app_nil_r. reflexivity. }
        exists (TAnd :: ts2 ++ ts3), e. split; [cbn; rewrite app_assoc; reflexivity|]. split; [rewrite <- app_assoc in Hi3; exact Hi3|]. split; [discriminate|]. logs. rewrite He3, <- app_assoc. reflexivity.
      * subst l1. cbn [app].
        destruct (Iandl _ _ _ _ _ _ H false _ _ l0 ltac:(discriminate) Hi') as (ts3 & e & -> & Hi3 & Hp & He3).
        { intros _. split; [|auto]. cbn [eval]. rewrite He1, bind_some. unfold bool_of, ret. rewrite Hc. cbn. rewrite app_nil_r. reflexivity. }
        exists (TAnd :: ts2 ++ ts3), e. split; [cbn; rewrite app_assoc; reflexivity|]. split; [rewrite <- app_assoc in Hi3; exact Hi3|]. split; [discriminate|exact He3].
  - (* p_comp *)
    intros f pp ts v l rest H. cbn [p_comp] in H. inv_then H. destruct (Ivalue _ _ _ _ _ _ E) as [(ts1 & e1 & -> & Ho & Hv)|[Hf Q]].
    + left. destruct (Icompl _ _ _ _ _ _ H ts1 e1 l0 (comp_value _ _ Ho)) as (ts2 & e & -> & Hi & He).
      { intros ->. exact Hv. }
      exists (ts1 ++ ts2), e. split; [rewrite app_assoc; reflexivity|]. split; [exact Hi|]. subst l. destruct pp; [rewrite Hv, He; reflexivity|exact He].
    + right. split; [exact Hf|]. destruct Q as (t1 & e1 & t2 & e2 & r & -> & H1 & H2 & -> & Hq). apply comp_loop_end in H. destruct H as [-> [-> ->]]. subst l. rewrite app_nil_r. exists t1, e1, t2, e2, r. auto.
  - (* p_comp_loop *)
    intros pp lhs ts v l rest H ts0 e0 l0 Hi He. cbn [p_comp_loop] in H.
    assert (K : forall ts, Ok lhs [] ts = Ok v l rest -> exists ts1 e, ts = ts1 ++ rest /\ is_comp (ts0 ++ ts1) e /\ if pp then l = [] else eval w e = (Some v, l0 ++ l)).
    { intros ts' K. injection K as <- <- <-. exists [], e0. rewrite !app_nil_r. split; [reflexivity|]. split; [exact Hi|]. destruct pp; [reflexivity|]. exact (He eq_refl). }
    destruct ts as [|[] ts]; try (apply K; exact H). clear K. inv_then H. destruct (Ivalue _ _ _ _ _ _ E) as [(ts2 & e2 & -> & Hi2 & Hv2)|[C _]]; [|discriminate].
    assert (Hi' : is_comp (ts0 ++ TCmp o :: ts2) (Compare o e0 e2)) by (constructor; assumption). subst l. destruct pp.
    + destruct (Icompl _ _ _ _ _ _ H _ _ l0 Hi' ltac:(discriminate)) as (ts3 & e & -> & Hi3 & He3).
      exists (TCmp o :: ts2 ++ ts3), e. split; [cbn; rewrite app_assoc; reflexivity|]. split; [rewrite <- app_assoc in Hi3; exact Hi3|]. rewrite Hv2, He3. reflexivity.
    + inv_then H. apply need_ok in E0. destruct E0 as [Hx [-> ->]].
      destruct (Icompl _ _ _ _ _ _ H _ _ (l0 ++ l1) Hi') as (ts3 & e & -> & Hi3 & He3).
      { intros _. cbn [eval]. rewrite (He eq_refl), bind_some, Hv2. cbn. rewrite Hx. cbn. rewrite app_nil_r. reflexivity. }
      exists (TCmp o :: ts2 ++ ts3), e. split; [cbn; rewrite app_assoc; reflexivity|]. split; [rewrite <- app_assoc in Hi3; exact Hi3|]. subst l2. rewrite He3, <- app_assoc. reflexivity.
  - (* p_value *)
    intros f pp ts v l rest H. cbn [p_value] in H. inv_then H.
    assert (HA : exists at_ pre, v0 = at_ /\ ts = pre ++ ts0 /\ match at_ with None => pre = [] /\ l0 = [] | Some c => pre = [TAttr c] /\ l0 = (if pp then [] else [EAttr c]) end).
    { destruct ts as [|[] ts]; injection E as <- <- <-; try (exists None, []; repeat split; fail). exists (Some c), [TAttr c]. repeat split. }
    clear E. destruct HA as (at_ & pre & -> & -> & HA). inv_then H. destruct (Ibare _ _ _ _ _ E) as (ts1 & e & -> & Hb & Hv). subst l l1.
    assert (K : (if pp then Ok v0 [] ts else match at_ with None => Ok v0 [] ts | Some c => need (attr w c v0) ts end) = Ok v l3 rest -> parsed is_value pp (pre ++ ts1 ++ ts) rest v (l0 ++ l2 ++ l3)).
    { clear H. intros H. destruct pp.
      - injection H as <- <- <-. subst l2. destruct at_ as [c|]; destruct HA as [-> ->].
        + exists (TAttr c :: ts1), (Attributes c e). split; [reflexivity|]. split; [constructor; exact Hb|reflexivity].
        + exists ts1, e. split; [reflexivity|]. split; [constructor; exact Hb|reflexivity].
      - destruct at_ as [c|]; destruct HA as [-> ->].
        + apply need_ok in H. destruct H as [H [-> ->]]. exists (TAttr c :: ts1), (Attributes c e). split; [reflexivity|]. split; [constructor; exact Hb|]. cbn [eval]. rewrite bind_some, Hv. cbn. rewrite H, !app_nil_r. reflexivity.
        + injection H as <- <- <-. exists ts1, e. split; [reflexivity|]. split; [constructor; exact Hb|]. rewrite Hv, app_nil_r. reflexivity. }
    destruct f; [|left; apply K; destruct ts as [|[] ts]; exact H].
    destruct ts as [|[] ts]; try (left; apply K; exact H). clear K. right. split; [reflexivity|].
    destruct at_ as [c|]; [discriminate|]. destruct HA as [-> ->]. inv_then H. destruct (Iop _ _ _ _ _ E0) as (ts2 & e2 & -> & Ho & Hv2). destruct ts0 as [|[] ts0]; try discriminate. subst l3. cbn [app]. destruct pp.
    + injection H as <- <- <-. exists ts1, e, ts2, e2, ts0. split; [rewrite <- app_assoc; reflexivity|]. split; [exact Hb|]. split; [exact Ho|]. split; [reflexivity|]. rewrite Hv, Hv2. reflexivity.
    + apply need_ok in H. destruct H as [H [-> ->]]. exists ts1, e, ts2, e2, ts0. split; [rewrite <- app_assoc; reflexivity|]. split; [exact Hb|]. split; [exact Ho|]. split; [reflexivity|]. unfold qualified. rewrite Hv, bind_some, Hv2. cbn. rewrite H, !app_nil_r. reflexivity.
  - (* p_bare *)
    intros pp ts v l rest H. cbn [p_bare] in H.
    assert (K1 : forall ts, Ok (empty w) [] ts = Ok v l rest -> parsed is_bare pp ts rest v l).
    { intros ts' K. injection K as <- <- <-. exists [], Nothing. split; [reflexivity|]. split; [constructor|]. destruct pp; reflexivity. }
    assert (K2 : forall ts, p_operand w n pp ts = Ok v l rest -> parsed is_bare pp ts rest v l).
    { intros ts' K. destruct (Iop _ _ _ _ _ K) as (ts1 & e & -> & Ho & Hv). exists ts1, e. split; [reflexivity|]. split; [constructor; exact Ho|exact Hv]. }
    destruct ts as [|[] ts]; cbn [no_value] in H; try discriminate; try (apply K1; exact H); try (apply K2; exact H). clear K1 K2.
    inv_then H. destruct (Ivalue _ _ _ _ _ _ E) as [(ts1 & e & -> & Hb & Hv)|[C _]]; [|discriminate]. subst l. destruct pp.
    + injection H as <- <- <-. exists (TNot :: ts1), (Not e). split; [reflexivity|]. split; [constructor; exact Hb|]. rewrite Hv. reflexivity.
    + inv_then H. apply need_ok in E0. destruct E0 as [Hx [-> ->]]. injection H as <- <- <-. exists (TNot :: ts1), (Not e). split; [reflexivity|]. split; [constructor; exact Hb|]. cbn [eval]. rewrite Hv. cbn. unfold bool_of, ret. rewrite Hx. cbn. subst. rewrite !app_nil_r. reflexivity.
  - (* p_operand *)
    intros pp ts v l rest H. cbn [p_operand] in H. destruct ts as [|[] ts]; try discriminate.
    + exists [TVal a], (Operand a). destruct pp.
      * injection H as <- <- <-. split; [reflexivity|]. split; [constructor|reflexivity].
      * destruct (value_of w a) eqn:Ev; [|discriminate]. injection H as <- <- <-. split; [reflexivity|]. split; [constructor|]. cbn [eval]. rewrite Ev. reflexivity.
    + inv_then H. destruct (Ieval _ _ _ _ _ E) as (ts1 & c & r & -> & -> & Hc & Hv). subst l. exists (TLparen :: ts1 ++ [TRparen]), (Nested c). split.
      { destruct pp; [injection H as <- <- <-|destruct v0 as [|? []]; try discriminate; injection H as <- <- <-]; cbn; rewrite <- app_assoc; reflexivity. }
      split; [constructor; exact Hc|]. destruct pp; [injection H as <- <- <-; rewrite Hv; reflexivity|]. rewrite eval_nested, Hv. destruct v0 as [|? []]; try discriminate; injection H as <- <- <-; reflexivity.
Qed.
End Proofs.
