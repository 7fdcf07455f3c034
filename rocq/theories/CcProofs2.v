(* Every source that the C/C++ lexer accepts consists of tokens, spaces and comments: the
   parts. *)
From Verif Require Import Base CcModel CcSpec CcProofs.
Local Open Scope N_scope.

Lemma get_cases st S p c st1 : Rep st S p -> get true st = (c, st1) ->
  cs st1 = cs st /\ back st1 = None /\
  ((ch c = None /\ splices S /\ Rep st1 [] (adv S p)) \/
   (exists x sp S1, ch c = Some x /\ splices sp /\ S = sp ++ x :: S1 /\ xline c = pline (adv sp p) /\ Rep st1 S1 (adv (sp ++ [x]) p) /\
      (back st = None -> Clean st1 S1 (adv (sp ++ [x]) p)))).
Proof.
  intros R E. destruct (get_rep _ _ _ _ _ R E) as (sp & S1 & Sp & ES & X & L & C & R1 & B & K).
  split; [exact C|]. split; [exact B|]. destruct (ch c) as [x|] eqn:Ec.
  - right. symmetry in X. apply hd_some in X. exists x, sp, (tl S1). split; [reflexivity|]. split; [exact Sp|]. split; [rewrite ES, X; reflexivity|].
    split; [exact L|]. unfold char in R1, K. rewrite Ec in R1, K. split; assumption.
  - left. symmetry in X. apply hd_none in X. subst S1. rewrite app_nil_r in ES. subst sp. split; [reflexivity|]. split; [exact Sp|].
    unfold char in R1. rewrite Ec, app_nil_r in R1. exact R1.
Qed.
Lemma peek_cases st S p c st1 : Rep st S p -> peek true st = (c, st1) ->
  cs st1 = cs st /\ Rep st1 S p /\ (back st = None -> back st1 = None) /\ peek true st1 = (c, st1) /\ (exists S', continues S (ch c) S') /\
  forall x, ch c = Some x ->
    exists sp S1, splices sp /\ S = sp ++ x :: S1 /\ Rep (take c st1) S1 (adv (sp ++ [x]) p) /\ xline c = pline (adv sp p) /\ back (take c st1) = None /\
      (back st = None -> Clean (take c st1) S1 (adv (sp ++ [x]) p)).
Proof.
  intros R E. pose proof (peek_again _ _ _ E) as A. destruct (peek_rep _ _ _ _ _ R E) as (sp & S1 & Sp & ES & X & L & C & R1 & R2 & K).
  split; [exact C|]. split; [exact R1|]. split; [intros B; apply K; exact B|]. split; [exact A|]. split; [exists S1, sp; repeat split; [exact Sp|exact ES|symmetry; exact X]|].
  intros x Ec. rewrite Ec in X. symmetry in X. apply hd_some in X. exists sp, (tl S1). unfold char in R2, K. rewrite Ec in R2, K.
  split; [exact Sp|]. split; [rewrite ES, X; reflexivity|]. split; [exact R2|]. split; [exact L|]. split; [|intros B; apply K; exact B].
  unfold take. destruct (back st1) eqn:B; [reflexivity|]. destruct (held st1); [reflexivity|]. rewrite Ec. destruct (ceqb x NL); reflexivity.
Qed.
Lemma get_peeked st c : peek true st = (c, st) -> get true st = (c, take c st).
Proof. intros E. unfold get. rewrite E. reflexivity. Qed.
Lemma is_some c x : is c x = true -> ch c = Some x.
Proof. unfold is. destruct (ch c) as [y|]; [|discriminate]. intros E. apply ceqb_eq in E. subst y. reflexivity. Qed.
Lemma is_not c x : is c x = false -> ch c <> Some x.
Proof. unfold is. intros E H. rewrite H in E. apply ceqb_neq in E. apply E. reflexivity. Qed.
Lemma takeh_cs c st x : ch c = Some x -> cs (takeh c st) = x :: cs st.
Proof. intros E. unfold takeh. rewrite append_cs, take_cs. unfold char. rewrite E. reflexivity. Qed.
Lemma geth_get st c st1 : geth true st = (c, st1) -> exists st2, get true st = (c, st2) /\ st1 = append (char c) st2.
Proof. unfold geth. destruct (get true st) as [d st2]. intros E. injection E as <- <-. exists st2. split; reflexivity. Qed.

Lemma line_comment_spec n : forall st S p c st', line_comment n st = Some (c, st') -> Rep st S p ->
  exists text s sp S2, spliced text s /\ ~ In NL text /\ S = s ++ sp ++ S2 /\ splices sp /\ ch c = hd_error S2 /\ (ch c = None \/ ch c = Some NL) /\
    Rep st' (tl S2) (adv (sp ++ char c) (adv s p)) /\ xline c = pline (adv (s ++ sp) p) /\ cs st' = cs st /\ back st' = None.
Proof.
  induction n as [|n IH]; intros st S p c st' E R; [discriminate E|]. cbn [line_comment] in E. destruct (get true st) as [c1 st1] eqn:G.
  pose proof (get_rep _ _ _ _ _ R G) as (sp0 & S0 & Sp0 & ES0 & X0 & L0 & C0 & R0 & B0 & _).
  destruct (ch c1) as [x|] eqn:Ec.
  - destruct (ceqb x NL) eqn:En.
    + injection E as <- <-. apply ceqb_eq in En. subst x. exists [], [], sp0, S0. split; [repeat constructor|]. split; [intros []|]. split; [exact ES0|]. split; [exact Sp0|].
      split; [rewrite Ec; exact X0|]. split; [right; exact Ec|]. split; [rewrite <- adv_app; exact R0|]. repeat split; assumption.
    + symmetry in X0. apply hd_some in X0. unfold char in R0. rewrite Ec in R0.
      destruct (IH _ _ _ _ _ E R0) as (text & s & sp & S2 & St & Nn & ES & Sp & X & D & R' & L & C & B).
      exists (x :: text), (sp0 ++ x :: s), sp, S2. split; [constructor; assumption|]. split; [intros [->|H]; [discriminate En|exact (Nn H)]|].
      split; [rewrite ES0, X0, ES, <- app_assoc; reflexivity|]. split; [exact Sp|]. split; [exact X|]. split; [exact D|].
      assert (A : adv (sp0 ++ x :: s) p = adv s (adv (sp0 ++ [x]) p)) by (rewrite <- adv_app, <- app_assoc; reflexivity).
      split; [rewrite A; exact R'|]. split; [rewrite adv_app, A, <- adv_app; exact L|]. split; [congruence|exact B].
  - injection E as <- <-. exists [], [], sp0, S0. split; [repeat constructor|]. split; [intros []|]. split; [exact ES0|]. split; [exact Sp0|].
    split; [rewrite Ec; exact X0|]. split; [left; exact Ec|]. split; [rewrite <- adv_app; exact R0|]. repeat split; assumption.
Qed.

Lemma block_comment_spec n : forall st S p st', block_comment n st = Some st' -> Rep st S p -> back st = None ->
  exists text s S', spliced text s /\ (exists body, text = body ++ b "*/") /\ (forall x y, text = x ++ b "*/" ++ y -> y = []) /\ S = s ++ S' /\
    Rep st' S' (adv s p) /\ cs st' = cs st /\ back st' = None /\ (forall c, peek true st = (c, st) -> hd_error text = ch c).
Proof.
  induction n as [|n IH]; intros st S p st' E R Bk; [discriminate E|]. cbn [block_comment] in E. destruct (get true st) as [c1 st1] eqn:G.
  destruct (get_cases _ _ _ _ _ R G) as (C0 & B0 & [(Ec & _)|(x & sp0 & S1 & Ec & Sp0 & ES0 & L0 & R0 & _)]); rewrite Ec in E; [discriminate E|].
  assert (H1 : forall c, peek true st = (c, st) -> Some x = ch c).
  { intros c Hc. rewrite (get_peeked _ _ Hc) in G. injection G as -> _. symmetry. exact Ec. }
  assert (Step : forall st2, block_comment n st2 = Some st' -> Rep st2 S1 (adv (sp0 ++ [x]) p) -> back st2 = None -> cs st2 = cs st ->
     (x = "*"%char -> exists d, peek true st2 = (d, st2) /\ ch d <> Some "/"%char) ->
     exists text s S', spliced text s /\ (exists body, text = body ++ b "*/") /\ (forall x y, text = x ++ b "*/" ++ y -> y = []) /\ S = s ++ S' /\
       Rep st' S' (adv s p) /\ cs st' = cs st /\ back st' = None /\ (forall c, peek true st = (c, st) -> hd_error text = ch c)).
  { intros st2 E2 R2 B2 C2 Hd. destruct (IH _ _ _ _ E2 R2 B2) as (text & s & S' & St & [body Hb] & M & ES & R' & C & B & P).
    exists (x :: text), (sp0 ++ x :: s), S'. split; [constructor; assumption|]. split; [exists (x :: body); rewrite Hb; reflexivity|]. split.
    { intros u y Eq. destruct u as [|u0 u]; cbn [app] in Eq.
      - exfalso. cbn in Eq. injection Eq as -> Eq. destruct (Hd eq_refl) as (d & Pd & Nd). apply Nd. rewrite <- (P _ Pd), Eq. reflexivity.
      - injection Eq as <- Eq. exact (M _ _ Eq). }
    split; [rewrite ES0, ES, <- app_assoc; reflexivity|].
    split; [replace (adv (sp0 ++ x :: s) p) with (adv s (adv (sp0 ++ [x]) p)) by (rewrite <- adv_app, <- app_assoc; reflexivity); exact R'|].
    split; [congruence|]. split; [exact B|exact H1]. }
  destruct (ceqb x "*") eqn:Ex.
  - apply ceqb_eq in Ex. subst x. destruct (peek true st1) as [c2 st2] eqn:P.
    destruct (peek_cases _ _ _ _ _ R0 P) as (C2 & R2 & B2 & A2 & _ & T). destruct (is c2 "/") eqn:Is.
    + injection E as <-. apply is_some in Is. destruct (T _ Is) as (sp1 & S2 & Sp1 & ES1 & R3 & _ & B3 & _).
      exists (b "*/"), (sp0 ++ "*"%char :: sp1 ++ ["/"%char]), S2. split; [constructor; [exact Sp0|]; apply spliced_one; exact Sp1|]. split; [exists []; reflexivity|]. split.
      { intros u y Eq. destruct u as [|u0 [|u1 u]]; cbn in Eq; [injection Eq as <-; reflexivity|discriminate Eq|]. destruct u; discriminate Eq. }
      split; [rewrite ES0, ES1, <- !app_assoc; cbn; rewrite <- app_assoc; reflexivity|].
      split; [replace (sp0 ++ "*"%char :: sp1 ++ ["/"%char]) with ((sp0 ++ ["*"%char]) ++ sp1 ++ ["/"%char]) by (rewrite <- app_assoc; reflexivity); rewrite adv_app; exact R3|].
      split; [rewrite take_cs; congruence|]. split; [exact B3|exact H1].
    + apply (Step _ E R2 (B2 B0)); [congruence|]. intros _. exists c2. split; [exact A2|]. apply is_not in Is. exact Is.
  - apply (Step _ E R0 B0 C0). intros ->. discriminate Ex.
Qed.

(* The gap before a token. *)
Definition gap pp (S : bytes) (p : pos) (S1 : bytes) (p1 : pos) (nl : bool) : Prop :=
  forall m h ts, (nl = true -> m = Plain) -> reads pp m p1 S1 h ts -> reads pp m p S h ts.
Lemma gap_trans pp S p S1 p1 S2 p2 nl : gap pp S p S1 p1 nl -> gap pp S1 p1 S2 p2 nl -> gap pp S p S2 p2 nl.
Proof. intros H1 H2 m h ts M R. apply H1; [exact M|]. apply H2; assumption. Qed.
Lemma gap_refl pp S p nl : gap pp S p S p nl.
Proof. intros m h ts M R. exact R. Qed.
Lemma gap_blank pp sp c S p nl : splices sp -> blank c = true -> gap pp (sp ++ c :: S) p S (adv (sp ++ [c]) p) nl.
Proof.
  intros Sp B m h ts M R. apply r_splices; [exact Sp|]. apply r_blank; [exact B|]. rewrite adv_app in R. cbn [adv fold_left] in R. rewrite adv1_not in R; [exact R|]. intros ->. discriminate B.
Qed.
Lemma gap_newline pp sp S p : splices sp -> gap pp (sp ++ NL :: S) p S (adv (sp ++ [NL]) p) true.
Proof.
  intros Sp m h ts M R. apply r_splices; [exact Sp|]. rewrite (M eq_refl) in *. apply (r_newline _ Plain Plain); [reflexivity|]. rewrite adv_app in R. exact R.
Qed.
Lemma gap_comment pp text s S p nl : comment text -> spliced text s -> (firstn 2 text = b "//" -> exists o S', continues S o S' /\ (o = None \/ o = Some NL)) ->
  gap pp (s ++ S) p S (adv s p) nl.
Proof. intros C Sp L m h ts M R. eapply r_comment; eassumption. Qed.

(* The result of skip_spaces (). *)
Definition skipped (nl : bool) (st : scan) (S : bytes) (p : pos) (c : xchar) (st' : scan) : Prop :=
  exists S1 p1 sp S2, (forall pp, gap pp S p S1 p1 nl) /\ splices sp /\ S1 = sp ++ S2 /\ ch c = hd_error S2 /\ xline c = pline (adv sp p1) /\
    Rep st' (tl S2) (adv (sp ++ char c) p1) /\ cs st' = cs st /\ back st' = None /\
    (forall x, ch c = Some x -> blank x = false /\ (x = NL -> nl = false) /\
      (x = "/"%char -> exists d, peek true st' = (d, st') /\ ch d <> Some "/"%char /\ ch d <> Some "*"%char)).
Lemma skipped_gap nl st S p S1 p1 st1 c st' : (forall pp, gap pp S p S1 p1 nl) -> cs st1 = cs st -> skipped nl st1 S1 p1 c st' -> skipped nl st S p c st'.
Proof.
  intros G C (S3 & p3 & sp & S4 & G' & Sp & ES & X & L & R & C' & B & N). exists S3, p3, sp, S4.
  split; [intros pp; eapply gap_trans; [apply G|apply G']|]. repeat (split; [assumption|]). split; [congruence|]. split; [exact B|exact N].
Qed.
Lemma spaces_spec n : forall nl c first st S p st0 sp S2 f st',
  spaces n nl c first st = Some (f, st') -> 
  splices sp -> S = sp ++ S2 -> ch c = hd_error S2 -> xline c = pline (adv sp p) -> Rep st (tl S2) (adv (sp ++ char c) p) -> cs st = cs st0 -> back st = None ->
  skipped nl st0 S p (fst f) st'.
Proof.
  induction n as [|n IH]; intros nl c first st S p st0 sp S2 [c' f'] st' E Sp ES X L R C B; [discriminate E|].
  cbn [spaces] in E. cbn [fst].
  (* stopping here *)
  assert (Stop : forall st1, Some (c, first, st1) = Some (c', f', st') -> Rep st1 (tl S2) (adv (sp ++ char c) p) -> cs st1 = cs st -> back st1 = None ->
     (forall x, ch c = Some x -> blank x = false /\ (x = NL -> nl = false) /\
        (x = "/"%char -> exists d, peek true st1 = (d, st1) /\ ch d <> Some "/"%char /\ ch d <> Some "*"%char)) -> skipped nl st0 S p c' st').
  { intros st1 E1 R1 C1 B1 N. injection E1 as <- <- <-. exists S, p, sp, S2. split; [intros pp; apply gap_refl|]. repeat (split; [assumption|]). split; [congruence|]. split; [exact B1|exact N]. }
  (* going on *)
  assert (Next : forall S1 p1 first st1, (let '(c, st) := get true st1 in spaces n nl c first st) = Some (c', f', st') ->
     Rep st1 S1 p1 -> (forall pp, gap pp S p S1 p1 nl) -> cs st1 = cs st -> skipped nl st0 S p c' st').
  { intros S1 p1 f1 st1 E1 R1 G1 C1. destruct (get true st1) as [c2 st2] eqn:G.
    destruct (get_rep _ _ _ _ _ R1 G) as (sp1 & S3 & Sp1 & ES1 & X1 & L1 & C2 & R2 & B2 & _).
    eapply skipped_gap; [exact G1|transitivity (cs st); [exact C1|exact C]|].
    apply (IH _ _ _ _ S1 p1 st1 sp1 S3 (c', f') st' E1); assumption. }
  destruct (ch c) as [x|] eqn:Ec.
  - symmetry in X. apply hd_some in X.
    assert (Rx : Rep st (tl S2) (adv (sp ++ [x]) p)) by (unfold char in R; rewrite Ec in R; exact R).
    destruct (ceqb x NL) eqn:En.
    + apply ceqb_eq in En. subst x. destruct nl.
      * eapply Next; [exact E|exact Rx| |reflexivity]. intros pp. rewrite ES, X. apply gap_newline. exact Sp.
      * eapply Stop; [exact E|exact R|reflexivity|exact B|]. intros y Hy. injection Hy as <-. repeat split. intros H. discriminate H.
    + destruct (blank x) eqn:Bx.
      * eapply Next; [exact E|exact Rx| |reflexivity]. intros pp. rewrite ES, X. apply gap_blank; assumption.
      * assert (Nb : forall y, Some x = Some y -> blank y = false /\ (y = NL -> nl = false)).
        { intros y Hy. injection Hy as <-. split; [exact Bx|]. intros ->. discriminate En. }
        destruct (ceqb x "/") eqn:Es.
        -- apply ceqb_eq in Es. subst x. destruct (peek true st) as [d st1] eqn:P.
           destruct (peek_cases _ _ _ _ _ Rx P) as (C1 & R1 & B1 & A1 & _ & T).
           destruct (is d "/") eqn:D1.
           ++ apply is_some in D1. destruct (T _ D1) as (sp1 & S3 & Sp1 & ES1 & R2 & _ & B2 & _).
              destruct (line_comment n (take d st1)) as [[c2 st2]|] eqn:Lc; [|discriminate E].
              destruct (line_comment_spec _ _ _ _ _ _ Lc R2) as (text & s & sp2 & S4 & St & Nn & ES3 & Sp2 & X2 & D2 & R3 & L2 & C2 & B3).
              set (cm := sp ++ "/"%char :: sp1 ++ "/"%char :: s).
              assert (G : forall pp, gap pp S p (sp2 ++ S4) (adv cm p) nl).
              { intros pp. replace S with (cm ++ sp2 ++ S4).
                - apply (gap_comment pp (b "//" ++ text)); [constructor; exact Nn|subst cm; constructor; [exact Sp|]; constructor; [exact Sp1|exact St]|].
                  intros _. exists (ch c2), S4. split; [exists sp2; repeat split; [exact Sp2|symmetry; exact X2]|exact D2].
                - subst cm. rewrite ES, X. rewrite ES1, ES3. rewrite <- ?app_assoc. cbn. rewrite <- ?app_assoc. reflexivity. }
              assert (Ad : adv cm p = adv s (adv (sp1 ++ ["/"%char]) (adv (sp ++ ["/"%char]) p))).
              { subst cm. rewrite <- !adv_app. f_equal. rewrite <- ?app_assoc. cbn. rewrite <- ?app_assoc. reflexivity. }
              rewrite adv_app in L2. rewrite <- Ad in R3, L2.
              assert (C3 : cs st2 = cs st) by (rewrite C2, take_cs; exact C1).
              destruct nl.
              ** destruct D2 as [D2|D2].
                 --- eapply Next; [exact E|exact R3| |exact C3]. intros pp. rewrite X2 in D2. apply hd_none in D2. subst S4. cbn [tl]. rewrite app_nil_r in G.
                     eapply gap_trans; [apply G|]. unfold char. rewrite X2. cbn [hd_error]. rewrite app_nil_r.
                     intros m h ts M Rd. rewrite <- (app_nil_r sp2). apply r_splices; assumption.
                 --- eapply Next; [exact E|exact R3| |exact C3]. intros pp. eapply gap_trans; [apply G|]. rewrite D2 in X2. symmetry in X2. apply hd_some in X2.
                     rewrite X2. cbn [tl]. unfold char. rewrite D2. apply gap_newline. exact Sp2.
              ** injection E as <- <- <-. exists (sp2 ++ S4), (adv cm p), sp2, S4. split; [exact G|]. split; [exact Sp2|]. split; [reflexivity|]. split; [exact X2|].
                 split; [exact L2|]. split; [exact R3|]. split; [congruence|]. split; [exact B3|].
                 intros y Hy. destruct D2 as [D2|D2]; rewrite D2 in Hy; [discriminate Hy|]. injection Hy as <-. repeat split. intros H. discriminate H.
           ++ destruct (is d "*") eqn:D2.
              ** apply is_some in D2. destruct (T _ D2) as (sp1 & S3 & Sp1 & ES1 & R2 & _ & B2 & _).
                 destruct (block_comment n (take d st1)) as [st2|] eqn:Bc; [|discriminate E].
                 destruct (block_comment_spec _ _ _ _ _ Bc R2 B2) as (text & s & S4 & St & [body Hb] & M & ES3 & R3 & C2 & B3 & _).
                 eapply Next; [exact E|exact R3| |rewrite C2, take_cs; exact C1]. intros pp.
                 set (cm := sp ++ "/"%char :: sp1 ++ "*"%char :: s).
                 replace S with (cm ++ S4).
                 --- replace (adv s (adv (sp1 ++ ["*"%char]) (adv (sp ++ ["/"%char]) p))) with (adv cm p).
                     +++ apply (gap_comment pp (b "/*" ++ text)); [subst text; constructor; exact M|subst cm; constructor; [exact Sp|]; constructor; [exact Sp1|exact St]|].
                         intros H. discriminate H.
                     +++ subst cm. rewrite <- !adv_app. f_equal. rewrite <- ?app_assoc. cbn. rewrite <- ?app_assoc. reflexivity.
                 --- subst cm. rewrite ES, X. rewrite ES1, ES3. rewrite <- ?app_assoc. cbn. rewrite <- ?app_assoc. reflexivity.
              ** eapply Stop; [exact E|unfold char; rewrite Ec; exact R1|exact C1|exact (B1 B)|]. intros y Hy. destruct (Nb _ Hy) as [N1 N2]. split; [exact N1|]. split; [exact N2|].
                 intros _. exists d. split; [exact A1|]. split; apply is_not; assumption.
        -- eapply Stop; [exact E|exact R|reflexivity|exact B|]. intros y Hy. destruct (Nb _ Hy) as [N1 N2]. split; [exact N1|]. split; [exact N2|].
           injection Hy as <-. intros ->. discriminate Es.
  - eapply Stop; [exact E|exact R|reflexivity|exact B|]. intros y Hy. discriminate Hy.
Qed.
Lemma skip_spaces_spec n nl st S p c f st' : skip_spaces n nl st = Some (c, f, st') -> Rep st S p -> skipped nl st S p c st'.
Proof.
  intros E R. unfold skip_spaces in E. destruct (get true st) as [c1 st1] eqn:G.
  destruct (get_rep _ _ _ _ _ R G) as (sp & S2 & Sp & ES & X & L & C & R1 & B & _).
  apply (spaces_spec _ _ _ _ _ S p st sp S2 (c, f) st' E); assumption.
Qed.
