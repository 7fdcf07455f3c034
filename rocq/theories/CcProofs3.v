(* Every source that the C/C++ lexer accepts consists of tokens, spaces and comments: the
   tokens. *)
From Verif Require Import Base CcModel CcSpec CcProofs CcProofs2.
Local Open Scope N_scope.

(* The next character is such. *)
Definition then_ (S : bytes) (Q : ascii -> Prop) : Prop := exists o S', continues S o S' /\ match o with Some c => Q c | None => True end.
Lemma then_peek S c (Q : ascii -> Prop) : (exists S', continues S (ch c) S') -> (forall x, ch c = Some x -> Q x) -> then_ S Q.
Proof. intros [S' H] K. exists (ch c), S'. split; [exact H|]. destruct (ch c); [apply K; reflexivity|exact I]. Qed.
Lemma rev_cons_app x (s : bytes) (k : bytes) : rev s ++ x :: k = rev (x :: s) ++ k.
Proof. cbn. rewrite <- app_assoc. reflexivity. Qed.
(* Hashing the next character and going on. *)
Lemma eats_peeked st S p c st1 x sp S1 text st' S' :
  splices sp -> S = sp ++ x :: S1 -> eats (takeh c st1) S1 (adv (sp ++ [x]) p) text st' S' -> eats st S p (x :: text) st' S'.
Proof. intros Sp ES H. exact (eats_cons st S p sp x S1 (takeh c st1) text st' S' Sp ES H). Qed.

Lemma last_cons (x : ascii) (s : bytes) d : last (x :: s) d = last s x.
Proof. revert x d. induction s as [|y s IH]; intros x d; [reflexivity|]. change (last (x :: y :: s) d) with (last (y :: s) d). rewrite !IH. reflexivity. Qed.
Lemma sign_ends c : is c "+" || is c "-" = true -> exists x, ch c = Some x /\ (x = "+"%char \/ x = "-"%char).
Proof. intros H. apply orb_true_iff in H. destruct H as [H|H]; apply is_some in H; [exists "+"%char|exists "-"%char]; auto. Qed.
Lemma number_spec n : forall st S p prev st', number_literal n st = Some st' -> Rep st S p -> back st = None ->
  (exponent prev = true -> exists d, peek true st = (d, st) /\ is d "+" || is d "-" = false) ->
  exists text S', eats st S p text st' S' /\ cs st' = rev text ++ cs st /\ number_rest text /\ back st' = None /\
    then_ S' (fun c => negb (ends_number c) || (exponent (last text prev) && (ceqb c "+" || ceqb c "-")) = false).
Proof.
  induction n as [|n IH]; intros st S p prev st' E R B Pv; [discriminate E|]. cbn [number_literal] in E. destruct (peek true st) as [c st1] eqn:P.
  destruct (peek_cases _ _ _ _ _ R P) as (C1 & R1 & B1 & A1 & K & T).
  assert (Sg : exponent prev = true -> is c "+" || is c "-" = false).
  { intros H. destruct (Pv H) as (d & Hd & Hs). injection Hd as -> ->. exact Hs. }
  assert (Stop : forall x, ch c = Some x -> ends_number x = true -> Some st1 = Some st' ->
    exists text S', eats st S p text st' S' /\ cs st' = rev text ++ cs st /\ number_rest text /\ back st' = None /\
    then_ S' (fun c => negb (ends_number c) || (exponent (last text prev) && (ceqb c "+" || ceqb c "-")) = false)).
  { intros x Ec En E1. injection E1 as <-. exists [], S. split; [apply eats_nil; exact R1|]. split; [cbn; exact C1|]. split; [constructor|]. split; [exact (B1 B)|].
    apply (then_peek _ c); [exact K|]. intros y Hy. rewrite Ec in Hy. injection Hy as <-. rewrite En. cbn [negb orb last].
    destruct (exponent prev); [|reflexivity]. specialize (Sg eq_refl). unfold is in Sg. rewrite Ec in Sg. exact Sg. }
  destruct (ch c) as [x|] eqn:Ec.
  - destruct (ends_number x) eqn:En; [exact (Stop x eq_refl En E)|].
    destruct (T _ eq_refl) as (sp & S1 & Sp & ES & R2 & _ & B2 & _).
    assert (C2 : cs (takeh c st1) = x :: cs st) by (rewrite (takeh_cs _ _ _ Ec), C1; reflexivity).
    destruct (exponent x) eqn:Ex.
    + destruct (peek true (takeh c st1)) as [d st2] eqn:P2.
      assert (R2' : Rep (takeh c st1) S1 (adv (sp ++ [x]) p)) by exact R2.
      destruct (peek_cases _ _ _ _ _ R2' P2) as (C3 & R3 & B3 & A3 & K3 & T3).
      destruct (is d "+" || is d "-") eqn:Sd.
      * destruct (sign_ends _ Sd) as (y & Ed & Hy). destruct (T3 _ Ed) as (sp2 & S2 & Sp2 & ES2 & R4 & _ & B4 & _).
        assert (R4' : Rep (takeh d st2) S2 (adv (sp2 ++ [y]) (adv (sp ++ [x]) p))) by exact R4.
        destruct (IH _ _ _ y _ E R4' B4) as (text & S' & Ea & Cs & Nr & Bk & Th).
        { intros H. exfalso. destruct Hy as [-> | ->]; discriminate H. }
        exists (x :: y :: text), S'. split; [eapply (eats_cons _ _ _ _ _ _ st1); [exact Sp|exact ES|]; eapply (eats_cons st1 _ _ _ _ _ st1); [exact Sp2|exact ES2|exact Ea]|].
        split; [rewrite Cs, (takeh_cs _ _ _ Ed), C3, C2; cbn; rewrite <- !app_assoc; reflexivity|]. split; [apply nr_sign; assumption|]. split; [exact Bk|].
        rewrite !last_cons. exact Th.
      * destruct (IH _ _ _ x _ E R3 (B3 B2)) as (text & S' & Ea & Cs & Nr & Bk & Th).
        { intros _. exists d. split; assumption. }
        exists (x :: text), S'. split; [eapply (eats_cons _ _ _ _ _ _ st1); [exact Sp|exact ES|exact Ea]|].
        split; [rewrite Cs, C3, C2; apply rev_cons_app|]. split; [apply nr_char; assumption|]. split; [exact Bk|]. rewrite last_cons. exact Th.
    + assert (R2' : Rep (takeh c st1) S1 (adv (sp ++ [x]) p)) by exact R2.
      destruct (IH _ _ _ x _ E R2' B2) as (text & S' & Ea & Cs & Nr & Bk & Th).
      { intros H. rewrite H in Ex. discriminate Ex. }
      exists (x :: text), S'. split; [eapply (eats_cons _ _ _ _ _ _ st1); [exact Sp|exact ES|exact Ea]|].
      split; [rewrite Cs, C2; apply rev_cons_app|]. split; [apply nr_char; assumption|]. split; [exact Bk|]. rewrite last_cons. exact Th.
  - injection E as <-. exists [], S. split; [apply eats_nil; exact R1|]. split; [exact C1|]. split; [constructor|]. split; [exact (B1 B)|].
    apply (then_peek _ c); [rewrite Ec; exact K|]. intros y Hy. congruence.
Qed.

Lemma suffix_rest_spec n : forall st S p st', suffix_rest n st = Some st' -> Rep st S p -> back st = None ->
  exists text S', eats st S p text st' S' /\ cs st' = rev text ++ cs st /\ all ident text /\ back st' = None /\ then_ S' (fun c => ident c = false).
Proof.
  induction n as [|n IH]; intros st S p st' E R B; [discriminate E|]. cbn [suffix_rest] in E. destruct (peek true st) as [c st1] eqn:P.
  destruct (peek_cases _ _ _ _ _ R P) as (C1 & R1 & B1 & A1 & K & T). unfold isid in E.
  destruct (ch c) as [x|] eqn:Ec.
  - destruct (ident x) eqn:Ix.
    + destruct (T _ eq_refl) as (sp & S1 & Sp & ES & R2 & _ & B2 & _).
      assert (R2' : Rep (takeh c st1) S1 (adv (sp ++ [x]) p)) by exact R2.
      destruct (IH _ _ _ _ E R2' B2) as (text & S' & Ea & Cs & A & Bk & Th).
      exists (x :: text), S'. split; [eapply (eats_cons _ _ _ _ _ _ st1); [exact Sp|exact ES|exact Ea]|].
      split; [rewrite Cs, (takeh_cs _ _ _ Ec), C1; apply rev_cons_app|]. split; [|split; assumption].
      intros d [<-|D]; [exact Ix|apply A; exact D].
    + injection E as <-. exists [], S. split; [apply eats_nil; exact R1|]. split; [exact C1|]. split; [intros d []|]. split; [exact (B1 B)|].
      apply (then_peek _ c); [rewrite Ec; exact K|]. intros y Hy. rewrite Ec in Hy. injection Hy as <-. exact Ix.
  - injection E as <-. exists [], S. split; [apply eats_nil; exact R1|]. split; [exact C1|]. split; [intros d []|]. split; [exact (B1 B)|].
    apply (then_peek _ c); [rewrite Ec; exact K|]. intros y Hy. congruence.
Qed.
Lemma suffix_spec n st S p st' : suffix n st = Some st' -> Rep st S p -> back st = None ->
  exists text S', eats st S p text st' S' /\ cs st' = rev text ++ cs st /\ suffixed text /\ back st' = None /\
    then_ S' (fun c => match text with [] => letter c | _ => ident c end = false).
Proof.
  intros E R B. unfold suffix in E. destruct (peek true st) as [c st1] eqn:P.
  destruct (peek_cases _ _ _ _ _ R P) as (C1 & R1 & B1 & A1 & K & T).
  destruct (ch c) as [x|] eqn:Ec.
  - destruct (ceqb x "_" || alpha x) eqn:Lx.
    + destruct (T _ eq_refl) as (sp & S1 & Sp & ES & R2 & _ & B2 & _).
      assert (R2' : Rep (takeh c st1) S1 (adv (sp ++ [x]) p)) by exact R2.
      destruct (suffix_rest_spec _ _ _ _ _ E R2' B2) as (text & S' & Ea & Cs & A & Bk & Th).
      exists (x :: text), S'. split; [eapply (eats_cons _ _ _ _ _ _ st1); [exact Sp|exact ES|exact Ea]|].
      split; [rewrite Cs, (takeh_cs _ _ _ Ec), C1; apply rev_cons_app|]. split; [constructor; assumption|]. split; assumption.
    + injection E as <-. exists [], S. split; [apply eats_nil; exact R1|]. split; [exact C1|]. split; [constructor|]. split; [exact (B1 B)|].
      apply (then_peek _ c); [rewrite Ec; exact K|]. intros y Hy. rewrite Ec in Hy. injection Hy as <-. exact Lx.
  - injection E as <-. exists [], S. split; [apply eats_nil; exact R1|]. split; [exact C1|]. split; [constructor|]. split; [exact (B1 B)|].
    apply (then_peek _ c); [rewrite Ec; exact K|]. intros y Hy. congruence.
Qed.

Lemma quoted_spec n : forall q pr st S p st', quoted n q pr st = Some st' -> Rep st S p ->
  exists body f S', eats st S p (body ++ [q] ++ f) st' S' /\ cs st' = rev (body ++ [q] ++ f) ++ cs st /\
    (pr <> BS -> quoted_body q body) /\ (pr = BS -> exists c s, body = c :: s /\ c <> NL /\ quoted_body q s) /\
    suffixed f /\ back st' = None /\ then_ S' (fun c => match f with [] => letter c | _ => ident c end = false).
Proof.
  induction n as [|n IH]; intros q pr st S p st' E R; [discriminate E|]. cbn [quoted] in E. destruct (geth true st) as [c st1] eqn:G.
  apply geth_get in G. destruct G as (st2 & G & ->).
  destruct (get_cases _ _ _ _ _ R G) as (C & B & [(Ec & _)|(x & sp & S1 & Ec & Sp & ES & _ & R1 & _)]); rewrite Ec in E; [discriminate E|].
  destruct (ceqb x NL) eqn:En; [discriminate E|].
  assert (R1' : Rep (append (char c) st2) S1 (adv (sp ++ [x]) p)) by exact R1.
  assert (C1 : cs (append (char c) st2) = x :: cs st) by (rewrite append_cs; unfold char; rewrite Ec, C; reflexivity).
  apply ceqb_neq in En.
  destruct (ceqb x q && negb (ceqb pr BS)) eqn:Eq.
  - apply andb_true_iff in Eq. destruct Eq as [Eq Np]. apply ceqb_eq in Eq. subst x. apply negb_true_iff, ceqb_neq in Np.
    destruct (suffix_spec _ _ _ _ _ E R1' B) as (f & S' & Ea & Cs & Sf & Bk & Th).
    exists [], f, S'. split; [cbn [app]; eapply eats_cons; [exact Sp|exact ES|exact Ea]|].
    split; [rewrite Cs, C1; cbn [app]; apply rev_cons_app|]. split; [intros _; constructor|]. split; [intros H; contradiction|]. repeat split; assumption.
  - destruct (IH _ _ _ _ _ _ E R1') as (body & f & S' & Ea & Cs & Q1 & Q2 & Sf & Bk & Th).
    exists (x :: body), f, S'. split; [cbn [app]; eapply eats_cons; [exact Sp|exact ES|exact Ea]|].
    split; [rewrite Cs, C1; cbn [app]; apply rev_cons_app|].
    split; [|split; [|split; [exact Sf|split; assumption]]].
    + intros Np. apply ceqb_neq in Np. rewrite Np in Eq, Q1, Q2. rewrite andb_false_r in Q1, Q2. rewrite andb_true_r in Eq. apply ceqb_neq in Eq.
      destruct (ascii_dec x BS) as [->|Nx].
      * destruct (Q2 eq_refl) as (d & s & -> & Nd & Qs). apply qb_escape; assumption.
      * apply qb_char; auto.
    + intros ->. exists x, body. split; [reflexivity|]. split; [exact En|]. apply Q1. change (ceqb BS BS) with true. rewrite andb_true_r.
      destruct (ceqb x BS) eqn:Ex; [discriminate|]. apply ceqb_neq. exact Ex.
Qed.

Definition okd (d : bytes) : Prop := forall c, In c d -> c <> "("%char /\ c <> ")"%char /\ c <> BS /\ c <> SP.
Lemma raw_delimiter_spec n : forall d0 st S p d st', raw_delimiter n d0 st = Some (d, st') -> Rep st S p -> back st = None ->
  exists text s S', S = s ++ S' /\ spliced (text ++ ["("%char]) s /\ Clean st' S' (adv s p) /\
    cs st' = rev (text ++ ["("%char]) ++ cs st /\ d = DQ :: rev text ++ d0 /\ okd text.
Proof.
  induction n as [|n IH]; intros d0 st S p d st' E R B0; [discriminate E|]. cbn [raw_delimiter] in E. destruct (geth true st) as [c st1] eqn:G.
  apply geth_get in G. destruct G as (st2 & G & ->).
  destruct (get_cases _ _ _ _ _ R G) as (C & B & [(Ec & _)|(x & sp & S1 & Ec & Sp & ES & _ & R1 & Cl)]); rewrite Ec in E; [discriminate E|].
  destruct (ceqb x ")" || ceqb x BS || ceqb x SP) eqn:Ebad; [discriminate E|].
  apply orb_false_iff in Ebad. destruct Ebad as [Eb E3]. apply orb_false_iff in Eb. destruct Eb as [E1 E2]. apply ceqb_neq in E1, E2, E3.
  assert (C1 : cs (append (char c) st2) = x :: cs st) by (rewrite append_cs; unfold char; rewrite Ec, C; reflexivity).
  destruct (ceqb x "(") eqn:Eo.
  - injection E as <- <-. apply ceqb_eq in Eo. subst x. exists [], (sp ++ ["("%char]), S1. split; [rewrite ES, <- app_assoc; reflexivity|].
    split; [apply spliced_one; exact Sp|]. split; [apply Clean_append, Cl; exact B0|]. split; [exact C1|]. split; [reflexivity|intros z []].
  - apply ceqb_neq in Eo.
    destruct (IH _ _ _ _ _ _ E (Rep_append (char c) _ _ _ R1) B) as (text & s & S' & ES' & St & K & Cs & D & O).
    exists (x :: text), (sp ++ x :: s), S'. split; [rewrite ES, ES', <- app_assoc; reflexivity|]. split; [constructor; assumption|].
    split; [replace (adv (sp ++ x :: s) p) with (adv s (adv (sp ++ [x]) p)) by (rewrite <- adv_app, <- app_assoc; reflexivity); exact K|].
    split; [rewrite Cs, C1; apply rev_cons_app|]. split; [rewrite D; cbn; rewrite <- app_assoc; reflexivity|].
    intros z [<-|Hz]; [repeat split; assumption|apply O; exact Hz].
Qed.

(* Matching the closing delimiter: since the parenthesis is only its first character, it is
   enough to start from the beginning. *)
Section Raw.
Context (d : bytes) (Hd : okd d).
Let D := raw_close d.
Lemma close_paren i : nth i D NUL = ")"%char -> i = 0%nat.
Proof.
  destruct i as [|i]; [reflexivity|]. unfold D, raw_close. cbn [nth]. intros H. exfalso.
  destruct (Nat.lt_ge_cases i (length d)) as [L|L].
  - rewrite app_nth1 in H by exact L. destruct (Hd ")"%char) as (_ & N & _); [rewrite <- H; apply nth_In; exact L|apply N; reflexivity].
  - rewrite app_nth2 in H by exact L. destruct (i - length d)%nat as [|k]; [discriminate H|]. destruct k; discriminate H.
Qed.
Lemma firstn_snoc i : (i < length D)%nat -> firstn (S i) D = firstn i D ++ [nth i D NUL].
Proof.
  clear Hd. generalize D. clear D. intros l. revert i. induction l as [|c l IH]; intros i L; [cbn in L; lia|]. destruct i as [|i]; [reflexivity|].
  cbn [firstn nth app]. f_equal. apply IH. cbn in L. lia.
Qed.
Definition matched (w : bytes) (i : nat) : Prop :=
  (exists u, w = u ++ firstn i D) /\ (i < length D)%nat /\ (forall j u, (0 < j <= length D)%nat -> w = u ++ firstn j D -> j = i) /\ (forall u v, w <> u ++ D ++ v).
Lemma snoc_inv {A} (a c : list A) x y : a ++ [x] = c ++ [y] -> a = c /\ x = y.
Proof. intros H. apply app_inj_tail in H. exact H. Qed.
(* No occurrence is completed by x unless it is at the end. *)
Lemma matched_occurs w i x : matched w i -> forall u v, w ++ [x] = u ++ D ++ v -> v = [] /\ S i = length D /\ x = nth i D NUL.
Proof.
  intros (_ & Li & U & N) u v E. destruct v as [|v0 v] using rev_ind.
  - split; [reflexivity|]. rewrite app_nil_r in E.
    assert (L0 : (0 < length D)%nat) by (cbn; lia).
    destruct (length D) as [|k] eqn:EL; [lia|].
    assert (F : D = firstn k D ++ [nth k D NUL]) by (rewrite <- firstn_snoc by lia; rewrite <- EL; symmetry; apply firstn_all).
    rewrite F, app_assoc in E. apply snoc_inv in E. destruct E as [E X]. subst x.
    destruct k as [|k].
    + assert (i = 0)%nat by lia. subst i. split; reflexivity.
    + assert (S k = i) by (eapply U; [|exact E]; lia). subst i. split; reflexivity.
  - exfalso. rewrite !app_assoc in E. apply snoc_inv in E. destruct E as [E _]. apply (N u v). rewrite <- app_assoc in E. exact E.
Qed.
Lemma matched_step w i x : matched w i ->
  (x = nth i D NUL -> S i <> length D -> matched (w ++ [x]) (S i)) /\
  (x <> nth i D NUL -> x = nth 0 D NUL -> S 0 <> length D -> matched (w ++ [x]) 1) /\
  (x <> nth i D NUL -> x <> nth 0 D NUL -> matched (w ++ [x]) 0).
Proof.
  intros M. pose proof M as ((u0 & W) & Li & U & N).
  assert (Last : forall j u, (0 < j <= length D)%nat -> w ++ [x] = u ++ firstn j D -> x = nth (j - 1) D NUL /\ ((j = 1)%nat \/ (j - 1 = i)%nat)).
  { intros j u Lj E. destruct j as [|j]; [lia|]. rewrite firstn_snoc in E by lia. rewrite app_assoc in E. apply snoc_inv in E. destruct E as [E X].
    replace (S j - 1)%nat with j by lia. split; [exact X|]. destruct j as [|j]; [left; reflexivity|right]. eapply U; [|exact E]. lia. }
  split; [|split].
  - intros X L. split; [exists u0; rewrite firstn_snoc by exact Li; rewrite W, <- app_assoc, X; reflexivity|]. split; [lia|]. split.
    + intros j u Lj E. destruct (Last _ _ Lj E) as [Xj [->|Hj]]; [|lia]. cbn in Xj. rewrite Xj in X. symmetry in X. apply close_paren in X. lia.
    + intros u v E. destruct (matched_occurs _ _ _ M _ _ E) as (_ & H & _). lia.
  - intros X X0 L. split; [exists w; subst x; reflexivity|]. split; [cbn in *; lia|]. split.
    + intros j u Lj E. destruct (Last _ _ Lj E) as [Xj [->|Hj]]; [reflexivity|]. rewrite Hj in Xj. contradiction.
    + intros u v E. destruct (matched_occurs _ _ _ M _ _ E) as (_ & _ & H). contradiction.
  - intros X X0. split; [exists (w ++ [x]); cbn; rewrite app_nil_r; reflexivity|]. split; [cbn; lia|]. split.
    + intros j u Lj E. destruct (Last _ _ Lj E) as [Xj [->|Hj]]; [cbn in Xj; contradiction|]. rewrite Hj in Xj. contradiction.
    + intros u v E. destruct (matched_occurs _ _ _ M _ _ E) as (_ & _ & H). contradiction.
Qed.
Lemma raw_rest_spec n : forall i w st S p st', raw_rest n D i st = Some st' -> Clean st S p -> matched w i ->
  exists s f S', eats st S p (s ++ f) st' S' /\ cs st' = rev (s ++ f) ++ cs st /\ (exists u, w ++ s = u ++ D) /\ (forall u v, w ++ s = u ++ D ++ v -> v = []) /\
    suffixed f /\ back st' = None /\ then_ S' (fun c => match f with [] => letter c | _ => ident c end = false).
Proof.
  induction n as [|n IH]; intros i w st S p st' E K M; [discriminate E|]. cbn [raw_rest] in E. unfold geth in E. destruct (get false st) as [c st1] eqn:G.
  destruct (get_clean _ _ _ _ _ K G) as (X & K1 & C1). destruct (ch c) as [x|] eqn:Ec; [|discriminate E].
  symmetry in X. apply hd_some in X. unfold char in K1, E. rewrite Ec in K1, E.
  set (st2 := append [x] st1) in E. assert (K2 : Clean st2 (tl S) (adv [x] p)) by (apply Clean_append; exact K1).
  assert (C2 : cs st2 = x :: cs st) by (unfold st2; rewrite append_cs, C1; reflexivity).
  pose proof (matched_step w i x M) as (M1 & M2 & M3).
  assert (Go : forall i', raw_rest n D i' st2 = Some st' -> matched (w ++ [x]) i' ->
    exists s f S', eats st S p (s ++ f) st' S' /\ cs st' = rev (s ++ f) ++ cs st /\ (exists u, w ++ s = u ++ D) /\ (forall u v, w ++ s = u ++ D ++ v -> v = []) /\
    suffixed f /\ back st' = None /\ then_ S' (fun c => match f with [] => letter c | _ => ident c end = false)).
  { intros i' E' M'. destruct (IH _ _ _ _ _ _ E' K2 M') as (s & f & S' & Ea & Cs & Oc & Mi & Sf & Bk & Th).
    exists (x :: s), f, S'. split; [cbn [app]; apply (eats_cons st S p [] x (tl S) st2); [constructor|exact X|exact Ea]|].
    split; [rewrite Cs, C2; cbn [app]; apply rev_cons_app|].
    rewrite <- app_assoc in Oc, Mi. repeat split; assumption. }
  assert (Fin : suffix n st2 = Some st' -> x = nth i D NUL -> Datatypes.S i = length D ->
    exists s f S', eats st S p (s ++ f) st' S' /\ cs st' = rev (s ++ f) ++ cs st /\ (exists u, w ++ s = u ++ D) /\ (forall u v, w ++ s = u ++ D ++ v -> v = []) /\
    suffixed f /\ back st' = None /\ then_ S' (fun c => match f with [] => letter c | _ => ident c end = false)).
  { intros E' Xi Li. destruct K2 as (Kb & Kr). destruct (suffix_spec _ _ _ _ _ E' (Rep_clean _ _ _ (conj Kb Kr)) Kb) as (f & S' & Ea & Cs & Sf & Bk & Th).
    exists [x], f, S'. split; [cbn [app]; apply (eats_cons st S p [] x (tl S) st2); [constructor|exact X|exact Ea]|].
    split; [rewrite Cs, C2; cbn [app]; apply rev_cons_app|]. split; [|split; [|repeat split; assumption]].
    - destruct M as ((u & ->) & Lt & _). exists u. rewrite <- app_assoc, Xi. rewrite <- firstn_snoc by exact Lt. rewrite Li, firstn_all. reflexivity.
    - intros u v Ev. apply (matched_occurs _ _ _ M) in Ev. apply Ev. }
  destruct (ceqb x (nth i D NUL)) eqn:Exi; cbn [negb andb] in E.
  - rewrite Exi in E. apply ceqb_eq in Exi. destruct (Datatypes.S i =? length D)%nat eqn:EL.
    + apply Nat.eqb_eq in EL. apply Fin; assumption.
    + apply Nat.eqb_neq in EL. apply (Go _ E). apply M1; assumption.
  - apply ceqb_neq in Exi. destruct (i =? 0)%nat eqn:Ei; cbn [negb] in E.
    + apply Nat.eqb_eq in Ei. subst i. destruct (ceqb x (nth 0 D NUL)) eqn:E0; [apply ceqb_eq in E0; contradiction|]. apply (Go _ E). apply M3; assumption.
    + destruct (ceqb x (nth 0 D NUL)) eqn:E0.
      * apply ceqb_eq in E0. assert (L1 : (1 =? length D)%nat = false) by (apply Nat.eqb_neq; unfold D, raw_close; cbn; rewrite app_length; cbn; lia).
        rewrite L1 in E. apply (Go _ E). apply M2; try assumption. apply Nat.eqb_neq in L1. exact L1.
      * apply ceqb_neq in E0. apply (Go _ E). apply M3; assumption.
Qed.
End Raw.
Lemma raw_spec n st S p st' : raw_string_literal n st = Some st' -> Rep st S p -> back st = None ->
  exists d s f S', eats st S p (d ++ ["("%char] ++ s ++ raw_close d ++ f) st' S' /\ cs st' = rev (d ++ ["("%char] ++ s ++ raw_close d ++ f) ++ cs st /\
    okd d /\ (forall x y, s ++ raw_close d = x ++ raw_close d ++ y -> y = []) /\ suffixed f /\ back st' = None /\
    then_ S' (fun c => match f with [] => letter c | _ => ident c end = false).
Proof.
  intros E R B. unfold raw_string_literal in E. destruct (raw_delimiter n [")"%char] st) as [[d0 st1]|] eqn:Dl; [|discriminate E].
  destruct (raw_delimiter_spec _ _ _ _ _ _ _ Dl R B) as (d & s1 & S1 & ES & St & K & C1 & Ed & O).
  assert (ED : rev d0 = raw_close d). { subst d0. cbn [rev]. rewrite rev_app_distr, rev_involutive. reflexivity. }
  rewrite ED in E.
  assert (M0 : matched d [] 0).
  { split; [exists []; reflexivity|]. split; [cbn; lia|]. split.
    - intros j u Lj Eu. exfalso. destruct j as [|j]; [lia|]. cbn in Eu. destruct u; discriminate Eu.
    - intros u v Eu. destruct u; discriminate Eu. }
  destruct (raw_rest_spec d O _ _ _ _ _ _ _ E K M0) as (s & f & S' & (s2 & -> & St2 & R2) & Cs & [u Eu] & Mi & Sf & Bk & Th). cbn [app] in Eu, Mi.
  exists d, u, f, S'. subst s. split.
  - exists (s1 ++ s2). split; [rewrite ES, app_assoc; reflexivity|]. split; [|rewrite adv_app; exact R2].
    replace (d ++ ["("%char] ++ u ++ raw_close d ++ f) with ((d ++ ["("%char]) ++ (u ++ raw_close d) ++ f) by (rewrite <- !app_assoc; reflexivity).
    apply spliced_app; assumption.
  - split; [rewrite Cs, C1, app_assoc, <- rev_app_distr; f_equal; f_equal; rewrite <- !app_assoc; reflexivity|]. split; [exact O|]. split; [exact Mi|]. split; [exact Sf|]. split; assumption.
Qed.

Lemma identifier_spec n : forall id0 st S p id c st', identifier n id0 st = Some (id, c, st') -> Rep st S p -> back st = None ->
  exists text S', eats st S p text st' S' /\ cs st' = rev text ++ cs st /\ all ident text /\ id = rev text ++ id0 /\ back st' = None /\ peek true st' = (c, st') /\
    (forall x, ch c = Some x -> ident x = false).
Proof.
  induction n as [|n IH]; intros id0 st S p id c st' E R B; [discriminate E|]. cbn [identifier] in E. destruct (peek true st) as [d st1] eqn:P.
  destruct (peek_cases _ _ _ _ _ R P) as (C1 & R1 & B1 & A1 & K & T).
  destruct (ch d) as [x|] eqn:Ec.
  - destruct (ident x) eqn:Ix.
    + destruct (T _ eq_refl) as (sp & S1 & Sp & ES & R2 & _ & B2 & _).
      assert (R2' : Rep (takeh d st1) S1 (adv (sp ++ [x]) p)) by exact R2.
      destruct (IH _ _ _ _ _ _ _ E R2' B2) as (text & S' & Ea & Cs & A & Id & Bk & Pk & N).
      exists (x :: text), S'. split; [eapply (eats_cons _ _ _ _ _ _ st1); [exact Sp|exact ES|exact Ea]|].
      split; [rewrite Cs, (takeh_cs _ _ _ Ec), C1; apply rev_cons_app|]. split; [intros y [<-|Y]; [exact Ix|apply A; exact Y]|].
      split; [rewrite Id; apply rev_cons_app|]. repeat split; assumption.
    + injection E as <- <- <-. exists [], S. split; [apply eats_nil; exact R1|]. split; [exact C1|]. split; [intros y []|]. split; [reflexivity|]. split; [exact (B1 B)|]. split; [exact A1|].
      intros y Hy. rewrite Ec in Hy. injection Hy as <-. exact Ix.
  - injection E as <- <- <-. exists [], S. split; [apply eats_nil; exact R1|]. split; [exact C1|]. split; [intros y []|]. split; [reflexivity|]. split; [exact (B1 B)|]. split; [exact A1|].
    intros y Hy. congruence.
Qed.
