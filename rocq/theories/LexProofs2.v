(* Proofs about the lexer: every token is made of characters. *)
From Verif Require Import Base LexModel LexProofs.

(* The states that mode () and word () make, give or take the [ recognition. *)
Definition st_ok (st : lst) : Prop := match md st with Double_quoted | Foreign => True | _ => sspace st = true end.

Lemma word_shorter : forall n s stk cur sq first acc q sep t stk' s', length s <= n -> word_loop stk cur sq first acc q sep s = Some (t, stk', s') -> length s' <= length s.
Proof.
  induction n as [|n IH]; intros s stk cur sq first acc q sep t stk' s' Hl H.
  - destruct s; [|cbn in Hl; lia]. cbn [word_loop] in H. destruct (sq || _); [discriminate|]. injection H as _ _ <-. lia.
  - destruct s as [|c s]; [cbn [word_loop] in H; destruct (sq || _); [discriminate|]; injection H as _ _ <-; lia|].
    cbn [length] in Hl. cbn [word_loop] in H.
    assert (forall stk cur sq first acc q, word_loop stk cur sq first acc q sep s = Some (t, stk', s') -> length s' <= length (c :: s)) as K1.
    { intros a1 a2 a3 a4 a5 a6 K. apply IH in K; [cbn; lia|lia]. }
    repeat match type of H with
    | (if ?x then _ else _) = _ => destruct x
    | (match ?x with [] => _ | _ => _ end) = _ => destruct x as [|? ?] eqn:?
    | None = Some _ => discriminate H
    end; try (eapply K1; exact H); try (injection H as _ _ <-; cbn; lia).
    all: try (apply IH in H; cbn [length] in *; lia).
Qed.

(* A character that does not end a word at its beginning is taken. *)
Lemma word_takes stk cur first acc q sep c s t stk' s' : among (md cur) [Varname] = false ->
  (among (md cur) [Double_quoted] = true -> ceqb c "$"%char || ceqb c "("%char = false) ->
  (among (md cur) [Double_quoted] = false -> is_sep cur c s = false) ->
  word_loop stk cur false first acc q sep (c :: s) = Some (t, stk', s') -> length s' < length (c :: s).
Proof.
  intros Hv Hd Hs H. cbn [word_loop] in H. rewrite Hv, !andb_false_r in H.
  assert (forall stk cur sq first acc q, word_loop stk cur sq first acc q sep s = Some (t, stk', s') -> length s' < length (c :: s)) as K1.
  { intros a1 a2 a3 a4 a5 a6 K. apply (word_shorter (length s)) in K; [cbn; lia|lia]. }
  destruct (ceqb c BSL && escape_applies cur s).
  - destruct s as [|p s]; [discriminate|]. destruct (ceqb p NL); apply (word_shorter (length s)) in H; try lia; cbn; lia.
  - destruct (among (md cur) [Double_quoted]) eqn:E.
    + rewrite (Hd eq_refl) in H. destruct (ceqb c DQ); [destruct (tl stk); [discriminate|]|]; eapply K1; exact H.
    + rewrite (Hs eq_refl) in H. destruct (ceqb c SQ); [eapply K1; exact H|]. destruct (ceqb c DQ); eapply K1; exact H.
Qed.

(* What is left after the spaces. *)
Lemma ml_body_shorter s s' : ml_body s = Some s' -> length s' <= length s.
Proof.
  induction s as [|c s IH]; [discriminate|]. cbn [ml_body]. destruct (ceqb c "#"%char && ml_mark s).
  - intros E. injection E as <-. destruct s; cbn; lia.
  - intros E. apply IH in E. cbn. lia.
Qed.
Lemma to_newline_shorter s : length (to_newline s) <= length s.
Proof. induction s as [|c s IH]; [cbn; lia|]. cbn [to_newline]. destruct (ceqb c NL); cbn [length] in *; lia. Qed.
Lemma comment_shorter s s' : comment s = Some s' -> length s' <= length s.
Proof.
  unfold comment. destruct (ml_mark s) eqn:E; intros H.
  - apply ml_body_shorter in H. destruct s; cbn in *; lia.
  - injection H as <-. apply to_newline_shorter.
Qed.

Definition not_space (nl start : bool) (s : bytes) : Prop :=
  match s with
  | [] => True
  | c :: s' => ceqb c SP = false /\ ceqb c TAB = false /\ ceqb c "#"%char = false /\ (ceqb c NL = true -> nl = true /\ start = false)
  end.
Lemma skip_loop_ok : forall n nl r start s r' s', skip_loop n nl r start s = Some (r', s') -> length s' <= length s /\ not_space nl start s'.
Proof.
  induction n as [|n IH]; intros nl r start s r' s' H; [discriminate|]. cbn [skip_loop] in H. destruct s as [|c s]; [injection H as _ <-; cbn; auto|].
  destruct (ceqb c SP) eqn:E1; [apply IH in H; cbn; intuition lia|]. destruct (ceqb c TAB) eqn:E2; [apply IH in H; cbn; intuition lia|]. cbn [orb] in H.
  destruct (ceqb c NL) eqn:E3.
  - destruct nl; cbn [negb] in H; [|apply IH in H; cbn; intuition lia]. destruct start; [apply IH in H; cbn; intuition lia|].
    injection H as _ <-. split; [lia|]. cbn. rewrite E1, E2. repeat split; auto. apply ceqb_eq in E3. subst c. reflexivity.
  - destruct (ceqb c "#"%char) eqn:E4.
    + destruct (comment s) as [s2|] eqn:Ec; [|discriminate]. apply comment_shorter in Ec. apply IH in H. cbn. intuition lia.
    + destruct (ceqb c BSL) eqn:E5.
      * destruct s as [|d s]; [injection H as _ <-; split; [lia|]; cbn; rewrite E1, E2, E3, E4; auto using eq_refl; repeat split; auto; discriminate|].
        destruct (ceqb d NL); [apply IH in H; cbn; intuition lia|]. injection H as _ <-. split; [lia|]. cbn. rewrite E1, E2, E3, E4. repeat split; auto; discriminate.
      * injection H as _ <-. split; [lia|]. cbn. rewrite E1, E2, E3, E4. repeat split; auto; discriminate.
Qed.

(* There is always enough fuel. *)
Lemma lex_fuel : forall n nl r start s m, length s < n -> length s < m -> skip_loop n nl r start s = skip_loop m nl r start s.
Proof.
  induction n as [|n IH]; intros nl r start s m Hn Hm; [lia|]. destruct m as [|m]; [lia|]. cbn [skip_loop]. destruct s as [|c s]; [reflexivity|]. cbn [length] in *.
  rewrite (IH nl true start s m), (IH nl false start s m) by lia.
  assert (match comment s with Some s'' => skip_loop n nl true start s'' | None => None end = match comment s with Some s'' => skip_loop m nl true start s'' | None => None end) as ->.
  { destruct (comment s) eqn:Ec; [|reflexivity]. apply comment_shorter in Ec. apply IH; lia. }
  destruct s as [|d s]; [reflexivity|]. cbn [length] in *. rewrite (IH nl r start s m) by lia. reflexivity.
Qed.

Lemma skip_spaces_ok st l r f l1 : sspace st = true -> skip_spaces st l = Some (r, f, l1) ->
  length (input l1) <= length (input l) /\ not_space (snewline st) (bol l) (input l1) /\ stack l1 = stack l.
Proof.
  intros Hs H. unfold skip_spaces in H. rewrite Hs in H. cbn [negb] in H. destruct (skip_loop _ _ _ _ _) as [[r' s']|] eqn:E; [|discriminate].
  injection H as _ _ <-. apply skip_loop_ok in E. cbn. tauto.
Qed.

Lemma ret_inv t stk s l t' l' : ret t stk s l = Some (t', l') -> t' = t /\ input l' = s /\ stack l' = stk.
Proof. unfold ret. intros H. injection H as <- <-. auto. Qed.

Definition progress (l : lexer) (t : tok) (l' : lexer) : Prop :=
  tt t = TEos \/ length (input l') < length (input l).

Lemma lcbraces_shorter s : length (snd (lcbraces s)) <= length s.
Proof. induction s as [|c s IH]; [cbn; lia|]. cbn [lcbraces]. destruct (ceqb c "{"%char); cbn [snd length]; lia. Qed.
Lemma tl_shorter {A} (s : list A) : length (tl s) <= length s.
Proof. destruct s; cbn; lia. Qed.

Ltac next_cases H :=
  repeat match type of H with
  | (if ?x then _ else _) = Some _ => let E := fresh "E" in destruct x eqn:E
  | (let (_, _) := ?x in _) = Some _ => let E := fresh "E" in destruct x eqn:E
  | (let _ := _ in _) = Some _ => cbv zeta in H
  | None = Some _ => discriminate H
  end.

Lemma word_var stk cur first acc q sep s t stk' s' : among (md cur) [Varname] = true -> among (md cur) [Double_quoted] = false ->
  word_loop stk cur false first acc q sep s = Some (t, stk', s') ->
  length s' < length s \/ (stk' = tl stk /\ tt t = TWord /\ tv t = rev acc).
Proof.
  intros Hv Hd H. destruct s as [|c s]; cbn [word_loop] in H; rewrite Hd, Hv in H; cbn [orb] in H; [injection H as <- <- <-; auto|].
  rewrite !andb_true_r in H. destruct (ceqb c BSL).
  - destruct (negb first); [injection H as <- <- <-; auto|]. destruct s as [|d s]; [discriminate|]. destruct (simple_escape d); [|discriminate].
    injection H as <- <- <-. left. cbn. lia.
  - cbn [andb] in H. destruct (first && mem (special cur) c); [injection H as <- <- <-; left; cbn; lia|].
    destruct (var_done cur first _ c s); [injection H as <- <- <-; auto|].
    left. apply (word_shorter (length s)) in H; [cbn; lia|lia].
Qed.

Definition empty_name (l : lexer) (t : tok) (l' : lexer) : Prop :=
  exists st, hd_error (stack l) = Some st /\ md st = Varname /\ stack l' = tl (stack l) /\ tt t = TWord /\ tv t = [].

Lemma ceqb_sym x y : ceqb x y = ceqb y x.
Proof. destruct (ceqb x y) eqn:E; symmetry; [apply ceqb_eq in E; subst; apply ceqb_eq; reflexivity|]. apply ceqb_neq. apply ceqb_neq in E. congruence. Qed.

Lemma ceqb_refl x : ceqb x x = true.
Proof. apply ceqb_eq. reflexivity. Qed.

Lemma next_simple_progress st sep first l t l' : hd_error (stack l) = Some st ->
  match md st with Eval | Double_quoted | Foreign => False | _ => True end ->
  not_space (snewline st) first (input l) ->
  next_simple st sep first l = Some (t, l') -> progress l t l' \/ empty_name l t l'.
Proof.
  intros Hst Hm Hns H. unfold next_simple in H. destruct (input l) as [|c s] eqn:Ei.
  - apply ret_inv in H. left. left. destruct H as [-> _]. reflexivity.
  - cbv zeta in H. set (st' := set_lsb false (lsb_unsep st) st) in *. set (stk := st' :: tl (stack l)) in *.
    destruct Hns as [Hn1 [Hn2 [Hn3 Hn4]]].
    assert (forall t0 stk0, ret t0 stk0 s l = Some (t, l') -> progress l t l' \/ empty_name l t l') as R1.
    { intros t0 stk0 K. apply ret_inv in K. left. right. rewrite Ei. destruct K as [_ [-> _]]. cbn. lia. }
    assert (forall t0 stk0, ret t0 stk0 (tl s) l = Some (t, l') -> progress l t l' \/ empty_name l t l') as R2.
    { intros t0 stk0 K. apply ret_inv in K. left. right. rewrite Ei. destruct K as [_ [-> _]]. pose proof (tl_shorter s). cbn. lia. }
    destruct (lsb st && ceqb c "["%char && _); [eapply R1; exact H|].
    destruct (ceqb c (spair st)) eqn:Ep; [eapply R1; exact H|].
    destruct (ceqb c NL) eqn:EN; [eapply R1; exact H|].
    destruct (ceqb c "$"%char) eqn:E1; [eapply R1; exact H|].
    destruct (ceqb c ")"%char) eqn:E2; [eapply R1; exact H|].
    destruct (ceqb c "("%char) eqn:E3; [eapply R1; exact H|].
    assert (md st' = md st) as Em by reflexivity.
    assert (ret_word l (word stk st' sep (c :: s)) = Some (t, l') -> (md st <> Varname -> is_sep st' c s = false) -> progress l t l' \/ empty_name l t l') as RW.
    { intros K Hsep. unfold ret_word in K. destruct (word stk st' sep (c :: s)) as [[[t0 stk0] s0]|] eqn:Ew; [|discriminate]. apply ret_inv in K. destruct K as [-> [K2 K3]].
      unfold word in Ew. destruct (among (md st) [Varname]) eqn:Ev.
      - apply word_var in Ew; [|exact Ev|rewrite Em; destruct (md st); try reflexivity; contradiction].
        destruct Ew as [Ew|[Ew1 [Ew2 Ew3]]]; [left; right; rewrite Ei, K2; exact Ew|]. right. exists st. repeat split; auto.
        + destruct (md st); try discriminate Ev. reflexivity.
        + rewrite K3, Ew1. reflexivity.
      - apply word_takes in Ew; [left; right; rewrite Ei, K2; exact Ew|exact Ev|rewrite Em; destruct (md st); try discriminate; contradiction|].
        intros _. apply Hsep. intros A. rewrite A in Ev. discriminate. }
    assert (forall f2 s2, seps (md st) = (f2, s2) -> sep_seq f2 s2 c (hd_error s) = false -> is_sep st' c s = false) as Hsep.
    { intros f2 s2 Es K. unfold is_sep. rewrite Em, Es. cbn [fst snd]. change (spair st') with (spair st). rewrite Ep, K. reflexivity. }
    assert (ceqb NL c = false) as EN' by (rewrite ceqb_sym; exact EN).
    rewrite ceqb_sym in E1, E2, E3, Hn1, Hn2, Hn3. change SP with " "%char in Hn1.
    destruct (md st) eqn:Emd; try contradiction; cbn [among existsb lmode_eqb orb andb negb] in H.
    all: repeat match type of H with
      | (if (?x && ?y && ?z) then _ else _) = _ => let E := fresh "T" in destruct (x && y && z) eqn:E
      | (if (?x && ?y) then _ else _) = _ => let E := fresh "T" in destruct (x && y) eqn:E
      | (if (match ?x with _ => _ end) then _ else _) = _ => let E := fresh "T" in destruct x eqn:E
      | (if ?x then _ else _) = _ => let E := fresh "T" in destruct x eqn:E
      | (let (_, _) := ?x in _) = _ => let E := fresh "T" in destruct x eqn:E
      end; try (eapply R1; exact H); try (eapply R2; exact H).
    all: try (apply RW; [exact H|]; intros _; eapply Hsep; [reflexivity|]; cbn [sep_seq b app fst snd nlb]).
    all: repeat match goal with
      | |- context [ceqb ?x ?y] => is_var y; let E := fresh "K" in destruct (ceqb x y) eqn:E; [apply ceqb_eq in E; subst y; try discriminate; try solve [match goal with K : ceqb ?a ?a = false |- _ => rewrite ceqb_refl in K; discriminate K end]|]; cbn [andb orb]
      end; try reflexivity.
    all: try (match goal with K : ceqb ?a ?a && ?m = false |- _ => rewrite ceqb_refl in K; cbn [andb] in K; rewrite K; reflexivity end).
    left. right. rewrite Ei. apply ret_inv in H. destruct H as [_ [-> _]]. cbn [lcbraces] in T1. destruct (ceqb c "{"%char) eqn:Eb; [|rewrite andb_false_r in T0; discriminate].
    injection T1 as _ <-. pose proof (lcbraces_shorter s). cbn [length]. lia.
Qed.

Lemma next_eval_progress st sep l t l' : md st = Eval -> not_space (snewline st) (bol l) (input l) \/ True -> (exists nl f, not_space nl f (input l)) ->
  next_eval st sep l = Some (t, l') -> progress l t l'.
Proof.
  intros Hm _ [nl [f Hns]] H. unfold next_eval in H. destruct (input l) as [|c s] eqn:Ei; [discriminate|].
  cbv zeta in H. set (st' := set_lsb false (lsb_unsep st) st) in *. set (stk := st' :: tl (stack l)) in *.
  destruct Hns as [Hn1 [Hn2 [Hn3 Hn4]]].
  assert (forall t0 stk0, ret t0 stk0 s l = Some (t, l') -> progress l t l') as R1.
  { intros t0 stk0 K. apply ret_inv in K. right. rewrite Ei. destruct K as [_ [-> _]]. cbn. lia. }
  assert (forall t0 stk0, ret t0 stk0 (tl s) l = Some (t, l') -> progress l t l') as R2.
  { intros t0 stk0 K. apply ret_inv in K. right. rewrite Ei. destruct K as [_ [-> _]]. pose proof (tl_shorter s). cbn. lia. }
  destruct (lsb st && ceqb c "["%char && _); [eapply R1; exact H|].
  destruct (ceqb c (spair st)) eqn:Ep; [eapply R1; exact H|].
  assert (md st' = Eval) as Em by exact Hm.
  assert (ret_word l (word stk st' sep (c :: s)) = Some (t, l') -> sep_seq (fst (seps Eval)) (snd (seps Eval)) c (hd_error s) = false -> progress l t l') as RW.
  { intros K Hsep. unfold ret_word in K. destruct (word stk st' sep (c :: s)) as [[[t0 stk0] s0]|] eqn:Ew; [|discriminate]. apply ret_inv in K. destruct K as [-> [K2 K3]].
    unfold word in Ew. apply word_takes in Ew; [right; rewrite Ei, K2; exact Ew|rewrite Em; reflexivity|rewrite Em; discriminate|].
    intros _. unfold is_sep. rewrite Em, Hsep. change (spair st') with (spair st). rewrite Ep. reflexivity. }
  destruct (ceqb c NL) eqn:EN; [discriminate|]. assert (ceqb NL c = false) as EN' by (rewrite ceqb_sym; exact EN).
  rewrite ceqb_sym in Hn1, Hn2, Hn3. change SP with " "%char in Hn1.
  repeat match type of H with
  | (if (?x && ?y) then _ else _) = _ => let E := fresh "T" in destruct (x && y) eqn:E
  | (if (match ?x with _ => _ end) then _ else _) = _ => let E := fresh "T" in destruct x eqn:E
  | (if ?x then _ else _) = _ => let E := fresh "T" in destruct x eqn:E
  end; try (eapply R1; exact H); try (eapply R2; exact H).
  all: apply RW; [exact H|]; cbn [seps fst snd sep_seq b app nlb].
  all: repeat match goal with
    | |- context [ceqb ?x ?y] => is_var y; let E := fresh "K" in destruct (ceqb x y) eqn:E; [apply ceqb_eq in E; subst y; try discriminate; try solve [match goal with K : ceqb ?a ?a = false |- _ => rewrite ceqb_refl in K; discriminate K end]|]; cbn [andb orb]
    end; try reflexivity.
  all: try (match goal with K : ceqb ?a ?a && ?m = false |- _ => rewrite ceqb_refl in K; cbn [andb] in K; rewrite K; reflexivity end).
Qed.

Lemma next_progress l t l' : Forall st_ok (stack l) -> next l = Some (t, l') -> progress l t l' \/ empty_name l t l'.
Proof.
  intros Hok H. unfold next in H. destruct (stack l) as [|st stk] eqn:Es; [discriminate|]. inversion Hok as [|? ? Hst _]; subst. unfold st_ok in Hst.
  assert (forall P : Prop, sspace st = true -> (match skip_spaces st l with Some (sep, first, l1) => next_simple st sep first l1 | None => None end = Some (t, l')) ->
    match md st with Eval | Double_quoted | Foreign => False | _ => True end -> progress l t l' \/ empty_name l t l') as K.
  { intros _ Hsp K Hm. destruct (skip_spaces st l) as [[[r f] l1]|] eqn:E; [|discriminate].
    destruct (skip_spaces_ok st l r f l1 Hsp E) as [L1 [L2 L3]].
    assert (f = bol l) as ->. { unfold skip_spaces in E. rewrite Hsp in E. cbn [negb] in E. destruct (skip_loop _ _ _ _ _) as [[? ?]|]; [|discriminate]. injection E as _ -> _. reflexivity. }
    apply next_simple_progress in K; [|rewrite L3, Es; reflexivity|exact Hm|exact L2].
    destruct K as [[K|K]|K]; [left; left; exact K|left; right; lia|right]. unfold empty_name in *. rewrite L3 in K. exact K. }
  destruct (md st) eqn:Em; try (apply (K True); [exact Hst|exact H|exact I]).
  - destruct (skip_spaces st l) as [[[r f] l1]|] eqn:E; [|discriminate]. destruct (skip_spaces_ok st l r f l1 Hst E) as [L1 [L2 L3]].
    apply next_eval_progress in H; [|exact Em|right; exact I|eauto]. left. destruct H as [H|H]; [left; exact H|right; lia].
  - left. right. unfold next_quoted in H. destruct (input l) as [|c s] eqn:Ei; [discriminate|].
    destruct (ceqb c "$"%char) eqn:E1; [apply ret_inv in H; destruct H as [_ [-> _]]; cbn; lia|].
    destruct (ceqb c "("%char) eqn:E2; [apply ret_inv in H; destruct H as [_ [-> _]]; cbn; lia|].
    unfold ret_word in H. destruct (word (stack l) st false (c :: s)) as [[[t0 stk0] s0]|] eqn:Ew; [|discriminate]. apply ret_inv in H. destruct H as [-> [-> _]].
    unfold word in Ew. apply word_takes in Ew; [exact Ew|rewrite Em; reflexivity|rewrite E1, E2; reflexivity|rewrite Em; discriminate].
  - discriminate.
Qed.

(* The states stay that way. *)
Lemma set_lsb_ok x y st : st_ok st -> st_ok (set_lsb x y st).
Proof. exact (fun H => H). Qed.
Lemma tl_ok l : Forall st_ok l -> Forall st_ok (tl l).
Proof. destruct l; [auto|]. intros H. inversion H. assumption. Qed.
Lemma word_states : forall n s stk cur sq first acc q sep t stk' s', length s <= n -> Forall st_ok stk ->
  word_loop stk cur sq first acc q sep s = Some (t, stk', s') -> Forall st_ok stk'.
Proof.
  induction n as [|n IH]; intros s stk cur sq first acc q sep t stk' s' Hl Hok H.
  - destruct s; [|cbn in Hl; lia]. cbn [word_loop] in H. destruct (sq || _); [discriminate|]. injection H as _ <- _. match goal with |- context [if ?x then _ else _] => destruct x end; auto using tl_ok.
  - destruct s as [|c s]; [cbn [word_loop] in H; destruct (sq || _); [discriminate|]; injection H as _ <- _; match goal with |- context [if ?x then _ else _] => destruct x end; auto using tl_ok|].
    cbn [length] in Hl. cbn [word_loop] in H.
    assert (forall stk cur sq first acc q, Forall st_ok stk -> word_loop stk cur sq first acc q sep s = Some (t, stk', s') -> Forall st_ok stk') as K1.
    { intros a1 a2 a3 a4 a5 a6 Ka K. eapply IH; [|exact Ka|exact K]. lia. }
    assert (Forall st_ok (dq_state :: stk)) as Hdq by (constructor; [exact I|exact Hok]).
    pose proof (tl_ok _ Hok) as Htl.
    repeat match type of H with
    | (if ?x then _ else _) = _ => let E := fresh "E" in destruct x eqn:E
    | (match ?x with [] => _ | _ => _ end) = _ => let E := fresh "E" in destruct x as [|? ?] eqn:E
    | None = Some _ => discriminate H
    end; try (eapply K1; [|exact H]; congruence || assumption); try (injection H as _ <- _; repeat match goal with |- context [if ?x then _ else _] => destruct x end; assumption).
    all: try (eapply IH; [|exact Hok|exact H]; cbn [length] in *; lia).
    all: idtac.
Qed.

Lemma next_states l t l' : Forall st_ok (stack l) -> next l = Some (t, l') -> Forall st_ok (stack l').
Proof.
  intros Hok H. unfold next in H. destruct (stack l) as [|st stk] eqn:Es; [discriminate|].
  assert (Forall st_ok stk) as Hstk by (inversion Hok; assumption). assert (st_ok st) as Hst by (inversion Hok; assumption).
  assert (Forall st_ok (set_lsb false (lsb_unsep st) st :: stk)) as Hok' by (constructor; assumption).
  assert (forall r f l1, skip_spaces st l = Some (r, f, l1) -> stack l1 = st :: stk) as Hsk.
  { intros r f l1 E. unfold skip_spaces in E. destruct (negb (sspace st)); [injection E as _ _ <-; exact Es|]. destruct (skip_loop _ _ _ _ _) as [[? ?]|]; [|discriminate]. injection E as _ _ <-. exact Es. }
  assert (forall l1 c s sep, ret_word l1 (word (set_lsb false (lsb_unsep st) st :: stk) (set_lsb false (lsb_unsep st) st) sep (c :: s)) = Some (t, l') -> Forall st_ok (stack l')) as Hw.
  { intros l1 c s sep K. unfold ret_word in K. destruct (word _ _ _ _) as [[[t0 stk0] s0]|] eqn:Ew; [|discriminate]. apply ret_inv in K. destruct K as [_ [_ ->]].
    eapply word_states; [|exact Hok'|exact Ew]. apply Nat.le_refl. }
  assert (match skip_spaces st l with Some (sep, first, l1) => next_simple st sep first l1 | None => None end = Some (t, l') -> Forall st_ok (stack l')) as K.
  { intros K. destruct (skip_spaces st l) as [[[r f] l1]|] eqn:E; [|discriminate]. specialize (Hsk _ _ _ eq_refl).
    unfold next_simple in K. cbv zeta in K. rewrite Hsk in K. cbn [tl] in K.
    destruct (input l1) as [|c s]; [apply ret_inv in K; destruct K as [_ [_ ->]]; exact Hok'|].
    repeat match type of K with
    | (if ?x then _ else _) = _ => let E := fresh "T" in destruct x
    | (let (_, _) := ?x in _) = _ => destruct x
    end; try (apply ret_inv in K; destruct K as [_ [_ ->]]; assumption || (apply tl_ok; assumption)); try (eapply Hw; exact K).
    apply ret_inv in K. destruct K as [_ [_ ->]].
    assert (forall x, Forall st_ok x -> Forall st_ok (match x with t :: r => if among (md t) [Normal] then set_lsb true false t :: r else x | [] => [] end)) as Kx.
    { intros [|t1 x] Hx; [constructor|]. destruct (among (md t1) [Normal]); [|exact Hx]. inversion Hx; subst. constructor; [apply set_lsb_ok|]; assumption. }
    apply Kx. destruct (value_like (md st)); assumption. }
  destruct (md st) eqn:Em; try (apply K; exact H).
  - destruct (skip_spaces st l) as [[[r f] l1]|] eqn:E; [|discriminate]. specialize (Hsk _ _ _ eq_refl). unfold next_eval in H. cbv zeta in H. rewrite Hsk in H. cbn [tl] in H.
    destruct (input l1) as [|c s]; [discriminate|].
    repeat match type of H with (if ?x then _ else _) = _ => destruct x end; try (apply ret_inv in H; destruct H as [_ [_ ->]]; assumption); try (eapply Hw; exact H). discriminate.
  - unfold next_quoted in H. destruct (input l) as [|c s]; [discriminate|].
    destruct (ceqb c "$"%char); [apply ret_inv in H; destruct H as [_ [_ ->]]; rewrite Es; exact Hok|].
    destruct (ceqb c "("%char); [apply ret_inv in H; destruct H as [_ [_ ->]]; rewrite Es; exact Hok|].
    unfold ret_word in H. destruct (word _ _ _ _) as [[[t0 stk0] s0]|] eqn:Ew; [|discriminate]. apply ret_inv in H. destruct H as [_ [_ ->]].
    eapply word_states; [|rewrite Es in Ew; exact Hok|rewrite Es in Ew; exact Ew]. apply Nat.le_refl.
  - discriminate.
Qed.
