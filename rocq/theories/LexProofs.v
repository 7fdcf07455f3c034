(* Proofs about the lexer: how the text written by write_string () is read back. *)
From Verif Require Import Base LexModel NameModel.

Arguments ceqb : simpl never.

Definition value_mode (pr : ascii) (st : lst) : Prop :=
  md st = Value /\ escs st = None /\ sspace st = true /\ snewline st = true /\ spair st = pr.

(* Characters that are pair separators. *)
Definition ok_pair (pr : ascii) : Prop := ~ In pr (b "'""\").

Lemma sep_seq_spaces f : forall s c nx, length s = length f -> forallb (ceqb SP) s = true -> sep_seq f s c nx = existsb (ceqb c) f.
Proof.
  induction f as [|x f IH]; intros [|y s] c nx Hl Hs; try discriminate; [reflexivity|]. cbn [forallb] in Hs. apply andb_true_iff in Hs. destruct Hs as [Hy Hs]. cbn [sep_seq existsb].
  rewrite (IH s c nx ltac:(cbn in Hl; lia) Hs). apply ceqb_eq in Hy. subst y.
  assert (ceqb SP SP = true) as -> by reflexivity. rewrite orb_true_l, andb_true_r. f_equal.
  destruct (ceqb x c) eqn:E; [apply ceqb_eq in E; subst; symmetry; apply ceqb_eq; reflexivity|]. symmetry. apply ceqb_neq. apply ceqb_neq in E. congruence.
Qed.

Definition vseps : bytes := fst (seps Value).
Lemma value_is_sep pr st c s : value_mode pr st -> is_sep st c s = ceqb c pr || mem vseps c.
Proof.
  intros [E [_ [_ [_ P]]]]. unfold is_sep. rewrite E, P. f_equal. apply sep_seq_spaces; reflexivity.
Qed.

(* The rest of the input ends a word. *)
Definition stop (pr : ascii) (s : bytes) : Prop := match s with [] => True | c :: _ => ceqb c pr || mem vseps c = true end.
Definition plainc (pr : ascii) (c : ascii) : bool :=
  negb (ceqb c pr || mem vseps c) && negb (ceqb c SQ) && negb (ceqb c DQ) && negb (ceqb c BSL).

Lemma among_value m l : m = Value -> among m l = among Value l.
Proof. intros ->. reflexivity. Qed.

Lemma word_stop pr stk st first acc q sep s : value_mode pr st -> ok_pair pr -> stop pr s ->
  word_loop stk st false first acc q sep s = Some (mktok TWord (rev acc) sep (qt q) (qcomp q) (qfirst q), stk, s).
Proof.
  intros H Hp Hs. pose proof H as [E [Ee _]]. destruct s as [|c s]; cbn [word_loop]; rewrite !(among_value _ _ E); cbn [among existsb lmode_eqb orb]; [reflexivity|].
  rewrite !andb_false_r. cbn [stop] in Hs.
  assert (ceqb c BSL = false) as ->.
  { apply ceqb_neq. intros ->. change (mem vseps BSL) with false in Hs. rewrite orb_false_r in Hs. apply ceqb_eq in Hs. subst pr. apply Hp. cbn. auto. }
  cbn [andb]. rewrite (value_is_sep pr st c s H), Hs. reflexivity.
Qed.

Lemma word_first pr stk st first first' acc q sep s : value_mode pr st -> word_loop stk st false first acc q sep s = word_loop stk st false first' acc q sep s.
Proof.
  intros [E _]. destruct s as [|c s]; cbn [word_loop]; rewrite !(among_value _ _ E); cbn [among existsb lmode_eqb orb]; [reflexivity|].
  rewrite !andb_false_r. reflexivity.
Qed.

Definition nonempty_q (q : quo) : quo := mkq (qt q) false (qfirst q).
Lemma q_append_false empty q : q_append false false empty q = nonempty_q q.
Proof. unfold q_append, nonempty_q. destruct q as [t [] f]; destruct empty; cbn; rewrite ?orb_false_r; reflexivity. Qed.

Lemma word_plain1 pr stk st first acc q sep c s : value_mode pr st -> plainc pr c = true ->
  word_loop stk st false first acc q sep (c :: s) = word_loop stk st false false (c :: acc) (nonempty_q q) sep s.
Proof.
  intros H Hc. pose proof H as [E _]. cbn [word_loop]. rewrite !(among_value _ _ E). cbn [among existsb lmode_eqb orb]. rewrite !andb_false_r.
  unfold plainc in Hc. rewrite !andb_true_iff, !negb_true_iff in Hc. destruct Hc as [[[H1 H2] H3] H4].
  rewrite H4. cbn [andb]. rewrite (value_is_sep pr st c s H), H1, H2, H3, q_append_false. reflexivity.
Qed.

Lemma word_plain pr stk st sep s : value_mode pr st -> forall v first acc q, forallb (plainc pr) v = true ->
  word_loop stk st false first acc q sep (v ++ s) = word_loop stk st false false (rev v ++ acc) (if is_empty v then q else nonempty_q q) sep s.
Proof.
  intros H. induction v as [|c v IH]; intros first acc q Hv; [apply (word_first pr); exact H|].
  cbn [forallb] in Hv. apply andb_true_iff in Hv. destruct Hv as [Hc Hv].
  cbn [app]. rewrite (word_plain1 pr _ _ _ _ _ _ _ _ H Hc), (IH false (c :: acc) (nonempty_q q) Hv). cbn [rev is_empty]. rewrite <- app_assoc. cbn [app].
  f_equal. destruct v; reflexivity.
Qed.

Lemma word_single stk st q sep s : forall v acc, mem v SQ = false ->
  word_loop stk st true false acc q sep (v ++ SQ :: s) = word_loop stk st false false (rev v ++ acc) q sep s.
Proof.
  induction v as [|c v IH]; intros acc Hv; [reflexivity|]. cbn [mem existsb] in Hv. apply orb_false_iff in Hv. destruct Hv as [Hc Hv].
  cbn [app word_loop]. assert (ceqb c SQ = false) as -> by (apply ceqb_neq; apply ceqb_neq in Hc; congruence).
  rewrite IH; [|exact Hv]. cbn [rev]. rewrite <- app_assoc. reflexivity.
Qed.

Lemma mem_in l c : mem l c = true <-> In c l.
Proof.
  unfold mem. rewrite existsb_exists. split; [intros [x [Hx E]]; apply ceqb_eq in E; subst; exact Hx|].
  intros H. exists c. split; [exact H|]. apply ceqb_eq. reflexivity.
Qed.
Lemma mem_not l c : mem l c = false <-> ~ In c l.
Proof. rewrite <- mem_in. destruct (mem l c); split; congruence. Qed.

Definition no_nul (v : bytes) : Prop := ~ In NUL v.

Lemma word_double t stk sep s : forall v acc q, no_nul v ->
  (acc = [] -> qfirst q = true) ->
  word_loop (dq_state :: t :: stk) dq_state false false acc q sep (dq_body v ++ DQ :: s) =
  word_loop (t :: stk) t false false (rev v ++ acc) q sep s.
Proof.
  induction v as [|c v IH]; intros acc q Hn Hq.
  - cbn [dq_body flat_map app]. cbn [word_loop]. reflexivity.
  - assert (c <> NUL /\ no_nul v) as [Hc Hn'] by (split; [intros ->; apply Hn; left; reflexivity|intros K; apply Hn; right; exact K]).
    unfold dq_body. cbn [flat_map]. fold (dq_body v).
    assert (forall b0, q_append true b0 (match acc with [] => true | _ => false end) q = q) as Qa.
    { intros b0. unfold q_append. cbn. destruct acc; [rewrite (Hq eq_refl)|]; destruct q as [? [] []]; cbn; rewrite ?orb_true_r; reflexivity || (cbn in Hq; specialize (Hq eq_refl); discriminate). }
    destruct (strchr in_dq c) eqn:E.
    + unfold strchr in E. apply orb_true_iff in E. destruct E as [E|E]; [|apply ceqb_eq in E; contradiction].
      apply existsb_exists in E. destruct E as [x [Hx E]]. apply ceqb_eq in E. subst x.
      cbn [app]. cbn [word_loop]. change (ceqb BSL BSL) with true. cbn [among existsb lmode_eqb md dq_state orb andb].
      assert (escape_applies dq_state (c :: dq_body v ++ DQ :: s) = true) as ->.
      { unfold escape_applies. cbn [escs dq_state]. unfold strchr. apply andb_true_iff. split; [reflexivity|]. apply orb_true_iff. left.
        cbn in Hx. destruct Hx as [<-|[<-|[<-|[<-|[]]]]]; reflexivity. }
      assert (ceqb c NL = false) as -> by (cbn in Hx; destruct Hx as [<-|[<-|[<-|[<-|[]]]]]; reflexivity).
      rewrite Qa. rewrite IH; [|exact Hn'|intros K; discriminate]. cbn [rev]. rewrite <- app_assoc. reflexivity.
    + unfold strchr in E. apply orb_false_iff in E. destruct E as [E _].
      assert (ceqb c BSL = false /\ ceqb c "$"%char = false /\ ceqb c "("%char = false /\ ceqb c DQ = false) as [E1 [E2 [E3 E4]]].
      { cbn in E. rewrite !orb_false_iff in E. destruct E as [K1 [K2 [K3 [K4 _]]]]. repeat split; assumption. }
      cbn [app word_loop]. cbn [among existsb lmode_eqb md dq_state orb andb]. rewrite E1, E2, E3, E4. cbn [andb orb]. rewrite Qa.
      rewrite IH; [|exact Hn'|intros K; discriminate]. cbn [rev]. rewrite <- app_assoc. reflexivity.
Qed.

(* The kinds of quoting of a string that is not a pattern, in the normal mode. *)
Definition special_in (pr : ascii) (v : bytes) : bool := existsb (mem (nsc pr)) v || existsb (mem pc) v.
Definition needs_escape (curly : bool) (v : bytes) : bool := (starts_with "+"%char v && curly) || rc v.
Definition written (pr : ascii) (curly : bool) (v : bytes) : bytes :=
  if mem v SQ then DQ :: dq_body v ++ [DQ]
  else if special_in pr v then SQ :: v ++ [SQ]
  else if needs_escape curly v then BSL :: v
  else v.
Lemma write_string_normal pr v curly : write_string QNormal pr false v None curly = written pr curly v.
Proof.
  unfold write_string, written, special_in, needs_escape. cbn [negb andb orb escaped app].
  destruct (mem v SQ); [reflexivity|]. rewrite orb_false_r. reflexivity.
Qed.

(* The effect on the quoting state. *)
Definition q_written (pr : ascii) (curly : bool) (v : bytes) (empty : bool) (q : quo) : quo :=
  if mem v SQ then q_double empty q
  else if special_in pr v then q_single empty q
  else if needs_escape curly v then mkq (qt q) false (qfirst q || empty)
  else if is_empty v then q else nonempty_q q.

Lemma special_plain pr v c : mem v SQ = false -> special_in pr v = false -> ok_pair pr -> no_nul v -> In c v -> plainc pr c = true.
Proof.
  intros Hq Hs Hp Hn Hi. unfold special_in in Hs. apply orb_false_iff in Hs. destruct Hs as [Hs _].
  assert (mem (nsc pr) c = false) as K.
  { destruct (mem (nsc pr) c) eqn:E; [|reflexivity]. rewrite <- Hs. symmetry. apply existsb_exists. eauto. }
  assert (c <> NUL) as Hc by (intros ->; contradiction).
  assert (ceqb c pr = false) as Kp.
  { apply ceqb_neq. intros ->. assert (mem (nsc pr) pr = true); [|congruence]. apply mem_in. unfold nsc.
    assert (ceqb pr NUL = false) as -> by (apply ceqb_neq; exact Hc). rewrite !in_app_iff. right. right. right. left. reflexivity. }
  assert (forall x, In x (b "{}[]$() " ++ [TAB; NL] ++ b "#\""%") -> ceqb c x = false) as Kx.
  { intros x Hx. apply ceqb_neq. intros ->. assert (mem (nsc pr) x = true); [|congruence]. apply mem_in. unfold nsc.
    rewrite !in_app_iff in *. tauto. }
  unfold plainc. rewrite Kp. cbn [orb negb andb].
  assert (ceqb c SQ = false) as ->.
  { apply ceqb_neq. intros ->. apply mem_not in Hq. contradiction. }
  rewrite (Kx DQ), (Kx BSL) by (cbn; auto 25). unfold mem, vseps. cbn [seps fst existsb b app]. 
  rewrite (Kx " "%char), (Kx "$"%char), (Kx "("%char), (Kx ")"%char), (Kx "{"%char), (Kx "}"%char), (Kx "#"%char), (Kx TAB), (Kx NL) by (cbn; auto 25). reflexivity.
Qed.

(* The written string in the middle of a word. *)
Lemma word_written pr stk st sep s v curly first acc q : value_mode pr st -> ok_pair pr -> no_nul v ->
  word_loop (st :: stk) st false first acc q sep (written pr curly v ++ s) =
  word_loop (st :: stk) st false false (rev v ++ acc) (q_written pr curly v (match acc with [] => true | _ => false end) q) sep s.
Proof.
  intros H Hp Hn. pose proof H as [E [Ee _]]. unfold written, q_written.
  assert (forall c s', (c = SQ \/ c = DQ) -> is_sep st c s' = false /\ ceqb c BSL = false) as Hsep.
  { intros c s' Hc. rewrite (value_is_sep pr st c s' H). split; [|destruct Hc as [->| ->]; reflexivity].
    apply orb_false_iff. split; [apply ceqb_neq; intros ->; apply Hp; cbn; destruct Hc as [->| ->]; auto|destruct Hc as [->| ->]; reflexivity]. }
  destruct (mem v SQ) eqn:E1; [|destruct (special_in pr v) eqn:E2; [|destruct (needs_escape curly v) eqn:E3]].
  - change ((DQ :: dq_body v ++ [DQ]) ++ s) with (DQ :: (dq_body v ++ [DQ]) ++ s). rewrite <- app_assoc. cbn [app].
    cbn [word_loop]. rewrite !(among_value _ _ E). cbn [among existsb lmode_eqb orb]. rewrite !andb_false_r.
    destruct (Hsep DQ (dq_body v ++ DQ :: s) (or_intror eq_refl)) as [K1 K2]. rewrite K1, K2. cbn [andb].
    change (ceqb DQ SQ) with false. change (ceqb DQ DQ) with true. cbn iota.
    rewrite word_double; [reflexivity|exact Hn|]. intros ->. unfold q_double. destruct (qt q); cbn; apply orb_true_r.
  - change ((SQ :: v ++ [SQ]) ++ s) with (SQ :: (v ++ [SQ]) ++ s). rewrite <- app_assoc. cbn [app].
    cbn [word_loop]. rewrite !(among_value _ _ E). cbn [among existsb lmode_eqb orb]. rewrite !andb_false_r.
    destruct (Hsep SQ (v ++ SQ :: s) (or_introl eq_refl)) as [K1 K2]. rewrite K1, K2. cbn [andb]. change (ceqb SQ SQ) with true. cbn iota.
    apply word_single. exact E1.
  - destruct v as [|c v]; [cbn in E3; discriminate|].
    change ((BSL :: c :: v) ++ s) with (BSL :: c :: v ++ s). cbn [word_loop]. rewrite !(among_value _ _ E). cbn [among existsb lmode_eqb orb]. rewrite !andb_false_r.
    change (ceqb BSL BSL) with true. cbn [andb]. unfold escape_applies. rewrite Ee.
    assert (ceqb c NL = false) as ->.
    { apply ceqb_neq. intros ->. unfold needs_escape in E3. cbn in E3. destruct v; discriminate. }
    rewrite (word_plain pr); [|exact H|].
    2: { apply forallb_forall. intros x Hx. apply (special_plain pr (c :: v)); auto. right. exact Hx. }
    cbn [rev]. rewrite <- app_assoc. cbn [app]. f_equal. unfold q_append, nonempty_q. cbn. destruct v, (qcomp q), acc; cbn; reflexivity.
  - rewrite (word_plain pr); [reflexivity|exact H|]. apply forallb_forall. intros x Hx. apply (special_plain pr v); auto.
Qed.
