(* Proofs about lines of redirects and of the output. *)
From Verif Require Import Base OutModel OutSpec OutProofs.

Section W.
Context (windows : bool) (rvalid : bool -> bytes -> bool) (rmatch : bool -> bytes -> bytes -> bool) (max_size max_lines : nat).
Lemma slashes_flat r s : slashes r s = flat_map (fun c => if ceqb c "/" then r else [c]) s.
Proof. induction s as [|c s IH]; cbn; [reflexivity|]. now rewrite IH. Qed.
Lemma transform_slashed slash regex s : transform windows slash regex s = slashed windows slash regex s.
Proof.
  unfold transform, slashed. destruct slash, windows; cbn [negb andb]; try reflexivity. rewrite slashes_flat. destruct regex; reflexivity.
Qed.

Definition op_ok (it : item) : Prop := match it with IOp c => syntax c = true | ILine _ => True end.
Definition line_valid (it : item) : Prop := match it with ILine (PRegex ic s) => rvalid ic s = true | _ => True end.

Lemma denotes_extends p q it c : extends p q -> denotes p it c -> denotes q it c.
Proof. intros X. destruct it as [[s|ic s]|x], c; cbn; auto. now apply get_extends. Qed.
Lemma denotes_ops p o : Forall2 (denotes p) (map IOp o) (map Special o).
Proof. induction o; constructor; [reflexivity | assumption]. Qed.
Lemma mem_flag (fl : bytes) (k : bool) c : (k = true <-> In c fl) -> mem c fl = k.
Proof. rewrite <- mem_iff. destruct (mem c fl), k; intuition congruence. Qed.

Lemma line_string_spec x ls its : Forall2 (carries windows x) ls its -> forall p, NoDup p ->
  (Forall op_ok (concat its) /\ Forall line_valid (concat its) ->
     exists q cs, line_string windows rvalid x p ls = Some (q, cs) /\ NoDup q /\ extends p q /\ Forall2 (denotes q) (concat its) cs) /\
  (~ (Forall op_ok (concat its) /\ Forall line_valid (concat its)) -> line_string windows rvalid x p ls = None).
Proof.
  intros F. induction F as [|l it ls its C F IH]; intros p N; cbn [concat line_string].
  - split; [|intros H; exfalso; apply H; split; constructor]. intros _. exists p, []. repeat split; [exact N | apply extends_refl | constructor].
  - assert (L : exists hd, it = hd ++ map IOp (l_special l) /\ Forall op_ok hd /\
       (Forall line_valid hd -> exists q cs, line_char windows rvalid x p l = Some (q, cs) /\ NoDup q /\ extends p q /\ Forall2 (denotes q) hd cs) /\
       (~ Forall line_valid hd -> line_char windows rvalid x p l = None)).
    { unfold line_char. destruct C as [s|o No|o fl|s fl o icase d Ns Hi Hd]; cbn [l_regex l_value l_special l_flags].
      - exists [ILine (PText (slashed windows (x_slash x) false s))]. split; [now rewrite app_nil_r|]. split; [repeat constructor|]. split; [|intros H; exfalso; apply H; repeat constructor]. intros _.
        destruct (intern p (transform windows (x_slash x) false s)) as [q i] eqn:E. destruct (intern_spec _ _ _ _ N E) as (Nq & X & G). exists q, [Lit i]. rewrite transform_slashed in G. repeat split; auto.
      - exists []. split; [reflexivity|]. split; [constructor|]. split; [|intros H; exfalso; apply H; constructor]. intros _. destruct o; [contradiction|]. exists p, []. repeat split; auto; apply extends_refl.
      - exists [ILine (PText [])]. split; [reflexivity|]. split; [repeat constructor|]. split; [|intros H; exfalso; apply H; repeat constructor]. intros _.
        destruct (intern p []) as [q i] eqn:E. destruct (intern_spec _ _ _ _ N E) as (Nq & X & G). exists q, [Lit i]. repeat split; auto.
      - apply mem_flag in Hi, Hd. eexists [ILine (PRegex icase _)]. split; [reflexivity|]. split; [repeat constructor|].
        destruct s as [|c s]; [contradiction|]. rewrite Hi, Hd, transform_slashed. cbn zeta.
        set (t := if d then _ else _). clear Hi Hd. clearbody t. split.
        + intros V. inversion V as [|? ? V1 _]; subst. cbn in V1. rewrite V1. exists p, [Rgx icase t]. repeat split; auto; [apply extends_refl|]. repeat constructor.
        + intros V. destruct (rvalid icase t) eqn:R; [exfalso; apply V; repeat constructor; exact R | reflexivity]. }
    destruct L as (hd & -> & Ho & L1 & L2).
    assert (O : forallb syntax (l_special l) = true <-> Forall op_ok (map IOp (l_special l))).
    { rewrite forallb_forall, Forall_forall. split.
      - intros H y Y. apply in_map_iff in Y. destruct Y as (c & <- & Y). now apply H.
      - intros H c X. apply (H (IOp c)). now apply in_map. }
    assert (V0 : Forall line_valid (map IOp (l_special l))) by (apply Forall_forall; intros y Y; apply in_map_iff in Y; destruct Y as (c & <- & _); exact Logic.I).
    split.
    + intros [A B]. rewrite !Forall_app in A, B. destruct A as [[_ A1] A2]. destruct B as [[B0 _] B2].
      destruct (L1 B0) as (q & cs & -> & Nq & X & D). rewrite (proj2 O A1). destruct (IH q Nq) as [I1 _]. destruct (I1 (conj A2 B2)) as (q' & r & -> & Nq' & X' & D').
      exists q', (cs ++ map Special (l_special l) ++ r). repeat split; [exact Nq' | now apply extends_trans with q|]. rewrite <- app_assoc. apply Forall2_app; [|apply Forall2_app; [apply denotes_ops | exact D']].
      clear -D X'. induction D; constructor; [now apply denotes_extends with q | assumption].
    + intros H.
      assert (Dv : Forall line_valid hd \/ ~ Forall line_valid hd).
      { clear -hd rvalid. induction hd as [|[[s|ic s]|c] hd IH]; [left; constructor| | |].
        - destruct IH as [A|A]; [left; constructor; [exact Logic.I | exact A] | right; intros X; inversion X; auto].
        - destruct (rvalid ic s) eqn:R; [destruct IH as [A|A]; [left; constructor; [exact R | exact A] | right; intros X; inversion X; auto] | right; intros X; inversion X as [|? ? X1 _]; subst; cbn in X1; congruence].
        - destruct IH as [A|A]; [left; constructor; [exact Logic.I | exact A] | right; intros X; inversion X; auto]. }
      destruct Dv as [V|V]; [|now rewrite L2]. destruct (L1 V) as (q & cs & -> & Nq & X & D).
      destruct (forallb syntax (l_special l)) eqn:S; [|reflexivity]. destruct (IH q Nq) as [_ I2]. rewrite I2; [reflexivity|].
      intros [A B]. apply H. rewrite !Forall_app. intuition.
Qed.

Lemma written_ops e : Forall op_ok (written e).
Proof.
  assert (G : forall l, Forall op_ok l -> Forall op_ok (group l)) by (intros l H; constructor; [reflexivity|]; apply Forall_app; split; [exact H | repeat constructor]).
  induction e as [p| | |x IHx y IHy|x IHx y IHy|x IHx|x IHx|x IHx]; cbn [written]; try (repeat constructor; fail).
  - now apply Forall_app.
  - apply G. apply Forall_app. split; [exact IHx | constructor; [reflexivity | exact IHy]].
  - apply Forall_app. split; [destruct x; try (now apply G); exact IHx | repeat constructor].
  - apply Forall_app. split; [destruct x; try (now apply G); exact IHx | repeat constructor].
  - apply Forall_app. split; [destruct x; try (now apply G); exact IHx | repeat constructor].
Qed.

Lemma matches_iff x its e out : Forall2 (carries windows x) (x_lines x) its -> concat its = written e -> Forall line_valid (written e) ->
  matches windows rvalid rmatch max_size max_lines x out <-> exists ls, read max_size max_lines out = Some ls /\ lang rmatch e (output_lines x ls).
Proof.
  intros F E V. destruct (line_string_spec x _ _ F [] (NoDup_nil _)) as [L _]. rewrite E in L. destruct (L (conj (written_ops e) V)) as (p & cs & LS & Np & _ & D).
  unfold matches. rewrite LS.
  assert (K : forall ls, exists a, parse cs = Some a /\ ((let (q, is) := intern_all p (output_lines x ls) in ma rmatch q a is) <-> lang rmatch e (output_lines x ls))).
  { intros ls. destruct (intern_all p (output_lines x ls)) as [q is] eqn:IA. destruct (intern_all_spec _ _ _ _ Np IA) as (Nq & X & S).
    destruct (parse_written rmatch q Nq e cs) as (a & P & M).
    - clear -D X. induction D; constructor; [now apply denotes_extends with p | assumption].
    - exists a. split; [exact P|]. now apply M. }
  split.
  - intros (p' & cs' & a & ls & [= <- <-] & P & R & M). exists ls. split; [exact R|]. destruct (K ls) as (a' & P' & K'). assert (a' = a) by congruence. subst a'. now apply K'.
  - intros (ls & R & H). destruct (K ls) as (a & P & K'). exists p, cs, a, ls. repeat split; auto. now apply K'.
Qed.
Lemma errors_iff x its e out : Forall2 (carries windows x) (x_lines x) its -> concat its = written e ->
  errors windows rvalid max_size max_lines x out <-> ~ Forall line_valid (written e) \/ read max_size max_lines out = None.
Proof.
  intros F E. destruct (line_string_spec x _ _ F [] (NoDup_nil _)) as [L1 L2]. rewrite E in L1, L2. unfold errors.
  assert (Dv : Forall line_valid (written e) \/ ~ Forall line_valid (written e)).
  { generalize (written e) as hd. clear -rvalid. intros hd. induction hd as [|[[s|ic s]|c] hd IH]; [left; constructor| | |].
    - destruct IH as [A|A]; [left; constructor; [exact Logic.I | exact A] | right; intros X; inversion X; auto].
    - destruct (rvalid ic s) eqn:R; [destruct IH as [A|A]; [left; constructor; [exact R | exact A] | right; intros X; inversion X; auto] | right; intros X; inversion X as [|? ? X1 _]; subst; cbn in X1; congruence].
    - destruct IH as [A|A]; [left; constructor; [exact Logic.I | exact A] | right; intros X; inversion X; auto]. }
  destruct Dv as [V|V].
  - destruct (L1 (conj (written_ops e) V)) as (p & cs & -> & Np & _ & D). destruct (parse_written rmatch p Np e cs D) as (a & -> & _).
    destruct (read max_size max_lines out); split; auto; try tauto. intros [H|H]; [tauto | discriminate].
  - rewrite L2 by tauto. tauto.
Qed.
End W.

(* Lines of the output. *)
Lemma split_nl_ne s : split_nl s <> [].
Proof. destruct s as [|c s]; cbn; [discriminate|]. destruct (ceqb c NL); [discriminate|]. destruct (split_nl s); discriminate. Qed.
Lemma join_cons x l : l <> [] -> join (x :: l) = x ++ NL :: join l.
Proof. destruct l; [contradiction | reflexivity]. Qed.
Lemma split_join s : join (split_nl s) = s /\ Forall (fun l => ~ In NL l) (split_nl s).
Proof.
  induction s as [|c s [IH1 IH2]]; cbn [split_nl]; [split; [reflexivity | repeat constructor; intros []]|]. destruct (ceqb c NL) eqn:E.
  - apply ceqb_eq in E. subst c. rewrite join_cons by apply split_nl_ne. rewrite IH1. split; [reflexivity|]. constructor; [intros [] | exact IH2].
  - destruct (split_nl s) as [|l ls] eqn:S; [now apply split_nl_ne in S|]. inversion IH2 as [|? ? A B]; subst. split.
    + destruct ls as [|l2 ls]; [cbn in *; reflexivity|]. rewrite join_cons in * by discriminate. cbn. reflexivity.
    + constructor; [|exact B]. intros [X | X]; [subst c; rewrite (proj2 (ceqb_eq NL NL) eq_refl) in E; discriminate | tauto].
Qed.
Lemma join_split raw : raw <> [] -> Forall (fun l => ~ In NL l) raw -> split_nl (join raw) = raw.
Proof.
  induction raw as [|l raw IH]; intros N F; [contradiction|]. inversion F as [|? ? A B]; subst. clear N F.
  destruct raw as [|l2 raw].
  - clear IH B. cbn [join]. induction l as [|c l IHl]; [reflexivity|]. cbn [split_nl]. destruct (ceqb c NL) eqn:E; [apply ceqb_eq in E; subst; exfalso; apply A; now left|].
    rewrite IHl; [reflexivity|]. intros X. apply A. now right.
  - specialize (IH ltac:(discriminate) B). rewrite join_cons by discriminate. induction l as [|c l IHl]; cbn [app split_nl].
    + rewrite (proj2 (ceqb_eq NL NL) eq_refl), IH. reflexivity.
    + destruct (ceqb c NL) eqn:E; [apply ceqb_eq in E; subst; exfalso; apply A; now left|]. rewrite IHl; [reflexivity|]. intros X. apply A. now right.
Qed.
Lemma strip_iff r w : strip r = w <-> stripped r w.
Proof.
  assert (S : forall r, stripped r (strip r)).
  { clear. induction r as [|c r (n & E & Z)]; cbn [strip].
    - exists 0. split; [reflexivity|]. intros [|? ?]; discriminate.
    - destruct (strip r) as [|d s] eqn:Q.
      + cbn [app] in E. destruct (ceqb c CR) eqn:C.
        * apply ceqb_eq in C. subst. exists (Datatypes.S n). split; [reflexivity|]. intros [|? ?]; discriminate.
        * exists n. split; [cbn; now f_equal|]. intros u H. destruct u as [|? [|? ?]]; try discriminate. injection H as ->. rewrite (proj2 (ceqb_eq CR CR) eq_refl) in C. discriminate.
      + exists n. split; [cbn; now f_equal|]. intros u H. destruct u as [|x u]; [discriminate|]. injection H as _ H. now apply (Z u). }
  split; [intros <-; apply S|]. intros (n & -> & Z). 
  revert Z. induction w as [|c w IH]; intros Z; cbn [app].
  - clear Z. induction n as [|n IH]; cbn [repeat strip]; [reflexivity|]. rewrite IH. now rewrite (proj2 (ceqb_eq CR CR) eq_refl).
  - cbn [strip]. rewrite IH by (intros u H; apply (Z (c :: u)); cbn; now f_equal). destruct w as [|d w]; [|reflexivity].
    destruct (ceqb c CR) eqn:C; [|reflexivity]. apply ceqb_eq in C. subst. exfalso. now apply (Z []).
Qed.
Lemma out_lines_iff out ls : out_lines out = ls <-> lines_of out ls.
Proof.
  unfold out_lines, lines_of. destruct out as [|c out].
  - split; [intros <-; now left|]. intros [[_ ->]|[H _]]; [reflexivity | contradiction].
  - split.
    + intros <-. right. split; [discriminate|]. destruct (split_join (c :: out)) as [A B]. exists (split_nl (c :: out)). split; [now symmetry|]. split; [apply split_nl_ne|]. split; [exact B|].
      clear. generalize (split_nl (c :: out)). intros l. induction l; constructor; [now apply strip_iff | assumption].
    + intros [[H _]|(_ & raw & E & N & F & S)]; [discriminate|]. rewrite E, join_split by assumption.
      clear -S. induction S as [|r w rs ws H S IH]; cbn; [reflexivity|]. apply strip_iff in H. now rewrite H, IH.
Qed.

(* The d flag. *)
Lemma units_ex s : forall k, exists us, units k s us.
Proof.
  assert (G : forall n s, length s <= n -> forall k, exists us, units k s us).
  { induction n as [|n IH]; intros t L k.
    - destruct t; [exists []; constructor | cbn in L; lia].
    - destruct t as [|c t]; [exists []; constructor|]. cbn in L.
      destruct (ascii_dec c "\") as [->|N1].
      + destruct t as [|x t]; [exists [UOther (b "\")]; constructor|]. cbn in L. destruct k.
        * destruct (IH t ltac:(lia) true) as (us & U). eexists. apply units_esc; [now left | exact U].
        * destruct (IH t ltac:(lia) false) as (us & U). destruct (ascii_dec x ".") as [->|Nx]; eexists; [exact (units_esc_dot _ _ U) | apply units_esc; [now right | exact U]].
      + destruct k.
        * destruct (ascii_dec c "]") as [->|N2]; [destruct (IH t ltac:(lia) false) as (us & U); eexists; exact (units_close _ _ U)|].
          destruct (IH t ltac:(lia) true) as (us & U). eexists. exact (units_in _ _ _ N1 N2 U).
        * destruct (ascii_dec c "[") as [->|N2]; [destruct (IH t ltac:(lia) true) as (us & U); eexists; exact (units_open _ _ U)|].
          destruct (IH t ltac:(lia) false) as (us & U). destruct (ascii_dec c ".") as [->|N3]; eexists; [exact (units_dot _ _ U) | exact (units_out _ _ _ N1 N2 N3 U)]. }
  intros k. now apply (G (length s)).
Qed.
Lemma neq_ceqb x y : x <> y -> ceqb x y = false.
Proof. intros N. destruct (ceqb x y) eqn:E; [apply ceqb_eq in E; contradiction | reflexivity]. Qed.
Lemma idot_units k s us : units k s us -> s = flat_map unit_text us /\ idot false k s = flat_map unit_text (map unit_swap us).
Proof.
  intros U. induction U as [c|s us U [I1 I2]|s us U [I1 I2]|k x s us O U [I1 I2]|k|s us U [I1 I2]|s us U [I1 I2]|x s us N1 N2 U [I1 I2]|x s us N1 N2 N3 U [I1 I2]];
    cbn [flat_map map unit_text unit_swap app]; (split; [cbn; congruence|]).
  - reflexivity.
  - cbn. now rewrite <- I2.
  - cbn. now rewrite <- I2.
  - cbn [idot]. cbn. destruct O as [-> |O].
    + rewrite andb_false_r. cbn. now rewrite <- I2.
    + rewrite (neq_ceqb _ _ O). cbn. now rewrite <- I2.
  - destruct k; reflexivity.
  - cbn. now rewrite <- I2.
  - cbn. now rewrite <- I2.
  - cbn [idot]. rewrite (neq_ceqb _ _ N1), (neq_ceqb _ _ N2), !andb_false_r. cbn. now rewrite <- I2.
  - cbn [idot]. rewrite (neq_ceqb _ _ N1), (neq_ceqb _ _ N2), (neq_ceqb _ _ N3), !andb_false_r. cbn. now rewrite <- I2.
Qed.
Lemma units_swap k s us : units k s us -> units k (flat_map unit_text (map unit_swap us)) (map unit_swap us).
Proof. intros U. induction U; cbn [flat_map map unit_text unit_swap app]; try (now constructor); cbn; constructor; auto. Qed.
Lemma idot_involutive s : idot false false (idot false false s) = s.
Proof.
  destruct (units_ex s false) as (us & U). destruct (idot_units _ _ _ U) as [E1 E2]. rewrite E2. destruct (idot_units _ _ _ (units_swap _ _ _ U)) as [_ E3]. rewrite E3, map_map, E1.
  f_equal. rewrite <- (map_id us) at 2. apply map_ext. intros []; reflexivity.
Qed.
