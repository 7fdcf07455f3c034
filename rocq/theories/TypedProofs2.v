(* Every value of a known type is one of those that survive; comparison is an order. *)
From Coq Require Import Sorted.
From Verif Require Import Base IntModel IntSpec IntProofs IntProps NameModel NameSpec NameProofs NamesModel TypedModel TypedSpec TypedProofs.

Lemma wo_bool : weak_order bool_compare.
Proof. split; [intros [] []; reflexivity | intros [] [] []; cbn; congruence]. Qed.
Lemma wo_list {A} (f : A -> A -> comparison) : weak_order f -> weak_order (list_compare f).
Proof.
  intros W. split.
  - intros x. induction x as [|a x IH]; intros [|c y]; try reflexivity. cbn [list_compare]. rewrite (proj1 W a c), IH. destruct (f a c); reflexivity.
  - intros x. induction x as [|a x IH]; intros [|c y] [|d z]; cbn [list_compare]; try congruence. intros H1 H2.
    destruct (f a c) eqn:E1; cbn [then_] in H1; [| |contradiction].
    + rewrite (wo_eq_l f W a c d E1). destruct (f c d) eqn:E2; cbn [then_] in *; [eapply IH; eassumption | discriminate | contradiction].
    + rewrite (wo_lt f W a c d E1); [discriminate|]. destruct (f c d); [discriminate | discriminate | exact H2].
Qed.

Section Ok.
Context (mkp mkd : bytes -> option bytes) (joinp joind : bytes -> bytes -> option bytes)
        (cpath cdir cproj : bytes -> bytes -> comparison) (validp : bytes -> bool) (split : bytes -> bytes * bytes).
Local Notation path_facts := (path_facts mkp mkd joinp validp).
Local Notation simple_ok := (simple_ok mkp mkd joinp joind cpath cdir cproj validp).
Local Notation element_ok := (element_ok mkp mkd joinp joind cpath cdir cproj validp).
Local Notation pair_ok := (pair_ok mkp mkd joinp joind cpath cdir cproj validp).
Local Notation value_ok := (value_ok mkp mkd joinp joind cpath cdir cproj validp split).
Local Notation simple_known := (simple_known mkp mkd joinp joind cpath cdir cproj validp).
Local Notation element_known := (element_known mkp mkd joinp joind cpath cdir cproj validp).
Local Notation pair_known := (pair_known mkp mkd joinp joind cpath cdir cproj validp).
Local Notation known := (known mkp mkd joinp joind cpath cdir cproj validp).
Context (PF : path_facts) (Wp : weak_order cpath) (Wd : weak_order cdir) (Wj : weak_order cproj).

Lemma known_order T t : simple_known T t -> weak_order (compare1 t).
Proof. destruct 1; cbn; auto using wo_bool, wo_z, wo_string. Qed.
Lemma element_order T t : element_known T t -> weak_order (compare1 t).
Proof. destruct 1 as [T t K|]; [eapply known_order; eassumption|]. cbn. apply compare_weak; assumption. Qed.
Lemma pair_orders K V t : pair_known K V t -> weak_order (fcompare t) /\ weak_order (scompare_ t).
Proof. destruct 1 as [F S tf ts Kf Ks|F S tf ts Kf Ks|F S tf ts Kf Ks]; cbn; split; try apply wo_option; eapply known_order; eassumption. Qed.
Lemma pair_order K V t : pair_known K V t -> weak_order (pcompare t).
Proof.
  intros H. destruct (pair_orders _ _ _ H) as [A B]. unfold pcompare.
  apply wo_then; [apply (wo_pull fst (fcompare t)) | apply (wo_pull snd (scompare_ t))]; assumption.
Qed.
Lemma type_order t : known t -> weak_order (tcompare t).
Proof.
  destruct 1 as [T t H|T t H|T t H|K V t H|K V t H]; cbn; try apply wo_list; first [eapply known_order; eassumption | eapply element_order; eassumption | eapply pair_order; eassumption].
Qed.

Lemma range_signed z : (int64_min <= wrap_signed z <= int64_max)%Z.
Proof. unfold wrap_signed, int64_min, int64_max. pose proof (Z.mod_pos_bound (z + 2 ^ 63) (2 ^ 64)). lia. Qed.
Lemma range_unsigned z : (0 <= wrap_unsigned z <= uint64_max)%Z.
Proof. unfold wrap_unsigned, uint64_max. pose proof (Z.mod_pos_bound z (2 ^ 64)). lia. Qed.

Lemma convert_ok T t n x : simple_known T t -> dir_ok n -> convert t n None = Some x -> simple_ok T t x.
Proof.
  intros K D. destruct K; cbn; intros E.
  - constructor.
  - constructor. destruct (no_pattern n && simple n); [|discriminate]. apply C37_int64 in E. tauto.
  - constructor. destruct (no_pattern n && simple n); [|discriminate]. apply C37_uint64 in E as [E1 E2]. split; [|exact E2].
    destruct E1 as [s v U|s v U]; exact (denotes_nonneg _ _ U).
  - constructor.
  - constructor. destruct (no_pattern n); [|discriminate]. destruct (directory n) eqn:Dn.
    + injection E as <-. right. destruct D as [D|D]; [|exact D]. unfold directory in Dn. rewrite D in Dn. cbn in Dn. rewrite andb_false_r in Dn. discriminate.
    + left. destruct (if simple n then mkp (value n) else None) as [p|] eqn:M.
      * injection E as <-. destruct (simple n); [|discriminate]. eapply pf_again; eassumption.
      * destruct (untyped n && unqualified n); [|discriminate]. eapply pf_join; eassumption.
  - constructor. eapply pf_dir; eassumption.
  - constructor. destruct (no_pattern n && simple n); [|discriminate]. destruct (name_empty n); [left; congruence|].
    destruct (validp (value n)) eqn:V; [|discriminate]. injection E as <-. right. split; [exact V|]. apply (pf_project _ _ _ _ PF _ V).
Qed.
Lemma element_conv_ok T t n r x : element_known T t -> dir_ok n -> (r = None -> paired n = false) -> element t n r = Some x -> element_ok T t x.
Proof.
  intros K D P E. unfold element in E. destruct (paired n && negb (ceqb (pair n) AT)); [discriminate|]. destruct K as [T t K|].
  - destruct r as [r|].
    + destruct K; cbn in E; try discriminate E. constructor. constructor.
    + constructor. eapply convert_ok; eassumption.
  - destruct r as [r|]; cbn in E; [discriminate|]. destruct (no_pattern n) eqn:Q; [|discriminate]. injection E as <-. apply ok_name.
    + apply paired_false. apply P. reflexivity.
    + unfold no_pattern in Q. destruct (pattern n); [discriminate | reflexivity].
Qed.
Lemma pair_halves K V t : pair_known K V t -> exists (PK : K -> Prop) (PV : V -> Prop), (forall k v, PK k -> PV v -> pair_ok K V t (k, v)) /\
  forall n r x, dir_ok n -> (forall m, r = Some m -> dir_ok m) -> pconvert t n r = Some x -> PK (fst x) /\ PV (snd x).
Proof.
  intros H. destruct H as [F S tf ts Kf Ks|F S tf ts Kf Ks|F S tf ts Kf Ks].
  - exists (simple_ok F tf), (simple_ok S ts). split; [intros; constructor; assumption|]. intros n r x D D' E. cbn in E.
    destruct (paired n); [|discriminate]. destruct (ceqb (pair n) AT); [|discriminate]. cbn in E. destruct (convert tf n None) as [f|] eqn:Ef; [|discriminate].
    destruct r as [m|]; [|discriminate]. destruct (convert ts m None) as [s|] eqn:Es; [|discriminate]. injection E as <-.
    split; [exact (convert_ok _ _ _ _ Kf D Ef) | exact (convert_ok _ _ _ _ Ks (D' _ eq_refl) Es)].
  - exists (simple_ok F tf), (fun s => match s with Some x => simple_ok S ts x | None => True end). split; [intros; constructor; assumption|]. intros n r x D D' E. cbn in E.
    destruct (paired n && negb (ceqb (pair n) AT)); [discriminate|]. destruct (convert tf n None) as [f|] eqn:Ef; [|discriminate]. destruct (paired n).
    + destruct r as [m|]; [|discriminate]. destruct (convert ts m None) as [s|] eqn:Es; [|discriminate]. injection E as <-. split; [exact (convert_ok _ _ _ _ Kf D Ef) | exact (convert_ok _ _ _ _ Ks (D' _ eq_refl) Es)].
    + injection E as <-. split; [|exact I]. eapply convert_ok; eauto.
  - exists (fun s => match s with Some x => simple_ok F tf x | None => True end), (simple_ok S ts). split; [intros; constructor; assumption|]. intros n r x D D' E. cbn in E.
    destruct (paired n && negb (ceqb (pair n) AT)); [discriminate|]. destruct (paired n).
    + destruct (convert tf n None) as [f|] eqn:Ef; [|discriminate]. destruct r as [m|]; [|discriminate]. destruct (convert ts m None) as [s|] eqn:Es; [|discriminate].
      injection E as <-. split; [exact (convert_ok _ _ _ _ Kf D Ef) | exact (convert_ok _ _ _ _ Ks (D' _ eq_refl) Es)].
    + destruct (convert ts n None) as [s|] eqn:Es; [|discriminate]. injection E as <-. split; [exact I|]. eapply convert_ok; eauto.
Qed.

Lemma walk_ok {A} (f : name -> option name -> option A) (P : A -> Prop) :
  (forall n r x, dir_ok n -> (r = None -> paired n = false) -> (forall m, r = Some m -> dir_ok m) -> f n r = Some x -> P x) ->
  forall k ns l, length ns <= k -> Forall dir_ok ns -> walk f ns = Some l -> Forall P l.
Proof.
  intros H. induction k as [|k IH]; intros ns l L D E.
  - destruct ns; [|cbn in L; lia]. injection E as <-. constructor.
  - destruct ns as [|n ns]; [injection E as <-; constructor|]. inversion D as [|? ? Dn D']; subst. cbn in L, E. destruct (paired n) eqn:Pn.
    + destruct ns as [|r ns]; [discriminate|]. inversion D' as [|? ? Dr D'']; subst. destruct (f n (Some r)) as [x|] eqn:Ex; [|discriminate].
      destruct (walk f ns) as [l'|] eqn:El; [|discriminate]. injection E as <-. constructor.
      * apply (H n (Some r)); [exact Dn | discriminate | intros m [= <-]; exact Dr | exact Ex].
      * eapply IH; [|exact D''|exact El]. cbn in L. lia.
    + destruct (f n None) as [x|] eqn:Ex; [|discriminate]. destruct (walk f ns) as [l'|] eqn:El; [|discriminate]. injection E as <-. constructor.
      * apply (H n None); [exact Dn | intros _; exact Pn | discriminate | exact Ex].
      * eapply IH; [|exact D'|exact El]. lia.
Qed.
Lemma walk_elements_ok T t ns l : element_known T t -> Forall dir_ok ns -> walk (element t) ns = Some l -> Forall (element_ok T t) l.
Proof. intros K D E. eapply walk_ok; [|reflexivity|exact D|exact E]. intros n r x Dn P _ Ex. eapply element_conv_ok; eassumption. Qed.
Lemma update_ok T t f y x z : simple_known T t -> append1 t = Some f \/ prepend1 t = Some f -> simple_ok T t y -> simple_ok T t x -> f y x = Some z -> simple_ok T t z.
Proof.
  intros K F Hy Hx E. destruct K.
  - constructor.
  - destruct F as [F|F]; injection F as <-; injection E as <-; constructor; apply range_signed.
  - destruct F as [F|F]; injection F as <-; injection E as <-; constructor; apply range_unsigned.
  - constructor.
  - destruct F as [F|F]; injection F as <-; (destruct (is_empty y); [injection E as <-; exact Hx | constructor; left; eapply pf_join; eassumption]).
  - constructor. eapply pf_dir; eassumption.
  - destruct F as [F|F]; discriminate F.
Qed.
Lemma simple_convert_ok T t ns x : simple_known T t -> Forall dir_ok ns -> simple_convert t ns = Some x -> simple_ok T t x.
Proof.
  intros K D E. destruct ns as [|n [|]]; cbn in E; [|inversion D; subst; eapply convert_ok; eassumption | discriminate].
  destruct K; cbn in E; try discriminate E; injection E as <-; constructor; auto; [left; eapply pf_empty; eassumption | eapply pf_dir; eassumption].
Qed.

(* Sets and maps stay sorted. *)
Lemma insert_forall {T} (t : traits T) (Q : T -> Prop) x s : Q x -> Forall Q s -> Forall Q (insert t x s).
Proof. intros X. induction 1 as [|y s H F IH]; cbn; [constructor; [exact X | constructor]|]. destruct (compare1 t x y); constructor; auto. Qed.
Lemma insert_sort {T} (t : traits T) x s : weak_order (compare1 t) -> StronglySorted (below (compare1 t)) s -> StronglySorted (below (compare1 t)) (insert t x s).
Proof.
  intros W. induction 1 as [|y s S IH F]; cbn; [repeat constructor|]. destruct (compare1 t x y) eqn:E.
  - constructor; assumption.
  - constructor; [constructor; assumption|]. constructor; [exact E|]. eapply Forall_impl; [|exact F]. intros z Z. unfold below in *. eapply wo_lt; [exact W|exact E|]. rewrite Z. discriminate.
  - constructor; [exact IH|]. apply insert_forall; [|exact F]. unfold below. apply (wo_flip _ W). exact E.
Qed.
Lemma insert_all_ok T t s l : weak_order (compare1 t) -> Forall (element_ok T t) s -> StronglySorted (below (compare1 t)) s -> Forall (element_ok T t) l ->
  Forall (element_ok T t) (insert_all t s l) /\ StronglySorted (below (compare1 t)) (insert_all t s l).
Proof.
  intros W Hs Ss Hl. revert s Hs Ss. unfold insert_all. induction Hl as [|x l X F IH]; intros s Hs Ss; cbn; [split; assumption|].
  apply IH; [apply insert_forall; assumption | apply insert_sort; assumption].
Qed.
Definition keeps_keys K V (t : ptraits K V) (f : K -> V -> list (K * V) -> list (K * V)) : Prop := forall (Q : K -> Prop) k v m, Q k -> Forall Q (map fst m) -> Forall Q (map fst (f k v m)).
Lemma put_keys K V t : keeps_keys K V t (put t).
Proof.
  intros Q k v m X. induction m as [|[k' v'] m IH]; cbn; intros F; [constructor; [exact X | constructor]|]. inversion F; subst. destruct (fcompare t k k'); cbn; constructor; auto.
Qed.
Lemma emplace_keys K V t : keeps_keys K V t (emplace t).
Proof.
  intros Q k v m X. induction m as [|[k' v'] m IH]; cbn; intros F; [constructor; [exact X | constructor]|]. inversion F; subst. destruct (fcompare t k k'); cbn; constructor; auto.
Qed.
Lemma put_sort K V (t : ptraits K V) k v m : weak_order (fcompare t) -> StronglySorted (below (fcompare t)) (map fst m) -> StronglySorted (below (fcompare t)) (map fst (put t k v m)).
Proof.
  intros W. induction m as [|[k' v'] m IH]; cbn; intros S; [repeat constructor|]. inversion S as [|? ? S' F]; subst. destruct (fcompare t k k') eqn:E; cbn.
  - exact S.
  - constructor; [exact S|]. constructor; [exact E|]. eapply Forall_impl; [|exact F]. intros z Z. unfold below in *. eapply wo_lt; [exact W|exact E|]. rewrite Z. discriminate.
  - constructor; [apply IH; exact S'|]. apply put_keys; [|exact F]. unfold below. apply (wo_flip _ W). exact E.
Qed.
Lemma emplace_sort K V (t : ptraits K V) k v m : weak_order (fcompare t) -> StronglySorted (below (fcompare t)) (map fst m) -> StronglySorted (below (fcompare t)) (map fst (emplace t k v m)).
Proof.
  intros W. induction m as [|[k' v'] m IH]; cbn; intros S; [repeat constructor|]. inversion S as [|? ? S' F]; subst. destruct (fcompare t k k') eqn:E; cbn.
  - exact S.
  - constructor; [exact S|]. constructor; [exact E|]. eapply Forall_impl; [|exact F]. intros z Z. unfold below in *. eapply wo_lt; [exact W|exact E|]. rewrite Z. discriminate.
  - constructor; [apply IH; exact S'|]. apply emplace_keys; [|exact F]. unfold below. apply (wo_flip _ W). exact E.
Qed.
Lemma put_forall {K V} (t : ptraits K V) (PK : K -> Prop) (PV : V -> Prop) k v m : PK k -> PV v ->
  Forall (fun p => PK (fst p) /\ PV (snd p)) m -> Forall (fun p => PK (fst p) /\ PV (snd p)) (put t k v m).
Proof.
  intros Hk Hv. induction m as [|[k' v'] m IH]; cbn; intros F; [constructor; [split; assumption | constructor]|]. inversion F as [|? ? [A B] F']; subst.
  destruct (fcompare t k k'); constructor; cbn; auto.
Qed.
Lemma emplace_forall {K V} (t : ptraits K V) (Q : K * V -> Prop) k v m : Q (k, v) -> Forall Q m -> Forall Q (emplace t k v m).
Proof.
  intros Hk. induction m as [|[k' v'] m IH]; cbn; intros F; [constructor; [assumption | constructor]|]. inversion F; subst.
  destruct (fcompare t k k'); constructor; auto.
Qed.
Lemma put_all_ok {K V} (t : ptraits K V) (PK : K -> Prop) (PV : V -> Prop) l : weak_order (fcompare t) -> Forall (fun p => PK (fst p) /\ PV (snd p)) l -> forall m,
  Forall (fun p => PK (fst p) /\ PV (snd p)) m -> StronglySorted (below (fcompare t)) (map fst m) ->
  Forall (fun p => PK (fst p) /\ PV (snd p)) (put_all t m l) /\ StronglySorted (below (fcompare t)) (map fst (put_all t m l)).
Proof.
  intros W. unfold put_all. induction 1 as [|[k v] l [A B] F IH]; intros m Hm Sm; cbn; [split; assumption|].
  apply IH; [apply put_forall; assumption | apply put_sort; assumption].
Qed.
Lemma emplace_all_ok {K V} (t : ptraits K V) (Q : K * V -> Prop) l : weak_order (fcompare t) -> Forall Q l -> forall m,
  Forall Q m -> StronglySorted (below (fcompare t)) (map fst m) ->
  Forall Q (emplace_all t m l) /\ StronglySorted (below (fcompare t)) (map fst (emplace_all t m l)).
Proof.
  intros W. unfold emplace_all. induction 1 as [|[k v] l A F IH]; intros m Hm Sm; cbn; [split; assumption|].
  apply IH; [apply emplace_forall; assumption | apply emplace_sort; assumption].
Qed.

(* An invariant of the values of each known type. *)
Definition invariant (t : value_type) (Inv : data t -> Prop) : Prop :=
  (forall x, Inv x -> value_ok t x) /\
  forall v o x, (forall y, v = Some y -> Inv y) -> Forall dir_ok (op_names o) -> apply t v o = Some x -> Inv x.
Lemma forall_none {A} (P : A -> Prop) (v : option (list A)) : (forall y, v = Some y -> Forall P y) -> Forall P (or_none v).
Proof. intros H. destruct v; [apply H; reflexivity | constructor]. Qed.

Lemma known_invariant t : known t -> exists Inv, invariant t Inv.
Proof.
  destruct 1 as [T t N|T t N|T t N|K V t N|K V t N].
  - exists (simple_ok T t). split; [intros x H; constructor; exact H|]. intros v o x Hv D E. destruct o as [ns|ns|ns]; cbn in D, E.
    + eapply simple_convert_ok; eassumption.
    + destruct (append1 t) as [f|] eqn:A; [|discriminate]. unfold simple_update in E. destruct (simple_convert t ns) as [z|] eqn:C; [|discriminate].
      pose proof (simple_convert_ok _ _ _ _ N D C) as Z. destruct v as [y|]; [|injection E as <-; exact Z].
      eapply update_ok; [exact N|left; exact A|apply Hv; reflexivity|exact Z|exact E].
    + destruct (prepend1 t) as [f|] eqn:A; [|discriminate]. unfold simple_update in E. destruct (simple_convert t ns) as [z|] eqn:C; [|discriminate].
      pose proof (simple_convert_ok _ _ _ _ N D C) as Z. destruct v as [y|]; [|injection E as <-; exact Z].
      eapply update_ok; [exact N|right; exact A|apply Hv; reflexivity|exact Z|exact E].
  - exists (Forall (element_ok T t)). split; [intros x H; constructor; exact H|]. intros v o x Hv D E. apply forall_none in Hv.
    destruct o as [ns|ns|ns]; cbn in D, E; unfold vector_assign, vector_prepend, vector_append in E;
      (destruct (walk (element t) ns) as [l|] eqn:L; [|discriminate]); apply walk_elements_ok in L; try assumption; injection E as <-.
    + rewrite or_none_cleared. exact L.
    + apply Forall_app. split; assumption.
    + apply Forall_app. split; assumption.
  - pose proof (element_order _ _ N) as W.
    exists (fun l => Forall (element_ok T t) l /\ StronglySorted (below (compare1 t)) l). split; [intros x [H S]; constructor; assumption|]. intros v o x Hv D E.
    assert (Hv' : Forall (element_ok T t) (or_none v) /\ StronglySorted (below (compare1 t)) (or_none v)) by (destruct v; [apply Hv; reflexivity | split; constructor]).
    destruct Hv' as [Hv1 Hv2].
    destruct o as [ns|ns|ns]; cbn in D, E; unfold set_assign, set_append in E;
      (destruct (walk (element t) ns) as [l|] eqn:L; [|discriminate]); apply walk_elements_ok in L; try assumption; injection E as <-; try rewrite or_none_cleared.
    + apply insert_all_ok; auto; constructor.
    + apply insert_all_ok; auto.
    + apply insert_all_ok; auto.
  - destruct (pair_halves _ _ _ N) as (PK & PV & I & C).
    exists (Forall (fun p => PK (fst p) /\ PV (snd p))). split; [intros x H; constructor; eapply Forall_impl; [|exact H]; intros [k w] [A B]; apply I; assumption|].
    intros v o x Hv D E. apply forall_none in Hv.
    destruct o as [ns|ns|ns]; cbn in D, E; unfold pairs_assign, pairs_append in E;
      (destruct (walk (pconvert t) ns) as [l|] eqn:L; [|discriminate]); (apply (walk_ok _ (fun p => PK (fst p) /\ PV (snd p))) with (k := length ns) in L; [|intros; eapply C; eassumption|lia|exact D]); injection E as <-.
    + rewrite or_none_cleared. exact L.
    + apply Forall_app. split; assumption.
    + apply Forall_app. split; assumption.
  - destruct (pair_halves _ _ _ N) as (PK & PV & I & C). pose proof (proj1 (pair_orders _ _ _ N)) as W.
    exists (fun l => Forall (fun p => PK (fst p) /\ PV (snd p)) l /\ StronglySorted (below (fcompare t)) (map fst l)).
    split; [intros x [H S]; constructor; [exact W| |exact S]; eapply Forall_impl; [|exact H]; intros [k w] [A B]; apply I; assumption|].
    intros v o x Hv D E.
    assert (Hv' : Forall (fun p => PK (fst p) /\ PV (snd p)) (or_none v) /\ StronglySorted (below (fcompare t)) (map fst (or_none v))) by (destruct v; [apply Hv; reflexivity | split; constructor]).
    destruct Hv' as [Hv1 Hv2].
    destruct o as [ns|ns|ns]; cbn in D, E; unfold map_assign, map_prepend, map_append in E;
      (destruct (walk (pconvert t) ns) as [l|] eqn:L; [|discriminate]); (apply (walk_ok _ (fun p => PK (fst p) /\ PV (snd p))) with (k := length ns) in L; [|intros; eapply C; eassumption|lia|exact D]); injection E as <-.
    + rewrite or_none_cleared. apply put_all_ok; auto; constructor.
    + apply put_all_ok; auto.
    + apply emplace_all_ok; auto.
Qed.

Theorem reachable : forall t os x, known t -> Forall (fun o => Forall dir_ok (op_names o)) os -> after t None os = Some (Some x) -> value_ok t x.
Proof.
  intros t os x N D E. destruct (known_invariant t N) as (Inv & A & B). apply A.
  assert (G : forall os v, (forall y, v = Some y -> Inv y) -> Forall (fun o => Forall dir_ok (op_names o)) os -> after t v os = Some (Some x) -> Inv x).
  { clear os D E. intros os. induction os as [|o os IH]; intros v Hv D E; cbn in E; [apply Hv; congruence|]. inversion D; subst.
    destruct (apply t v o) as [y|] eqn:Y; [|discriminate]. eapply IH; [|eassumption|exact E]. intros z [= <-]. eapply B; eassumption. }
  eapply G; [|exact D|exact E]. discriminate.
Qed.

(* Comparison. *)
Definition least (c : bytes -> bytes -> comparison) : Prop := forall x, x <> [] -> c [] x = Lt.
Lemma type_empties t f : least cpath -> least cdir -> least cproj -> known t -> tempty t = Some f ->
  (forall x y, f x = true -> f y = true -> tcompare t x y = Eq) /\ (forall x y, f x = true -> f y = false -> tcompare t x y = Lt).
Proof.
  intros Lp Ld Lj N.
  assert (S : forall c, weak_order c -> least c -> (forall x y, is_empty x = true -> is_empty y = true -> c x y = Eq) /\ (forall x y, is_empty x = true -> is_empty y = false -> c x y = Lt)).
  { intros c W L. split; intros x y X Y; apply is_empty_true in X; subst x.
    - apply is_empty_true in Y. subst y. apply (wo_refl c W).
    - apply L. intros ->. discriminate. }
  assert (L : forall A (c : A -> A -> comparison), (forall x y, no_elements x = true -> no_elements y = true -> list_compare c x y = Eq) /\ (forall x y, no_elements x = true -> no_elements y = false -> list_compare c x y = Lt)).
  { intros A c. split; intros [|] [|]; cbn; intros; try discriminate; reflexivity. }
  destruct N as [T t N|T t N|T t N|K V t N|K V t N]; cbn.
  - destruct N; cbn; intros [= <-]; apply S; try assumption; [apply wo_string|]. intros [|a x]; [contradiction | reflexivity].
  - intros [= <-]. apply L.
  - intros [= <-]. apply L.
  - intros [= <-]. apply L.
  - intros [= <-]. apply L.
Qed.
Theorem compare_order : forall t ne, least cpath -> least cdir -> least cproj -> known t -> weak_order (value_compare t ne).
Proof.
  intros t ne Lp Ld Lj N. pose proof (type_order t N) as W.
  set (norm := fun v : option (data t) => if (if ne then null_or_empty t v else is_null v) then None else v).
  assert (G : forall x y, value_compare t ne x y = ocompare (tcompare t) (norm x) (norm y)).
  { intros x y. unfold norm. destruct ne; [|destruct x, y; reflexivity].
    destruct x as [x|], y as [y|]; cbn; try reflexivity.
    - destruct (tempty t) as [f|] eqn:F; [|reflexivity]. destruct (type_empties t f Lp Ld Lj N F) as [E L].
      destruct (f x) eqn:X, (f y) eqn:Y; cbn; auto. rewrite (proj1 W y x), (L y x Y X). reflexivity.
    - destruct (tempty t) as [f|]; [destruct (f x)|]; reflexivity.
    - destruct (tempty t) as [f|]; [destruct (f y)|]; reflexivity. }
  pose proof (wo_pull norm _ (wo_option _ W)) as [A B]. split.
  - intros x y. rewrite !G. apply A.
  - intros x y z. rewrite !G. apply B.
Qed.

Lemma list_compare_eq {A} (f : A -> A -> comparison) : (forall x y, f x y = Eq <-> x = y) -> forall x y, list_compare f x y = Eq <-> x = y.
Proof.
  intros H. induction x as [|a x IH]; intros [|c y]; cbn; try (split; [discriminate|discriminate]); [tauto|].
  rewrite then_eq, H, IH. split; [intros [-> ->]; reflexivity | intros [= -> ->]; split; reflexivity].
Qed.
Lemma ocompare_eq {A} (f : A -> A -> comparison) : (forall x y, f x y = Eq <-> x = y) -> forall x y, ocompare f x y = Eq <-> x = y.
Proof.
  intros H [x|] [y|]; cbn; try (split; [discriminate|discriminate]); [|tauto]. rewrite H. split; [intros ->; reflexivity | intros [= ->]; reflexivity].
Qed.
Lemma pcompare_eq {K V} (t : ptraits K V) : (forall x y, fcompare t x y = Eq <-> x = y) -> (forall x y, scompare_ t x y = Eq <-> x = y) -> forall x y, pcompare t x y = Eq <-> x = y.
Proof.
  intros F S [k v] [k' v']. unfold pcompare. cbn. rewrite then_eq, F, S. split; [intros [-> ->]; reflexivity | intros [= -> ->]; split; reflexivity].
Qed.
Theorem compare_equal : forall t, (forall x y, cpath x y = Eq <-> x = y) -> (forall x y, cdir x y = Eq <-> x = y) -> (forall x y, cproj x y = Eq <-> x = y) ->
  known t -> forall x y, value_compare t false x y = Eq <-> x = y.
Proof.
  intros t Ep Ed Ej N.
  assert (S : forall T t, simple_known T t -> forall x y, compare1 t x y = Eq <-> x = y).
  { intros T t0 [| | | | | |] x y; cbn; auto using scompare_eq; try apply Z.compare_eq_iff. destruct x, y; cbn; split; (reflexivity || discriminate). }
  assert (E : forall T t, element_known T t -> forall x y, compare1 t x y = Eq <-> x = y).
  { intros T t0 [T' t' H|]; [apply S; exact H|]. cbn. intros x y. rewrite compare_eq, Ed, (ocompare_eq _ Ej). destruct x, y; cbn.
    split; [intros (-> & -> & -> & -> & -> & ->); reflexivity | intros [= -> -> -> -> -> ->]; repeat split]. }
  assert (P : forall K V t, pair_known K V t -> forall x y, pcompare t x y = Eq <-> x = y).
  { intros K V t0 [F S' tf ts Kf Ks|F S' tf ts Kf Ks|F S' tf ts Kf Ks]; apply pcompare_eq; cbn; try apply ocompare_eq; apply S; assumption. }
  assert (Q : forall x y, tcompare t x y = Eq <-> x = y).
  { destruct N as [T t N|T t N|T t N|K V t N|K V t N]; cbn; try apply list_compare_eq; auto. }
  intros x y. transitivity (ocompare (tcompare t) x y = Eq); [destruct x, y; reflexivity | apply ocompare_eq; exact Q].
Qed.
End Ok.
