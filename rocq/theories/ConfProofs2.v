(* Marking unused variables, writing and the order. *)
From Verif Require Import Base ConfModel ConfSpec ConfProofs.
From Coq Require Import Permutation Sorted.

Section U.
Context (path_match : bytes -> bytes -> bool) {V N : Type}.
Notation smodule := (@smodule V N).
Notation decide v persist := (save_config_variable path_match v persist false true).

(* What happens to an unused variable. *)
Definition saves (persist : option (list (bytes * bytes))) (v : bytes) : Prop :=
  special v = false /\ develop v = false /\ exists w, decide v persist = Decided true w.

Lemma mark_step persist quiet v rvars (ms ms' : list smodule) w : mark_unused path_match persist quiet (v :: rvars) ms = Some (ms', w) -> NoDup (map mname ms) ->
  exists ms1 w1 w2, mark_unused path_match persist quiet rvars ms1 = Some (ms', w2) /\ w = w1 ++ w2 /\ NoDup (map mname ms1) /\ (valid ms -> valid ms1) /\
    (forall u, u <> v -> find_variable u ms1 = find_variable u ms) /\
    (find_variable v ms1 <> None <-> find_variable v ms <> None \/ saves persist v) /\
    (forall x sv, In (x, sv) w1 <-> x = v /\ find_variable v ms = None /\ special v = false /\ develop v = false /\ decide v persist = Decided sv true /\ (sv = true -> quiet v = false)) /\
    length w1 <= 1.
Proof.
  intros H D. cbn [mark_unused] in H.
  assert (K : (saves persist v -> find_variable v ms <> None) -> ~ (find_variable v ms = None /\ special v = false /\ develop v = false) ->
    match mark_unused path_match persist quiet rvars ms with Some (ms, w) => Some (ms, [] ++ w) | None => None end = Some (ms', w) ->
    exists ms1 w1 w2, mark_unused path_match persist quiet rvars ms1 = Some (ms', w2) /\ w = w1 ++ w2 /\ NoDup (map mname ms1) /\ (valid ms -> valid ms1) /\
    (forall u, u <> v -> find_variable u ms1 = find_variable u ms) /\
    (find_variable v ms1 <> None <-> find_variable v ms <> None \/ saves persist v) /\
    (forall x sv, In (x, sv) w1 <-> x = v /\ find_variable v ms = None /\ special v = false /\ develop v = false /\ decide v persist = Decided sv true /\ (sv = true -> quiet v = false)) /\
    length w1 <= 1).
  { intros K1 K2 K3. destruct (mark_unused path_match persist quiet rvars ms) as [[m q]|] eqn:E; [|discriminate]. injection K3 as <- <-. exists ms, [], q.
    split; [exact E|]. split; [reflexivity|]. split; [exact D|]. split; [auto|]. split; [auto|]. split; [tauto|]. split; [|cbn; lia].
    intros x sv. split; [intros [] | intros (_ & X1 & X2 & X3 & _); exfalso; tauto]. }
  destruct (special v) eqn:S; [apply K; [intros (X & _); congruence | intros (_ & X & _); congruence | exact H]|].
  destruct (find_variable v ms) as [t|] eqn:F; [apply K; [discriminate | intros (X & _); discriminate | exact H]|].
  destruct (develop v) eqn:G; [apply K; [intros (_ & X & _); congruence | intros (_ & _ & X); discriminate | exact H]|]. clear K.
  destruct (decide v persist) as [|sv wn] eqn:Dc; [discriminate|]. destruct sv.
  - destruct (save_variable (mksaved v (Some no_flags) None) ms) as [ms1|] eqn:Sv; [|discriminate].
    destruct (mark_unused path_match persist quiet rvars ms1) as [[m q]|] eqn:E; [|discriminate]. injection H as <- <-.
    pose proof (find_variable_saved _ _ _ D Sv) as Fs. cbn in Fs.
    exists ms1, (if wn && negb (quiet v) then [(v, true)] else []), q. unfold saves.
    split; [exact E|]. split; [reflexivity|]. split; [exact (save_variable_names _ _ _ D Sv)|]. split; [intro Hv; exact (save_variable_valid _ _ _ Hv Sv)|].
    split; [intros u Nu; exact (find_variable_other _ _ _ u D Sv Nu)|]. split; [split; [intros _; right; eauto | intros _; exact Fs]|]. split.
    + intros x sv. destruct wn; cbn [andb].
      * destruct (quiet v) eqn:Q; cbn [negb In]; split; [tauto | | intros [X | []]; injection X as <- <-; repeat split; auto |]; intros (-> & _ & _ & _ & X & Y); injection X as <-; [specialize (Y eq_refl); discriminate | auto].
      * split; [intros [] | intros (_ & _ & _ & _ & X & _); discriminate].
    + destruct (wn && negb (quiet v)); cbn; lia.
  - destruct (mark_unused path_match persist quiet rvars ms) as [[m q]|] eqn:E; [|discriminate]. injection H as <- <-.
    exists ms, (if wn then [(v, false)] else []), q. unfold saves.
    split; [exact E|]. split; [reflexivity|]. split; [exact D|]. split; [auto|]. split; [auto|]. rewrite F. split; [|split].
    + split; [auto|]. intros [X | (_ & _ & w0 & X)]; [exact X | congruence].
    + intros x sv. destruct wn; cbn [In]; [|split; [intros [] | intros (_ & _ & _ & _ & X & _); discriminate]].
      split; [intros [X | []]; injection X as <- <-; repeat split; auto; discriminate|]. intros (-> & _ & _ & _ & X & _). injection X as <-. auto.
    + destruct wn; cbn; lia.
Qed.

Lemma mark_all persist quiet rvars : forall (ms ms' : list smodule) w, mark_unused path_match persist quiet rvars ms = Some (ms', w) -> NoDup (map mname ms) ->
  NoDup (map mname ms') /\ (valid ms -> valid ms') /\
  (forall v, find_variable v ms' <> None <-> find_variable v ms <> None \/ In v rvars /\ saves persist v) /\
  (NoDup rvars -> NoDup (map fst w) /\ forall v sv, In (v, sv) w <-> In v rvars /\ find_variable v ms = None /\ special v = false /\ develop v = false /\ decide v persist = Decided sv true /\ (sv = true -> quiet v = false)).
Proof.
  induction rvars as [|v rvars IH]; intros ms ms' w H D.
  - injection H as <- <-. split; [exact D|]. split; [auto|]. split; [cbn; tauto|]. intros _. split; [constructor | cbn; tauto].
  - destruct (mark_step _ _ _ _ _ _ _ H D) as (ms1 & w1 & w2 & H1 & -> & D1 & V1 & O1 & S1 & W1 & L1).
    destruct (IH _ _ _ H1 D1) as (D2 & V2 & F2 & W2). split; [exact D2|]. split; [auto|]. split.
    + intro u. rewrite F2. destruct (list_eq_dec ascii_dec u v) as [-> | Nu].
      * rewrite S1. cbn. tauto.
      * rewrite (O1 u Nu). cbn. split; [intros [X | [X Y]]; auto | intros [X | [[X | X] Y]]; [auto | congruence | auto]].
    + intro Nd. apply NoDup_cons_iff in Nd. destruct Nd as [Nv Nd]. destruct (W2 Nd) as [Nw W2']. split.
      * rewrite map_app. destruct w1 as [|[x sx] [|]]; [exact Nw | | cbn in L1; lia]. cbn. constructor; [|exact Nw].
        intro I. apply in_map_iff in I. destruct I as ([y sy] & Ey & I). cbn in Ey. subst y. apply W2' in I. destruct I as [I _].
        destruct (proj1 (W1 x sx) (or_introl eq_refl)) as (-> & _). contradiction.
      * intros u sv. rewrite in_app_iff, W1, W2'. split.
        -- intros [(-> & X) | (I & X & Y)]; [cbn; tauto|]. assert (Nu : u <> v) by (intros ->; contradiction). rewrite (O1 u Nu) in X. cbn. tauto.
        -- intros ([<- | I] & X & Y); [tauto|]. assert (Nu : u <> v) by (intros ->; contradiction). rewrite (O1 u Nu). tauto.
Qed.
Lemma save_variable_new v (ms : list smodule) : find_variable v ms = None -> NoDup (map mname ms) -> save_variable (mksaved v (Some no_flags) None) ms <> None.
Proof.
  intros F D. unfold save_variable, find_variable in *. cbn [svar sflags] in *. destruct (find_sup v ms) as [n|] eqn:S.
  - destruct (find_module n ms) as [m|]; [rewrite F|]; discriminate.
  - destruct (ensure_sup _ _ S) as (_ & _ & E). pose proof (insert_module_names (module_name v) 0 ms D) as D'. rewrite E in *.
    rewrite (find_module_unique _ _ (mksmodule (module_name v) 0 []) D'); [discriminate | apply in_or_app; right; left; reflexivity | reflexivity].
Qed.
Lemma mark_fails persist quiet rvars : forall (ms : list smodule), NoDup (map mname ms) -> mark_unused path_match persist quiet rvars ms = None ->
  exists v, In v rvars /\ special v = false /\ develop v = false /\ find_variable v ms = None /\ decide v persist = Invalid.
Proof.
  induction rvars as [|v rvars IH]; intros ms D H; [discriminate|]. cbn [mark_unused] in H.
  destruct (special v) eqn:S; [|destruct (find_variable v ms) as [t|] eqn:F; [|destruct (develop v) eqn:G; [|destruct (decide v persist) as [|[] wn] eqn:Dc]]].
  - destruct (mark_unused path_match persist quiet rvars ms) as [[]|] eqn:E; [discriminate|]. destruct (IH ms D E) as (u & I & X). exists u. split; [right; exact I | exact X].
  - destruct (mark_unused path_match persist quiet rvars ms) as [[]|] eqn:E; [discriminate|]. destruct (IH ms D E) as (u & I & X). exists u. split; [right; exact I | exact X].
  - destruct (mark_unused path_match persist quiet rvars ms) as [[]|] eqn:E; [discriminate|]. destruct (IH ms D E) as (u & I & X). exists u. split; [right; exact I | exact X].
  - exists v. repeat split; auto. left. reflexivity.
  - destruct (save_variable (mksaved v (Some no_flags) None) ms) as [ms1|] eqn:Sv; [|exfalso; exact (save_variable_new v ms F D Sv)].
    destruct (mark_unused path_match persist quiet rvars ms1) as [[]|] eqn:E; [discriminate|].
    destruct (IH ms1 (save_variable_names _ _ _ D Sv) E) as (u & I & X1 & X2 & X3 & X4). exists u. repeat split; auto; [right; exact I|].
    destruct (list_eq_dec ascii_dec u v) as [-> | Nu]; [exact F|]. rewrite <- X3. symmetry. exact (find_variable_other _ _ _ u D Sv Nu).
  - destruct (mark_unused path_match persist quiet rvars ms) as [[]|] eqn:E; [discriminate|]. destruct (IH ms D E) as (u & I & X). exists u. split; [right; exact I | exact X].
Qed.
End U.

(* Inheriting. *)
Section I.
Context (path_match : bytes -> bytes -> bool) {V N : Type}.
Notation project := (@project V N).
(* The outer project takes care of the variable. *)
Definition takes_care (r : project) (sname v : bytes) : Prop :=
  exists ms persist m, pmodules r = Some (ms, persist) /\ In m ms /\ mname m = sname /\
    (In v (map svar (svars m)) \/ exists l w, persist = Some l /\ save_config_variable path_match v persist false true = Decided true w).
Lemma outer_found sname v p same global (rs : list project) : forall i c n, outer_loop path_match sname v p same global i rs = Some (true, c, n) ->
  exists j r, nth_error rs j = Some r /\ (global = true \/ p = Outer (i + j)) /\ takes_care r sname v /\ (global = true \/ same = false -> configured r = true).
Proof.
  induction rs as [|r rs IH]; intros i c n H; [discriminate|]. cbn [outer_loop] in H.
  assert (K : forall c n, outer_loop path_match sname v p same global (S i) rs = Some (true, c, n) ->
    exists j r0, nth_error (r :: rs) j = Some r0 /\ (global = true \/ p = Outer (i + j)) /\ takes_care r0 sname v /\ (global = true \/ same = false -> configured r0 = true)).
  { intros c0 n0 H0. destruct (IH _ _ _ H0) as (j & r0 & E1 & E2 & E3 & E4). exists (S j), r0. split; [exact E1|]. split; [|split; assumption]. rewrite <- plus_n_Sm. exact E2. }
  destruct (global || belongs p i) eqn:B; [|exact (K _ _ H)].
  assert (Bp : global = true \/ p = Outer (i + 0)).
  { apply Bool.orb_true_iff in B. destruct B as [B | B]; [auto|]. right. destruct p; try discriminate. cbn in B. apply Nat.eqb_eq in B. subst. f_equal. lia. }
  destruct (pmodules r) as [[ms persist]|] eqn:P; [|destruct global; [exact (K _ _ H) | discriminate]].
  destruct (find_module sname ms) as [m|] eqn:M; [|destruct global; [exact (K _ _ H) | discriminate]].
  apply find_module_some in M. destruct M as [Im Em].
  assert (G : forall f : bool, (f = true -> In v (map svar (svars m)) \/ exists l w, persist = Some l /\ save_config_variable path_match v persist false true = Decided true w) ->
    (if f then if (global || negb same) && negb (configured r) then Some (false, true, false) else Some (true, true, false) else if global then outer_loop path_match sname v p same global (S i) rs else Some (false, true, false)) = Some (true, c, n) ->
    exists j r0, nth_error (r :: rs) j = Some r0 /\ (global = true \/ p = Outer (i + j)) /\ takes_care r0 sname v /\ (global = true \/ same = false -> configured r0 = true)).
  { intros f Hf Hx. destruct f; [|destruct global; [exact (K _ _ Hx) | discriminate]].
    destruct ((global || negb same) && negb (configured r)) eqn:C; [discriminate|]. exists 0, r. split; [reflexivity|]. split; [exact Bp|]. split; [exists ms, persist, m; auto|].
    intros [-> | ->]; destruct (configured r); auto; cbn in C; try discriminate. destruct global; discriminate. }
  destruct (find_saved v (svars m)) as [t|] eqn:F.
  - apply (G true); [|exact H]. intros _. left. apply find_saved_some in F. destruct F as [F1 F2]. apply in_map_iff. eauto.
  - destruct persist as [l|]; [|apply (G false); [discriminate | exact H]].
    destruct (save_config_variable path_match v (Some l) false true) as [|f w] eqn:D; [discriminate|]. apply (G f); [|exact H]. intros ->. right. exists l, w. auto.
Qed.
Lemma find_inherited_inherited sname v p same global (rs : list project) : find_inherited path_match sname v p same global rs = Inherited ->
  exists j r, nth_error rs j = Some r /\ (global = true \/ p = Outer j) /\ takes_care r sname v /\ (global = true \/ same = false -> configured r = true).
Proof.
  unfold find_inherited. destruct (outer_loop path_match sname v p same global 0 rs) as [[[[] c] n]|] eqn:E; try discriminate.
  - intros _. exact (outer_found _ _ _ _ _ _ _ _ _ E).
  - destruct global; [discriminate|]. destruct n; discriminate.
Qed.
(* Why it fails. *)
Lemma outer_null sname v p same (rs : list project) : forall i f c, outer_loop path_match sname v p same false i rs = Some (f, c, true) -> forall j, j < length rs -> p <> Outer (i + j).
Proof.
  induction rs as [|r rs IH]; intros i f c H j L; [cbn in L; lia|]. cbn [outer_loop orb] in H. destruct (belongs p i) eqn:B.
  - destruct (pmodules r) as [[ms persist]|]; [|discriminate]. destruct (find_module sname ms) as [m|]; [|discriminate].
    destruct (find_saved v (svars m)); [destruct (negb same && negb (configured r)); discriminate|]. destruct persist as [l|]; [|discriminate].
    destruct (save_config_variable path_match v (Some l) false true) as [|[] w]; [discriminate | destruct (negb same && negb (configured r)); discriminate | discriminate].
  - destruct j as [|j].
    + intros ->. cbn in B. rewrite Nat.add_0_r, Nat.eqb_refl in B. discriminate.
    + rewrite <- plus_n_Sm. apply (IH (S i) f c H). cbn in L. lia.
Qed.
Lemma outer_invalid sname v p same global (rs : list project) : forall i, outer_loop path_match sname v p same global i rs = None ->
  exists r ms l, In r rs /\ pmodules r = Some (ms, Some l) /\ save_config_variable path_match v (Some l) false true = Invalid.
Proof.
  induction rs as [|r rs IH]; intros i H; [discriminate|]. cbn [outer_loop] in H.
  assert (K : outer_loop path_match sname v p same global (S i) rs = None -> exists r0 ms l, In r0 (r :: rs) /\ pmodules r0 = Some (ms, Some l) /\ save_config_variable path_match v (Some l) false true = Invalid).
  { intro H0. destruct (IH _ H0) as (r0 & ms & l & I & X). exists r0, ms, l. split; [right; exact I | exact X]. }
  destruct (global || belongs p i); [|exact (K H)]. destruct (pmodules r) as [[ms persist]|] eqn:P; [|destruct global; [exact (K H) | discriminate]].
  destruct (find_module sname ms) as [m|]; [|destruct global; [exact (K H) | discriminate]].
  destruct (find_saved v (svars m)); [destruct (_ && _); discriminate|]. destruct persist as [l|]; [|destruct global; [exact (K H) | discriminate]].
  destruct (save_config_variable path_match v (Some l) false true) as [|[] w] eqn:D; [exists r, ms, l; cbn; auto | destruct (_ && _); discriminate | destruct global; [exact (K H) | discriminate]].
Qed.
Lemma find_inherited_broken sname v p same global (rs : list project) : find_inherited path_match sname v p same global rs = Broken ->
  (global = false /\ forall j, j < length rs -> p <> Outer j) \/ exists r ms l, In r rs /\ pmodules r = Some (ms, Some l) /\ save_config_variable path_match v (Some l) false true = Invalid.
Proof.
  unfold find_inherited. destruct (outer_loop path_match sname v p same global 0 rs) as [[[[] c] n]|] eqn:E; try discriminate.
  - destruct global; [discriminate|]. destruct n; [|discriminate]. intros _. left. split; [reflexivity|]. exact (outer_null _ _ _ _ _ _ _ _ E).
  - intros _. right. exact (outer_invalid _ _ _ _ _ _ _ E).
Qed.
End I.

(* The order. *)
Section O.
Context {V N : Type}.
Notation smodule := (@smodule V N).
Notation le := (fun x y : smodule => (prio x <= prio y)%Z).
Lemma insert_prio_perm m (l : list smodule) : Permutation (m :: l) (insert_prio m l).
Proof.
  induction l as [|x l IH]; [apply Permutation_refl|]. cbn. destruct (prio m <? prio x)%Z; [apply Permutation_refl|].
  apply (perm_trans (perm_swap x m l)). apply perm_skip. exact IH.
Qed.
Lemma insert_prio_sorted m (l : list smodule) : StronglySorted le l -> StronglySorted le (insert_prio m l).
Proof.
  induction l as [|x l IH]; intro S; cbn; [constructor; constructor|]. apply StronglySorted_inv in S. destruct S as [S F]. destruct (prio m <? prio x)%Z eqn:E.
  - apply Z.ltb_lt in E. constructor; [constructor; assumption|]. constructor; [lia|]. eapply Forall_impl; [|exact F]. cbn. intros. lia.
  - apply Z.ltb_ge in E. constructor; [auto|]. apply Forall_forall. intros y I. apply (Permutation_in _ (Permutation_sym (insert_prio_perm m l))) in I. destruct I as [<- | I]; [exact E|].
    rewrite Forall_forall in F. apply F. exact I.
Qed.
Lemma filter_none {A} (f : A -> bool) l : (forall x, In x l -> f x = false) -> filter f l = [].
Proof. induction l as [|x l IH]; intro H; [reflexivity|]. cbn. rewrite (H x) by (left; reflexivity). apply IH. intros y I. apply H. right. exact I. Qed.
Lemma insert_prio_stable m (l : list smodule) p : StronglySorted le l -> filter (fun x => (prio x =? p)%Z) (insert_prio m l) = filter (fun x => (prio x =? p)%Z) (l ++ [m]).
Proof.
  induction l as [|x l IH]; intro S; [reflexivity|]. cbn [insert_prio app]. pose proof S as S0. apply StronglySorted_inv in S. destruct S as [S F].
  destruct (prio m <? prio x)%Z eqn:E; [|cbn [filter]; rewrite (IH S); reflexivity].
  apply Z.ltb_lt in E. change (x :: l ++ [m]) with ((x :: l) ++ [m]). rewrite filter_app. cbn [filter]. destruct (prio m =? p)%Z eqn:A; [|rewrite app_nil_r; reflexivity].
  apply Z.eqb_eq in A. rewrite (filter_none _ l).
  - rewrite (proj2 (Z.eqb_neq _ _)) by lia. reflexivity.
  - intros y I. rewrite Forall_forall in F. specialize (F y I). cbn in F. apply Z.eqb_neq. lia.
Qed.
Lemma order_gen (ms l : list smodule) : StronglySorted le l ->
  Permutation (l ++ ms) (fold_left (fun l m => insert_prio m l) ms l) /\ StronglySorted le (fold_left (fun l m => insert_prio m l) ms l) /\
  forall p, filter (fun x => (prio x =? p)%Z) (fold_left (fun l m => insert_prio m l) ms l) = filter (fun x => (prio x =? p)%Z) (l ++ ms).
Proof.
  revert l. induction ms as [|m ms IH]; intros l S; cbn [fold_left].
  - rewrite app_nil_r. auto.
  - destruct (IH (insert_prio m l) (insert_prio_sorted m l S)) as (P & S' & F). split; [|split; [exact S'|]].
    + apply (perm_trans (l' := insert_prio m l ++ ms)); [|exact P]. apply (perm_trans (l' := (m :: l) ++ ms)); [apply Permutation_sym; apply Permutation_middle|]. apply Permutation_app_tail. apply insert_prio_perm.
    + intro p. rewrite F, !filter_app, (insert_prio_stable m l p S), filter_app, <- app_assoc. f_equal. change (m :: ms) with ([m] ++ ms). rewrite filter_app. reflexivity.
Qed.
Lemma order_spec (ms : list smodule) : Permutation ms (order ms) /\ StronglySorted le (order ms) /\ forall p, filter (fun x => (prio x =? p)%Z) (order ms) = filter (fun x => (prio x =? p)%Z) ms.
Proof. exact (order_gen ms [] (SSorted_nil _)). Qed.
End O.

(* The special names. *)
Lemma special_correct n : special n = false <-> ~ of_config n.
Proof.
  assert (X : special n = true <-> of_config n); [|destruct (special n); [|split; [intros _ Y; apply X in Y; discriminate | reflexivity]]].
  - unfold special, of_config. rewrite !Bool.orb_true_iff, !beqb_eq, at_is_0. cbn [In]. unfold prefix. intuition.
  - split; [discriminate|]. intros Y. destruct Y. apply X. reflexivity.
Qed.
Lemma rfind_dot_none s : forall i r, ~ In DOT s -> rfind_dot s i r = r.
Proof. induction s as [|c s IH]; intros i r H; cbn [rfind_dot]; [reflexivity|]. destruct (ceqb c DOT) eqn:E; [apply ceqb_eq in E; destruct H; left; exact E|]. apply IH. intros I. apply H. right. exact I. Qed.
Lemma rfind_dot_app s t : forall i r, rfind_dot (s ++ t) i r = rfind_dot t (i + length s) (rfind_dot s i r).
Proof. induction s as [|c s IH]; intros i r; cbn [rfind_dot app length]; [rewrite Nat.add_0_r; reflexivity|]. rewrite IH. f_equal. lia. Qed.
Lemma last_dot s : ~ In DOT s \/ exists x y, s = x ++ DOT :: y /\ ~ In DOT y.
Proof.
  induction s as [|c s [H | (x & y & -> & H)]]; [left; intros []| |right; exists (c :: x), y; auto].
  destruct (ceqb c DOT) eqn:E; [apply ceqb_eq in E; subst c; right; exists [], s; auto|]. apply ceqb_neq in E. left. intros [X | X]; auto.
Qed.
Lemma develop_correct n : prefix (b "config.") n -> (develop n = false <-> ~ of_develop n).
Proof.
  intros (m & ->). assert (X : develop (b "config." ++ m) = true <-> of_develop (b "config." ++ m)); [|destruct (develop (b "config." ++ m)); [|split; [intros _ Y; apply X in Y; discriminate | reflexivity]]].
  - unfold develop, of_develop. rewrite rfind_dot_app. replace (rfind_dot (b "config.") 0 0) with 6 by reflexivity. replace (0 + length (b "config.")) with 7 by reflexivity. destruct (last_dot m) as [H | (x & y & -> & H)].
    + rewrite rfind_dot_none by exact H. cbn [Nat.eqb negb andb]. split; [discriminate|]. intros (z & E). apply app_inv_head in E. subst m. destruct H. apply in_or_app. right. left. reflexivity.
    + rewrite rfind_dot_app. cbn [rfind_dot]. replace (ceqb DOT DOT) with true by reflexivity. rewrite rfind_dot_none by exact H. replace (7 + length x =? 6) with false by (symmetry; apply Nat.eqb_neq; lia). cbn [negb andb].
      replace (skipn (7 + length x + 1) (b "config." ++ x ++ DOT :: y)) with y.
      2: { replace (b "config." ++ x ++ DOT :: y) with ((b "config." ++ x ++ [DOT]) ++ y) by (rewrite <- !app_assoc; reflexivity). rewrite skipn_app. replace (7 + length x + 1) with (length (b "config." ++ x ++ [DOT])) by (rewrite !app_length; cbn [length b]; lia). rewrite skipn_all, Nat.sub_diag. reflexivity. }
      rewrite beqb_eq. split; [intros ->; exists x; reflexivity|]. intros (z & E). apply app_inv_head in E. clear X || idtac. revert z E. induction x as [|c x IH]; intros [|d z] E; cbn [app b] in E.
      * injection E as E. exact E.
      * injection E as <- E. subst y. destruct H. apply in_or_app. right. left. reflexivity.
      * injection E as -> E. assert (I : In DOT (b "develop")) by (cbn [b]; rewrite <- E; apply in_or_app; right; left; reflexivity). exfalso. clear - I. cbn in I. intuition discriminate.
      * injection E as _ E. exact (IH z E).
  - split; [discriminate|]. intros Y. destruct Y. apply X. reflexivity.
Qed.
Lemma ends_with_correct n s : ends_with n s = true <-> exists m, m <> [] /\ n = m ++ s.
Proof.
  unfold ends_with. rewrite Bool.andb_true_iff, Nat.ltb_lt, beqb_eq. split.
  - intros (L & E). exists (firstn (length n - length s) n). split; [|transitivity (firstn (length n - length s) n ++ skipn (length n - length s) n); [symmetry; apply firstn_skipn | f_equal; exact E]]. intros X. apply (f_equal (@length _)) in X. rewrite firstn_length in X. cbn in X. lia.
  - intros (m & Ne & ->). rewrite app_length. split; [destruct m; [contradiction|cbn; lia]|]. replace (length m + length s - length s) with (length m) by lia. rewrite skipn_app, skipn_all, Nat.sub_diag. reflexivity.
Qed.
Lemma not_ends_with n s : ends_with n s = false <-> ~ exists m, m <> [] /\ n = m ++ s.
Proof. rewrite <- ends_with_correct. destruct (ends_with n s); split; intuition congruence. Qed.

(* When there is a warning about a variable that is no longer inherited. *)
Section W.
Context (path_match : bytes -> bytes -> bool) {V N : Type}.
Lemma find_module_none n (ms : list (@smodule V N)) : find_module n ms = None -> forall m, In m ms -> mname m <> n.
Proof. unfold find_module. intros H m I. pose proof (List.find_none _ _ H m I) as X. cbn in X. intros E. rewrite E, beqb_refl in X. discriminate X. Qed.
Lemma outer_at sname v same (rs : list (@project V N)) : forall i j r, nth_error rs j = Some r ->
  outer_loop path_match sname v (Outer (i + j)) same false i rs = outer_loop path_match sname v (Outer 0) same false 0 [r].
Proof.
  induction rs as [|r0 rs IH]; intros i [|j] r H; try discriminate H; cbn [nth_error] in H.
  - injection H as ->. cbn [outer_loop orb]. unfold belongs. rewrite Nat.add_0_r, !Nat.eqb_refl. reflexivity.
  - cbn [outer_loop orb]. unfold belongs at 1. replace (i + S j =? i) with false by (symmetry; apply Nat.eqb_neq; lia). replace (i + S j) with (S i + j) by lia. exact (IH (S i) j r H).
Qed.
Lemma previously_inherited sname v p (same : bool) (rs : list (@project V N)) : (forall r ms persist, In r rs -> pmodules r = Some (ms, persist) -> NoDup (map mname ms)) ->
  (find_inherited path_match sname v p same false rs = NotInherited true <->
   same = true /\ exists j r ms persist, p = Outer j /\ nth_error rs j = Some r /\ pmodules r = Some (ms, persist) /\ ~ takes_care path_match r sname v /\
     ((exists m, In m ms /\ mname m = sname) -> persist = None \/ save_config_variable path_match v persist false true <> Invalid)).
Proof.
  intros U. assert (Uq : forall r ms persist m m', In r rs -> pmodules r = Some (ms, persist) -> In m ms -> In m' ms -> mname m = mname m' -> m = m').
  { intros r ms persist m m' Ir P I I' E. specialize (U r ms persist Ir P). clear - U I I' E. induction ms as [|x ms IH]; [destruct I|]. cbn in U. inversion U as [|? ? N1 N2]; subst. destruct I as [-> | I], I' as [-> | I']; auto; exfalso; apply N1; [rewrite E | rewrite <- E]; apply in_map; assumption. }
  assert (At : forall j r, nth_error rs j = Some r -> outer_loop path_match sname v (Outer j) same false 0 rs = outer_loop path_match sname v (Outer 0) same false 0 [r]) by (intros j r Hj; exact (outer_at sname v same rs 0 j r Hj)).
  unfold find_inherited. split.
  - destruct (outer_loop path_match sname v p same false 0 rs) as [[[[] c] [|]]|] eqn:E; try discriminate. intros X. injection X as X. apply Bool.andb_true_iff in X. destruct X as [-> ->]. split; [reflexivity|].
    assert (K : exists j r, p = Outer j /\ nth_error rs j = Some r).
    { assert (G : forall (rs : list (@project V N)) i, outer_loop path_match sname v p true false i rs = Some (false, true, false) -> exists j r, p = Outer (i + j) /\ nth_error rs j = Some r).
      { clear. induction rs as [|r rs IH]; intros i H; [discriminate H|]. cbn [outer_loop orb] in H. destruct (belongs p i) eqn:B.
        - exists 0, r. split; [|reflexivity]. destruct p; try discriminate B. cbn in B. apply Nat.eqb_eq in B. subst. f_equal. lia.
        - destruct (IH (S i) H) as (j & r' & X & Y). exists (S j), r'. rewrite <- plus_n_Sm. auto. }
      exact (G rs 0 E). }
    destruct K as (j & r & -> & Hj). rewrite (At j r Hj) in E. cbn [outer_loop orb belongs Nat.eqb negb andb] in E. destruct (pmodules r) as [[ms persist]|] eqn:P; [|discriminate E]. exists j, r, ms, persist. repeat (split; [assumption || reflexivity|]). assert (Ir := nth_error_In _ _ Hj).
    destruct (find_module sname ms) as [m|] eqn:M.
    + apply find_module_some in M. destruct M as [Im Em]. destruct (find_saved v (svars m)) as [t|] eqn:F; [discriminate E|]. split.
      * intros (ms' & persist' & m' & P' & Im' & Em' & T). rewrite P in P'. injection P' as <- <-. assert (m' = m) as -> by (apply (Uq r ms persist); auto; congruence). destruct T as [T | (l & w & -> & T)]; [|rewrite T in E; discriminate E]. apply in_map_iff in T. destruct T as (t & Et & It). unfold find_saved in F. pose proof (List.find_none _ _ F t It) as X. cbn in X. rewrite Et, beqb_refl in X. discriminate X.
      * intros _. destruct persist as [l|]; [right; intros X; rewrite X in E; discriminate E | left; reflexivity].
    + split; [|intros (m & I & Em); destruct (find_module_none _ _ M m I Em)]. intros (ms' & persist' & m' & P' & Im' & Em' & T). rewrite P in P'. injection P' as <- <-. exact (find_module_none _ _ M m' Im' Em').
  - intros (-> & j & r & ms & persist & -> & Hj & P & T & Iv). rewrite (At j r Hj). cbn [outer_loop orb belongs Nat.eqb negb andb]. rewrite P. destruct (find_module sname ms) as [m|] eqn:M; [|reflexivity]. apply find_module_some in M. destruct M as [Im Em]. destruct (find_saved v (svars m)) as [t|] eqn:F.
    + destruct T. exists ms, persist, m. split; [exact P|]. split; [exact Im|]. split; [exact Em|]. left. apply find_saved_some in F. destruct F as [F1 F2]. apply in_map_iff. eauto.
    + destruct persist as [l|]; [|reflexivity]. destruct Iv as [X | Iv]; [eauto | discriminate X|]. destruct (save_config_variable path_match v (Some l) false true) as [|[] w] eqn:D; [contradiction | | reflexivity]. destruct T. exists ms, (Some l), m. split; [exact P|]. split; [exact Im|]. split; [exact Em|]. right. eauto.
Qed.
End W.
