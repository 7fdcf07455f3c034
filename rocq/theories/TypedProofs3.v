(* What a value is after a history of operations. *)
From Coq Require Import Sorted.
From Verif Require Import Base IntModel NameModel NameSpec NameProofs NamesModel TypedModel TypedSpec TypedProofs TypedProofs2.

Lemma walk_app {A} (f : name -> option name -> option A) ms : forall k ns l, length ns <= k -> walk f ns = Some l ->
  walk f (ns ++ ms) = match walk f ms with Some l' => Some (l ++ l') | None => None end.
Proof.
  induction k as [|k IH]; intros ns l L E.
  - destruct ns; [|cbn in L; lia]. injection E as <-. cbn. destruct (walk f ms); reflexivity.
  - destruct ns as [|n ns]; [injection E as <-; cbn; destruct (walk f ms); reflexivity|]. cbn in L, E. cbn [app walk]. destruct (paired n).
    + destruct ns as [|r ns]; [discriminate|]. cbn [app]. destruct (f n (Some r)) as [x|]; [|discriminate].
      destruct (walk f ns) as [l'|] eqn:El; [|discriminate]. injection E as <-. rewrite (IH ns l'); [|cbn in L; lia|exact El]. destruct (walk f ms); reflexivity.
    + destruct (f n None) as [x|]; [|discriminate]. destruct (walk f ns) as [l'|] eqn:El; [|discriminate]. injection E as <-.
      rewrite (IH ns l'); [|lia|exact El]. destruct (walk f ms); reflexivity.
Qed.
Lemma walk_app2 {A} (f : name -> option name -> option A) ns ms l l' : walk f ns = Some l -> walk f ms = Some l' -> walk f (ns ++ ms) = Some (l ++ l').
Proof. intros E E'. rewrite (walk_app f ms (length ns) ns l (le_n _) E), E'. reflexivity. Qed.

Definition next_names (ns : list name) (o : op) : list name := match o with Assign l => l | Append l => ns ++ l | Prepend l => l ++ ns end.
(* A relation between the names and value that every operation keeps. *)
Lemma history t (R : list name -> option (data t) -> Prop) (Q : op -> Prop) :
  R [] None -> (forall ns v o x, Q o -> R ns v -> apply t v o = Some x -> R (next_names ns o) (Some x)) ->
  forall os v, Forall Q os -> after t None os = Some v -> R (names_after os) v.
Proof.
  intros R0 RS os v. unfold names_after. generalize (@None (data t)) ([] : list name) R0. clear R0.
  induction os as [|o os IH]; intros w ns Rw F E; cbn in E; [injection E as <-; exact Rw|]. inversion F; subst.
  destruct (apply t w o) as [x|] eqn:A; [|discriminate]. cbn. eapply IH; [|eassumption|exact E]. eapply RS; eassumption.
Qed.

(* Extensionality of sorted lists. *)
Section Sorted.
Context {A : Type} (f : A -> A -> comparison) (W : weak_order f).
Lemma sorted_hd x l y : StronglySorted (below f) (x :: l) -> In y (x :: l) -> y = x \/ f x y = Lt.
Proof. intros S [->|I]; [left; reflexivity|]. inversion S as [|? ? _ F]; subst. rewrite Forall_forall in F. right. apply F. exact I. Qed.
Lemma sorted_ext l l' : StronglySorted (below f) l -> StronglySorted (below f) l' -> (forall x, In x l <-> In x l') -> l = l'.
Proof.
  revert l'. induction l as [|x l IH]; intros [|y l'] S S' E; [reflexivity| | |].
  - destruct (proj2 (E y) (or_introl eq_refl)).
  - destruct (proj1 (E x) (or_introl eq_refl)).
  - assert (x = y).
    { destruct (sorted_hd _ _ _ S' (proj1 (E x) (or_introl eq_refl))) as [->|L]; [reflexivity|].
      destruct (sorted_hd _ _ _ S (proj2 (E y) (or_introl eq_refl))) as [->|L']; [reflexivity|].
      exfalso. pose proof (proj1 W x y) as K. rewrite L', L in K. discriminate. }
    subst y. f_equal. inversion S as [|? ? S1 F1]; inversion S' as [|? ? S2 F2]; subst. apply IH; [exact S1|exact S2|].
    assert (N : forall z, f x z = Lt -> z <> x) by (intros z L ->; rewrite (wo_refl f W) in L; discriminate).
    rewrite Forall_forall in F1, F2. intros z. split; intros I.
    + destruct (proj1 (E z) (or_intror I)) as [->|]; [|assumption]. destruct (N z); [apply F1; exact I | reflexivity].
    + destruct (proj2 (E z) (or_intror I)) as [->|]; [|assumption]. destruct (N z); [apply F2; exact I | reflexivity].
Qed.
End Sorted.

Lemma after_some t os : forall x v, after t (Some x) os = Some v -> exists y, v = Some y.
Proof. induction os as [|o os IH]; intros x v E; cbn in E; [injection E as <-; eauto|]. destruct (apply t (Some x) o); [|discriminate]. eapply IH. exact E. Qed.
Lemma after_ne t os v : after t None os = Some v -> os <> [] -> exists y, v = Some y.
Proof. intros E N. destruct os as [|o os]; [contradiction|]. cbn in E. destruct (apply t None o) as [x|]; [|discriminate]. eapply after_some. exact E. Qed.

(* Sets. *)
Section Sets.
Context {T : Type} (t : traits T) (O : total_order (compare1 t)).
Lemma insert_in x y s : In y (insert t x s) <-> y = x \/ In y s.
Proof.
  induction s as [|z s IH]; cbn; [intuition congruence|]. destruct (compare1 t x z) eqn:E; cbn.
  - apply (proj2 O) in E. subst z. intuition congruence.
  - intuition congruence.
  - rewrite IH. intuition congruence.
Qed.
Lemma insert_all_in l : forall s y, In y (insert_all t s l) <-> In y s \/ In y l.
Proof. unfold insert_all. induction l as [|x l IH]; intros s y; cbn; [tauto|]. rewrite IH, insert_in. intuition congruence. Qed.
Lemma insert_all_sort l : forall s, StronglySorted (below (compare1 t)) s -> StronglySorted (below (compare1 t)) (insert_all t s l).
Proof. unfold insert_all. induction l as [|x l IH]; intros s S; cbn; [exact S|]. apply IH, insert_sort; [apply O | exact S]. Qed.
Lemma insert_all_comm l l' : insert_all t (insert_all t [] l) l' = insert_all t [] (l' ++ l).
Proof.
  apply (sorted_ext (compare1 t) (proj1 O)).
  - apply insert_all_sort, insert_all_sort. constructor.
  - apply insert_all_sort. constructor.
  - intros x. rewrite !insert_all_in, in_app_iff. cbn. tauto.
Qed.
Lemma set_history os v : after (set_type t) None os = Some v -> os <> [] -> set_assign t None (names_after os) = v.
Proof.
  intros E N.
  assert (H : exists l, walk (element t) (names_after os) = Some l /\ or_none v = insert_all t [] l).
  { revert E. apply (history (set_type t) (fun ns v => exists l, walk (element t) ns = Some l /\ or_none v = insert_all t [] l) (fun _ => True)).
    - exists []. split; reflexivity.
    - intros ns w o x _ (l & L & I) A. destruct o as [ms|ms|ms]; cbn in A; unfold set_assign, set_append in A; destruct (walk (element t) ms) as [l'|] eqn:L'; try discriminate; injection A as <-; cbn.
      + exists l'. split; [exact L'|]. rewrite or_none_cleared. reflexivity.
      + exists (l ++ l'). split; [apply walk_app2; assumption|]. rewrite I. unfold insert_all. rewrite fold_left_app. reflexivity.
      + exists (l' ++ l). split; [apply walk_app2; assumption|]. rewrite I. apply insert_all_comm.
    - apply Forall_forall. auto. }
  destruct H as (l & L & I). unfold set_assign, set_append. rewrite L. cbn [or_none]. rewrite <- I.
  destruct (after_ne _ _ _ E N) as [y ->]. reflexivity.
Qed.
End Sets.
(* Vectors. *)
Lemma vector_history T (t : traits T) os v : after (vector_type t) None os = Some v -> os <> [] -> vector_assign t None (names_after os) = v.
Proof.
  intros E N. assert (H : walk (element t) (names_after os) = Some (or_none v)).
  { revert E. apply (history (vector_type t) (fun ns v => walk (element t) ns = Some (or_none v)) (fun _ => True)).
    - reflexivity.
    - intros ns w o x _ L A. destruct o as [ms|ms|ms]; cbn in A; unfold vector_assign, vector_prepend, vector_append in A; destruct (walk (element t) ms) as [l'|] eqn:L'; try discriminate; injection A as <-; cbn.
      + rewrite or_none_cleared. exact L'.
      + apply walk_app2; assumption.
      + apply walk_app2; assumption.
    - apply Forall_forall. auto. }
  unfold vector_assign, vector_append. rewrite H. destruct (after_ne _ _ _ E N) as [y ->]. reflexivity.
Qed.
Lemma names_history cproj cdir os v : after (names_type cproj cdir) None os = Some v -> os <> [] -> v = Some (names_after os).
Proof.
  intros E N. assert (H : or_none v = names_after os).
  { revert E. apply (history (names_type cproj cdir) (fun ns v => or_none v = ns) (fun _ => True)).
    - reflexivity.
    - intros ns w o x _ L A. destruct w as [[|a w]|], o as [ms|ms|ms]; cbn in *; injection A as <-; subst ns; cbn; rewrite ?app_nil_r; reflexivity.
    - apply Forall_forall. auto. }
  destruct (after_ne _ _ _ E N) as [y ->]. cbn in H. subst. reflexivity.
Qed.
Definition not_prepend (o : op) : Prop := match o with Prepend _ => False | _ => True end.
Lemma pairs_history K V (t : ptraits K V) os v : Forall not_prepend os -> after (pairs_type t) None os = Some v -> os <> [] -> pairs_assign t None (names_after os) = v.
Proof.
  intros P E N. assert (H : walk (pconvert t) (names_after os) = Some (or_none v)).
  { revert E. apply (history (pairs_type t) (fun ns v => walk (pconvert t) ns = Some (or_none v)) not_prepend).
    - reflexivity.
    - intros ns w o x Q L A. destruct o as [ms|ms|ms]; cbn in Q, A; [| |contradiction]; unfold pairs_assign, pairs_append in A; destruct (walk (pconvert t) ms) as [l'|] eqn:L'; try discriminate; injection A as <-; cbn.
      + rewrite or_none_cleared. exact L'.
      + apply walk_app2; assumption.
    - exact P. }
  unfold pairs_assign, pairs_append. rewrite H. destruct (after_ne _ _ _ E N) as [y ->]. reflexivity.
Qed.

(* Maps. *)
Section Maps.
Context {K V : Type} (t : ptraits K V) (W : weak_order (fcompare t)).
Local Notation lk k m := (map_subscript t (Some m) k).
Local Notation same := (same_key (fcompare t)).
Lemma same_l k k' x : fcompare t k k' = Eq -> fcompare t k x = fcompare t k' x.
Proof. apply (wo_eq_l _ W). Qed.
Lemma lk_cons k k' v m : lk k ((k', v) :: m) = if same k k' then Some v else lk k m.
Proof. unfold map_subscript, same_key. cbn. destruct (fcompare t k k'); reflexivity. Qed.
Lemma lk_put k k' v m : lk k (put t k' v m) = if same k k' then Some v else lk k m.
Proof.
  induction m as [|[k1 v1] m IH]; cbn [put]; [apply lk_cons|]. destruct (fcompare t k' k1) eqn:E.
  - rewrite !lk_cons. unfold same_key. destruct (fcompare t k k') eqn:E1.
    + rewrite (same_l _ _ _ E1), E. reflexivity.
    + destruct (fcompare t k k1) eqn:E2; try reflexivity. exfalso. rewrite (same_l _ _ k' E2) in E1. rewrite (wo_eq_sym _ W _ _ E) in E1. discriminate.
    + destruct (fcompare t k k1) eqn:E2; try reflexivity. exfalso. rewrite (same_l _ _ k' E2) in E1. rewrite (wo_eq_sym _ W _ _ E) in E1. discriminate.
  - apply lk_cons.
  - rewrite !lk_cons, IH. unfold same_key. destruct (fcompare t k k') eqn:E1; try reflexivity. rewrite (same_l _ _ _ E1), E. reflexivity.
Qed.
Lemma lk_none k m : Forall (below (fcompare t) k) (map fst m) -> lk k m = None.
Proof.
  induction m as [|[k1 v1] m IH]; intros F; [reflexivity|]. inversion F as [|? ? H F']; subst. rewrite lk_cons. unfold same_key, below in *. cbn in H. rewrite H. apply IH. exact F'.
Qed.
Lemma lk_emplace k k' v m : StronglySorted (below (fcompare t)) (map fst m) ->
  lk k (emplace t k' v m) = match lk k m with Some x => Some x | None => if same k k' then Some v else None end.
Proof.
  induction m as [|[k1 v1] m IH]; cbn [emplace]; intros S; [rewrite lk_cons; reflexivity|]. cbn in S. inversion S as [|? ? S' F]; subst. destruct (fcompare t k' k1) eqn:E.
  - rewrite lk_cons. unfold same_key. destruct (fcompare t k k') eqn:E1.
    + rewrite (same_l _ _ _ E1), E. reflexivity.
    + destruct (fcompare t k k1); [reflexivity| |]; destruct (lk k m); reflexivity.
    + destruct (fcompare t k k1); [reflexivity| |]; destruct (lk k m); reflexivity.
  - rewrite lk_cons. unfold same_key at 1 2. destruct (fcompare t k k') eqn:E1.
    + rewrite lk_none; [reflexivity|]. constructor; [cbn; unfold below; rewrite (same_l _ _ _ E1); exact E|]. eapply Forall_impl; [|exact F].
      intros z Z. unfold below in *. rewrite (same_l _ _ _ E1). eapply (wo_lt _ W); [exact E|]. rewrite Z. discriminate.
    + destruct (lk k ((k1, v1) :: m)); reflexivity.
    + destruct (lk k ((k1, v1) :: m)); reflexivity.
  - rewrite !lk_cons, IH by exact S'. destruct (same k k1); reflexivity.
Qed.
Lemma lk_put_all k l : forall m, lk k (put_all t m l) = match last_value same k l with Some v => Some v | None => lk k m end.
Proof.
  unfold put_all. induction l as [|[k' v] l IH]; intros m; cbn [fold_left last_value fst snd]; [reflexivity|]. rewrite IH, lk_put.
  destruct (last_value same k l); [reflexivity|]. destruct (same k k'); reflexivity.
Qed.
Fixpoint first_value (k : K) (l : list (K * V)) : option V :=
  match l with [] => None | (k', v) :: l' => if same k k' then Some v else first_value k l' end.
Lemma lk_emplace_all k l : forall m, StronglySorted (below (fcompare t)) (map fst m) ->
  lk k (emplace_all t m l) = match lk k m with Some v => Some v | None => first_value k l end.
Proof.
  unfold emplace_all. induction l as [|[k' v] l IH]; intros m S; cbn [fold_left first_value fst snd]; [destruct (lk k m); reflexivity|].
  rewrite IH by (apply emplace_sort; assumption). rewrite lk_emplace by exact S. destruct (lk k m); [reflexivity|]. destruct (same k k'); reflexivity.
Qed.
Lemma last_app k (l l' : list (K * V)) : last_value same k (l ++ l') = match last_value same k l' with Some v => Some v | None => last_value same k l end.
Proof. induction l as [|[k' v] l IH]; cbn; [destruct (last_value same k l'); reflexivity|]. rewrite IH. destruct (last_value same k l'); reflexivity. Qed.
Lemma unique_tl (p : K * V) l : unique_keys (fcompare t) (p :: l) -> unique_keys (fcompare t) l.
Proof. intros U i j x y X Y N. apply (U (S i) (S j)); [exact X|exact Y|congruence]. Qed.
Lemma last_in k (l : list (K * V)) v : last_value same k l = Some v -> exists p i, nth_error l i = Some p /\ same k (fst p) = true.
Proof.
  revert v. induction l as [|[k' w] l IH]; intros v; cbn; [discriminate|]. destruct (last_value same k l) as [x|].
  - intros _. destruct (IH x eq_refl) as (p & i & A & B). exists p, (S i). split; assumption.
  - destruct (same k k') eqn:E; [|discriminate]. intros _. exists (k', w), 0. split; [reflexivity | exact E].
Qed.
Lemma first_last k (l : list (K * V)) : unique_keys (fcompare t) l -> first_value k l = last_value same k l.
Proof.
  induction l as [|[k' v] l IH]; intros U; cbn; [reflexivity|]. rewrite <- IH by (eapply unique_tl; exact U). destruct (same k k') eqn:E; [|destruct (first_value k l); reflexivity].
  rewrite IH by (eapply unique_tl; exact U). destruct (last_value same k l) as [x|] eqn:L; [|reflexivity]. exfalso. destruct (last_in _ _ _ L) as (p & i & A & B).
  apply (U 0 (S i) (k', v) p); [reflexivity|exact A|discriminate|]. cbn. unfold same_key in *. destruct (fcompare t k k') eqn:E1; try discriminate.
  rewrite <- (same_l _ _ (fst p) E1). destruct (fcompare t k (fst p)); congruence.
Qed.
Lemma put_all_sort l : forall m, StronglySorted (below (fcompare t)) (map fst m) -> StronglySorted (below (fcompare t)) (map fst (put_all t m l)).
Proof. unfold put_all. induction l as [|[k v] l IH]; intros m S; cbn; [exact S|]. apply IH, put_sort; assumption. Qed.
Lemma emplace_all_sort l : forall m, StronglySorted (below (fcompare t)) (map fst m) -> StronglySorted (below (fcompare t)) (map fst (emplace_all t m l)).
Proof. unfold emplace_all. induction l as [|[k v] l IH]; intros m S; cbn; [exact S|]. apply IH, emplace_sort; assumption. Qed.

(* Two maps with the same values of keys are the same if equal keys are the same. *)
Lemma map_ext_eq m m' : (forall x y, fcompare t x y = Eq -> x = y) -> StronglySorted (below (fcompare t)) (map fst m) -> StronglySorted (below (fcompare t)) (map fst m') ->
  (forall k, lk k m = lk k m') -> m = m'.
Proof.
  intros EQ. revert m'. induction m as [|[k v] m IH]; intros [|[k' v'] m'] S S' E.
  - reflexivity.
  - specialize (E k'). rewrite lk_cons in E. unfold same_key in E. rewrite (wo_refl _ W) in E. discriminate.
  - specialize (E k). rewrite lk_cons in E. unfold same_key in E. rewrite (wo_refl _ W) in E. discriminate.
  - cbn in S, S'. inversion S as [|? ? S1 F1]; inversion S' as [|? ? S2 F2]; subst.
    assert (D : fcompare t k k' = Eq).
    { destruct (fcompare t k k') eqn:D; [reflexivity| |].
      - pose proof (E k) as X. rewrite lk_cons in X. unfold same_key in X. rewrite (wo_refl _ W) in X. rewrite lk_none in X; [discriminate|]. cbn. constructor; [exact D|].
        eapply Forall_impl; [|exact F2]. intros z Z. unfold below in *. eapply (wo_lt _ W); [exact D|]. rewrite Z. discriminate.
      - apply (wo_flip _ W) in D. pose proof (E k') as X. rewrite (lk_cons k' k' v') in X. unfold same_key in X. rewrite (wo_refl _ W) in X. rewrite lk_none in X; [discriminate|]. cbn. constructor; [exact D|].
        eapply Forall_impl; [|exact F1]. intros z Z. unfold below in *. eapply (wo_lt _ W); [exact D|]. rewrite Z. discriminate. }
    apply EQ in D. subst k'. pose proof (E k) as X. rewrite !lk_cons in X. unfold same_key in X. rewrite (wo_refl _ W) in X. injection X as <-. f_equal.
    apply IH; [exact S1|exact S2|]. intros z. pose proof (E z) as X. rewrite !lk_cons in X. destruct (same z k) eqn:Z; [|exact X].
    unfold same_key in Z. destruct (fcompare t z k) eqn:Zk; try discriminate. rewrite !lk_none; [reflexivity| |].
    + eapply Forall_impl; [|exact F2]. intros w L. unfold below in *. rewrite (same_l _ _ _ Zk). exact L.
    + eapply Forall_impl; [|exact F1]. intros w L. unfold below in *. rewrite (same_l _ _ _ Zk). exact L.
Qed.
Lemma emplace_is_put l l' : (forall x y, fcompare t x y = Eq -> x = y) -> unique_keys (fcompare t) l' -> emplace_all t (put_all t [] l) l' = put_all t [] (l' ++ l).
Proof.
  intros EQ U. assert (S : forall l, StronglySorted (below (fcompare t)) (map fst (put_all t [] l))) by (intros x; apply put_all_sort; constructor).
  apply map_ext_eq; [exact EQ|apply emplace_all_sort, S|apply S|]. intros k. rewrite lk_emplace_all by apply S. rewrite !lk_put_all, last_app. cbn.
  destruct (last_value same k l); [reflexivity|]. rewrite first_last by exact U. destruct (last_value same k l'); reflexivity.
Qed.
Definition unique_prepend (o : op) : Prop :=
  match o with Prepend ns => forall l, pairs_assign t None ns = Some l -> unique_keys (fcompare t) l | _ => True end.
Lemma map_history os v : (forall x y, fcompare t x y = Eq -> x = y) -> Forall unique_prepend os ->
  after (map_type t) None os = Some v -> os <> [] -> map_assign t None (names_after os) = v.
Proof.
  intros EQ U E N.
  assert (H : exists l, walk (pconvert t) (names_after os) = Some l /\ or_none v = put_all t [] l).
  { revert E. apply (history (map_type t) (fun ns v => exists l, walk (pconvert t) ns = Some l /\ or_none v = put_all t [] l) unique_prepend).
    - exists []. split; reflexivity.
    - intros ns w o x Q (l & L & I) A. destruct o as [ms|ms|ms]; cbn in A; unfold map_assign, map_prepend, map_append in A; destruct (walk (pconvert t) ms) as [l'|] eqn:L'; try discriminate; injection A as <-; cbn.
      + exists l'. split; [exact L'|]. rewrite or_none_cleared. reflexivity.
      + exists (l ++ l'). split; [apply walk_app2; assumption|]. rewrite I. unfold put_all. rewrite fold_left_app. reflexivity.
      + exists (l' ++ l). split; [apply walk_app2; assumption|]. rewrite I. apply emplace_is_put; [exact EQ|]. apply Q. unfold pairs_assign, pairs_append. rewrite L'. reflexivity.
    - exact U. }
  destruct H as (l & L & I). unfold map_assign, map_append. rewrite L. cbn [or_none]. rewrite <- I.
  destruct (after_ne _ _ _ E N) as [y ->]. reflexivity.
Qed.
Lemma map_values ns m l : map_assign t None ns = Some m -> pairs_assign t None ns = Some l -> forall k, lk k m = last_value same k l.
Proof.
  unfold map_assign, map_append, pairs_assign, pairs_append. destruct (walk (pconvert t) ns) as [w|]; [|discriminate]. cbn. intros [= <-] [= <-] k.
  rewrite lk_put_all. destruct (last_value same k w); reflexivity.
Qed.
Lemma map_assigned ns : (exists m, map_assign t None ns = Some m) <-> (exists l, pairs_assign t None ns = Some l).
Proof.
  unfold map_assign, map_append, pairs_assign, pairs_append. destruct (walk (pconvert t) ns); split; intros [x E]; try discriminate; eauto.
Qed.
End Maps.

(* Simple types: the values of names, combined. *)
Section Fold.
Context {T : Type} (t : traits T) (f g : T -> T -> option T) (m : list T -> T).
Context (A : append1 t = Some f) (P : prepend1 t = Some g).
Context (M1 : forall n x, convert t n None = Some x -> m [x] = x) (MA : forall l x, f (m l) x = Some (m (l ++ [x]))) (MP : forall l x, g (m l) x = Some (m (x :: l))).
Lemma fold_history os v : os <> [] -> Forall (fun o => exists n, op_names o = [n]) os -> after (simple_type t) None os = Some v ->
  exists xs, Forall2 (fun n x => simple_assign t None [n] = Some x) (names_after os) xs /\ v = Some (m xs).
Proof.
  intros N Q E. destruct (after_ne _ _ _ E N) as [x ->].
  pose proof (history (simple_type t) (fun ns v => match v with None => ns = [] | Some x => exists xs, Forall2 (fun n x => simple_assign t None [n] = Some x) ns xs /\ x = m xs end)
    (fun o => exists n, op_names o = [n])) as H. specialize (H eq_refl). cbn beta iota in H.
  destruct (H) with (os := os) (v := Some x) as (xs & F & ->); [|exact Q|exact E|exists xs; split; [exact F | reflexivity]].
  clear -A P M1 MA MP. intros ns v o x (n & O) R E. destruct o as [l|l|l]; cbn in O; subst l; cbn in E.
  - exists [x]. unfold simple_assign in *. cbn in E. split; [repeat constructor; exact E | symmetry; eapply M1; exact E].
  - rewrite A in E. unfold simple_update in E. cbn [next_names simple_convert] in *. destruct (convert t n None) as [y|] eqn:C; [|discriminate].
    destruct v as [z|].
    + destruct R as (xs & F & ->). rewrite MA in E. injection E as <-. exists (xs ++ [y]). split; [apply Forall2_app; [exact F | repeat constructor; exact C] | reflexivity].
    + subst ns. injection E as <-. exists [y]. split; [repeat constructor; exact C | symmetry; eapply M1; exact C].
  - rewrite P in E. unfold simple_update in E. cbn [next_names simple_convert] in *. destruct (convert t n None) as [y|] eqn:C; [|discriminate].
    destruct v as [z|].
    + destruct R as (xs & F & ->). rewrite MP in E. injection E as <-. exists (y :: xs). split; [constructor; [exact C | exact F] | reflexivity].
    + subst ns. injection E as <-. exists [y]. split; [repeat constructor; exact C | symmetry; eapply M1; exact C].
Qed.
End Fold.
Definition sum (l : list Z) : Z := fold_right Z.add 0%Z l.
Lemma sum_app l l' : sum (l ++ l') = (sum l + sum l')%Z.
Proof. induction l; cbn; [reflexivity|]. unfold sum in *. lia. Qed.
