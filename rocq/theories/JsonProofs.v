(* Comparing JSON values is the comparison of their normal forms. *)
From Verif Require Import Base NameModel NameSpec NameProofs JsonModel JsonSpec.

Section Ind.
Context (P : json -> Prop) (H0 : P JNull) (H1 : forall v, P (JBool v)) (H2 : forall h v, P (JSigned h v)) (H3 : forall h v, P (JUnsigned h v)) (H4 : forall v, P (JString v))
  (H5 : forall l, Forall P l -> P (JArray l)) (H6 : forall o, Forall (fun m => P (snd m)) o -> P (JObject o)).
Fixpoint json_ind' (x : json) : P x :=
  match x with
  | JNull => H0 | JBool v => H1 v | JSigned h v => H2 h v | JUnsigned h v => H3 h v | JString v => H4 v
  | JArray l => H5 l ((fix go l : Forall P l := match l with [] => Forall_nil P | a :: l' => Forall_cons a (json_ind' a) (go l') end) l)
  | JObject o => H6 o ((fix go o : Forall (fun m => P (snd m)) o := match o with [] => Forall_nil _ | m :: o' => Forall_cons m (json_ind' (snd m)) (go o') end) o)
  end.
End Ind.

Lemma wf_array l : wf (JArray l) <-> Forall wf l.
Proof. induction l as [|a l IH]; [split; constructor|]. cbn in *. split; [intros [K1 K2]; constructor; [exact K1|apply IH; exact K2]|intros K; inversion K; subst; split; [assumption|apply IH; assumption]]. Qed.
Lemma wf_object o : wf (JObject o) <-> NoDup (map fst o) /\ Forall (fun m => wf (snd m)) o.
Proof.
  cbn. apply and_iff_compat_l. induction o as [|a o IH]; [split; constructor|]. split; [intros [K1 K2]; constructor; [exact K1|apply IH; exact K2]|intros K; inversion K; subst; split; [assumption|apply IH; assumption]].
Qed.

(* Normal forms. *)
Inductive nj := NNull | NBool (v : bool) | NNum (v : Z) | NString (v : bytes) | NArray (v : list nj) | NObject (v : list (bytes * nj)).
Section NInd.
Context (P : nj -> Prop) (H0 : P NNull) (H1 : forall v, P (NBool v)) (H2 : forall v, P (NNum v)) (H4 : forall v, P (NString v))
  (H5 : forall l, Forall P l -> P (NArray l)) (H6 : forall o, Forall (fun m => P (snd m)) o -> P (NObject o)).
Fixpoint nj_ind' (x : nj) : P x :=
  match x with
  | NNull => H0 | NBool v => H1 v | NNum v => H2 v | NString v => H4 v
  | NArray l => H5 l ((fix go l : Forall P l := match l with [] => Forall_nil P | a :: l' => Forall_cons a (nj_ind' a) (go l') end) l)
  | NObject o => H6 o ((fix go o : Forall (fun m => P (snd m)) o := match o with [] => Forall_nil _ | m :: o' => Forall_cons m (nj_ind' (snd m)) (go o') end) o)
  end.
End NInd.

Definition ncode (x : nj) : nat := match x with NNull => 0 | NBool _ => 1 | NNum _ => 2 | NString _ => 3 | NArray _ => 4 | NObject _ => 5 end.
Definition bcompare (u v : bool) : comparison := if Bool.eqb u v then Eq else if u then Gt else Lt.
Fixpoint ncompare (x y : nj) {struct x} : comparison :=
  match x, y with
  | NNull, NNull => Eq
  | NBool u, NBool v => bcompare u v
  | NNum u, NNum v => Z.compare u v
  | NString u, NString v => scompare u v
  | NArray u, NArray v => lex ncompare u v
  | NObject u, NObject v => lex (fun m n => then_ (scompare (fst m) (fst n)) (ncompare (snd m) (snd n))) u v
  | _, _ => Nat.compare (ncode x) (ncode y)
  end.

(* Lexicographical orders. *)
Lemma lex_anti {A} (f : A -> A -> comparison) u : Forall (fun a => forall c, f c a = CompOpp (f a c)) u -> forall v, lex f v u = CompOpp (lex f u v).
Proof.
  induction 1 as [|a u Ha Hu IH]; intros [|c v]; try reflexivity. cbn. rewrite Ha. destruct (f a c); cbn; [apply IH|reflexivity|reflexivity].
Qed.
Lemma lex_eq {A} (f : A -> A -> comparison) u : Forall (fun a => forall c, f a c = Eq <-> a = c) u -> forall v, lex f u v = Eq <-> u = v.
Proof.
  induction 1 as [|a u Ha Hu IH]; intros [|c v]; cbn; try (split; [discriminate|discriminate]); [split; reflexivity|].
  destruct (f a c) eqn:E.
  - apply Ha in E. subst c. rewrite IH. split; [intros ->; reflexivity|intros K; injection K; auto].
  - split; [discriminate|]. intros K. injection K as -> ->. rewrite (proj2 (Ha c) eq_refl) in E. discriminate.
  - split; [discriminate|]. intros K. injection K as -> ->. rewrite (proj2 (Ha c) eq_refl) in E. discriminate.
Qed.
Lemma lex_lt {A} (f : A -> A -> comparison) u : (forall a c, f a c = Eq <-> a = c) -> Forall (fun a => forall c d, f a c = Lt -> f c d = Lt -> f a d = Lt) u ->
  forall v w, lex f u v = Lt -> lex f v w = Lt -> lex f u w = Lt.
Proof.
  intros He. induction 1 as [|a u Ha Hu IH]; intros [|c v] [|d w]; cbn; try discriminate; try reflexivity.
  destruct (f a c) eqn:E1; [|destruct (f c d) eqn:E2|discriminate].
  - apply He in E1. subst c. destruct (f a d); [apply IH|reflexivity|discriminate].
  - intros _ _. apply He in E2. subst d. rewrite E1. reflexivity.
  - intros _ _. rewrite (Ha c d E1 E2). reflexivity.
  - discriminate.
Qed.

Lemma nat_anti x y : Nat.compare y x = CompOpp (Nat.compare x y).
Proof. apply Nat.compare_antisym. Qed.
Lemma ncompare_anti x : forall y, ncompare y x = CompOpp (ncompare x y).
Proof.
  induction x as [|u|u|u|u IH|u IH] using nj_ind'; intros [|v|v|v|v|v]; try reflexivity; cbn [ncompare].
  - destruct u, v; reflexivity.
  - apply Z.compare_antisym.
  - apply (proj1 wo_string).
  - apply lex_anti. exact IH.
  - apply lex_anti. apply (Forall_impl _ (P := fun m => forall y, ncompare y (snd m) = CompOpp (ncompare (snd m) y))); [|exact IH].
    intros m K c. rewrite (proj1 wo_string (fst m) (fst c)), (K (snd c)). destruct (scompare (fst m) (fst c)); reflexivity.
Qed.
Lemma ncompare_eq x : forall y, ncompare x y = Eq <-> x = y.
Proof.
  induction x as [|u|u|u|u IH|u IH] using nj_ind'; intros [|v|v|v|v|v]; cbn [ncompare]; try (split; [discriminate|discriminate]); try (split; reflexivity).
  - destruct u, v; cbn; split; congruence.
  - rewrite Z.compare_eq_iff. split; congruence.
  - rewrite scompare_eq. split; congruence.
  - rewrite (lex_eq _ _ IH). split; congruence.
  - rewrite lex_eq; [split; congruence|]. apply (Forall_impl _ (P := fun m => forall y, ncompare (snd m) y = Eq <-> snd m = y)); [|exact IH].
    intros [k m] K [k' c]. cbn in *. destruct (scompare k k') eqn:E; cbn.
    + apply scompare_eq in E. subst. rewrite K. split; congruence.
    + split; [discriminate|]. intros [= -> ->]. rewrite (wo_refl _ wo_string) in E. discriminate.
    + split; [discriminate|]. intros [= -> ->]. rewrite (wo_refl _ wo_string) in E. discriminate.
Qed.
Lemma scompare_lt x y z : scompare x y = Lt -> scompare y z = Lt -> scompare x z = Lt.
Proof. intros E1 E2. apply (wo_lt _ wo_string x y z E1). rewrite E2. discriminate. Qed.
Lemma ncompare_lt x : forall y z, ncompare x y = Lt -> ncompare y z = Lt -> ncompare x z = Lt.
Proof.
  induction x as [|u|u|u|u IH|u IH] using nj_ind'; intros [|v|v|v|v|v] [|w|w|w|w|w]; cbn [ncompare ncode Nat.compare]; try discriminate; try reflexivity.
  - destruct u, v, w; cbn; congruence.
  - rewrite !Z.compare_lt_iff. lia.
  - apply scompare_lt.
  - apply (lex_lt ncompare u ncompare_eq IH).
  - apply lex_lt.
    + intros [k m] [k' c]. cbn. destruct (scompare k k') eqn:E; cbn.
      * apply scompare_eq in E. subst. rewrite ncompare_eq. split; congruence.
      * split; [discriminate|]. intros [= -> ->]. rewrite (wo_refl _ wo_string) in E. discriminate.
      * split; [discriminate|]. intros [= -> ->]. rewrite (wo_refl _ wo_string) in E. discriminate.
    + apply (Forall_impl _ (P := fun m => forall y z, ncompare (snd m) y = Lt -> ncompare y z = Lt -> ncompare (snd m) z = Lt)); [|exact IH].
      intros [k m] K [k1 c] [k2 d]. cbn in *. destruct (scompare k k1) eqn:E1, (scompare k1 k2) eqn:E2; cbn [then_]; try discriminate.
      * apply scompare_eq in E1, E2. subst. rewrite (wo_refl _ wo_string). cbn. apply K.
      * apply scompare_eq in E1. subst. rewrite E2. reflexivity.
      * apply scompare_eq in E2. subst. rewrite E1. reflexivity.
      * rewrite (scompare_lt _ _ _ E1 E2). reflexivity.
Qed.

(* Sorting by name. *)
Section Sort.
Context {X : Type}.
Implicit Types (l s : list (bytes * X)).
Fixpoint insert (m : bytes * X) s : list (bytes * X) :=
  match s with
  | [] => [m]
  | n :: s' => match scompare (fst m) (fst n) with Gt => n :: insert m s' | _ => m :: s end
  end.
Fixpoint isort l : list (bytes * X) := match l with [] => [] | m :: l' => insert m (isort l') end.
Lemma insert_perm m s : Permutation (m :: s) (insert m s).
Proof.
  induction s as [|n s IH]; [reflexivity|]. cbn. destruct (scompare (fst m) (fst n)); try reflexivity. rewrite perm_swap. constructor. exact IH.
Qed.
Lemma isort_perm l : Permutation l (isort l).
Proof. induction l as [|m l IH]; [reflexivity|]. cbn. rewrite <- insert_perm. constructor. exact IH. Qed.
Lemma insert_sorted m s : StronglySorted name_order s -> ~ In (fst m) (map fst s) -> StronglySorted name_order (insert m s).
Proof.
  induction 1 as [|n s Hs IH Hn]; intros Hm; [repeat constructor|]. cbn. destruct (scompare (fst m) (fst n)) eqn:E.
  - apply scompare_eq in E. contradiction Hm. left. congruence.
  - constructor; [constructor; assumption|]. constructor; [exact E|]. apply (Forall_impl _ (P := name_order n)); [|exact Hn]. intros k. apply scompare_lt. exact E.
  - constructor; [apply IH; intros K; apply Hm; right; exact K|]. apply (Permutation_Forall (insert_perm m s)). constructor; [|exact Hn]. apply (wo_flip _ wo_string). exact E.
Qed.
Lemma isort_sorted l : NoDup (map fst l) -> StronglySorted name_order (isort l).
Proof.
  induction l as [|m l IH]; [constructor|]. cbn. intros K. inversion K; subst. apply insert_sorted; [apply IH; assumption|].
  intros Hi. apply H1. apply (Permutation_in _ (Permutation_map fst (Permutation_sym (isort_perm l)))). exact Hi.
Qed.
Lemma sorted_unique s s' : StronglySorted name_order s -> StronglySorted name_order s' -> Permutation s s' -> s = s'.
Proof.
  intros Hs. revert s'. induction Hs as [|n s Hs IH Hn]; intros s' Hs' P; [symmetry; apply Permutation_nil; exact P|].
  destruct s' as [|n' s']; [apply Permutation_sym, Permutation_nil in P; discriminate|]. inversion Hs'; subst.
  assert (n = n') as ->.
  { assert (In n (n' :: s')) as K1 by (apply (Permutation_in _ P); left; reflexivity). assert (In n' (n :: s)) as K2 by (apply (Permutation_in _ (Permutation_sym P)); left; reflexivity).
    destruct K1 as [K1|K1]; [auto|]. destruct K2 as [K2|K2]; [auto|]. rewrite Forall_forall in Hn, H2. pose proof (Hn _ K2) as L1. pose proof (H2 _ K1) as L2. unfold name_order in *.
    pose proof (scompare_lt _ _ _ L1 L2) as L. rewrite (wo_refl _ wo_string) in L. discriminate. }
  f_equal. apply IH; [assumption|]. exact (Permutation_cons_inv P).
Qed.
Lemma in_order_sort l s : NoDup (map fst l) -> in_order l s -> s = isort l.
Proof.
  intros Hn [P Hs]. apply sorted_unique; [exact Hs|apply isort_sorted; exact Hn|]. rewrite <- P. apply isort_perm.
Qed.

(* What next finds. *)
Definition least (p : option bytes) (l : list (bytes * X)) (r : option (bytes * X)) : Prop :=
  match r with
  | None => forall m, In m l -> after p m = false
  | Some n => In n l /\ after p n = true /\ forall m, In m l -> after p m = true -> scompare (fst n) (fst m) <> Gt
  end.
Lemma next_least p l : forall n0 l0, least p l0 n0 -> least p (l0 ++ l) (next p l n0).
Proof.
  induction l as [|i l IH]; intros n0 l0 H; [rewrite app_nil_r; exact H|]. cbn [next].
  replace (l0 ++ i :: l) with ((l0 ++ [i]) ++ l) by (rewrite <- app_assoc; reflexivity). apply IH. destruct (after p i) eqn:A.
  - destruct n0 as [n|].
    + destruct H as [H1 [H2 H3]]. destruct (scompare (fst n) (fst i)) eqn:E.
      * split; [apply in_or_app; auto|]. split; [exact H2|]. intros m Hm Am. apply in_app_or in Hm. destruct Hm as [Hm|[<-|[]]]; [auto|congruence].
      * split; [apply in_or_app; auto|]. split; [exact H2|]. intros m Hm Am. apply in_app_or in Hm. destruct Hm as [Hm|[<-|[]]]; [auto|congruence].
      * split; [apply in_or_app; right; left; reflexivity|]. split; [exact A|]. intros m Hm Am. apply in_app_or in Hm. destruct Hm as [Hm|[<-|[]]].
        -- apply (wo_flip _ wo_string) in E. intros K. pose proof (wo_lt _ wo_string _ _ _ E (H3 m Hm Am)) as L. rewrite K in L. discriminate.
        -- rewrite (wo_refl _ wo_string). discriminate.
    + cbn in H. split; [apply in_or_app; right; left; reflexivity|]. split; [exact A|]. intros m Hm Am. apply in_app_or in Hm. destruct Hm as [Hm|[<-|[]]]; [rewrite (H m Hm) in Am; discriminate|].
      rewrite (wo_refl _ wo_string). discriminate.
  - destruct n0 as [n|].
    + destruct H as [H1 [H2 H3]]. split; [apply in_or_app; auto|]. split; [exact H2|]. intros m Hm Am. apply in_app_or in Hm. destruct Hm as [Hm|[<-|[]]]; [auto|congruence].
    + intros m Hm. apply in_app_or in Hm. destruct Hm as [Hm|[<-|[]]]; [apply H; exact Hm|exact A].
Qed.
Lemma next_sorted p l s : NoDup (map fst l) -> in_order l s -> next p l None = hd_error (filter (after p) s).
Proof.
  intros Hn [P Hs]. pose proof (next_least p l None [] ltac:(intros m [])) as L. cbn [app] in L. destruct (next p l None) as [n|].
  - destruct L as [L1 [L2 L3]]. destruct (filter (after p) s) as [|m r] eqn:E.
    + assert (In n (filter (after p) s)) as K by (apply filter_In; split; [apply (Permutation_in _ P); exact L1|exact L2]). rewrite E in K. contradiction.
    + cbn. f_equal. assert (In n (m :: r)) as K by (rewrite <- E; apply filter_In; split; [apply (Permutation_in _ P); exact L1|exact L2]). destruct K as [K|K]; [auto|].
      exfalso. assert (In m l /\ after p m = true) as [M1 M2].
      { assert (In m (filter (after p) s)) as M by (rewrite E; left; reflexivity). apply filter_In in M. destruct M as [M1 M2]. split; [apply (Permutation_in _ (Permutation_sym P)); exact M1|exact M2]. }
      apply (L3 m M1 M2). apply (wo_flip _ wo_string). clear - Hs E K.
      assert (StronglySorted name_order (m :: r)) as S. { rewrite <- E. clear E. induction Hs as [|a s Hs IH Ha]; [constructor|]. cbn. destruct (after p a); [|exact IH]. constructor; [exact IH|]. rewrite Forall_forall in *. intros x Hx. apply filter_In in Hx. apply Ha, Hx. }
      inversion S; subst. rewrite Forall_forall in H2. exact (H2 n K).
  - destruct (filter (after p) s) as [|m r] eqn:E; [reflexivity|]. assert (In m (filter (after p) s)) as M by (rewrite E; left; reflexivity). apply filter_In in M. destruct M as [M1 M2].
    cbn in L. rewrite (L m (Permutation_in _ (Permutation_sym P) M1)) in M2. discriminate.
Qed.
(* What comes after the first one. *)
Lemma filter_after p s i r : StronglySorted name_order s -> filter (after p) s = i :: r -> filter (after (Some (fst i))) s = r.
Proof.
  intros Hs E. assert (after p i = true) as A. { assert (In i (filter (after p) s)) as K by (rewrite E; left; reflexivity). apply filter_In in K. apply K. }
  induction Hs as [|a s Hs IH Ha]; [discriminate|]. cbn [filter] in *. destruct (after p a) eqn:Aa.
  - injection E as -> E. unfold after at 1. rewrite (wo_refl _ wo_string).
    rewrite <- E. clear IH E. assert (Forall (fun m => after (Some (fst i)) m = true /\ after p m = true) s) as F.
    { apply (Forall_impl _ (P := name_order i)); [|exact Ha]. intros m K. unfold name_order in K. cbn. apply (wo_flip _ wo_string) in K. rewrite K. split; [reflexivity|]. destruct p as [q|]; [|reflexivity].
      cbn in *. destruct (scompare (fst i) q) eqn:Q; try discriminate. apply (wo_flip _ wo_string) in K, Q. pose proof (scompare_lt _ _ _ Q K) as L. apply (wo_flip _ wo_string) in L. rewrite L. reflexivity. }
    induction F as [|m s [F1 F2] F IH]; [reflexivity|]. cbn [filter]. rewrite F1, F2. f_equal. apply IH; inversion Hs; inversion Ha; assumption.
  - assert (after (Some (fst i)) a = false) as ->; [|apply IH; exact E]. destruct p as [q|]; [|discriminate]. cbn in *. destruct (scompare (fst a) (fst i)) eqn:K; try reflexivity. exfalso.
    destruct (scompare (fst i) q) eqn:Q; try discriminate. apply (wo_flip _ wo_string) in K, Q. pose proof (scompare_lt _ _ _ Q K) as L. apply (wo_flip _ wo_string) in L. rewrite L in Aa. discriminate.
Qed.
End Sort.

Lemma members_lex (a : list (bytes * (json -> comparison))) (c : list (bytes * json)) sa sc : NoDup (map fst a) -> NoDup (map fst c) -> in_order a sa -> in_order c sc ->
  forall k p q, length (filter (after p) sa) < k ->
  members_loop k p q a c = lex (member_compare (fun f v => f v)) (filter (after p) sa) (filter (after q) sc).
Proof.
  intros Na Nc Sa Sc. induction k as [|k IH]; intros p q Hk; [lia|]. cbn [members_loop]. rewrite (next_sorted p a sa Na Sa), (next_sorted q c sc Nc Sc).
  destruct (filter (after p) sa) as [|i r] eqn:E1, (filter (after q) sc) as [|j t] eqn:E2; cbn [hd_error lex]; try reflexivity.
  unfold member_compare at 1. destruct (scompare (fst i) (fst j)); cbn [then_]; try reflexivity. destruct (snd i (snd j)); try reflexivity.
  pose proof (filter_after p sa i r (proj2 Sa) E1) as F1. pose proof (filter_after q sc j t (proj2 Sc) E2) as F2.
  rewrite IH by (rewrite F1; cbn in Hk; lia). rewrite F1, F2. reflexivity.
Qed.
Lemma filter_all {X} (s : list (bytes * X)) : filter (after None) s = s.
Proof. induction s as [|a s IH]; [reflexivity|]. cbn in *. rewrite IH. reflexivity. Qed.

Lemma map_sorted {X Y} (f : bytes * X -> bytes * Y) s : (forall m, fst (f m) = fst m) -> StronglySorted name_order s -> StronglySorted name_order (map f s).
Proof.
  intros Hf. induction 1 as [|a s Hs IH Ha]; [constructor|]. cbn. constructor; [exact IH|]. rewrite Forall_map. apply (Forall_impl _ (P := name_order a)); [|exact Ha]. intros m. unfold name_order. rewrite !Hf. auto.
Qed.
Lemma lex_map {A B C D} (g : A -> C) (h : B -> D) (f : C -> D -> comparison) u : forall v, lex f (map g u) (map h v) = lex (fun a c => f (g a) (h c)) u v.
Proof. induction u as [|a u IH]; intros [|c v]; try reflexivity. cbn. rewrite IH. reflexivity. Qed.
Lemma lex_map_l {A B C} (g : A -> C) (f : C -> B -> comparison) u : forall v, lex f (map g u) v = lex (fun a c => f (g a) c) u v.
Proof. induction u as [|a u IH]; intros [|c v]; try reflexivity. cbn. rewrite IH. reflexivity. Qed.

(* Objects are compared by their members in the order of the names. *)
Lemma compare_objects o p so sp : NoDup (map fst o) -> NoDup (map fst p) -> in_order o so -> in_order p sp ->
  JsonModel.compare (JObject o) (JObject p) = lex (member_compare JsonModel.compare) so sp.
Proof.
  intros No Np [Po So] Sp. cbn [JsonModel.compare].
  assert (map fst (map (fun m => (fst m, JsonModel.compare (snd m))) o) = map fst o) as E by (rewrite map_map; reflexivity).
  rewrite (members_lex _ p (map (fun m => (fst m, JsonModel.compare (snd m))) so) sp).
  - rewrite !filter_all, lex_map_l. reflexivity.
  - rewrite E. exact No.
  - exact Np.
  - split; [apply Permutation_map; exact Po|]. apply map_sorted; [reflexivity|exact So].
  - exact Sp.
  - rewrite filter_all, map_length, (Permutation_length Po). lia.
Qed.

(* The normal form. *)
Fixpoint norm (x : json) : nj :=
  match x with
  | JNull => NNull
  | JBool v => NBool v
  | JSigned _ v | JUnsigned _ v => NNum v
  | JString v => NString v
  | JArray l => NArray (map norm l)
  | JObject o => NObject (isort (map (fun m => (fst m, norm (snd m))) o))
  end.

Lemma isort_map {X Y} (f : X -> Y) l : isort (map (fun m : bytes * X => (fst m, f (snd m))) l) = map (fun m => (fst m, f (snd m))) (isort l).
Proof.
  induction l as [|m l IH]; [reflexivity|]. cbn [map isort]. rewrite IH. generalize (isort l) as s. clear. intros s. induction s as [|n s IH]; [reflexivity|]. cbn.
  destruct (scompare (fst m) (fst n)); try reflexivity. cbn. rewrite IH. reflexivity.
Qed.

Lemma lex_ext {A B} (f g : A -> B -> comparison) u v : Forall (fun a => forall c, In c v -> f a c = g a c) u -> lex f u v = lex g u v.
Proof.
  intros H. revert v H. induction u as [|a u IH]; intros [|c v] H; try reflexivity. inversion H; subst. cbn. rewrite (H2 c (or_introl eq_refl)). destruct (g a c); try reflexivity.
  apply IH. apply (Forall_impl _ (P := fun a => forall c0, In c0 (c :: v) -> f a c0 = g a c0)); [|exact H3]. intros a' K c' Hc. apply K. right. exact Hc.
Qed.

Lemma compare_norm x : wf x -> forall y, wf y -> JsonModel.compare x y = ncompare (norm x) (norm y).
Proof.
  induction x as [|u|h u|h u|u|u IH|u IH] using json_ind'; intros Wx [|v|h' v|h' v|v|v|v] Wy; try reflexivity.
  - cbn in *. destruct (Z.ltb_spec u 0); [symmetry; apply Z.compare_lt_iff; lia|reflexivity].
  - cbn in *. destruct (Z.ltb_spec v 0); [symmetry; apply Z.compare_gt_iff; lia|reflexivity].
  - change (lex JsonModel.compare u v = lex ncompare (map norm u) (map norm v)). rewrite lex_map. apply lex_ext.
    apply wf_array in Wx, Wy. rewrite Forall_forall in *. intros a Ha c Hc. apply IH; auto.
  - apply wf_object in Wx, Wy. destruct Wx as [Nx Wx], Wy as [Ny Wy].
    rewrite (compare_objects u v (isort u) (isort v) Nx Ny (conj (isort_perm u) (isort_sorted u Nx)) (conj (isort_perm v) (isort_sorted v Ny))).
    cbn [norm ncompare]. rewrite !isort_map, lex_map. apply lex_ext. rewrite Forall_forall in *. intros a Ha c Hc. unfold member_compare. cbn. f_equal. apply IH.
    + apply (Permutation_in _ (Permutation_sym (isort_perm u))). exact Ha.
    + apply Wx. apply (Permutation_in _ (Permutation_sym (isort_perm u))). exact Ha.
    + apply Wy. apply (Permutation_in _ (Permutation_sym (isort_perm v))). exact Hc.
Qed.

(* Having the same normal form is being the same value. *)
Lemma same_norm x : wf x -> forall y, wf y -> same x y <-> norm x = norm y.
Proof.
  induction x as [|u|h u|h u|u|u IH|u IH] using json_ind'; intros Wx y Wy; split; intros H.
  - inversion H; subst; [reflexivity|discriminate].
  - destruct y; try discriminate. constructor.
  - inversion H; subst; [reflexivity|discriminate].
  - destruct y; try discriminate. injection H as ->. constructor.
  - inversion H; subst. destruct y; try discriminate; cbn in *; congruence.
  - apply (same_num _ _ u); [reflexivity|]. destruct y; try discriminate; cbn in *; congruence.
  - inversion H; subst. destruct y; try discriminate; cbn in *; congruence.
  - apply (same_num _ _ u); [reflexivity|]. destruct y; try discriminate; cbn in *; congruence.
  - inversion H; subst; [discriminate|reflexivity].
  - destruct y; try discriminate. injection H as ->. constructor.
  - inversion H as [| |? ? ? K| |? v F|]; subst; [discriminate|]. cbn. f_equal. apply wf_array in Wx, Wy. clear H. induction F as [|a c u' v' F1 F IHF]; [reflexivity|]. inversion IH; inversion Wx; inversion Wy; subst. cbn. f_equal; [apply H1; assumption|apply IHF; assumption].
  - destruct y as [| | | | |v|]; try discriminate. constructor. cbn in H. injection H as H. apply wf_array in Wx, Wy. revert v H Wy. induction u as [|a u IHu]; intros [|c v] H Wy; try discriminate; [constructor|].
    cbn in H. injection H as E1 E2. inversion IH; inversion Wx; inversion Wy; subst. constructor; [apply H1; assumption|apply IHu; assumption].
  - inversion H as [| |? ? ? K| | |? v w P F]; subst; [discriminate|]. apply wf_object in Wx, Wy. destruct Wx as [Nx Wx], Wy as [Ny Wy]. cbn. f_equal.
    assert (map (fun m => (fst m, norm (snd m))) u = map (fun m => (fst m, norm (snd m))) w) as ->.
    { assert (Forall (fun m => wf (snd m)) w) as Ww by (apply (Permutation_Forall P); exact Wy). clear - F IH Wx Ww. induction F as [|a c u' v' [F0 F1] F IHF]; [reflexivity|]. inversion IH; inversion Wx; inversion Ww; subst. cbn. f_equal; [f_equal; [exact F0|apply H1; assumption]|apply IHF; assumption]. }
    apply sorted_unique.
    + apply isort_sorted. rewrite map_map. cbn. apply (Permutation_NoDup (Permutation_map fst P)). exact Ny.
    + apply isort_sorted. rewrite map_map. cbn. exact Ny.
    + rewrite <- !isort_perm. apply Permutation_map. apply Permutation_sym. exact P.
  - destruct y as [| | | | | |v]; try discriminate. cbn in H. injection H as H. apply wf_object in Wx, Wy. destruct Wx as [Nx Wx], Wy as [Ny Wy].
    (* Bring the members of v into the order of those of u. *)
    assert (exists w, Permutation v w /\ map (fun m => (fst m, norm (snd m))) u = map (fun m => (fst m, norm (snd m))) w) as [w [P E]].
    { assert (Permutation (map (fun m => (fst m, norm (snd m))) u) (map (fun m => (fst m, norm (snd m))) v)) as P by (rewrite (isort_perm (map _ u)), H; apply Permutation_sym, isort_perm).
      apply Permutation_map_inv in P. destruct P as [w [E P]]. exists w. auto. }
    apply (same_object u v w P). assert (Forall (fun m => wf (snd m)) w) as Ww by (apply (Permutation_Forall P); exact Wy). clear - E IH Wx Ww. revert w E Ww.
    induction u as [|a u IHu]; intros [|c w] E Ww; try discriminate; [constructor|]. cbn in E. injection E as E0 E1 E2. inversion IH; inversion Wx; inversion Ww; subst. constructor; [split; [exact E0|apply H1; assumption]|apply IHu; assumption].
Qed.
