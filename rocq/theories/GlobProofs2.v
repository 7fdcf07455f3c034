(* Accumulation of the result. *)
From Coq Require Import Sorting.Sorted.
From Verif Require Import Base SplitModel SplitSpec GlobModel GlobSpec.

Lemma beqb_true x y : beqb x y = true <-> x = y.
Proof. exact (beqb_eq x y). Qed.

Lemma kept_snoc l a x : kept_after (l ++ [a]) x <-> kept_after l x /\ forall q, a = Remove q -> ~ q x.
Proof.
  unfold kept_after. split.
  - intros H. split; [intros q K; apply H; rewrite in_app_iff; auto|]. intros q -> . apply H. rewrite in_app_iff. right. left. reflexivity.
  - intros [H1 H2] q K. rewrite in_app_iff in K. destruct K as [K | [K | []]]; [exact (H1 q K)|exact (H2 q K)].
Qed.
Lemma present_snoc l a x : present (l ++ [a]) x <-> (present l x /\ forall q, a = Remove q -> ~ q x) \/ exists f, a = Add f /\ In x f.
Proof.
  split.
  - intros [l1 [f [l2 [E [H1 H2]]]]]. destruct l2 as [|z l2 _] using rev_ind.
    + apply app_inj_tail in E. destruct E as [-> ->]. right. exists f. auto.
    + rewrite app_comm_cons, app_assoc in E. apply app_inj_tail in E. destruct E as [-> ->]. apply kept_snoc in H2. left. split; [|apply H2]. exists l1, f, l2. intuition.
  - intros [[[l1 [f [l2 [-> [H1 H2]]]]] H3] | [f [-> H]]].
    + exists l1, f, (l2 ++ [a]). split; [rewrite <- app_assoc; reflexivity|]. split; [exact H1|]. apply kept_snoc. auto.
    + exists l, f, []. split; [reflexivity|]. split; [exact H|]. intros q [].
Qed.
Lemma present_nil x : ~ present [] x.
Proof. intros [l1 [f [l2 [E _]]]]. destruct l1; discriminate. Qed.

Lemma nth_lt {A} (l : list A) i x : nth_error l i = Some x -> i < length l.
Proof. intros H. apply nth_error_Some. congruence. Qed.
Lemma since_more l a i x : since l i x -> (forall q, a = Remove q -> ~ q x) -> since (l ++ [a]) i x.
Proof.
  intros [f [H1 [H2 [H3 H4]]]] Ha. pose proof (nth_lt _ _ _ H1) as L. exists f. split; [rewrite nth_error_app1; assumption|]. split; [exact H2|].
  split; [rewrite firstn_app; replace (i - length l) with 0 by lia; cbn [firstn]; rewrite app_nil_r; exact H3|].
  rewrite skipn_app. replace (S i - length l) with 0 by lia. cbn [skipn]. apply kept_snoc. auto.
Qed.
Lemma since_now l f x : In x f -> ~ present l x -> since (l ++ [Add f]) (length l) x.
Proof.
  intros H1 H2. exists f. split; [rewrite nth_error_app2 by lia; rewrite Nat.sub_diag; reflexivity|]. split; [exact H1|].
  split; [rewrite firstn_app, firstn_all, Nat.sub_diag; cbn; rewrite app_nil_r; exact H2|].
  rewrite skipn_all2 by (rewrite app_length; cbn; lia). intros q [].
Qed.
Lemma earlier_more l a x y : earlier l x y -> (forall q, a = Remove q -> ~ q x) -> (forall q, a = Remove q -> ~ q y) -> earlier (l ++ [a]) x y.
Proof.
  intros [i [j [H1 [H2 H3]]]] Hx Hy. exists i, j. split; [apply since_more; assumption|]. split; [apply since_more; assumption|].
  destruct H3 as [H3 | [-> [f [H3 H4]]]]; [auto|]. right. split; [reflexivity|]. exists f. split; [|exact H4]. rewrite nth_error_app1; [exact H3|exact (nth_lt _ _ _ H3)].
Qed.

Lemma sorted_app {A} (R : A -> A -> Prop) l m : StronglySorted R l -> StronglySorted R m -> (forall x y, In x l -> In y m -> R x y) -> StronglySorted R (l ++ m).
Proof.
  intros Hl Hm H. induction Hl as [|x l Hl IH Hx]; [exact Hm|]. cbn. constructor; [apply IH; intros; apply H; cbn; auto|].
  apply Forall_app. split; [exact Hx|]. apply Forall_forall. intros y Hy. apply H; cbn; auto.
Qed.
Lemma sorted_map {A} (R R' : A -> A -> Prop) l : (forall x y, In x l -> In y l -> R x y -> R' x y) -> StronglySorted R l -> StronglySorted R' l.
Proof.
  intros H Hs. induction Hs as [|x l Hl IH Hx]; [constructor|]. constructor; [apply IH; intros; apply H; cbn; auto|].
  rewrite Forall_forall in *. intros y Hy. apply H; cbn; auto.
Qed.
Lemma sorted_filter {A} (R : A -> A -> Prop) p l : StronglySorted R l -> StronglySorted R (filter p l).
Proof.
  intros Hs. induction Hs as [|x l Hl IH Hx]; [constructor|]. cbn. destruct (p x); [|exact IH]. constructor; [exact IH|]. rewrite Forall_forall in *. intros y Hy. apply filter_In in Hy. apply Hx, Hy.
Qed.

(* Adding with the search for duplicates. *)
Lemma include_path r n : map path (include_match r n) = if existsb (fun m => beqb (path n) m) (map path r) then map path r else map path r ++ [path n].
Proof.
  unfold include_match. assert (existsb (fun m => beqb (path n) (path m)) r = existsb (fun m => beqb (path n) m) (map path r)) as -> by (induction r as [|m r IH]; [reflexivity|cbn; rewrite IH; reflexivity]).
  destruct (existsb (fun m => beqb (path n) m) (map path r)); [reflexivity|]. apply map_app.
Qed.
Lemma exists_in x l : existsb (fun m => beqb x m) l = true <-> In x l.
Proof. rewrite existsb_exists. split; [intros [y [H K]]; apply beqb_true in K; subst; exact H|intros H; exists x; split; [exact H|apply beqb_true; reflexivity]]. Qed.
Lemma fold_include ns : forall r, NoDup (map path r) -> exists new, map path (fold_left include_match ns r) = map path r ++ new /\ NoDup (map path r ++ new) /\
  (forall x, In x new <-> In x (map path ns) /\ ~ In x (map path r)) /\ StronglySorted (occurs_first (map path ns)) new.
Proof.
  induction ns as [|n ns IH] using rev_ind; intros r Hr.
  - exists []. cbn. rewrite app_nil_r. split; [reflexivity|]. split; [exact Hr|]. split; [tauto|constructor].
  - destruct (IH r Hr) as [new [E [Hn [Hi Hs]]]]. rewrite fold_left_app. cbn [fold_left]. rewrite include_path, E, map_app. cbn [map].
    assert (StronglySorted (occurs_first (map path ns ++ [path n])) new) as Hs'.
    { apply (sorted_map (occurs_first (map path ns))); [|exact Hs]. intros x y _ _ [l1 [l2 [-> K]]]. exists l1, (l2 ++ [path n]). split; [rewrite <- app_assoc; reflexivity|exact K]. }
    destruct (existsb (fun m => beqb (path n) m) (map path r ++ new)) eqn:X.
    + exists new. split; [reflexivity|]. split; [exact Hn|]. split; [|exact Hs']. intros x. rewrite Hi, in_app_iff. cbn. split; [tauto|]. intros [[K | [K | []]] K2]; [auto|]. subst x.
      apply exists_in in X. rewrite in_app_iff in X. destruct X as [X | X]; [contradiction|]. split; [apply Hi; exact X|exact K2].
    + assert (~ In (path n) (map path r ++ new)) as X' by (rewrite <- exists_in; congruence). exists (new ++ [path n]). split; [apply app_assoc_reverse|]. rewrite in_app_iff in X'.
      split; [rewrite app_assoc; apply (NoDup_Add (a := path n) (l := map path r ++ new)); [pose proof (Add_app (path n) (map path r ++ new) []) as K; rewrite app_nil_r in K; exact K|split; [exact Hn|rewrite in_app_iff; exact X']]|].
      split.
      * intros x. rewrite !in_app_iff, Hi. cbn. split; [|tauto]. intros [[K1 K2] | [<- | []]]; [tauto|]. split; [tauto|]. tauto.
      * apply sorted_app; [exact Hs'|constructor; constructor|]. intros x y Hx [<- | []].
        assert (In x (map path ns) /\ ~ In x (map path r)) as [K1 K2] by (apply Hi; exact Hx). apply in_split in K1. destruct K1 as [l1 [l2 K1]].
        assert (~ In (path n) (map path ns)) as K3. { intros K. apply X'. right. apply Hi. split; [exact K|]. tauto. }
        exists l1, (l2 ++ [path n]). split; [rewrite K1, <- app_assoc; reflexivity|]. split; [intros K; apply K3; rewrite K1, in_app_iff; auto|]. intros ->. apply X'. right. exact Hx.
Qed.
(* Without duplicates the order is the same. *)
Lemma nodup_first l : NoDup l -> StronglySorted (occurs_first l) l.
Proof.
  intros H. assert (forall p, NoDup (p ++ l) -> StronglySorted (occurs_first (p ++ l)) l) as K; [|exact (K [] H)].
  clear H. induction l as [|x l IH]; intros p H; [constructor|]. constructor.
  - replace (p ++ x :: l) with ((p ++ [x]) ++ l) by (rewrite <- app_assoc; reflexivity). apply IH. rewrite <- app_assoc. exact H.
  - apply Forall_forall. intros y Hy. exists p, l. split; [reflexivity|]. pose proof (NoDup_remove_2 _ _ _ H) as N.
    split; [|intros ->; apply N; rewrite in_app_iff; auto]. intros Hp. apply in_split in Hy. destruct Hy as [l1 [l2 ->]].
    apply (NoDup_remove_2 (p ++ x :: l1) l2 y); [rewrite <- app_assoc; exact H|]. rewrite !in_app_iff. auto.
Qed.

(* Everything is there since some addition. *)
Definition tracked (acts : list action) (fs : list bytes) : Prop := lists acts fs /\ forall x, In x fs -> exists i, i < length acts /\ since acts i x.
Lemma lists_nil : tracked [] [].
Proof. split; [|intros x []]. split; [intros x; split; [intros []|apply present_nil]|]. split; constructor. Qed.
Lemma lists_add acts fs f new : tracked acts fs -> (forall x, In x new <-> In x f /\ ~ In x fs) -> NoDup (fs ++ new) -> StronglySorted (occurs_first f) new ->
  tracked (acts ++ [Add f]) (fs ++ new).
Proof.
  intros [[H1 [H2 H3]] H4] Hn Hd Hs. split; [split|].
  - intros x. rewrite in_app_iff, Hn, present_snoc. split.
    + intros [K | [K _]]; [left; split; [apply H1; exact K|discriminate]|]. right. exists f. auto.
    + intros [[K _] | [g [[= <-] K]]]; [left; apply H1; exact K|]. destruct (in_dec (list_eq_dec ascii_dec) x fs) as [L|L]; [left; exact L|right; split; [exact K|exact L]].
  - split; [exact Hd|]. apply sorted_app.
    + apply (sorted_map (earlier acts)); [|exact H3]. intros x y _ _ K. apply earlier_more; [exact K|discriminate|discriminate].
    + apply (sorted_map (occurs_first f)); [|exact Hs]. intros x y Hx Hy K. apply Hn in Hx, Hy. rewrite H1 in Hx, Hy. exists (length acts), (length acts).
      split; [apply since_now; tauto|]. split; [apply since_now; tauto|]. right. split; [reflexivity|]. exists f. split; [|exact K]. rewrite nth_error_app2 by lia. rewrite Nat.sub_diag. reflexivity.
    + intros x y Hx Hy. apply Hn in Hy. rewrite H1 in Hy. destruct (H4 x Hx) as [i [L Hi]].
      exists i, (length acts). split; [apply since_more; [exact Hi|discriminate]|]. split; [apply since_now; tauto|]. auto.
  - intros x Hx. rewrite app_length. cbn. apply in_app_or in Hx. destruct Hx as [Hx | Hx].
    + destruct (H4 x Hx) as [i [L Hi]]. exists i. split; [lia|]. apply since_more; [exact Hi|discriminate].
    + apply Hn in Hx. rewrite H1 in Hx. exists (length acts). split; [lia|]. apply since_now; tauto.
Qed.
Lemma lists_remove acts fs (q : bytes -> Prop) p : tracked acts fs -> (forall x, p x = true <-> q x) -> tracked (acts ++ [Remove q]) (filter (fun x => negb (p x)) fs).
Proof.
  intros [[H1 [H2 H3]] H4] Hp. assert (forall x, In x (filter (fun x => negb (p x)) fs) <-> In x fs /\ ~ q x) as Hf.
  { intros x. rewrite filter_In, negb_true_iff, <- Hp. destruct (p x); intuition congruence. }
  split; [split|].
  - intros x. rewrite Hf, present_snoc, H1. split.
    + intros [K1 K2]. left. split; [exact K1|]. intros q' [= <-]. exact K2.
    + intros [[K1 K2] | [f [K _]]]; [|discriminate]. split; [exact K1|]. apply K2. reflexivity.
  - split; [apply NoDup_filter; exact H2|]. apply (sorted_map (earlier acts)); [|apply sorted_filter; exact H3].
    intros x y Hx Hy K. apply Hf in Hx, Hy. apply earlier_more; [exact K|intros q' [= <-]; apply Hx|intros q' [= <-]; apply Hy].
  - intros x Hx. apply Hf in Hx. destruct Hx as [Hx Hq]. destruct (H4 x Hx) as [i [L Hi]]. exists i. split; [rewrite app_length; lia|]. apply since_more; [exact Hi|]. intros q' [= <-]. exact Hq.
Qed.

Lemma exclude_path r m : NoDup (map path r) -> map path (exclude_match r m) = filter (fun x => negb (beqb m x)) (map path r).
Proof.
  induction r as [|n r IH]; [reflexivity|]. cbn. intros H. inversion H as [|? ? H1 H2]. subst. destruct (beqb m (path n)) eqn:E; cbn [negb map].
  - apply beqb_true in E. subst m. symmetry. clear - H1. induction (map path r) as [|x l IH]; [reflexivity|]. cbn. destruct (beqb (path n) x) eqn:E; [apply beqb_true in E; subst; cbn in H1; tauto|].
    cbn. rewrite IH; [reflexivity|]. cbn in H1. tauto.
  - rewrite IH by exact H2. reflexivity.
Qed.
Lemma exclude_incl r m n : In n (exclude_match r m) -> In n r.
Proof. induction r as [|a r IH]; [intros []|]. cbn. destruct (beqb m (path a)); [auto|]. intros [<- | K]; auto. Qed.
Lemma filter_path matches r p : map path (exclude_pattern matches r p) = filter (fun x => negb (matches x p)) (map path r).
Proof. unfold exclude_pattern. induction r as [|n r IH]; [reflexivity|]. cbn. destruct (matches (path n) p); cbn; rewrite IH; reflexivity. Qed.
Lemma fold_incl ns : forall r n, In n (fold_left include_match ns r) -> In n r \/ In n ns.
Proof.
  induction ns as [|a ns IH]; intros r n H; [auto|]. cbn in H. destruct (IH _ _ H) as [K | K]; [|cbn; auto]. unfold include_match in K.
  destruct (existsb _ r); [auto|]. apply in_app_or in K. cbn in *. intuition.
Qed.
