From Verif Require Import Base TsetModel TsetSpec.

Section P.
Context (fixed : nat -> fixing).

Definition proper (t : entry) : Prop :=
  match fixed (base t) with Free => True | Fixed f => ext t = Some f | Must => ext t <> None end.

Lemma ext_eqb_eq x y : ext_eqb x y = true <-> x = y.
Proof.
  destruct x, y; cbn; split; intro H; try discriminate; auto.
  - apply beqb_eq in H. congruence.
  - injection H as ->. apply beqb_refl.
Qed.
Lemma ext_eqb_neq x y : ext_eqb x y = false <-> x <> y.
Proof. rewrite <- ext_eqb_eq. destruct ext_eqb; split; congruence. Qed.

Lemma key_none t k e : proper t -> base t = k -> key_eqb fixed k (ext t) e = None <-> lacking fixed k e.
Proof.
  unfold proper, key_eqb, lacking. intros P <-. destruct (fixed (base t)); try (split; [discriminate | intros []; discriminate]).
  destruct (ext t); [| congruence]. destruct e; split; try discriminate; auto. intros []; discriminate.
Qed.
Lemma key_some t k e r : proper t -> base t = k -> key_eqb fixed k (ext t) e = Some r -> r = true <-> refers fixed k e t.
Proof.
  unfold proper, key_eqb, refers. intros P <-. destruct (fixed (base t)) eqn: F; intro H.
  - destruct (ext t) as [x |], e as [y |]; injection H as <-; rewrite ?beqb_eq; split; auto; try (intros ->; auto).
    intros (_ & [| [|]]); try discriminate; try congruence. destruct H; discriminate.
  - rewrite P in *. injection H as <-. rewrite beqb_eq. destruct e as [y |]; split; auto; try (intros ->; auto).
    intros (_ & [| [|]]); try discriminate; try congruence. destruct H; discriminate.
  - destruct (ext t) as [x |], e as [y |]; try discriminate. injection H as <-. rewrite beqb_eq. split; [intros ->; auto |].
    intros (_ & [| [|]]); try discriminate; try congruence. destruct H; discriminate.
Qed.

Lemma lookup_spec k e : forall ts n, Forall proper ts ->
  match lookup fixed ts n k e with
  | None => lacking fixed k e /\ exists t, In t ts /\ base t = k
  | Some is => (forall t, In t ts -> base t = k -> ~ lacking fixed k e) /\
               forall i, In i is <-> exists j t, i = n + j /\ nth_error ts j = Some t /\ refers fixed k e t
  end.
Proof.
  induction ts as [| t ts IH]; intros n F; cbn.
  - split; [tauto |]. intro i. split; [tauto |]. intros (j & t & _ & H & _). destruct j; discriminate.
  - inversion F as [| ? ? P F']; subst. specialize (IH (S n) F').
    destruct (base t =? k) eqn: B.
    + apply Nat.eqb_eq in B. destruct (key_eqb fixed k (ext t) e) as [r |] eqn: K.
      * pose proof (key_some _ _ _ _ P B K) as R.
        assert (L : ~ lacking fixed k e) by (rewrite <- (key_none t k e P B); congruence).
        assert (I : exists l, lookup fixed ts (S n) k e = Some l).
        { destruct (lookup fixed ts (S n) k e) as [l |]; eauto. tauto. }
        destruct I as (l & I). rewrite I in *. destruct IH as (_ & IH).
        destruct r.
        -- split; [auto |]. intro i. cbn. rewrite IH. split.
           ++ intros [<- | (j & u & -> & J)]; [exists 0, t; cbn; split; [lia |]; split; [auto |]; now apply R | exists (S j), u; cbn; split; [lia | auto]].
           ++ intros ([| j] & u & -> & N & Q); cbn in N; [left; lia | right; exists j, u; split; [lia | auto]].
        -- split; [auto |]. intro i. rewrite IH. split.
           ++ intros (j & u & -> & J). exists (S j), u; cbn; split; [lia | auto].
           ++ intros ([| j] & u & -> & N & Q); cbn in N; [injection N as <-; apply R in Q; discriminate | exists j, u; split; [lia | auto]].
      * apply key_none in K; auto. split; [auto |]. exists t. cbn. auto.
    + apply Nat.eqb_neq in B. destruct (lookup fixed ts (S n) k e) as [l |].
      * destruct IH as (L & IH). split; [intros u [<- | U]; [tauto | eauto] |].
        intro i. rewrite IH. split.
        -- intros (j & u & -> & J). exists (S j), u; cbn; split; [lia | auto].
        -- intros ([| j] & u & -> & N & Q); cbn in N; [injection N as <-; destruct Q; congruence | exists j, u; split; [lia | auto]].
      * destruct IH as (L & u & U & V). split; [auto |]. exists u. cbn; auto.
Qed.

Lemma update_replaced f : forall ts i t, nth_error ts i = Some t -> replaced ts i t (f t) (update ts i f).
Proof.
  induction ts as [| x ts IH]; intros [| i] t H; try discriminate; cbn in H.
  - injection H as ->. exists [], ts. auto.
  - destruct (IH i t H) as (l1 & l2 & -> & E & R). exists (x :: l1), l2. cbn. rewrite R, E. auto.
Qed.
Lemma replaced_nth ts i t t' ts' : replaced ts i t t' ts' ->
  nth_error ts i = Some t /\ forall j, nth_error ts' j = if j =? i then Some t' else nth_error ts j.
Proof.
  intros (l1 & l2 & -> & <- & ->). split.
  - rewrite nth_error_app2, Nat.sub_diag; auto.
  - intro j. destruct (j =? length l1) eqn: E.
    + apply Nat.eqb_eq in E as ->. rewrite nth_error_app2, Nat.sub_diag; auto.
    + apply Nat.eqb_neq in E. destruct (Nat.lt_ge_cases j (length l1)) as [L | L].
      * rewrite !nth_error_app1; auto.
      * rewrite !nth_error_app2 by lia. destruct (j - length l1) eqn: D; [lia | auto].
Qed.

(* What an operation does to what is there. *)
Definition extends (ts ts' : list entry) : Prop :=
  forall i t, nth_error ts i = Some t -> exists t', nth_error ts' i = Some t' /\ base t' = base t /\ (ext t = None \/ ext t' = ext t) /\ (real t = true -> real t' = true).
Lemma extends_refl ts : extends ts ts.
Proof. intros i t H. eauto 8. Qed.
Lemma extends_trans a c d : extends a c -> extends c d -> extends a d.
Proof.
  intros E F i t H. destruct (E i t H) as (u & U & B & X & R). destruct (F i u U) as (v & V & B' & X' & R').
  exists v. split; [auto |]. split; [congruence |]. split; [| auto].
  destruct X as [| X]; auto. destruct X' as [X' |]; [left | right]; congruence.
Qed.
Lemma does_extends ts o r ts' : does fixed ts o r ts' -> extends ts ts'.
Proof.
  assert (G : forall i t t' ts', replaced ts i t t' ts' -> base t' = base t -> (ext t = None \/ ext t' = ext t) -> (real t = true -> real t' = true) -> extends ts ts').
  { intros i t t' us R B X L j u U. destruct (replaced_nth _ _ _ _ _ R) as (N & R'). rewrite R'.
    destruct (j =? i) eqn: E; [| eauto 8]. apply Nat.eqb_eq in E as ->. assert (u = t) as -> by congruence. eauto 8. }
  destruct 1 as [| k e i t us L Q R | | k e r s L Q | k e r s i t us L Q R | | i v t us X R |]; try apply extends_refl.
  - eapply G; [eassumption | cbn .. ]; [destruct Q; auto | destruct (ext t); auto | auto].
  - intros i t H. exists t. rewrite nth_error_app1; [auto 6 |]. apply nth_error_Some. congruence.
  - eapply G; [eassumption | cbn .. ]; [destruct Q; auto | destruct (ext t); auto | intros ->; auto].
  - eapply G; [eassumption | cbn .. ]; auto. destruct X; auto.
Qed.

Lemma replaced_in ts i t t' ts' x : replaced ts i t t' ts' -> In x ts' -> x = t' \/ In x ts.
Proof. intros (l1 & l2 & -> & _ & ->) H. rewrite in_app_iff in *. cbn in *. intuition auto. Qed.
Lemma replaced_at ts i t t' ts' : replaced ts i t t' ts' -> In t ts.
Proof. intros (l1 & l2 & -> & _ & ->). rewrite in_app_iff. cbn. auto. Qed.

Lemma does_proper ts o r ts' : does fixed ts o r ts' -> Forall proper ts -> Forall proper ts'.
Proof.
  intros D F. rewrite Forall_forall in *.
  destruct D as [| k e i t us L Q R | | k e r s L Q | k e r s i t us L Q R | | i v t us X R |]; auto; intros x I.
  - apply (replaced_in _ _ _ _ _ _ R) in I as [-> |]; auto.
    pose proof (F t (replaced_at _ _ _ _ _ R)) as P. destruct Q as (<- & Q). unfold proper in *. cbn.
    destruct (fixed (base t)); auto.
    + rewrite P. auto.
    + destruct (ext t); cbn; congruence.
  - apply in_app_iff in I as [| [<- | []]]; auto. unfold proper, effective, lacking in *. cbn.
    destruct (fixed k); auto.
  - apply (replaced_in _ _ _ _ _ _ R) in I as [-> |]; auto.
    pose proof (F t (replaced_at _ _ _ _ _ R)) as P. destruct Q as (<- & Q). unfold proper in *. cbn.
    destruct (fixed (base t)); auto.
    + rewrite P. auto.
    + destruct (ext t); cbn; congruence.
  - apply (replaced_in _ _ _ _ _ _ R) in I as [-> |]; auto.
    pose proof (F t (replaced_at _ _ _ _ _ R)) as P. unfold proper in *. cbn.
    destruct (fixed (base t)); auto.
    + destruct X; congruence.
    + congruence.
Qed.

(* Threads *)
Definition held (ts : list entry) (o : op) (p : pc) : Prop :=
  match o, p with
  | Brand _ _, _ => True
  | _, Locked i => exists t, nth_error ts i = Some t /\ base t = fst (key_of o) /\ fixed (fst (key_of o)) = Free /\ snd (key_of o) <> None
  | Find _ _, Inserting => False
  | _, _ => True
  end.
Lemma held_extends ts ts' o p : extends ts ts' -> held ts o p -> held ts' o p.
Proof.
  intros E H. destruct o, p; cbn in *; auto; destruct H as (t & N & B & H);
    destruct (E _ _ N) as (t' & N' & B' & _); exists t'; rewrite B', <- B in *; auto.
Qed.

Lemma refers_effective k e t : proper t -> refers fixed k e t -> refers fixed k (effective fixed k e) t.
Proof.
  unfold proper, refers, effective. intros P (<- & Q). split; auto. destruct (fixed (base t)) eqn: F; auto.
Qed.
Lemma entry_eta t : t = mkentry (base t) (ext t) (real t).
Proof. destruct t; auto. Qed.

Lemma step_does ts o p c ts' x : Forall proper ts -> held ts o p -> step fixed ts o p c = Some (ts', x) ->
  match x with
  | inl p' => ts' = ts /\ held ts' o p'
  | inr r => does fixed ts o r ts'
  end.
Proof.
  intros F H S.
  assert (SH : forall k e, key_of o = (k, e) -> (o = Find k e \/ exists r s, o = Insert k e r s) -> shared fixed ts o c = Some (ts', x) -> 
    match x with inl p' => ts' = ts /\ held ts' o p' | inr r => does fixed ts o r ts' end).
  { clear S H. intros k e K O S. unfold shared in S. rewrite K in S. pose proof (lookup_spec k e ts 0 F) as L.
    destruct (lookup fixed ts 0 k e) as [is |].
    2: { injection S as <- <-. destruct L as (L & t & T & B). pose proof L as (_ & ->). destruct O as [-> | (r & s & ->)]; econstructor; eauto. }
    destruct L as (L & I). destruct is as [| i0 is].
    { assert (N : forall t, In t ts -> ~ refers fixed k e t).
      { intros t T R. apply In_nth_error in T as (j & T). apply (proj2 (I j)). exists j, t. auto. }
      destruct O as [-> | (r & s & ->)]; injection S as <- <-; [now constructor | cbn; auto]. }
    destruct (nth_error (i0 :: is) c) as [i |] eqn: C; [| discriminate]. apply nth_error_In in C. apply I in C as (j & t & J & T & R).
    cbn in J. subst j. rewrite T in S.
    assert (P : proper t) by (rewrite Forall_forall in F; eapply F, nth_error_In; eauto).
    assert (NL : ~ lacking fixed k e) by (apply (L t); [eapply nth_error_In; eauto | apply R]).
    destruct (ext_eqb (ext t) e || ext_eqb e None) eqn: E.
    - injection S as <- <-. apply orb_true_iff in E. rewrite !ext_eqb_eq in E.
      pose proof (update_replaced (upgrade o) ts i t T) as U.
      destruct O as [-> | (r & s & ->)].
      + eapply found; eauto. cbn in U |- *.
        replace (mkentry k (known (ext t) e) (real t)) with t; auto. rewrite (entry_eta t) at 1. destruct R as (<- & _). f_equal.
        destruct (ext t), e; cbn; destruct E; congruence.
      + eapply existing with (t := t); eauto; [now apply refers_effective |].
        replace (mkentry k (known (ext t) (effective fixed k e)) (real t || r)) with (upgrade (Insert k e r s) t); auto.
        assert (X : known (ext t) (effective fixed k e) = ext t).
        { unfold effective. unfold proper in P. destruct R as (<- & _). destruct (ext t), e; cbn; auto; destruct E; try congruence.
          - destruct (fixed (base t)); congruence.
          - destruct (fixed (base t)); congruence. }
        rewrite X. destruct R as (<- & _). cbn. destruct r; [now rewrite orb_true_r | rewrite orb_false_r; apply entry_eta].
    - injection S as <- <-. split; auto. apply orb_false_iff in E. rewrite !ext_eqb_neq in E. destruct E as (E1 & E2).
      assert (HH : exists u, nth_error ts i = Some u /\ base u = k /\ fixed k = Free /\ e <> None).
      { exists t. destruct R as (B & [| [| (_ & FF)]]); tauto. }
      destruct O as [-> | (r & s & ->)]; exact HH. }
  assert (LO : forall k e i, key_of o = (k, e) -> (o = Find k e \/ exists r s, o = Insert k e r s) -> 
    (exists t, nth_error ts i = Some t /\ base t = k /\ fixed k = Free /\ e <> None) -> locked ts o i = Some (ts', x) -> 
    match x with inl p' => ts' = ts /\ held ts' o p' | inr r => does fixed ts o r ts' end).
  { clear S H SH. intros k e i K O (t & T & B & FF & E) S. unfold locked in S. rewrite K, T in S.
    destruct (ext t) eqn: X; injection S as <- <-.
    - destruct O as [-> | (r & s & ->)]; cbn; auto.
    - pose proof (update_replaced (fun t => upgrade o (set_ext e t)) ts i t T) as U.
      destruct O as [-> | (r & s & ->)].
      + eapply found with (t := t); [intros (LF & _); congruence | split; auto; right; right; auto |].
        cbn in U |- *. rewrite X. cbn. rewrite <- B. exact U.
      + eapply existing with (t := t); [intros (LF & _); congruence | split; auto; right; right; auto |].
        unfold effective. rewrite FF, X. cbn in U |- *. rewrite <- B. destruct r; cbn in U; [now rewrite orb_true_r | rewrite orb_false_r; auto]. }
  destruct o as [k e | k e r s | i v].
  - destruct p; cbn in S, H; [eapply SH | eapply LO | contradiction]; cbn; eauto.
  - destruct p; cbn in S, H; [eapply SH; cbn; eauto | eapply LO; cbn; eauto |].
    unfold inserting in S. cbn [key_of] in S.
    assert (EE : (lacking fixed k e /\ ts' = ts /\ x = inr Failed) \/ (~ lacking fixed k e /\ 
       match lookup fixed ts 0 k (effective fixed k e) with
       | None => Some (ts, inr Failed)
       | Some [] => Some (ts ++ [mkentry k (effective fixed k e) r], inr (Inserted (length ts)))
       | Some is => match nth_error is c with Some i => Some (update ts i (fun t => upgrade (Insert k e r s) (if negb (ext_eqb (ext t) (effective fixed k e)) && negb (ext_eqb (effective fixed k e) None) then set_ext (effective fixed k e) t else t)), inr (Found i)) | None => None end
       end = Some (ts', x))).
    { unfold lacking, effective. destruct (fixed k) eqn: FK; [right; split; auto; intros []; discriminate .. |].
      destruct e; [right; split; auto; intros []; discriminate | left]. injection S as <- <-. auto. }
    destruct EE as [(LA & -> & ->) | (NL & S')].
    { pose proof LA as (_ & ->). now constructor. }
    clear S. rename S' into S. pose proof (lookup_spec k (effective fixed k e) ts 0 F) as L.
    destruct (lookup fixed ts 0 k (effective fixed k e)) as [is |].
    2: { exfalso. apply NL. destruct L as ((L1 & L2) & _). split; auto. unfold effective in L2. rewrite L1 in L2. auto. }
    destruct L as (_ & I). destruct is as [| i0 is].
    { injection S as <- <-. constructor; auto. intros t T R. apply In_nth_error in T as (j & T). apply (proj2 (I j)). exists j, t. auto. }
    destruct (nth_error (i0 :: is) c) as [i |] eqn: C; [| discriminate]. apply nth_error_In in C. apply I in C as (j & t & J & T & R).
    cbn in J. subst j. injection S as <- <-.
    match goal with |- context [update ts i ?f] => pose proof (update_replaced f ts i t T) as U end.
    eapply existing with (t := t); eauto.
    match type of U with replaced _ _ _ ?y _ => replace (mkentry k (known (ext t) (effective fixed k e)) (real t || r)) with y; auto end.
    assert (X : (if negb (ext_eqb (ext t) (effective fixed k e)) && negb (ext_eqb (effective fixed k e) None) then set_ext (effective fixed k e) t else t)
                = mkentry k (known (ext t) (effective fixed k e)) (real t)).
    { destruct R as (<- & R). destruct (ext_eqb (ext t) (effective fixed (base t) e)) eqn: E1; cbn.
      - apply ext_eqb_eq in E1. rewrite (entry_eta t) at 1. f_equal. rewrite <- E1. destruct (ext t); auto.
      - apply ext_eqb_neq in E1. destruct (ext_eqb (effective fixed (base t) e) None) eqn: E2; cbn.
        + apply ext_eqb_eq in E2. rewrite E2. rewrite (entry_eta t) at 1. f_equal. destruct (ext t); auto.
        + apply ext_eqb_neq in E2. unfold set_ext. f_equal. destruct R as [| [| (-> & _)]]; try congruence. auto. }
    rewrite X. cbn. destruct r; cbn; [now rewrite orb_true_r | now rewrite orb_false_r].
  - cbn in S. unfold brand in S. destruct (nth_error ts i) as [t |] eqn: T; [| discriminate].
    destruct (ext t) as [e |] eqn: X; injection S as <- <-.
    + destruct (beqb e v) eqn: E.
      * apply beqb_eq in E as ->. apply branded with (t := t); auto.
        pose proof (update_replaced (fun t => t) ts i t T) as U.
        assert (UU : forall l j, update l j (fun t => t) = l) by (induction l as [| y l IHl]; intros [| j]; cbn; congruence).
        rewrite UU in U. rewrite <- X, <- entry_eta. exact U.
      * eapply conflict; eauto. intros ->. rewrite beqb_refl in E. discriminate.
    + apply branded with (t := t); auto. exact (update_replaced (set_ext (Some v)) ts i t T).
Qed.

Definition good (s : state) : Prop :=
  history fixed (log s) (targets s) /\ Forall proper (targets s) /\
  forall t o p, threads s t = Some (o, p) -> held (targets s) o p.
Lemma good_initial : good initial.
Proof. split; [constructor |]. split; [constructor |]. discriminate. Qed.
Lemma good_act s a s' : good s -> act fixed s a = Some s' -> good s'.
Proof.
  intros (H & F & T) A. destruct a as [t o | t c]; cbn in A.
  - destruct (threads s t) eqn: E; [discriminate |]. injection A as <-. split; [auto |]. split; [auto |]. cbn. unfold set_thread.
    intros u o' p U. destruct (u =? t); [injection U as <- <- | eauto]. destruct o; cbn; auto. destruct skip_find; cbn; auto.
  - destruct (threads s t) as [(o, p) |] eqn: E; [| discriminate].
    destruct (step fixed (targets s) o p c) as [(ts, x) |] eqn: S; [| discriminate].
    pose proof (step_does _ _ _ _ _ _ F (T _ _ _ E) S) as D. destruct x as [p' | r]; injection A as <-.
    + destruct D as (-> & D). split; [auto |]. split; [auto |]. cbn. unfold set_thread.
      intros u o' q U. destruct (u =? t); [injection U as <- <- | ]; eauto.
    + split; [econstructor; eauto |]. split; [eapply does_proper; eauto |]. cbn. unfold set_thread.
      intros u o' q U. destruct (u =? t); [discriminate |]. eapply held_extends; [eapply does_extends; eauto | eauto].
Qed.
Lemma good_run xs : forall s s', good s -> run fixed s xs = Some s' -> good s'.
Proof.
  induction xs as [| a xs IH]; cbn; intros s s' G R; [congruence |].
  destruct (act fixed s a) eqn: A; [| discriminate]. eapply IH; [| eauto]. eapply good_act; eauto.
Qed.
Lemma good_gets s : gets_to fixed s -> good s.
Proof. intros (xs & R). eapply good_run; [apply good_initial | eauto]. Qed.

(* What follows from the history. *)
Definition distinct (ts : list entry) : Prop :=
  forall i j t u, nth_error ts i = Some t -> nth_error ts j = Some u -> i <> j -> base t = base u ->
    ext t <> None /\ ext u <> None /\ ext t <> ext u.

Lemma history_proper log ts : history fixed log ts -> Forall proper ts.
Proof. induction 1; [constructor | eapply does_proper; eauto]. Qed.

Lemma distinct_replaced ts i t t' ts' : distinct ts -> replaced ts i t t' ts' -> base t' = base t ->
  (ext t' = ext t \/ ext t = None) -> distinct ts'.
Proof.
  intros D R B X. destruct (replaced_nth _ _ _ _ _ R) as (N & R'). intros a c u v U V AC BB. rewrite R' in U, V.
  destruct (a =? i) eqn: A, (c =? i) eqn: C; rewrite ?Nat.eqb_eq, ?Nat.eqb_neq in *; subst; try (exfalso; congruence).
  - injection U as <-. destruct (D i c t v N V AC ltac:(congruence)) as (D1 & D2 & D3). destruct X as [X | X]; [rewrite X in *; auto | congruence].
  - injection V as <-. destruct (D a i u t U N AC ltac:(congruence)) as (D1 & D2 & D3). destruct X as [X | X]; [rewrite X in *; auto | congruence].
  - eauto.
Qed.
Lemma does_distinct ts o r ts' : Forall proper ts -> does fixed ts o r ts' -> distinct ts -> distinct ts'.
Proof.
  intros F D I.
  destruct D as [| k e i t us L Q R | | k e r s L Q | k e r s i t us L Q R | | i v t us X R |]; auto.
  - eapply distinct_replaced; eauto; cbn; [destruct Q; auto | destruct (ext t); auto].
  - intros i j t u T U IJ B.
    assert (G : forall t, In t ts -> base t = k -> ext t <> None /\ effective fixed k e <> None /\ ext t <> effective fixed k e).
    { intros x X BX. pose proof (Q x X) as N. unfold refers in N. rewrite Forall_forall in F. specialize (F x X). unfold proper in F. rewrite BX in F.
      split; [| split].
      - intro E. apply N. split; auto. destruct (fixed k) eqn: FK; try congruence. auto.
      - intro E. apply N. auto.
      - intro E. apply N. auto. }
    assert (H : forall n x, nth_error (ts ++ [mkentry k (effective fixed k e) r]) n = Some x -> (nth_error ts n = Some x /\ n < length ts) \/ (n = length ts /\ x = mkentry k (effective fixed k e) r)).
    { intros n x N. destruct (Nat.lt_ge_cases n (length ts)).
      - rewrite nth_error_app1 in N; auto.
      - rewrite nth_error_app2 in N by auto. destruct (n - length ts) eqn: E; cbn in N; [right; split; [lia | congruence] | destruct n0; discriminate]. }
    apply H in T as [(T & T') | (T & ->)]; apply H in U as [(U & U') | (U & ->)].
    + eauto.
    + cbn in *. destruct (G t) as (G1 & G2 & G3); auto. eapply nth_error_In; eauto.
    + cbn in *. destruct (G u) as (G1 & G2 & G3); auto. eapply nth_error_In; eauto.
    + congruence.
  - eapply distinct_replaced; eauto; cbn; [destruct Q; auto | destruct (ext t); auto].
  - eapply distinct_replaced; eauto; cbn. destruct X as [X | X]; rewrite X; auto.
Qed.
Lemma history_distinct log ts : history fixed log ts -> distinct ts.
Proof.
  induction 1 as [| log ts o r ts' H IH D].
  - intros i j t u T. destruct i; discriminate.
  - eapply does_distinct; [eapply history_proper; eauto | eauto | eauto].
Qed.

Lemma refers_known k e t : proper t -> ~ lacking fixed k e -> refers fixed k e t ->
  effective fixed k e = None \/ known (ext t) e = effective fixed k e.
Proof.
  unfold proper, refers, effective, lacking. intros P L (<- & Q).
  destruct (fixed (base t)) eqn: F.
  - destruct Q as [-> | [-> | (-> & _)]]; auto. destruct e; auto.
  - rewrite P in *. auto.
  - destruct Q as [-> | [-> | (_ & ?)]]; [tauto | destruct e; auto | discriminate].
Qed.
Lemma does_asks ts o r ts' k e i : Forall proper ts -> does fixed ts o r ts' -> asks fixed o k e -> target_of r = Some i ->
  exists t, nth_error ts' i = Some t /\ base t = k /\ (e = None \/ ext t = e).
Proof.
  intros F D A T. rewrite Forall_forall in F.
  destruct D as [| k0 e0 i0 t us L Q R | | k0 e0 r0 s L Q | k0 e0 r0 s i0 t us L Q R | | i0 v t us X R |]; try discriminate; inversion A; subst; injection T as <-.
  - destruct (replaced_nth _ _ _ _ _ R) as (N & R'). rewrite R', Nat.eqb_refl. eexists. split; [reflexivity |]. split; [reflexivity |]. cbn.
    apply refers_known; auto. eapply F, nth_error_In; eauto.
  - rewrite nth_error_app2, Nat.sub_diag by auto. cbn. eauto.
  - destruct (replaced_nth _ _ _ _ _ R) as (N & R'). rewrite R', Nat.eqb_refl. eexists. split; [reflexivity |]. split; [reflexivity |]. cbn.
    destruct Q as (B & [| [Q | (Q & _)]]); auto.
    + rewrite Q. destruct (effective fixed k e0); auto.
    + rewrite Q. auto.
Qed.
Lemma history_asks log ts o r k e i : history fixed log ts -> In (o, r) log -> asks fixed o k e -> target_of r = Some i ->
  exists t, nth_error ts i = Some t /\ base t = k /\ (e = None \/ ext t = e).
Proof.
  intros H I A T. induction H as [| log ts o' r' ts' H IH D]; [contradiction |].
  destruct I as [E | I].
  - injection E as -> ->. eapply does_asks; [eapply history_proper; eauto | eauto | eauto | eauto].
  - destruct (IH I) as (t & N & B & X). destruct (does_extends _ _ _ _ D i t N) as (t' & N' & B' & X' & _).
    exists t'. split; auto. split; [congruence |]. destruct X as [| <-]; auto.
Qed.

Definition is_new (i : nat) (x : op * result) : bool := match snd x with Inserted j => j =? i | _ => false end.
Lemma replaced_length ts i t t' ts' : replaced ts i t t' ts' -> length ts' = length ts.
Proof. intros (l1 & l2 & -> & _ & ->). rewrite !app_length. auto. Qed.
Lemma history_new log ts : history fixed log ts -> forall i, length (filter (is_new i) log) = if i <? length ts then 1 else 0.
Proof.
  induction 1 as [| log ts o r ts' H IH D]; intro i; [auto |].
  destruct D as [| k0 e0 i0 t us L Q R | | k0 e0 r0 s L Q | k0 e0 r0 s i0 t us L Q R | | i0 v t us X R |]; cbn [filter is_new snd]; rewrite ?(replaced_length _ _ _ _ _ R); auto.
  rewrite app_length. cbn [length]. destruct (length ts =? i) eqn: E.
  - apply Nat.eqb_eq in E as <-. cbn [length]. rewrite IH. rewrite Nat.ltb_irrefl. destruct (Nat.ltb_spec (length ts) (length ts + 1)); [auto | lia].
  - apply Nat.eqb_neq in E. rewrite IH. destruct (Nat.ltb_spec i (length ts)), (Nat.ltb_spec i (length ts + 1)); auto; lia.
Qed.

Lemma history_found log ts : history fixed log ts -> forall o r i, In (o, r) log -> target_of r = Some i -> i < length ts.
Proof.
  induction 1 as [| log ts o' r' ts' H IH D]; intros o r i I T; [contradiction |].
  assert (LE : length ts <= length ts' /\ forall j, target_of r' = Some j -> j < length ts').
  { destruct D as [| k0 e0 i0 t us L Q R | | k0 e0 r0 s L Q | k0 e0 r0 s i0 t us L Q R | | i0 v t us X R |]; cbn [target_of]; rewrite ?(replaced_length _ _ _ _ _ R);
      (split; [try lia | intros j J; try discriminate; injection J as <-]);
      try (destruct (replaced_nth _ _ _ _ _ R) as (N & _); apply nth_error_Some; congruence).
    - rewrite app_length. lia.
    - rewrite app_length. cbn. lia. }
  destruct I as [E | I]; [injection E as -> ->; apply LE; auto |]. specialize (IH _ _ _ I T). lia.
Qed.

Lemma history_split l1 : forall x l2 ts, history fixed (l1 ++ x :: l2) ts ->
  exists ts1 ts2, history fixed l2 ts1 /\ does fixed ts1 (fst x) (snd x) ts2 /\ extends ts2 ts.
Proof.
  induction l1 as [| y l1 IH]; cbn; intros x l2 ts H; inversion H; subst.
  - exists ts0, ts. split; [auto |]. split; [auto |]. apply extends_refl.
  - destruct (IH _ _ _ H2) as (ts1 & ts2 & A & B & C). exists ts1, ts2. split; [auto |]. split; [auto |].
    eapply extends_trans; [eauto | eapply does_extends; eauto].
Qed.

(* Where extensions come from. *)
Lemma history_from log ts : history fixed log ts -> forall i t a, nth_error ts i = Some t -> ext t = Some a ->
  (exists o r, In (o, r) log /\ asks fixed o (base t) (Some a)) \/ (exists r, In (Brand i a, r) log).
Proof.
  induction 1 as [| log ts o r ts' H IH D]; intros i t a N X; [destruct i; discriminate |].
  assert (G : forall u, nth_error ts i = Some u -> base u = base t -> ext u = Some a -> (exists o' r', In (o', r') ((o, r) :: log) /\ asks fixed o' (base t) (Some a)) \/ (exists r', In (Brand i a, r') ((o, r) :: log))).
  { intros u U B E. destruct (IH _ _ _ U E) as [(o' & r' & I & A) | (r' & I)]; [left; exists o', r'; rewrite B in A | right; exists r']; cbn; auto. }
  destruct D as [| k0 e0 i0 u us L Q R | | k0 e0 r0 s L Q | k0 e0 r0 s i0 u us L Q R | | i0 v u us Z R |]; try (eapply G; eauto; fail).
  - destruct (replaced_nth _ _ _ _ _ R) as (U & R'). rewrite R' in N. destruct (i =? i0) eqn: E; [| eapply G; eauto].
    apply Nat.eqb_eq in E as ->. injection N as <-. cbn in *. destruct (ext u) eqn: EU; cbn in X.
    + eapply G; eauto; [destruct Q; auto |]. congruence.
    + left. exists (Find k0 e0), (Found i0). split; auto.
      pose proof (history_proper _ _ H) as F. rewrite Forall_forall in F. specialize (F u (nth_error_In _ _ U)). unfold proper in F.
      destruct Q as (B & Q). rewrite B in F. assert (Some a = effective fixed k0 e0) as ->.
      { unfold effective. destruct (fixed k0); congruence. }
      constructor.
  - destruct (Nat.lt_ge_cases i (length ts)).
    + rewrite nth_error_app1 in N by auto. eapply G; eauto.
    + rewrite nth_error_app2 in N by auto. destruct (i - length ts); cbn in N; [| destruct n; discriminate]. injection N as <-. cbn in *.
      left. do 2 eexists. split; [left; reflexivity |]. rewrite <- X. constructor.
  - destruct (replaced_nth _ _ _ _ _ R) as (U & R'). rewrite R' in N. destruct (i =? i0) eqn: E; [| eapply G; eauto].
    apply Nat.eqb_eq in E as ->. injection N as <-. cbn in *. destruct (ext u) eqn: EU; cbn in X.
    + eapply G; eauto; [destruct Q; auto |]. congruence.
    + left. do 2 eexists. split; [left; reflexivity |]. rewrite <- X. constructor.
  - destruct (replaced_nth _ _ _ _ _ R) as (U & R'). rewrite R' in N. destruct (i =? i0) eqn: E; [| eapply G; eauto].
    apply Nat.eqb_eq in E as ->. injection N as <-. cbn in *. injection X as <-. right. eexists. left. reflexivity.
Qed.

(* Steps *)
Definition stage (ts : list entry) (o : op) (p : pc) (n : nat) : Prop :=
  match o, p with
  | Brand _ _, _ => n = 0
  | _, Shared false => n = 0
  | _, Locked i => n <= 1
  | _, Shared true => n <= 2 /\ exists i t, nth_error ts i = Some t /\ base t = fst (key_of o) /\ ext t <> None
  | _, Inserting => n <= 3
  end.
Lemma stage_extends ts ts' o p n : extends ts ts' -> stage ts o p n -> stage ts' o p n.
Proof.
  intros E H. destruct o, p as [[] | |]; cbn in *; auto; destruct H as (L & i & t & N & B & X); (split; [auto |]);
    destruct (E _ _ N) as (t' & N' & B' & [X' | X'] & _); try congruence; exists i, t'; (split; [auto |]); (split; congruence).
Qed.
Lemma stage_start ts o : stage ts o (start o) 0.
Proof. destruct o; cbn; auto. destruct skip_find; cbn; auto. Qed.
Lemma stage_bound ts o p n : stage ts o p n -> n <= 3.
Proof. destruct o, p as [[] | |]; cbn; lia. Qed.
Lemma stage_step ts o p c ts' p' n : Forall proper ts -> distinct ts -> held ts o p -> stage ts o p n ->
  step fixed ts o p c = Some (ts', inl p') -> stage ts' o p' (S n).
Proof.
  intros F DI H G S.
  assert (SH : forall b k e, key_of o = (k, e) -> p = Shared b -> (o = Find k e \/ exists r s, o = Insert k e r s) -> shared fixed ts o c = Some (ts', inl p') -> stage ts' o p' (1 + n)).
  { clear S. intros b k e K P O S. unfold shared in S. rewrite K in S. pose proof (lookup_spec k e ts 0 F) as L.
    destruct (lookup fixed ts 0 k e) as [is |]; [| discriminate].
    destruct L as (L & I). destruct is as [| i0 is].
    { destruct O as [-> | (r & s & ->)]; [discriminate |]. injection S as <- <-. subst p. cbn in *. destruct b; lia. }
    destruct (nth_error (i0 :: is) c) as [i |] eqn: C; [| discriminate]. apply nth_error_In in C. apply I in C as (j & t & J & T & R).
    cbn in J. subst j. rewrite T in S. destruct (ext_eqb (ext t) e || ext_eqb e None) eqn: E; [discriminate |].
    injection S as <- <-. apply orb_false_iff in E. rewrite !ext_eqb_neq in E. destruct E as (E1 & E2).
    destruct R as (B & [R | [R | (R & FF)]]); try congruence.
    destruct b.
    - exfalso. assert (GG : exists i t, nth_error ts i = Some t /\ base t = k /\ ext t <> None).
      { destruct O as [-> | (r & s & ->)]; subst p; cbn in G; apply G. }
      destruct GG as (j & u & U & BU & XU). assert (IJ : i <> j) by (intros ->; congruence).
      destruct (DI i j t u T U IJ ltac:(congruence)) as (D1 & _). congruence.
    - destruct O as [-> | (r & s & ->)]; subst p; cbn in *; lia. }
  assert (LO : forall k e i, key_of o = (k, e) -> p = Locked i -> (o = Find k e \/ exists r s, o = Insert k e r s) -> 
     locked ts o i = Some (ts', inl p') -> stage ts' o p' (1 + n)).
  { clear S SH. intros k e i K P O S. unfold locked in S. rewrite K in S. destruct (nth_error ts i) as [t |] eqn: T; [| discriminate].
    destruct (ext t) eqn: X; [| discriminate]. injection S as <- <-.
    destruct O as [-> | (r & s & ->)]; subst p; cbn in *; destruct H as (u & U & B & _); (split; [lia |]); exists i, t; assert (u = t) as -> by congruence; (split; [auto |]); split; congruence. }
  destruct o as [k e | k e r s | i v].
  - destruct p; cbn in S, H; [eapply SH | eapply LO | contradiction]; cbn; eauto.
  - destruct p; cbn in S, H; [eapply SH; cbn; eauto | eapply LO; cbn; eauto |]. exfalso.
    unfold inserting in S. cbn [key_of] in S. destruct (match fixed k with Free => Some e | Fixed f => Some (Some f) | Must => match e with Some _ => Some e | None => None end end); [| discriminate].
    destruct (lookup fixed ts 0 k e0) as [[| a l] |]; try discriminate. destruct (nth_error (a :: l) c); discriminate.
  - exfalso. cbn in S. unfold brand in S. destruct (nth_error ts i) as [t |]; [| discriminate]. destruct (ext t); discriminate.
Qed.

Lemma run_stage xs : forall s s' t n, good s -> (forall o p, threads s t = Some (o, p) -> stage (targets s) o p n) -> run fixed s xs = Some s' ->
  forall o p, threads s' t = Some (o, p) -> stage (targets s') o p (taken t n xs).
Proof.
  induction xs as [| a xs IH]; cbn; intros s s' t n G H R; [injection R as <-; auto |].
  destruct (act fixed s a) as [s1 |] eqn: A; [| discriminate].
  pose proof (good_act _ _ _ G A) as G1.
  destruct a as [u o | u c]; cbn in A.
  - destruct (threads s u) eqn: E; [discriminate |]. injection A as <-. apply (IH _ _ _ _ G1); auto. cbn. unfold set_thread.
    intros o' p' T. destruct (t =? u) eqn: TU.
    + apply Nat.eqb_eq in TU as ->. injection T as <- <-. rewrite Nat.eqb_refl. apply stage_start.
    + apply Nat.eqb_neq in TU. destruct (u =? t) eqn: UT; [apply Nat.eqb_eq in UT; congruence | auto].
  - destruct (threads s u) as [(o, p) |] eqn: E; [| discriminate].
    destruct (step fixed (targets s) o p c) as [(ts, x) |] eqn: S; [| discriminate].
    destruct G as (GH & GF & GT). pose proof (step_does _ _ _ _ _ _ GF (GT _ _ _ E) S) as D.
    destruct x as [p' | r]; injection A as <-; apply (IH _ _ _ _ G1); auto; cbn; unfold set_thread; intros o' q T.
    + destruct D as (-> & D). destruct (t =? u) eqn: TU.
      * apply Nat.eqb_eq in TU as ->. injection T as <- <-. rewrite Nat.eqb_refl.
        eapply stage_step; [exact GF | eapply history_distinct; eauto | exact (GT _ _ _ E) | exact (H _ _ E) | exact S].
      * apply Nat.eqb_neq in TU. destruct (u =? t) eqn: UT; [apply Nat.eqb_eq in UT; congruence | auto].
    + destruct (t =? u) eqn: TU; [discriminate |]. apply Nat.eqb_neq in TU. destruct (u =? t) eqn: UT; [apply Nat.eqb_eq in UT; congruence |].
      eapply stage_extends; [eapply does_extends; eauto | auto].
Qed.

Lemma can_step ts o p : Forall proper ts -> held ts o p -> (forall i v, o = Brand i v -> i < length ts) -> exists c y, step fixed ts o p c = Some y.
Proof.
  intros F H V. exists 0.
  assert (SH : exists y, shared fixed ts o 0 = Some y).
  { unfold shared. destruct (key_of o) as (k, e). pose proof (lookup_spec k e ts 0 F) as L. destruct (lookup fixed ts 0 k e) as [[| i l] |]; eauto.
    cbn [nth_error]. destruct L as (_ & I). destruct (proj1 (I i) (or_introl eq_refl)) as (j & t & -> & N & _). cbn. rewrite N.
    destruct (_ || _); eauto. }
  assert (LO : forall i, (exists t, nth_error ts i = Some t) -> exists y, locked ts o i = Some y).
  { intros i (t & N). unfold locked. destruct (key_of o). rewrite N. destruct (ext t); eauto. }
  destruct o as [k e | k e r s | i v]; [destruct p; cbn in *; auto; [apply LO; destruct H as (t & N & _); eauto | contradiction] | destruct p; cbn in *; auto; [apply LO; destruct H as (t & N & _); eauto |] |].
  - unfold inserting. cbn [key_of]. destruct (match fixed k with Free => Some e | Fixed f => Some (Some f) | Must => match e with Some _ => Some e | None => None end end); eauto.
    destruct (lookup fixed ts 0 k e0) as [[| a l] |]; cbn; eauto.
  - cbn. unfold brand. specialize (V i v eq_refl). apply nth_error_Some in V. destruct (nth_error ts i) as [t |]; [| congruence]. destruct (ext t); eauto.
Qed.
End P.
