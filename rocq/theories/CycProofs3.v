From Coq Require Import Relations Lia.
From Verif Require Import Base CycModel CycSpec CycProofs CycProofs2.

Section Match.
Context (deps : nat -> list nat) (bad : nat -> bool) (keep_going : bool) (root : nat).
Notation step := (step deps bad keep_going).
Notation run := (run deps bad keep_going).

Fixpoint below (c : nat) (s : state) (rest : list nat) : Prop :=
  match rest with
  | [] => True
  | p :: rest' => (exists todo, s p = Running rest (Sync c todo []) \/ s p = Running rest (Joining c todo)) /\ below p s rest'
  end.
Definition top_ok (s : state) (p : pc) : Prop :=
  match p with
  | Starting _ kids | Waiting kids | Unwinding kids => kids = []
  | Sync c _ kids => kids = [] /\ is_done (s c) = true
  | Nested _ _ => False
  | Completing _ => True
  | Joining c _ => is_done (s c) = true
  end.
Definition tower (s : state) (cur : list nat) : Prop :=
  match cur with [] => True | t :: rest => (exists p, s t = Running cur p /\ top_ok s p) /\ below t s rest end.
Definition Ser (s : state) : Prop := exists cur, tower s cur /\ NoDup cur /\ forall u, busy (s u) <-> In u cur.

Lemma below_frame rest : forall c s s', (forall u, In u rest -> s' u = s u) -> below c s rest -> below c s' rest.
Proof. induction rest as [|p rest IH]; intros c s s' H; [auto|]. intros ((todo & E) & B). split; [exists todo; rewrite H by (left; reflexivity); exact E|]. apply (IH _ s); [intros u I; apply H; right; exact I|exact B]. Qed.
Lemma below_blocked rest : forall c s u stk p, (forall v, In v (c :: rest) -> busy (s v)) -> below c s rest -> In u rest -> s u = Running stk p -> exists d, In d (children p) /\ busy (s d) /\ (exists todo, p = Sync d todo [] \/ p = Joining d todo).
Proof.
  induction rest as [|q rest IH]; intros c s u stk p Bz; [intros _ []|]. intros ((todo & E) & B) [-> | I] Eu.
  - exists c. rewrite Eu in E. destruct E as [E|E]; injection E as _ ->; (split; [left; reflexivity|]); (split; [apply Bz; left; reflexivity|exists todo; auto]).
  - apply (IH q s u stk p); try assumption. intros v Iv. apply Bz. right. exact Iv.
Qed.
Lemma busy_not_done x : busy x -> is_done x = true -> False.
Proof. destruct x; cbn; try discriminate; auto. Qed.

(* A step of the top. *)
Lemma top_change s cur t rest x : cur = t :: rest -> tower s cur -> NoDup cur -> (forall u, busy (s u) <-> In u cur) ->
  (forall p, x = Running cur p -> top_ok (set s t x) p) -> (match x with Running l _ => l = cur | Done _ => True | _ => False end) -> Ser (set s t x).
Proof.
  intros -> (Ht & B) ND Bz Hx Sx. inversion ND as [|? ? Nt ND']; subst. assert (Fr : forall u, In u rest -> set s t x u = s u) by (intros u I; apply set_other; intros ->; contradiction).
  destruct x as [|l|l p|ok]; try contradiction.
  - subst l. exists (t :: rest). split; [split; [exists p; rewrite set_same; split; [reflexivity|apply Hx; reflexivity]|exact (below_frame _ _ _ _ Fr B)]|]. split; [exact ND|]. intros u. destruct (Nat.eq_dec u t) as [-> | N]; [rewrite set_same; cbn; tauto|rewrite set_other by exact N; apply Bz].
  - exists rest. split.
    + destruct rest as [|q rest]; [exact I|]. destruct B as ((todo & E) & B). split.
      * rewrite Fr by (left; reflexivity). destruct E as [E|E]; rewrite E; eexists; (split; [reflexivity|]); cbn; rewrite set_same; auto.
      * apply (below_frame _ _ s); [|exact B]. intros u I. apply Fr. right. exact I.
    + split; [exact ND'|]. intros u. destruct (Nat.eq_dec u t) as [-> | N].
      * rewrite set_same. cbn. tauto.
      * rewrite set_other by exact N. rewrite Bz. cbn. split; [intros [X|X]; [congruence|exact X]|auto].
Qed.
Lemma top_push s cur t rest d p : cur = t :: rest -> tower s cur -> NoDup cur -> (forall u, busy (s u) <-> In u cur) -> s d = Idle ->
  (exists todo, p = Sync d todo [] \/ p = Joining d todo) -> Ser (set (set s t (Running cur p)) d (enter deps bad d cur)).
Proof.
  intros -> (Ht & B) ND Bz Ed Hp. set (s' := set (set s t (Running (t :: rest) p)) d (enter deps bad d (t :: rest))).
  assert (Nd : ~ In d (t :: rest)) by (intros I; apply Bz in I; rewrite Ed in I; exact I). assert (Ndt : t <> d) by (intros ->; apply Nd; left; reflexivity).
  assert (Et : s' t = Running (t :: rest) p) by (unfold s'; rewrite set_other by exact Ndt; apply set_same). assert (Edd : s' d = enter deps bad d (t :: rest)) by apply set_same.
  inversion ND as [|? ? Nt ND']; subst. exists (d :: t :: rest). split; [split|split; [constructor; assumption|]].
  - rewrite Edd. unfold enter. eexists. split; [reflexivity|]. destruct (bad d); reflexivity.
  - split; [rewrite Et; destruct Hp as (todo & [-> | ->]); exists todo; auto|]. apply (below_frame _ _ s); [|exact B]. intros u I. unfold s'. rewrite !set_other; [reflexivity| |]; intros ->; [contradiction|]. apply Nd. right. exact I.
  - intros u. destruct (Nat.eq_dec u d) as [-> | N]; [rewrite Edd; cbn; tauto|]. destruct (Nat.eq_dec u t) as [-> | N']; [rewrite Et; cbn; tauto|]. unfold s'. rewrite !set_other by assumption. rewrite Bz. cbn. split; [auto|intros [X|X]; [congruence|exact X]].
Qed.
Lemma top_ok_set s t x p : busy (s t) -> top_ok s p -> (forall c, In c (children p) -> is_done (s c) = true -> c <> t) -> top_ok (set s t x) p.
Proof. intros B H N. destruct p; cbn in *; auto; [destruct H as [H1 H2]; split; [exact H1|]|]; (rewrite set_other; [assumption|]); apply N; auto. Qed.

(* Serial runs: nothing is ever queued. *)
Lemma serial_step s x s' e : Ser s -> serial x -> step s x = Some (s', e) -> Ser s'.
Proof.
  intros (cur & T & ND & Bz) Sx. destruct x as [t queue|]; [|destruct Sx]. cbn in Sx; subst queue. cbn [CycModel.step]. destruct (s t) as [|stk|stk p|ok] eqn:E; try discriminate.
  assert (It : In t cur) by (apply Bz; rewrite E; exact I). destruct cur as [|t0 rest]; [destruct It|]. destruct (Nat.eq_dec t0 t) as [-> | N0].
  - pose proof T as T0. destruct T as ((p0 & Ep & Tp) & B). rewrite E in Ep. injection Ep as -> <-.
    assert (K : forall q, (forall c, ~ In c (children q)) -> top_ok s q -> Ser (set s t (Running (t :: rest) q))).
    { intros q Cq Tq. apply (top_change s (t :: rest) t rest _ eq_refl T0 ND Bz); [|reflexivity]. intros q' X. injection X as <-. apply top_ok_set; [rewrite E; exact I|exact Tq|]. intros c Ic. destruct (Cq c Ic). }
    assert (Dn : forall ok, Ser (set s t (Done ok))) by (intros ok; apply (top_change s (t :: rest) t rest _ eq_refl T0 ND Bz); [discriminate|exact I]).
    assert (Sd : forall ok todo, Ser (set s t (Running (t :: rest) (started keep_going ok todo [])))).
    { intros ok todo. apply K; unfold started; destruct (ok || keep_going); cbn; auto. }
    destruct p as [[|d todo] kids|d todo kids|kids|d kids|kids|[|d todo]|d todo]; cbn [advance top_ok] in *.
    + subst kids. intros X; injection X as <- <-. apply K; cbn; auto.
    + subst kids. destruct (s d) as [|stk0|stk0 p0|ok] eqn:Ed.
      * intros X; injection X as <- <-. apply (top_push s (t :: rest) t rest); auto. exists todo. auto.
      * destruct (on_stack d (t :: rest)); intros X; injection X as <- <-; apply K; cbn; auto.
      * destruct (on_stack d (t :: rest)); intros X; injection X as <- <-; apply K; cbn; auto.
      * intros X; injection X as <- <-. apply Sd.
    + destruct Tp as [-> _]. destruct (s d); try discriminate. intros X; injection X as <- <-. apply Sd.
    + subst kids. cbn. intros X; injection X as <- <-. apply K; cbn; auto.
    + contradiction.
    + subst kids. cbn. intros X; injection X as <- <-. apply Dn.
    + intros X; injection X as <- <-. apply Dn.
    + destruct (s d) as [|stk0|stk0 p0|[|]] eqn:Ed.
      * intros X; injection X as <- <-. apply (top_push s (t :: rest) t rest); auto. exists todo. auto.
      * destruct (on_stack d (t :: rest)); [|discriminate]; intros X; injection X as <- <-; apply Dn.
      * destruct (on_stack d (t :: rest)); [|discriminate]; intros X; injection X as <- <-; apply Dn.
      * intros X; injection X as <- <-. apply K; cbn; auto.
      * intros X; injection X as <- <-. apply Dn.
    + destruct (s d); try discriminate. intros X; injection X as <- <-. apply K; cbn; auto.
  - destruct It as [X|It]; [contradiction|]. destruct T as (_ & B). destruct (below_blocked rest t0 s t stk p (fun v Iv => proj2 (Bz v) Iv) B It E) as (d & _ & Bd & todo & [-> | ->]); cbn [advance]; destruct (s d); cbn in Bd; contradiction || discriminate.
Qed.
Lemma serial_init : Ser (init deps root).
Proof.
  exists [root]. split; [split; [|exact I]|split; [repeat constructor; auto|]].
  - unfold init. eexists. rewrite set_same. split; reflexivity.
  - intros u. unfold init, set. destruct (Nat.eqb_spec u root) as [-> | N]; cbn; [tauto|]. split; [contradiction|intros [X|[]]; congruence].
Qed.
Lemma serial_run xs : forall s s' es, Ser s -> Forall serial xs -> run s xs = Some (s', es) -> Ser s'.
Proof.
  induction xs as [|x xs IH]; intros s s' es H F; cbn [CycModel.run].
  - intros X. injection X as <- <-. exact H.
  - destruct (step s x) as [[s1 e]|] eqn:E; [|discriminate]. destruct (run s1 xs) as [[s2 es2]|] eqn:R; [|discriminate]. intros X. injection X as <- <-. inversion F; subst. apply (IH s1 _ es2); auto. exact (serial_step _ _ _ _ H H2 E).
Qed.
Lemma serial_stuck s : Ser s -> (forall x, serial x -> step s x = None) -> forall t, ~ busy (s t).
Proof.
  intros (cur & T & ND & Bz) St t B. apply Bz in B. destruct cur as [|t0 rest]; [exact B|]. clear t B. destruct T as ((p & E & Tp) & _). specialize (St (Advance t0 false) eq_refl). cbn [CycModel.step] in St. rewrite E in St.
  destruct p as [[|d todo] kids|d todo kids|kids|d kids|kids|[|d todo]|d todo]; cbn [advance top_ok] in *; try discriminate St; try contradiction.
  - destruct (s d); try discriminate St; destruct (on_stack d (t0 :: rest)); discriminate St.
  - destruct Tp as [_ D]. destruct (s d); discriminate.
  - subst kids. discriminate St.
  - subst kids. discriminate St.
  - assert (O : busy (s d) -> on_stack d (t0 :: rest) = true) by (intros B; apply on_stack_in, Bz, B). destruct (s d) as [| | |[|]]; try discriminate St; rewrite (O I) in St; discriminate St.
  - destruct (s d); discriminate.
Qed.
End Match.
