From Coq Require Import Relations Lia.
From Verif Require Import Base CycModel CycSpec CycProofs.

Section Match.
Context (deps : nat -> list nat) (bad : nat -> bool) (keep_going : bool) (root : nat).
Notation step := (step deps bad keep_going).
Notation run := (run deps bad keep_going).
Notation depends := (depends deps).
Notation needs := (needs deps).
Notation Inv := (Inv deps bad root).

Lemma init_inv : Inv (fun _ => False) (init deps root).
Proof.
  split; [|split; [intros c []|unfold init; rewrite set_same; discriminate]]. intros t. unfold good, init. destruct (Nat.eq_dec t root) as [-> | N].
  - rewrite set_same. split; [exists []; split; reflexivity|]. split; [|exact I]. split; [intros c []|apply incl_refl].
  - rewrite set_other by exact N. exact I.
Qed.
Lemma run_inv xs : forall rep s s' es, Inv rep s -> run s xs = Some (s', es) -> Inv (fun c => rep c \/ In (Cycle c) es) s'.
Proof.
  induction xs as [|x xs IH]; intros rep s s' es I; cbn [CycModel.run].
  - intros X. injection X as <- <-. apply (inv_ext _ _ _ rep); [|exact I]. intros c. cbn. tauto.
  - destruct (step s x) as [[s1 e]|] eqn:E; [|discriminate]. destruct (run s1 xs) as [[s2 es2]|] eqn:R; [|discriminate]. intros X. injection X as <- <-.
    specialize (IH _ _ _ _ (step_inv _ _ _ _ _ _ _ _ _ I E) R). revert IH. apply inv_ext. intros c. unfold report. cbn. tauto.
Qed.
Lemma reach_inv xs s es : run (init deps root) xs = Some (s, es) -> Inv (fun c => In (Cycle c) es) s.
Proof. intros R. pose proof (run_inv _ _ _ _ _ init_inv R) as I. revert I. apply inv_ext. intros c. tauto. Qed.

(* Targets that have been matched do not depend on themselves. *)
Lemma complete_needs t d : complete deps t -> needs t d -> complete deps d.
Proof.
  intros C [<-|H]; [exact C|]. induction H as [x y H|x y z _ IH1 _ IH2]; [destruct C as [C]; exact (C y H)|auto].
Qed.
Lemma depends_first x z : depends x z -> exists y, In y (deps x) /\ needs y z.
Proof.
  intros H. induction H as [x y H|x y z H1 IH1 H2 IH2]; [exists y; split; [exact H|left; reflexivity]|]. destruct IH1 as (w & I & N). exists w. split; [exact I|]. exact (needs_trans _ _ _ _ N (or_intror H2)).
Qed.
Lemma complete_acyclic t : complete deps t -> ~ depends t t.
Proof.
  intros C. induction C as [t C IH]. intros H. destruct (depends_first _ _ H) as (y & I & [E|N]).
  - subst y. exact (IH t I H).
  - apply (IH y I). exact (t_trans _ _ _ _ _ N (t_step _ _ _ _ I)).
Qed.
Lemma matched_needs rep s t d : Inv rep s -> s t = Done true -> needs t d -> s d = Done true.
Proof.
  intros I E [<-|H]; [exact E|]. revert E. induction H as [x y H|x y z _ IH1 _ IH2]; intros E; [|auto]. pose proof (proj1 I x) as G. unfold good in G. rewrite E in G. apply G, H.
Qed.

(* A stuck state. *)
Definition busy (x : status) : Prop := match x with Queued _ | Running _ _ => True | _ => False end.
Lemma not_done_busy x : x <> Idle -> is_done x = false -> busy x.
Proof. destruct x; cbn; try contradiction; try discriminate; auto. Qed.
Lemma stuck_dep rep s t : Inv rep s -> (forall x, step s x = None) -> busy (s t) -> exists d, In d (deps t) /\ busy (s d).
Proof.
  intros I St B. destruct (s t) as [|stk|stk p|ok] eqn:E; try contradiction.
  - specialize (St (Start t false)). cbn in St. rewrite E in St. discriminate St.
  - destruct (running_facts _ _ _ _ _ _ _ _ I E) as (_ & _ & (P1 & P2) & _). specialize (St (Advance t false)). cbn [CycModel.step] in St. rewrite E in St.
    assert (X : forall c, In c (children p) -> is_done (s c) = false -> exists d, In d (deps t) /\ busy (s d)).
    { intros c Ic Dc. exists c. destruct (P1 c Ic) as [H1 H2]. split; [exact H1|exact (not_done_busy _ H2 Dc)]. }
    assert (Y : forall ts, incl ts (children p) -> all_done s ts = false -> exists d, In d (deps t) /\ busy (s d)).
    { intros ts Il A. unfold all_done in A. destruct (forallb (fun c => negb (is_done (s c)) || is_done (s c)) ts); [|];
        (assert (Z : exists c, In c ts /\ is_done (s c) = false) by (clear - A; induction ts as [|c ts IH]; [discriminate A|]; cbn in A; destruct (is_done (s c)) eqn:D; [destruct (IH A) as (c' & I & D'); exists c'; split; [right; exact I|exact D']|exists c; split; [left; reflexivity|exact D]]));
        destruct Z as (c & Ic & Dc); exact (X c (Il c Ic) Dc). }
    destruct p as [[|d todo] kids|d todo kids|kids|d kids|kids|[|d todo]|d todo]; cbn [advance] in St; cbn [children] in *.
    + discriminate St.
    + exfalso. destruct (s d); try discriminate St; destruct (on_stack d stk); discriminate St.
    + apply (X d); [left; reflexivity|]. destruct (s d); [reflexivity|reflexivity|reflexivity|discriminate St].
    + apply (Y kids); [apply incl_refl|]. destruct (all_done s kids); [discriminate St|reflexivity].
    + apply (X d); [left; reflexivity|]. destruct (s d); [reflexivity|reflexivity|reflexivity|discriminate St].
    + apply (Y kids); [apply incl_refl|]. destruct (all_done s kids); [discriminate St|reflexivity].
    + discriminate St.
    + exists d. split; [apply P2; left; reflexivity|]. destruct (s d) as [| | |[|]]; try discriminate St; exact Logic.I.
    + apply (X d); [left; reflexivity|]. destruct (s d); [reflexivity|reflexivity|reflexivity|discriminate St].
Qed.

(* In a finite set, always having a next one means a cycle. *)
Fixpoint path (l : list nat) : Prop := match l with x :: ((y :: _) as r) => In x (deps y) /\ path r | _ => True end.
Lemma path_app l1 : forall a l2, path (a :: l1 ++ l2) -> forall c, In c l2 -> depends c a.
Proof.
  induction l1 as [|x l1 IH]; intros a l2 P c I.
  - cbn [app] in P. revert a P. induction l2 as [|y l2 IH2]; intros a P; [destruct I|]. destruct P as [D P]. destruct I as [-> | I]; [apply t_step, D|]. exact (t_trans _ _ _ _ _ (IH2 I y P) (t_step _ _ _ _ D)).
  - cbn [app] in P. destruct P as [D P]. exact (t_trans _ _ _ _ _ (IH x l2 P c I) (t_step _ _ _ _ D)).
Qed.
Lemma path_drop l1 l2 : path (l1 ++ l2) -> path l2.
Proof. induction l1 as [|x l1 IH]; [auto|]. cbn [app]. intros P. apply IH. destruct (l1 ++ l2) as [|y r]; [exact Logic.I|]. destruct P as [_ P]. exact P. Qed.
Lemma twice (l : list nat) : ~ NoDup l -> exists a l1 l2 l3, l = l1 ++ a :: l2 ++ a :: l3.
Proof.
  induction l as [|x l IH]; intros N; [destruct N; constructor|]. destruct (in_dec Nat.eq_dec x l) as [I|I].
  - apply in_split in I. destruct I as (l2 & l3 & ->). exists x, [], l2, l3. reflexivity.
  - destruct IH as (a & l1 & l2 & l3 & ->); [intros ND; apply N; constructor; assumption|]. exists a, (x :: l1), l2, l3. reflexivity.
Qed.
Lemma walk (P : nat -> Prop) (all : list nat) t0 : (forall t, P t -> In t all) -> (forall t, P t -> exists d, In d (deps t) /\ P d) -> P t0 -> exists c, P c /\ depends c c.
Proof.
  intros F N P0. assert (W : forall n, exists t l, length l = n /\ path (t :: l) /\ Forall P (t :: l)).
  { induction n as [|n (t & l & Hl & Hp & Hf)]; [exists t0, []; split; [reflexivity|split; [exact Logic.I|constructor; [exact P0|constructor]]]|]. destruct (N t) as (d & Id & Pd); [inversion Hf; assumption|]. exists d, (t :: l). split; [cbn; rewrite Hl; reflexivity|]. split; [split; assumption|constructor; assumption]. }
  destruct (W (length all)) as (t & l & Hl & Hp & Hf).
  assert (ND : ~ NoDup (t :: l)).
  { intros ND. assert (Il : incl (t :: l) all) by (intros x Ix; apply F; rewrite Forall_forall in Hf; apply Hf, Ix). pose proof (NoDup_incl_length ND Il) as Len. cbn in Len. lia. }
  destruct (twice _ ND) as (a & l1 & l2 & l3 & E). exists a. split.
  - rewrite Forall_forall in Hf. apply Hf. rewrite E. apply in_or_app. right. left. reflexivity.
  - rewrite E in Hp. apply path_drop in Hp. exact (path_app _ _ _ Hp a (or_introl eq_refl)).
Qed.

(* Every step takes a measure down. *)
Definition pc_weight (n : nat) (p : pc) : nat :=
  match p with
  | Starting todo _ => n + 3 + 2 * length todo
  | Sync _ todo _ => n + 4 + 2 * length todo
  | Waiting _ => n + 2
  | Nested _ _ => n + 3
  | Unwinding _ => 1
  | Completing todo => 1 + length todo
  | Joining _ todo => 3 + length todo
  end.
Definition weight (t : nat) (x : status) : nat :=
  let n := length (deps t) in
  match x with Idle => 3 * n + 9 | Queued _ => 3 * n + 6 | Running _ p => pc_weight n p | Done _ => 0 end.
Definition total (all : list nat) (s : state) : nat := list_sum (map (fun t => weight t (s t)) all).
Lemma total_out all s t x : ~ In t all -> total all (set s t x) = total all s.
Proof.
  unfold total. induction all as [|u all IH]; intros N; [reflexivity|]. cbn [map list_sum fold_right]. unfold list_sum in *. cbn [fold_right]. rewrite IH by (intros X; apply N; right; exact X). rewrite set_other; [reflexivity|]. intros ->. apply N. left. reflexivity.
Qed.
Lemma total_set all s t x : NoDup all -> In t all -> total all (set s t x) + weight t (s t) = total all s + weight t x.
Proof.
  intros ND. induction ND as [|u all Nu ND IH]; intros I; [destruct I|]. change (total (u :: all) (set s t x)) with (weight u (set s t x u) + total all (set s t x)). change (total (u :: all) s) with (weight u (s u) + total all s).
  destruct (Nat.eq_dec u t) as [-> | N].
  - rewrite set_same, (total_out all s t x Nu). lia.
  - rewrite set_other by exact N. destruct I as [E|I]; [contradiction|]. specialize (IH I). lia.
Qed.
Lemma enter_weight d stk : weight d (enter deps bad d stk) <= 3 * length (deps d) + 3.
Proof. unfold enter, weight. destruct (bad d); cbn; lia. Qed.
Lemma total_two all s t x d y : NoDup all -> In t all -> In d all -> d <> t -> total all (set (set s t x) d y) + weight t (s t) + weight d (s d) = total all s + weight t x + weight d y.
Proof.
  intros ND It Id N. pose proof (total_set all (set s t x) d y ND Id) as H. rewrite set_other in H by exact N. pose proof (total_set all s t x ND It). lia.
Qed.
Lemma step_weight all rep s x s' e : NoDup all -> (forall t, needs root t -> In t all) -> Inv rep s -> step s x = Some (s', e) -> total all s' < total all s.
Proof.
  intros ND F I. destruct x as [t queue|c nested]; cbn [CycModel.step].
  - destruct (s t) as [|stk|stk p|ok] eqn:E; try discriminate. destruct (running_facts _ _ _ _ _ _ _ _ I E) as (Nt & _ & (P1 & P2) & _). assert (It : In t all) by (apply F, Nt). assert (Dn : forall d, In d (deps t) -> In d all) by (intros d D; apply F, (needs_trans _ _ _ _ Nt), needs_dep, D).
    assert (O : forall x, weight t x < pc_weight (length (deps t)) p -> total all (set s t x) < total all s).
    { intros x W. pose proof (total_set all s t x ND It) as H. rewrite E in H. cbn [weight] in H. lia. }
    assert (T : forall p' d y, In d (deps t) -> d <> t -> pc_weight (length (deps t)) p' + weight d y < pc_weight (length (deps t)) p + weight d (s d) -> total all (set (set s t (Running stk p')) d y) < total all s).
    { intros p' d y D N W. pose proof (total_two all s t (Running stk p') d y ND It (Dn d D) N) as H. rewrite E in H. cbn [weight] in H. lia. }
    assert (Sd : forall ok todo kids, pc_weight (length (deps t)) (started keep_going ok todo kids) <= length (deps t) + 3 + 2 * length todo) by (intros ok todo kids; unfold started; destruct (ok || keep_going); cbn; lia).
    destruct p as [[|d todo] kids|d todo kids|kids|d kids|kids|[|d todo]|d todo]; cbn [advance] in *.
    + intros X; injection X as <- <-. apply O. cbn. lia.
    + assert (D : In d (deps t)) by (apply P2; left; reflexivity). assert (Nd : s d = Idle -> d <> t) by congruence. destruct (s d) as [|stk0|stk0 p0|ok] eqn:Ed.
      * specialize (Nd eq_refl). destruct queue; intros X; injection X as <- <-; (apply T; [exact D|exact Nd|]); rewrite Ed.
        -- cbn. lia.
        -- pose proof (enter_weight d stk). cbn [weight pc_weight length] in *. lia.
      * destruct (on_stack d stk); intros X; injection X as <- <-; apply O; cbn; lia.
      * destruct (on_stack d stk); intros X; injection X as <- <-; apply O; cbn; lia.
      * intros X; injection X as <- <-. apply O. cbn [weight]. specialize (Sd ok todo kids). cbn [pc_weight length] in *. lia.
    + destruct (s d) as [|stk0|stk0 p0|ok] eqn:Ed; try discriminate. intros X; injection X as <- <-. apply O. cbn [weight]. specialize (Sd ok todo kids). cbn [pc_weight length] in *. lia.
    + destruct (all_done s kids); [|discriminate]. intros X; injection X as <- <-. apply O. cbn. lia.
    + destruct (s d) as [|stk0|stk0 p0|ok] eqn:Ed; try discriminate. intros X; injection X as <- <-. apply O. cbn. lia.
    + destruct (all_done s kids); [|discriminate]. intros X; injection X as <- <-. apply O. cbn. lia.
    + intros X; injection X as <- <-. apply O. cbn. lia.
    + assert (D : In d (deps t)) by (apply P2; left; reflexivity). assert (Nd : s d = Idle -> d <> t) by congruence. destruct (s d) as [|stk0|stk0 p0|[|]] eqn:Ed.
      * specialize (Nd eq_refl). intros X; injection X as <- <-. apply T; [exact D|exact Nd|]. rewrite Ed. pose proof (enter_weight d stk). cbn [weight pc_weight length] in *. lia.
      * destruct (on_stack d stk); [|discriminate]. intros X; injection X as <- <-; apply O; cbn; lia.
      * destruct (on_stack d stk); [|discriminate]. intros X; injection X as <- <-; apply O; cbn; lia.
      * intros X; injection X as <- <-; apply O; cbn; lia.
      * intros X; injection X as <- <-; apply O; cbn; lia.
    + destruct (s d) as [|stk0|stk0 p0|ok] eqn:Ed; try discriminate. intros X; injection X as <- <-. apply O. cbn. lia.
  - destruct (s c) as [|stk|stk p|ok] eqn:E; try discriminate. assert (Ic : In c all) by (apply F; apply (non_idle_needs _ _ _ _ _ _ I); congruence). pose proof (enter_weight c stk) as We. destruct nested.
    + destruct stk as [|p stk]; [discriminate|]. destruct (s p) as [|stk0|stk0 pp|ok] eqn:Ep; try discriminate. destruct pp as [| |kids| | | |]; try discriminate. destruct (on_stack c kids) eqn:O; [|discriminate]. intros X; injection X as <- <-.
      assert (Ip : In p all) by (apply F; apply (non_idle_needs _ _ _ _ _ _ I); congruence). assert (N : c <> p) by congruence.
      pose proof (total_two all s p (Running stk0 (Nested c kids)) c (enter deps bad c (p :: stk)) ND Ip Ic N) as H. rewrite Ep, E in H. cbn [weight pc_weight] in H. cbn [weight] in We. lia.
    + intros X; injection X as <- <-. pose proof (total_set all s c (enter deps bad c stk) ND Ic) as H. rewrite E in H. cbn [weight] in *. lia.
Qed.
Lemma run_weight all xs : NoDup all -> (forall t, needs root t -> In t all) -> forall rep s s' es, Inv rep s -> run s xs = Some (s', es) -> length xs + total all s' <= total all s.
Proof.
  intros ND F. induction xs as [|x xs IH]; intros rep s s' es I; cbn [CycModel.run].
  - intros X. injection X as <- <-. cbn. lia.
  - destruct (step s x) as [[s1 e]|] eqn:E; [|discriminate]. destruct (run s1 xs) as [[s2 es2]|] eqn:R; [|discriminate]. intros X. injection X as <- <-.
    pose proof (step_weight _ _ _ _ _ _ ND F I E). specialize (IH _ _ _ _ (step_inv _ _ _ _ _ _ _ _ _ I E) R). cbn [length]. lia.
Qed.
(* What is done stays so. *)
Lemma step_final s x s' e t ok : step s x = Some (s', e) -> s t = Done ok -> s' t = Done ok.
Proof.
  intros E D. assert (S1 : forall u stk p y, s u = Running stk p -> set s u y t = Done ok) by (intros u stk p y Eu; rewrite set_other; [exact D|congruence]).
  assert (S2 : forall u stk p y v z, s u = Running stk p -> is_done (s v) = false -> set (set s u y) v z t = Done ok).
  { intros u stk p y v z Eu Ev. rewrite set_other; [apply (S1 u stk p), Eu|]. intros ->. rewrite D in Ev. discriminate Ev. }
  destruct x as [u queue|c nested]; cbn [CycModel.step] in E.
  - destruct (s u) as [|stk|stk p|] eqn:Eu; try discriminate. destruct p as [[|d todo] kids|d todo kids|kids|d kids|kids|[|d todo]|d todo]; cbn [advance] in E;
      try (destruct (s d) as [| | |[|]] eqn:Ed); try discriminate E; try (destruct queue); try (destruct (on_stack d stk)); try (destruct (all_done s kids)); try discriminate E; injection E as <- _; try (eapply S1; eassumption); eapply S2; try eassumption; rewrite Ed; reflexivity.
  - destruct (s c) as [|stk|stk p|] eqn:Ec; try discriminate. destruct nested.
    + destruct stk as [|p stk]; [discriminate|]. destruct (s p) as [| |stk0 pp|] eqn:Ep; try discriminate. destruct pp; try discriminate. destruct (on_stack c kids); [|discriminate]. injection E as <- _. eapply S2; [eassumption|]. rewrite Ec. reflexivity.
    + injection E as <- _. rewrite set_other; [exact D|congruence].
Qed.
Lemma run_final xs : forall s s' es t ok, run s xs = Some (s', es) -> s t = Done ok -> s' t = Done ok.
Proof.
  induction xs as [|x xs IH]; intros s s' es t ok; cbn [CycModel.run].
  - intros X. injection X as <- <-. auto.
  - destruct (step s x) as [[s1 e]|] eqn:E; [|discriminate]. destruct (run s1 xs) as [[s2 es2]|] eqn:R; [|discriminate]. intros X. injection X as <- <-. intros D. apply (IH _ _ _ _ _ R), (step_final _ _ _ _ _ _ E D).
Qed.
(* Nothing is left behind. *)
Lemma busy_root rep s t : Inv rep s -> busy (s t) -> is_done (s root) = true -> False.
Proof.
  intros I B D. assert (X : forall stk t, linked deps root s t stk -> busy (s t) -> False).
  { induction stk as [|p stk IH]; intros u L Bu.
    - cbn in L. subst u. destruct (s root); try discriminate D; exact Bu.
    - destruct L as (_ & pp & Ep & _). pose proof (proj1 I p) as G. unfold good in G. rewrite Ep in G. destruct G as ((stk' & Es & L') & _). injection Es as <-. apply (IH p L'). rewrite Ep. exact Logic.I. }
  pose proof (proj1 I t) as G. unfold good in G. destruct (s t) as [|stk|stk p|ok] eqn:E; try contradiction.
  - apply (X stk t G). rewrite E. exact Logic.I.
  - destruct G as ((stk' & _ & L) & _). apply (X stk' t L). rewrite E. exact Logic.I.
Qed.
End Match.
