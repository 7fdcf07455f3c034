From Coq Require Import Relations.
From Verif Require Import Base CycModel CycSpec.

Section Match.
Context (deps : nat -> list nat) (bad : nat -> bool) (keep_going : bool) (root : nat).
Notation step := (step deps bad keep_going).
Notation enter := (enter deps bad).
Notation depends := (depends deps).
Notation needs := (needs deps).

Lemma set_same s t x : set s t x t = x.
Proof. unfold set. rewrite Nat.eqb_refl. reflexivity. Qed.
Lemma set_other s t x u : u <> t -> set s t x u = s u.
Proof. intros N. unfold set. apply Nat.eqb_neq in N. rewrite N. reflexivity. Qed.
Lemma on_stack_in t l : on_stack t l = true <-> In t l.
Proof. unfold on_stack. rewrite existsb_exists. split; [intros (x & I & E); apply Nat.eqb_eq in E; subst; exact I|intros I; exists t; split; [exact I|apply Nat.eqb_refl]]. Qed.
Lemma all_done_in s ts : all_done s ts = true <-> forall c, In c ts -> is_done (s c) = true.
Proof. unfold all_done. apply forallb_forall. Qed.

Lemma needs_trans x y z : needs x y -> needs y z -> needs x z.
Proof. intros [->|H]; [auto|]. intros [<-|H']; [right; exact H|right; exact (t_trans _ _ _ _ _ H H')]. Qed.
Lemma needs_dep x y : In y (deps x) -> needs x y.
Proof. intros H. right. apply t_step, H. Qed.
Lemma dep_needs x y z : In y (deps x) -> needs y z -> depends x z.
Proof. intros H [<-|H']; [apply t_step, H|exact (t_trans _ _ _ _ _ (t_step _ _ _ _ H) H')]. Qed.
Lemma needs_depends x y z : needs x y -> depends y z -> depends x z.
Proof. intros [->|H] H'; [exact H'|exact (t_trans _ _ _ _ _ H H')]. Qed.

(* The invariant. *)
Definition children (p : pc) : list nat :=
  match p with
  | Starting _ kids | Waiting kids | Unwinding kids => kids
  | Sync c _ kids | Nested c kids => c :: kids
  | Completing _ => []
  | Joining c _ => [c]
  end.
Definition linked (s : state) (t : nat) (stack : list nat) : Prop :=
  match stack with
  | [] => t = root
  | p :: _ => In t (deps p) /\ exists pp, s p = Running stack pp /\ In t (children pp)
  end.
Definition pc_ok (s : state) (t : nat) (p : pc) : Prop :=
  (forall c, In c (children p) -> In c (deps t) /\ s c <> Idle) /\
  match p with
  | Starting todo _ | Sync _ todo _ => incl todo (deps t)
  | Completing todo => incl todo (deps t) /\ forall d, In d (deps t) -> In d todo \/ s d = Done true
  | Joining c todo => incl (c :: todo) (deps t) /\ forall d, In d (deps t) -> In d (c :: todo) \/ s d = Done true
  | Unwinding _ => True
  | _ => True
  end.
Inductive complete (t : nat) : Prop := complete_intro : (forall d, In d (deps t) -> complete d) -> complete t.
Definition reason (rep : nat -> Prop) (t : nat) : Prop := (exists c, rep c /\ needs t c) \/ (exists d, needs t d /\ bad d = true).
Definition failing (rep : nat -> Prop) (s : state) (t : nat) (p : pc) : Prop := match p with Unwinding _ => reason rep t | _ => True end.
Definition good (rep : nat -> Prop) (s : state) (t : nat) : Prop :=
  match s t with
  | Idle => True
  | Queued stack => linked s t stack
  | Running stack p => (exists stack', stack = t :: stack' /\ linked s t stack') /\ pc_ok s t p /\ failing rep s t p
  | Done true => (forall d, In d (deps t) -> s d = Done true) /\ complete t /\ needs root t
  | Done false => reason rep t /\ needs root t
  end.
Definition Inv (rep : nat -> Prop) (s : state) : Prop :=
  (forall t, good rep s t) /\ (forall c, rep c -> needs root c /\ depends c c) /\ s root <> Idle.

Definition le (s s' : state) : Prop := forall u, (s u <> Idle -> s' u <> Idle) /\ (forall ok, s u = Done ok -> s' u = Done ok).
Lemma pc_ok_le s s' t p : le s s' -> pc_ok s t p -> pc_ok s' t p.
Proof.
  intros L (H1 & H2). split; [intros c I; destruct (H1 c I) as [I' N]; split; [exact I'|apply (L c), N]|].
  destruct p; auto; destruct H2 as [H2 H3]; (split; [exact H2|]); intros d I; (destruct (H3 d I) as [X|X]; [left; exact X|right; apply (L d), X]).
Qed.
Lemma reason_rep (rep rep' : nat -> Prop) t : (forall c, rep c -> rep' c) -> reason rep t -> reason rep' t.
Proof. intros H [(c & R & N)|X]; [left; exists c; auto|right; exact X]. Qed.
Lemma reason_dep rep t d : In d (deps t) -> reason rep d -> reason rep t.
Proof. intros I [(c & R & N)|(c & N & B)]; [left|right]; exists c; (split; [|assumption] || idtac); try assumption; [split; [exact R|]|]; exact (needs_trans _ _ _ (needs_dep _ _ I) N). Qed.

Lemma preserve (rep rep' : nat -> Prop) s s' : Inv rep s -> le s s' -> (forall c, rep c -> rep' c) -> (forall c, rep' c -> needs root c /\ depends c c) ->
  (forall u, s' u = s u \/ good rep' s' u) ->
  (forall p stk pp, s p = Running stk pp -> (exists pp', s' p = Running stk pp' /\ forall c, In c (children pp) -> In c (children pp') \/ is_done (s' c) = true) \/ (forall c, In c (children pp) -> is_done (s' c) = true)) ->
  Inv rep' s'.
Proof.
  intros (G & _ & R0) L RR RC H K. split; [|split; [exact RC|apply (L root), R0]]. intros u. destruct (H u) as [E|E]; [|exact E]. specialize (G u). unfold good in *. rewrite E.
  assert (Lk : forall stk, is_done (s' u) = false -> linked s u stk -> linked s' u stk).
  { intros [|p stk] D; [auto|]. intros (I & pp & Ep & Ic). split; [exact I|]. destruct (K p _ pp Ep) as [(pp' & E' & C)|C].
    - exists pp'. split; [exact E'|]. destruct (C u Ic) as [X|X]; [exact X|congruence].
    - rewrite (C u Ic) in D. discriminate D. }
  destruct (s u) as [|stk|stk p|[|]] eqn:Eu.
  - exact I.
  - apply Lk; [rewrite E; reflexivity|exact G].
  - destruct G as ((stk' & -> & Hl) & Hp & Hf). split; [exists stk'; split; [reflexivity|apply Lk; [rewrite E; reflexivity|exact Hl]]|]. split; [exact (pc_ok_le _ _ _ _ L Hp)|]. unfold failing in *. destruct p; try exact I. exact (reason_rep _ _ _ RR Hf).
  - destruct G as (G1 & G2). split; [intros d I; apply (L d), G1, I|exact G2].
  - destruct G as (G1 & G2). split; [exact (reason_rep _ _ _ RR G1)|exact G2].
Qed.

(* What is on the stack depends on what is above. *)
Lemma linked_stack rep s t stack : Inv rep s -> linked s t stack -> needs root t /\ forall u, In u stack -> depends u t.
Proof.
  intros I. revert t. induction stack as [|p stack IH]; intros t L.
  - cbn in L. subst. split; [left; reflexivity|intros u []].
  - destruct L as (D & pp & E & _). destruct I as (G & X). specialize (G p). unfold good in G. rewrite E in G. destruct G as ((stk' & Es & L') & _). injection Es as <-. destruct (IH (p) L') as [N A]. split; [exact (needs_trans _ _ _ N (needs_dep _ _ D))|]. intros u [<-|Iu]; [apply t_step, D|]. exact (t_trans _ _ _ _ _ (A u Iu) (t_step _ _ _ _ D)).
Qed.
Lemma running_facts rep s t stack p : Inv rep s -> s t = Running stack p -> needs root t /\ (exists stack', stack = t :: stack' /\ linked s t stack') /\ pc_ok s t p /\ failing rep s t p /\ forall u, In u stack -> needs u t.
Proof.
  intros I E. pose proof (proj1 I t) as G. unfold good in G. rewrite E in G. destruct G as ((stk' & -> & L) & P & F). destruct (linked_stack _ _ _ _ I L) as [N A]. split; [exact N|]. split; [exists stk'; auto|]. split; [exact P|]. split; [exact F|]. intros u [<-|Iu]; [left; reflexivity|right; apply A, Iu].
Qed.
Lemma non_idle_needs rep s t : Inv rep s -> s t <> Idle -> needs root t.
Proof.
  intros I N. destruct (s t) as [|stk|stk p|[|]] eqn:E; [contradiction| | | |].
  - pose proof (proj1 I t) as G. unfold good in G. rewrite E in G. exact (proj1 (linked_stack _ _ _ _ I G)).
  - exact (proj1 (running_facts _ _ _ _ _ I E)).
  - pose proof (proj1 I t) as G. unfold good in G. rewrite E in G. tauto.
  - pose proof (proj1 I t) as G. unfold good in G. rewrite E in G. tauto.
Qed.

Definition report (rep : nat -> Prop) (e : event) (c : nat) : Prop := rep c \/ e = Cycle c.

(* Steps that change one target. *)
Lemma one rep s t stack p x e :
  Inv rep s -> s t = Running stack p -> (forall c, e = Cycle c -> needs root c /\ depends c c) ->
  x <> Idle ->
  (match x with Running stk' p' => stk' = stack | Done _ => True | _ => False end) ->
  (forall c, In c (children p) -> (match x with Running _ p' => In c (children p') | _ => False end) \/ is_done (s c) = true) ->
  (let s' := set s t x in
   match x with
   | Running _ p' => pc_ok s' t p' /\ failing (report rep e) s' t p'
   | Done true => (forall d, In d (deps t) -> s d = Done true) 
   | Done false => reason (report rep e) t
   | _ => False
   end) ->
  Inv (report rep e) (set s t x).
Proof.
  intros I E Hc Nx Sx K X. destruct (running_facts _ _ _ _ _ I E) as (Nt & (stk' & Es & L) & P & F & _).
  assert (Le : le s (set s t x)).
  { intros u. destruct (Nat.eq_dec u t) as [-> | N]; [rewrite set_same; split; [auto|rewrite E; discriminate]|rewrite set_other by exact N; auto]. }
  apply (preserve rep _ s _ I Le); [left; assumption|intros c [Rc|Ec]; [apply (proj1 (proj2 I)), Rc|apply Hc, Ec]| |].
  - intros u. destruct (Nat.eq_dec u t) as [-> | N]; [right|left; apply set_other, N]. unfold good. rewrite set_same. destruct x as [|stk|stk q|[|]]; try contradiction.
    + subst stk. split; [|exact X]. exists stk'. split; [exact Es|]. destruct stk' as [|p0 stk0]; [exact L|]. destruct L as (D & pp & Ep & Ic). split; [exact D|]. destruct (Nat.eq_dec p0 t) as [-> | N]; [|exists pp; rewrite set_other by exact N; auto]. exfalso. rewrite E in Ep. injection Ep as Es2 _. rewrite Es in Es2. injection Es2 as Es2. clear - Es2. induction stk0 as [|y l IH]; [discriminate Es2|]. injection Es2 as -> Es2. auto.
    + split; [intros d Id; apply (Le d), X, Id|]. split; [|exact Nt]. constructor. intros d Id. specialize (X d Id). pose proof (proj1 I d) as G. unfold good in G. rewrite X in G. tauto.
    + split; [exact X|exact Nt].
  - intros q stk pp Eq. destruct (Nat.eq_dec q t) as [-> | N].
    + rewrite E in Eq. injection Eq as <- <-. rewrite set_same. destruct x as [|stk|stk q|ok]; try contradiction.
      * subst stk. left. exists q. split; [reflexivity|]. intros c Ic. destruct (K c Ic) as [Y|Y]; [left; exact Y|right]. unfold is_done in *. destruct (s c) eqn:Ec; try discriminate Y. rewrite (proj2 (Le c) _ Ec). reflexivity.
      * right. intros c Ic. destruct (K c Ic) as [[]|Y]. unfold is_done in *. destruct (s c) eqn:Ec; try discriminate Y. rewrite (proj2 (Le c) _ Ec). reflexivity.
    + left. exists pp. rewrite set_other by exact N. split; [exact Eq|auto].
Qed.

(* Steps that also lock a prerequisite or start a queued task: y is the new status of d. *)
Lemma two rep s t stack p p' d y :
  Inv rep s -> s t = Running stack p -> d <> t -> In d (deps t) -> s d = Idle \/ s d = Queued stack ->
  (y = Queued stack \/ y = enter d stack) ->
  In d (children p') -> (forall c, In c (children p) -> In c (children p')) ->
  pc_ok (set (set s t (Running stack p')) d y) t p' -> (forall kids, p' <> Unwinding kids) ->
  Inv rep (set (set s t (Running stack p')) d y).
Proof.
  intros I E N D Sd Sy Id K P U. set (s' := set (set s t (Running stack p')) d y) in *. destruct (running_facts _ _ _ _ _ I E) as (Nt & (stk' & Es & L) & _).
  assert (Et : s' t = Running stack p') by (unfold s'; rewrite set_other by congruence; apply set_same).
  assert (Ed : s' d = y) by apply set_same.
  assert (Eo : forall u, u <> t -> u <> d -> s' u = s u) by (intros u N1 N2; unfold s'; rewrite !set_other by assumption; reflexivity).
  assert (Y : y <> Idle) by (destruct Sy as [-> | ->]; discriminate).
  assert (Le : le s s').
  { intros u. destruct (Nat.eq_dec u d) as [-> | Nd]; [rewrite Ed; split; [auto|destruct Sd as [-> | ->]; discriminate]|]. destruct (Nat.eq_dec u t) as [-> | Nu]; [rewrite Et, E; split; [discriminate|discriminate]|rewrite Eo by assumption; auto]. }
  assert (Ld : linked s' d stack) by (rewrite Es in *; split; [exact D|]; exists p'; auto).
  apply (preserve rep rep s _ I Le); [auto|apply (proj1 (proj2 I))| |].
  - intros u. destruct (Nat.eq_dec u d) as [-> | Nd].
    + right. unfold good. rewrite Ed. destruct Sy as [-> | ->]; [exact Ld|]. unfold CycModel.enter. split; [exists stack; split; [reflexivity|exact Ld]|]. destruct (bad d) eqn:B.
      * split; [split; [intros c []|exact Logic.I]|]. right. exists d. split; [left; reflexivity|exact B].
      * split; [split; [intros c []|apply incl_refl]|exact Logic.I].
    + destruct (Nat.eq_dec u t) as [-> | Nu]; [right|left; apply Eo; assumption]. unfold good. rewrite Et. split; [exists stk'; split; [exact Es|]|split; [exact P|]].
      * destruct stk' as [|p0 stk0]; [exact L|]. destruct L as (Dp & pp & Ep & Ic). split; [exact Dp|]. exists pp. split; [|exact Ic]. rewrite Eo; [exact Ep| |].
        -- intros ->. rewrite E in Ep. injection Ep as Es2 _. rewrite Es in Es2. injection Es2 as Es2. clear - Es2. induction stk0 as [|z l IH]; [discriminate Es2|]. injection Es2 as -> Es2. auto.
        -- intros ->. destruct Sd as [X|X]; rewrite X in Ep; discriminate Ep.
      * unfold failing. destruct p'; try exact Logic.I. destruct (U _ eq_refl).
  - intros q stk pp Eq. left. destruct (Nat.eq_dec q t) as [-> | Nq].
    + rewrite E in Eq. injection Eq as <- <-. exists p'. split; [exact Et|]. intros c Ic. left. apply K, Ic.
    + exists pp. rewrite Eo; [auto|exact Nq|]. intros ->. destruct Sd as [X|X]; rewrite X in Eq; discriminate Eq.
Qed.
(* A queued task started by another thread. *)
Lemma start_other rep s c stack : Inv rep s -> s c = Queued stack -> Inv rep (set s c (enter c stack)).
Proof.
  intros I E. pose proof (proj1 I c) as G. unfold good in G. rewrite E in G. set (s' := set s c (enter c stack)).
  assert (Ed : s' c = enter c stack) by apply set_same. assert (Eo : forall u, u <> c -> s' u = s u) by (intros u N; apply set_other, N).
  assert (Le : le s s') by (intros u; destruct (Nat.eq_dec u c) as [-> | N]; [rewrite Ed, E; split; discriminate|rewrite Eo by exact N; auto]).
  assert (Ld : linked s' c stack).
  { destruct stack as [|p stk]; [exact G|]. destruct G as (D & pp & Ep & Ic). split; [exact D|]. exists pp. split; [|exact Ic]. rewrite Eo; [exact Ep|]. intros ->. congruence. }
  apply (preserve rep rep s _ I Le); [auto|apply (proj1 (proj2 I))| |].
  - intros u. destruct (Nat.eq_dec u c) as [-> | N]; [right|left; apply Eo, N]. unfold good. rewrite Ed. unfold CycModel.enter. split; [exists stack; split; [reflexivity|exact Ld]|]. destruct (bad c) eqn:B.
    + split; [split; [intros x []|exact Logic.I]|]. right. exists c. split; [left; reflexivity|exact B].
    + split; [split; [intros x []|apply incl_refl]|exact Logic.I].
  - intros q stk pp Eq. left. exists pp. rewrite Eo; [auto|]. intros ->. congruence.
Qed.

Lemma inv_ext (rep rep' : nat -> Prop) s : (forall c, rep c <-> rep' c) -> Inv rep s -> Inv rep' s.
Proof.
  intros H I. apply (preserve rep rep' s s I); [intros u; auto|intros c; apply H|intros c R; apply (proj1 (proj2 I)), H, R|auto|]. intros p stk pp E. left. exists pp. auto.
Qed.
Lemma quiet rep s : Inv rep s -> Inv (report rep Quiet) s.
Proof. apply inv_ext. intros c. unfold report. split; [auto|intros [X|X]; [exact X|discriminate X]]. Qed.
Lemma pc_ok_set s t p q stk : s t = Running stk q -> pc_ok s t p -> forall p', pc_ok (set s t (Running stk p')) t p.
Proof.
  intros E H p'. apply (pc_ok_le s); [|exact H]. intros u. destruct (Nat.eq_dec u t) as [-> | N]; [rewrite set_same, E; split; discriminate|rewrite set_other by exact N; auto].
Qed.

Lemma step_inv rep s x s' e : Inv rep s -> step s x = Some (s', e) -> Inv (report rep e) s'.
Proof.
  intros I. destruct x as [t queue|c nested]; cbn [CycModel.step].
  - destruct (s t) as [|stk|stk p|ok] eqn:E; try discriminate. destruct (running_facts _ _ _ _ _ I E) as (Nt & (stk' & Es & L) & P & F & A).
    destruct P as [P1 P2].
    (* A cycle. *)
    assert (Cy : forall d, In d (deps t) -> on_stack d stk = true -> forall c, Cycle d = Cycle c -> needs root c /\ depends c c).
    { intros d Id O c X. injection X as <-. apply on_stack_in in O. split; [exact (needs_trans _ _ _ Nt (needs_dep _ _ Id))|]. exact (needs_depends _ _ _ (A d O) (t_step _ _ _ _ Id)). }
    (* Going on with the loop after a prerequisite. *)
    assert (St : forall ok d todo kids, In d (deps t) -> s d = Done ok -> incl todo (deps t) -> (forall c, In c (children p) -> In c kids \/ is_done (s c) = true) -> (forall c, In c kids -> In c (children p)) -> Inv (report rep Quiet) (set s t (Running stk (started keep_going ok todo kids)))).
    { intros ok d todo kids Id Ed It K1 K2. apply (one rep s t stk p); try assumption; try discriminate; try reflexivity.
      - intros c Ic. unfold started. destruct (ok || keep_going); exact (K1 c Ic).
      - cbn. split.
        + apply (pc_ok_set s t _ p stk E). split; [intros c Ic; apply P1; unfold started in Ic; destruct (ok || keep_going); apply K2, Ic|]. unfold started. destruct (ok || keep_going); [exact It|exact Logic.I].
        + unfold started. destruct ok; [exact Logic.I|]. destruct keep_going; [exact Logic.I|]. cbn. pose proof (proj1 I d) as G. unfold good in G. rewrite Ed in G. apply (reason_dep _ _ d Id). apply (reason_rep rep); [left; assumption|tauto]. }
    destruct p as [[|d todo] kids|d todo kids|kids|d kids|kids|[|d todo]|d todo]; cbn [advance] in *; cbn [children] in P1.
    + intros X. injection X as <- <-. apply (one rep s t stk (Starting [] kids)); try assumption; try discriminate; try reflexivity; [auto|]. cbn. split; [|exact Logic.I]. apply (pc_ok_set s t _ _ stk E). split; [exact P1|exact Logic.I].
    + assert (Id : In d (deps t)) by (apply P2; left; reflexivity). assert (It : incl todo (deps t)) by (intros z Iz; apply P2; right; exact Iz). assert (Nd : s d = Idle -> d <> t) by congruence.
      destruct (s d) as [|stk0|stk0 p0|ok] eqn:Ed.
      * specialize (Nd eq_refl). destruct queue; intros X; injection X as <- <-; apply quiet; apply (two rep s t stk (Starting (d :: todo) kids)); auto; cbn; auto; try discriminate.
        -- split; [|exact It]. intros c [<-|Ic]; [split; [exact Id|rewrite set_same; discriminate]|]. destruct (P1 c Ic) as [H1 H2]. split; [exact H1|]. unfold set. destruct (c =? d); [discriminate|]. destruct (c =? t); [discriminate|exact H2].
        -- split; [|exact It]. intros c [<-|Ic]; [split; [exact Id|rewrite set_same; discriminate]|]. destruct (P1 c Ic) as [H1 H2]. split; [exact H1|]. unfold set. destruct (c =? d); [discriminate|]. destruct (c =? t); [discriminate|exact H2].
      * destruct (on_stack d stk) eqn:O; intros X; injection X as <- <-; (apply (one rep s t stk (Starting (d :: todo) kids)); try assumption; try discriminate; try reflexivity; try (apply Cy; assumption); try (solve [auto]); cbn).
        -- split; [apply (pc_ok_set s t _ _ stk E); split; [exact P1|exact Logic.I]|]. left. exists d. split; [right; reflexivity|exact (needs_dep _ _ Id)].
        -- split; [apply (pc_ok_set s t _ _ stk E); split; [exact P1|exact It]|exact Logic.I].
      * destruct (on_stack d stk) eqn:O; intros X; injection X as <- <-; (apply (one rep s t stk (Starting (d :: todo) kids)); try assumption; try discriminate; try reflexivity; try (apply Cy; assumption); try (solve [auto]); cbn).
        -- split; [apply (pc_ok_set s t _ _ stk E); split; [exact P1|exact Logic.I]|]. left. exists d. split; [right; reflexivity|exact (needs_dep _ _ Id)].
        -- split; [apply (pc_ok_set s t _ _ stk E); split; [exact P1|exact It]|exact Logic.I].
      * intros X; injection X as <- <-. apply (St ok d); auto.
    + destruct (s d) as [|stk0|stk0 p0|ok] eqn:Ed; try discriminate. intros X; injection X as <- <-. assert (Id : In d (deps t)) by (apply P1; left; reflexivity). apply (St ok d); auto; cbn; auto. intros c [<-|Ic]; [right; rewrite Ed; reflexivity|left; exact Ic].
    + destruct (all_done s kids) eqn:Ad; [|discriminate]. intros X; injection X as <- <-. rewrite all_done_in in Ad. apply (one rep s t stk (Waiting kids)); try assumption; try discriminate; try reflexivity; [cbn; auto|]. cbn. split; [|exact Logic.I]. split; [intros c []|]. split; [apply incl_refl|auto].
    + destruct (s d) as [|stk0|stk0 p0|ok] eqn:Ed; try discriminate. intros X; injection X as <- <-. apply (one rep s t stk (Nested d kids)); try assumption; try discriminate; try reflexivity.
      * cbn. intros c [<-|Ic]; [right; rewrite Ed; reflexivity|left; exact Ic].
      * cbn. split; [|exact Logic.I]. apply (pc_ok_set s t _ _ stk E). split; [intros c Ic; apply P1; right; exact Ic|exact Logic.I].
    + destruct (all_done s kids) eqn:Ad; [|discriminate]. intros X; injection X as <- <-. rewrite all_done_in in Ad. apply (one rep s t stk (Unwinding kids)); try assumption; try discriminate; try reflexivity; [cbn; auto|]. cbn. apply (reason_rep rep); [left; assumption|exact F].
    + intros X; injection X as <- <-. apply (one rep s t stk (Completing [])); try assumption; try discriminate; try reflexivity; [intros c []|]. cbn. intros d Id. destruct (proj2 P2 d Id) as [[]|Y]. exact Y.
    + destruct P2 as [P2 P3]. assert (Id : In d (deps t)) by (apply P2; left; reflexivity). assert (It : incl todo (deps t)) by (intros z Iz; apply P2; right; exact Iz). assert (Nd : s d = Idle -> d <> t) by congruence.
      destruct (s d) as [|stk0|stk0 p0|[|]] eqn:Ed.
      * specialize (Nd eq_refl). intros X; injection X as <- <-. apply quiet. apply (two rep s t stk (Completing (d :: todo))); auto; cbn; auto; try discriminate. split; [intros c [<-|[]]; split; [exact Id|rewrite set_same; discriminate]|]. split; [exact P2|]. intros z Iz. destruct (P3 z Iz) as [Y|Y]; [left; exact Y|right]. unfold set. destruct (Nat.eqb_spec z d) as [-> | Nz]; [congruence|]. destruct (Nat.eqb_spec z t) as [-> | Nz']; [congruence|exact Y].
      * destruct (on_stack d stk) eqn:O; [|discriminate]. intros X; injection X as <- <-. apply (one rep s t stk (Completing (d :: todo))); try assumption; try discriminate; try reflexivity; [apply Cy; assumption|intros c []|]. cbn. left. exists d. split; [right; reflexivity|exact (needs_dep _ _ Id)].
      * destruct (on_stack d stk) eqn:O; [|discriminate]. intros X; injection X as <- <-. apply (one rep s t stk (Completing (d :: todo))); try assumption; try discriminate; try reflexivity; [apply Cy; assumption|intros c []|]. cbn. left. exists d. split; [right; reflexivity|exact (needs_dep _ _ Id)].
      * intros X; injection X as <- <-. apply (one rep s t stk (Completing (d :: todo))); try assumption; try discriminate; try reflexivity; [intros c []|]. cbn. split; [|exact Logic.I]. apply (pc_ok_set s t _ _ stk E). split; [intros c []|]. split; [exact It|]. intros z Iz. destruct (P3 z Iz) as [[<-|Y]|Y]; auto.
      * intros X; injection X as <- <-. apply (one rep s t stk (Completing (d :: todo))); try assumption; try discriminate; try reflexivity; [intros c []|]. cbn. apply (reason_dep _ _ d Id). pose proof (proj1 I d) as G. unfold good in G. rewrite Ed in G. apply (reason_rep rep); [left; assumption|tauto].
    + destruct (s d) as [|stk0|stk0 p0|ok] eqn:Ed; try discriminate. intros X; injection X as <- <-. apply (one rep s t stk (Joining d todo)); try assumption; try discriminate; try reflexivity.
      * cbn. intros c [<-|[]]. right. rewrite Ed. reflexivity.
      * cbn. split; [|exact Logic.I]. apply (pc_ok_set s t _ _ stk E). split; [intros c []|exact P2].
  - destruct (s c) as [|stk|stk p|ok] eqn:E; try discriminate. destruct nested.
    + destruct stk as [|p stk]; [discriminate|]. destruct (s p) as [|stk0|stk0 pp|ok] eqn:Ep; try discriminate. destruct pp as [| |kids| | | |]; try discriminate. destruct (on_stack c kids) eqn:O; [|discriminate]. intros X; injection X as <- <-. apply quiet. apply on_stack_in in O.
      pose proof (proj1 I c) as G. unfold good in G. rewrite E in G. destruct G as (D & pp & Ep' & _). rewrite Ep in Ep'. injection Ep' as -> <-. destruct (running_facts _ _ _ _ _ I Ep) as (_ & _ & (P1 & _) & _).
      apply (two rep s p (p :: stk) (Waiting kids)); auto; cbn; auto; try discriminate; [congruence|]. split; [|exact Logic.I]. intros z Iz. assert (Iz' : In z kids) by (destruct Iz as [<-|Iz]; assumption). destruct (P1 z Iz') as [H1 H2]. split; [exact H1|]. unfold set. destruct (z =? c); [discriminate|]. destruct (z =? p); [discriminate|exact H2].
    + intros X; injection X as <- <-. apply quiet. exact (start_other _ _ _ _ I E).
Qed.
End Match.
