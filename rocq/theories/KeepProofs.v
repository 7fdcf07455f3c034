(* Invariants of executing an operation. *)
From Verif Require Import Base KeepModel KeepSpec.

Section Proofs.
Context (g : nat -> target) (kg : bool) (groups : list (list nat)).

Definition started (s : mstate) (t : nat) : Prop := st s t <> Applied.
Definition done (s : mstate) (t : nat) : Prop := exists r, st s t = Executed r.
Definition good (s : mstate) (t : nat) : Prop := exists x, st s t = Executed (Some x).
Definition results (s : mstate) (f : nat -> state) (l : list nat) : Prop := Forall (fun p => st s p = Executed (Some (f p))) l.

Definition stage_ok (s : mstate) (t : nat) (x : stage) : Prop :=
  match x with
  | Starting rest => exists d, prereqs (g t) = d ++ rest /\ Forall (started s) d
  | Calling p rest => exists d, prereqs (g t) = d ++ p :: rest /\ Forall (started s) d /\ started s p
  | Completing rest r => exists d f, prereqs (g t) = d ++ rest /\ Forall (started s) rest /\ results s f d /\ r = any_changed (map f d)
  | Running r => exists f, results s f (prereqs (g t)) /\ r = any_changed (map f (prereqs (g t)))
  | Unwinding => (exists p, In p (prereqs (g t)) /\ st s p = Executed None) /\ (kg = true -> Forall (started s) (prereqs (g t)))
  end.
Definition is_running (x : stage) : Prop := match x with Running _ => True | _ => False end.
Definition frame_ok (s : mstate) (t : nat) (x : stage) (q : list nat) : Prop :=
  noop (g t) = false /\ Forall (fun p => In p (prereqs (g t)) /\ started s p) q /\ (In t (log s) <-> is_running x) /\ stage_ok s t x.
Definition exec_ok (s : mstate) (t : nat) (r : option state) : Prop :=
  if noop (g t) then r = Some Unchanged /\ ~ In t (log s)
  else match r with
       | Some x => exists f, results s f (prereqs (g t)) /\ own (g t) (any_changed (map f (prereqs (g t)))) = Some x /\ In t (log s)
       | None => (kg = true -> Forall (started s) (prereqs (g t))) /\
                 ((exists p, In p (prereqs (g t)) /\ st s p = Executed None) /\ ~ In t (log s) \/
                  exists f, results s f (prereqs (g t)) /\ own (g t) (any_changed (map f (prereqs (g t)))) = None /\ In t (log s))
       end.
Definition status_ok (s : mstate) (t : nat) (x : status) : Prop :=
  match x with Applied => ~ In t (log s) | Busy x q => frame_ok s t x q | Executed r => exec_ok s t r end.
(* A recipe gets to the rest once and after its prerequisites. *)
Definition ordered (l : list nat) : Prop := NoDup l /\ forall l1 t l2 p, l = l1 ++ t :: l2 -> In p (prereqs (g t)) -> noop (g p) = false -> In p l2.
Record Inv (s : mstate) : Prop := {
  i_needs : forall t, started s t -> needs g (concat groups) t;
  i_status : forall t, status_ok s t (st s t);
  i_log : ordered (log s) }.

Record le (s s' : mstate) : Prop := {
  le_started : forall t, started s t -> started s' t;
  le_done : forall t r, st s t = Executed r -> st s' t = Executed r }.

Lemma results_mono s s' f l : le s s' -> results s f l -> results s' f l.
Proof. intros L. apply Forall_impl. intros p. apply (le_done _ _ L). Qed.
Lemma started_mono s s' l : le s s' -> Forall (started s) l -> Forall (started s') l.
Proof. intros L. apply Forall_impl. apply (le_started _ _ L). Qed.
Lemma stage_mono s s' t x : le s s' -> stage_ok s t x -> stage_ok s' t x.
Proof.
  intros L. destruct x as [rest|p rest|rest r|r|]; cbn.
  - intros (d & E & F). exists d. split; [exact E | apply (started_mono _ _ _ L F)].
  - intros (d & E & F & P). exists d. split; [exact E|]. split; [apply (started_mono _ _ _ L F) | apply (le_started _ _ L), P].
  - intros (d & f & E & F & R & ->). exists d, f. split; [exact E|]. split; [apply (started_mono _ _ _ L F)|]. split; [apply (results_mono _ _ _ _ L R) | reflexivity].
  - intros (f & R & ->). exists f. split; [apply (results_mono _ _ _ _ L R) | reflexivity].
  - intros [(p & I & E) K]. split; [exists p; split; [exact I | apply (le_done _ _ L), E] | intros k; apply (started_mono _ _ _ L (K k))].
Qed.
Lemma status_mono s s' t x : le s s' -> (In t (log s') <-> In t (log s)) -> status_ok s t x -> status_ok s' t x.
Proof.
  intros L G. destruct x as [|x q|r]; cbn.
  - tauto.
  - intros (N & Q & R & S). split; [exact N|]. split; [revert Q; apply Forall_impl; intros p [I P]; split; [exact I | apply (le_started _ _ L), P]|].
    split; [tauto | apply (stage_mono _ _ _ _ L S)].
  - unfold exec_ok. destruct (noop (g t)); [tauto|]. destruct r as [x|].
    + intros (f & R & O & I). exists f. split; [apply (results_mono _ _ _ _ L R)|]. split; [exact O | tauto].
    + intros [K [[(p & I & E) N]|(f & R & O & I)]]; (split; [intros k; apply (started_mono _ _ _ L (K k))|]).
      * left. split; [exists p; split; [exact I | apply (le_done _ _ L), E] | tauto].
      * right. exists f. split; [apply (results_mono _ _ _ _ L R)|]. split; [exact O | tauto].
Qed.

Lemma upd_eq f k v : upd f k v k = v.
Proof. unfold upd. rewrite Nat.eqb_refl. reflexivity. Qed.
Lemma upd_ne f k v t : t <> k -> upd f k v t = f t.
Proof. intros N. unfold upd. destruct (Nat.eqb_spec t k); [contradiction | reflexivity]. Qed.

(* The change of the status of a busy target. *)
Lemma le_upd s t x q v m l : st s t = Busy x q -> v <> Applied -> le s (mk (upd (st s) t v) m l).
Proof.
  intros B V. split.
  - intros u U. unfold started. cbn. unfold upd. destruct (u =? t); [exact V | exact U].
  - intros u r U. cbn. rewrite upd_ne; [exact U|]. intros ->. congruence.
Qed.
Lemma inv_upd s t x q v m : Inv s -> st s t = Busy x q -> v <> Applied -> status_ok (mk (upd (st s) t v) m (log s)) t v -> Inv (mk (upd (st s) t v) m (log s)).
Proof.
  intros I B V O. pose proof (le_upd s t x q v m (log s) B V) as L. split; cbn.
  - intros u U. apply (i_needs _ I). unfold started in *. cbn in U. unfold upd in U. destruct (Nat.eqb_spec u t) as [EU|]; [rewrite EU, B; discriminate | exact U].
  - intros u. unfold upd at 2. destruct (Nat.eqb_spec u t) as [->|]; [exact O|]. eapply status_mono; [exact L | cbn; tauto | apply (i_status _ I)].
  - apply (i_log _ I).
Qed.
(* The start of a target. *)
Lemma le_start s p v m l : st s p = Applied -> v <> Applied -> le s (mk (upd (st s) p v) m l).
Proof.
  intros B V. split.
  - intros u U. unfold started. cbn. unfold upd. destruct (u =? p); [exact V | exact U].
  - intros u r U. cbn. rewrite upd_ne; [exact U|]. intros ->. congruence.
Qed.
Lemma inv_start s p v : Inv s -> st s p = Applied -> v <> Applied -> needs g (concat groups) p ->
  status_ok (mk (upd (st s) p v) (mn s) (log s)) p v -> Inv (mk (upd (st s) p v) (mn s) (log s)).
Proof.
  intros I B V N O. pose proof (le_start s p v (mn s) (log s) B V) as L. split; cbn.
  - intros u U. unfold started in *. cbn in U. unfold upd in U. destruct (Nat.eqb_spec u p) as [EU|]; [rewrite EU; exact N | apply (i_needs _ I); exact U].
  - intros u. unfold upd at 2. destruct (Nat.eqb_spec u p) as [->|]; [exact O|]. eapply status_mono; [exact L | cbn; tauto | apply (i_status _ I)].
  - apply (i_log _ I).
Qed.

Lemma inv_call s p c f : Inv s -> call g (st s) p c f -> needs g (concat groups) p ->
  let s' := mk f (mn s) (log s) in Inv s' /\ le s s' /\ started s' p /\ match c with Returned r => st s' p = Executed r | _ => True end /\
  (forall t x q, st s t = Busy x q -> f t = Busy x q).
Proof.
  intros I C N. pose proof (i_status _ I p) as SP. destruct C as [A O|A O|A O|x q A|r A].
  all: try (rewrite A in SP; cbn in SP).
  - split; [|split; [|split; [|split]]]; cbn.
    + apply (inv_start s p (Executed (Some Unchanged))); try assumption; [discriminate|]. cbn. unfold exec_ok. rewrite O. split; [reflexivity | exact SP].
    + apply le_start; [exact A | discriminate].
    + unfold started. cbn. rewrite upd_eq. discriminate.
    + apply upd_eq.
    + intros t x q B. rewrite upd_ne; [exact B|]. intros ->. congruence.
  - split; [|split; [|split; [|split]]]; cbn.
    + apply (inv_start s p (Busy (Starting (prereqs (g p))) [])); try assumption; [discriminate|]. cbn. split; [exact O|]. split; [constructor|]. split; [cbn; tauto|]. exists []. split; [reflexivity | constructor].
    + apply le_start; [exact A | discriminate].
    + unfold started. cbn. rewrite upd_eq. discriminate.
    + exact Logic.I.
    + intros t x q B. rewrite upd_ne; [exact B|]. intros ->. congruence.
  - split; [|split; [|split; [|split]]]; cbn.
    + apply (inv_start s p (Busy (Starting (prereqs (g p))) [])); try assumption; [discriminate|]. cbn. split; [exact O|]. split; [constructor|]. split; [cbn; tauto|]. exists []. split; [reflexivity | constructor].
    + apply le_start; [exact A | discriminate].
    + unfold started. cbn. rewrite upd_eq. discriminate.
    + exact Logic.I.
    + intros t x q B. rewrite upd_ne; [exact B|]. intros ->. congruence.
  - destruct s as [f m l]. cbn in *. split; [exact I|]. split; [split; auto|]. split; [unfold started; cbn; rewrite A; discriminate|]. split; [exact Logic.I | auto].
  - destruct s as [f m l]. cbn in *. split; [exact I|]. split; [split; auto|]. split; [unfold started; cbn; rewrite A; discriminate|]. split; [exact A | auto].
Qed.

Lemma any_snoc (f : nat -> state) d p : any_changed (map f (d ++ [p])) = merge (any_changed (map f d)) (f p).
Proof. unfold any_changed. rewrite map_app, existsb_app. cbn. destruct (existsb _ (map f d)); [reflexivity|]. destruct (f p); reflexivity. Qed.

(* A step of the first loop of a target after p has been called or has returned. *)
Lemma inv_next s t x q d p ps c m : Inv s -> st s t = Busy x q -> ~ is_running x -> prereqs (g t) = d ++ p :: ps -> Forall (started s) d -> started s p ->
  match c with Returned r => st s p = Executed r | _ => True end -> Inv (mk (upd (st s) t (after_call kg c p ps q)) m (log s)).
Proof.
  intros I B NR E F P R. pose proof (i_status _ I t) as S. rewrite B in S. destruct S as (N & Q & LG & _).
  assert (IP : In p (prereqs (g t))) by (rewrite E; apply in_elt).
  assert (D : Forall (started s) (d ++ [p])) by (apply Forall_app; split; [exact F | repeat constructor; exact P]).
  assert (E' : prereqs (g t) = (d ++ [p]) ++ ps) by (rewrite <- app_assoc; exact E).
  assert (V : after_call kg c p ps q <> Applied) by (destruct c; discriminate).
  eapply inv_upd; try eassumption. eapply status_mono; [eapply le_upd; eassumption | cbn; tauto|].
  assert (NL : ~ In t (log s)) by (rewrite LG; exact NR).
  assert (W : forall q' x', Forall (fun p => In p (prereqs (g t)) /\ started s p) q' -> ~ is_running x' -> stage_ok s t x' -> status_ok s t (Busy x' q')).
  { intros q' x' HQ HR HS. split; [exact N|]. split; [exact HQ|]. split; [split; [intros K; destruct (NL K) | intros K; destruct (HR K)] | exact HS]. }
  assert (ST : stage_ok s t (Starting ps)) by (exists (d ++ [p]); split; assumption).
  destruct c as [| | |r]; cbn [after_call].
  - apply W; [constructor; [split; assumption | exact Q] | cbn; tauto | exact ST].
  - apply W; [exact Q | cbn; tauto | exists d; repeat split; assumption].
  - apply W; [exact Q | cbn; tauto | exact ST].
  - destruct r as [y|]; cbn [after_return]; [apply W; [exact Q | cbn; tauto | exact ST]|]. destruct kg eqn:K.
    + apply W; [exact Q | cbn; tauto | exact ST].
    + apply W; [exact Q | cbn; tauto|]. split; [exists p; split; assumption | congruence].
Qed.

Lemma results_app s f d p x : results s f d -> st s p = Executed (Some x) -> exists f', results s f' (d ++ [p]) /\ map f' d = map f d /\ f' p = x.
Proof.
  intros R P. exists (fun y => match st s y with Executed (Some z) => z | _ => f y end).
  assert (E : map (fun y => match st s y with Executed (Some z) => z | _ => f y end) d = map f d).
  { apply map_ext_in. intros y Y. unfold results in R. rewrite Forall_forall in R. rewrite (R y Y). reflexivity. }
  split; [|split; [exact E | rewrite P; reflexivity]]. apply Forall_app. split.
  - unfold results in R. rewrite Forall_forall in R. apply Forall_forall. intros y Y. rewrite (R y Y). reflexivity.
  - repeat constructor. rewrite P. reflexivity.
Qed.
Lemma results_started s f l : results s f l -> Forall (started s) l.
Proof. apply Forall_impl. intros p P. unfold started. rewrite P. discriminate. Qed.

Lemma inv_main s m : Inv s -> Inv (mk (st s) m (log s)).
Proof. destruct s as [f m0 l]. intros [A B C]. split; cbn; [exact A | | exact C]. intros t. eapply status_mono; [| |apply (B t)]; [split; auto | cbn; tauto]. Qed.
Lemma forallb_done s q : forallb (fun p => is_executed (st s p)) q = true -> Forall (done s) q.
Proof. rewrite forallb_forall. intros H. apply Forall_forall. intros p P. specialize (H p P). unfold done. destruct (st s p); try discriminate. eexists. reflexivity. Qed.

(* What perform_execute () calls is needed. *)
Definition m_needs (m : main) : Prop :=
  match m with Main _ _ (MStarting ps) _ _ _ _ => Forall (needs g (concat groups)) ps | _ => True end.

Lemma inv_step s s' : Inv s -> m_needs (mn s) -> step g kg s s' -> Inv s'.
Proof.
  intros I MN S. destruct S as
    [t p ps q c f s B C | t p ps q r s B P | t q s B W | t p ps r x q s B P | t p ps r q s B P | t r q s B | t r q s B | t q s B W
    | top grp p ps q todo fl pf c f s M C | top grp p ps q todo fl pf r s M P | top grp q todo fl pf s M W].
  all: try (pose proof (i_status _ I t) as O; rewrite B in O; destruct O as (N & Q & LG & O); cbn in O, LG).
  - destruct O as (d & E & F). destruct (inv_call s p c f I C) as (I' & L & SP & R & BU).
    { eapply need_prereq; [apply (i_needs _ I t); unfold started; rewrite B; discriminate | exact N | rewrite E; apply in_elt]. }
    eapply (inv_next (mk f (mn s) (log s))); [exact I' | cbn; apply BU; exact B | cbn; tauto | exact E | apply (started_mono _ _ _ L F) | exact SP | exact R].
  - destruct O as (d & E & F & SP). apply (inv_next s t _ q d p ps (Returned r)) with (1 := I) (2 := B); try assumption. cbn. tauto.
  - destruct O as (d & E & F). rewrite app_nil_r in E. subst d. eapply inv_upd; [exact I | exact B | discriminate|].
    eapply status_mono; [eapply le_upd; [exact B | discriminate] | cbn; tauto|]. split; [exact N|]. split; [exact Q|]. split; [exact LG|].
    exists [], (fun _ => Unchanged). split; [reflexivity|]. split; [exact F|]. split; [constructor | reflexivity].
  - destruct O as (d & f & E & F & R & ->). eapply inv_upd; [exact I | exact B | discriminate|].
    eapply status_mono; [eapply le_upd; [exact B | discriminate] | cbn; tauto|]. split; [exact N|]. split; [exact Q|]. split; [exact LG|].
    destruct (results_app s f d p x R P) as (f' & R' & EQ & FP).
    exists (d ++ [p]), f'. split; [rewrite <- app_assoc; exact E|]. split; [inversion F; assumption|]. split; [exact R'|]. rewrite any_snoc, EQ, FP. reflexivity.
  - destruct O as (d & f & E & F & R & ->). eapply inv_upd; [exact I | exact B | discriminate|].
    eapply status_mono; [eapply le_upd; [exact B | discriminate] | cbn; tauto|]. split; [exact N|]. split; [exact Q|]. split; [exact LG|].
    split; [exists p; split; [rewrite E; apply in_elt | exact P]|]. intros _. rewrite E. apply Forall_app. split; [apply (results_started _ _ _ R) | exact F].
  - destruct O as (d & f & E & F & R & ->). rewrite app_nil_r in E. subst d. pose proof (le_upd s t _ q (Busy (Running (any_changed (map f (prereqs (g t))))) q) (mn s) (t :: log s) B ltac:(discriminate)) as L.
    split; cbn.
    + intros u U. apply (i_needs _ I). unfold started in *. cbn in U. unfold upd in U. destruct (Nat.eqb_spec u t) as [EU|]; [rewrite EU, B; discriminate | exact U].
    + intros u. unfold upd at 2. destruct (Nat.eqb_spec u t) as [->|NE].
      * split; [exact N|]. split; [revert Q; apply Forall_impl; intros y [Y1 Y2]; split; [exact Y1 | apply (le_started _ _ L), Y2]|]. split; [cbn; tauto|].
        exists f. split; [apply (results_mono _ _ _ _ L R) | reflexivity].
      * eapply status_mono; [exact L | cbn; split; [intros [->|K]; [contradiction | exact K] | tauto] | apply (i_status _ I)].
    + destruct (i_log _ I) as [ND OR]. split; [constructor; [tauto | exact ND]|]. intros [|y l1] u l2 p EL IP NP; cbn in EL.
      * injection EL as <- <-. unfold results in R. rewrite Forall_forall in R. specialize (R p IP). pose proof (i_status _ I p) as SP. rewrite R in SP. cbn in SP. unfold exec_ok in SP. rewrite NP in SP.
        destruct SP as (? & ? & ? & G). exact G.
      * injection EL as <- EL. eapply OR; eassumption.
  - destruct O as (f & R & ->). eapply inv_upd; [exact I | exact B | discriminate|].
    eapply status_mono; [eapply le_upd; [exact B | discriminate] | cbn; tauto|]. cbn. unfold exec_ok. rewrite N. destruct (own _ _) as [x|] eqn:OW.
    + exists f. split; [exact R|]. split; [exact OW | tauto].
    + split; [intros _; apply (results_started _ _ _ R)|]. right. exists f. split; [exact R|]. split; [exact OW | tauto].
  - destruct O as [P K]. eapply inv_upd; [exact I | exact B | discriminate|].
    eapply status_mono; [eapply le_upd; [exact B | discriminate] | cbn; tauto|]. cbn. unfold exec_ok. rewrite N. split; [exact K|]. left. split; [exact P | tauto].
  - rewrite M in MN. cbn in MN. inversion MN; subst. destruct (inv_call s p c f I C) as (I' & _); [assumption|]. apply (inv_main _ _ I').
  - apply (inv_main _ _ I).
  - apply (inv_main _ _ I).
Qed.
End Proofs.
