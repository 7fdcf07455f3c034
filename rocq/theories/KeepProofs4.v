(* Reachable states, progress and termination. *)
From Verif Require Import Base KeepModel KeepSpec KeepProofs KeepProofs2 KeepProofs3.

Section Proofs.
Context (g : nat -> target) (kg : bool) (top : list nat) (posthoc : list (list nat)).
Local Notation groups := (top :: posthoc).
Local Notation step := (step g kg).

Record All (s : mstate) : Prop := { a_inv : Inv g kg groups s; a_owned : Owned s; a_waited : Waited s; a_main : main_ok kg groups s }.
Lemma all_init : All (init top posthoc).
Proof.
  split.
  - split; cbn; [intros t H; destruct (H eq_refl) | intros t []|]. split; [constructor|]. intros [|? ?]; discriminate.
  - intros t (x & q & E). discriminate.
  - intros t x q E. discriminate.
  - unfold main_ok. cbn. split; [split; discriminate|]. split; [exists []; repeat split; constructor|]. split; [constructor|]. split; [discriminate|]. left. exists []. split; [reflexivity | constructor].
Qed.
Lemma main_needs s : main_ok kg groups s -> m_needs g groups (mn s).
Proof.
  unfold main_ok, m_needs. destruct (mn s) as [tp grp x q todo fl pf|fl pf]; [|auto]. destruct x as [rest|p rest]; [|auto].
  intros (_ & (dn & E & _) & _ & _ & [(d & D & _)|(-> & _)]); [|constructor]. apply Forall_forall. intros t T. apply need_top. eapply in_groups; [exact E|]. rewrite D. apply in_app_iff. right. exact T.
Qed.
Lemma all_step s s' : All s -> step s s' -> All s'.
Proof.
  intros [I O W M] S. split.
  - eapply inv_step; [exact I | apply main_needs; exact M | exact S].
  - eapply owned_step; eassumption.
  - eapply waited_step; eassumption.
  - eapply main_step; eassumption.
Qed.
Lemma all_steps n s : steps g kg n (init top posthoc) s -> All s.
Proof. intros H. remember (init top posthoc) as s0 eqn:E. induction H as [s|n s s' s'' H IH S]; [subst; apply all_init | eapply all_step; eauto]. Qed.

(* Results. *)
Lemma result_fun t : forall x, result g t x -> forall y, result g t y -> x = y.
Proof.
  intros x H. induction H as [t N|t f x N H IH E]; intros y Y; inversion Y as [? N'|? f' ? N' H' E']; subst; try congruence.
  assert (map f (prereqs (g t)) = map f' (prereqs (g t))) by (apply map_ext_in; intros p P; apply (IH p P); apply H'; exact P). congruence.
Qed.
Lemma executed_result s : acyclic g -> Inv g kg groups s -> forall t r, st s t = Executed r -> match r with Some x => result g t x | None => ~ fine g t end.
Proof.
  intros (rank & RK) I. assert (H : forall n t r, rank t < n -> st s t = Executed r -> match r with Some x => result g t x | None => ~ fine g t end).
  { induction n as [|n IH]; intros t r L E; [lia|]. pose proof (i_status _ _ _ _ I t) as O. rewrite E in O. cbn in O. unfold exec_ok in O.
    assert (IHR : forall f, results s f (prereqs (g t)) -> forall p, In p (prereqs (g t)) -> result g p (f p)).
    { intros f R p P. unfold results in R. rewrite Forall_forall in R. apply (IH p (Some (f p))); [specialize (RK t p P); lia | apply R; exact P]. }
    destruct (noop (g t)) eqn:N; [destruct O as [-> _]; apply res_noop; exact N|]. destruct r as [x|].
    - destruct O as (f & R & OW & _). eapply res_own; [exact N | apply IHR; exact R | exact OW].
    - intros (y & Y). inversion Y as [? N'|? f' ? N' H' E']; subst; [congruence|]. destruct O as [_ [[(p & P & EP) _]|(f & R & OW & _)]].
      + apply (IH p None); [specialize (RK t p P); lia | exact EP | exists (f' p); apply H'; exact P].
      + assert (map f (prereqs (g t)) = map f' (prereqs (g t))).
        { apply map_ext_in. intros p P. eapply result_fun; [apply (IHR f R p P) | apply H'; exact P]. }
        congruence. }
  intros t r. apply (H (S (rank t))). lia.
Qed.

(* What has been executed successfully has all it needs executed successfully. *)
Lemma good_needs s : Inv g kg groups s -> forall l, Forall (good s) l -> forall t, needs g l t -> good s t /\ (noop (g t) = false -> In t (log s)).
Proof.
  intros I l F t N. assert (W : forall t, good s t -> noop (g t) = false -> In t (log s) /\ Forall (good s) (prereqs (g t))).
  { intros u (x & E) NO. pose proof (i_status _ _ _ _ I u) as O. rewrite E in O. cbn in O. unfold exec_ok in O. rewrite NO in O. destruct O as (f & R & _ & IL). split; [exact IL|].
    revert R. apply Forall_impl. intros p P. exists (f p). exact P. }
  assert (G : good s t) by (induction N as [t T|t p N IH NO P]; [rewrite Forall_forall in F; apply F; exact T | destruct (W t IH NO) as [_ FP]; rewrite Forall_forall in FP; apply FP; exact P]).
  split; [exact G|]. intros NO. apply (W t G NO).
Qed.
Lemma done_needs s : kg = true -> Inv g kg groups s -> (forall t, ~ is_busy s t) -> forall l, Forall (done s) l -> forall t, needs g l t -> done s t.
Proof.
  intros K I NB l F t N. induction N as [t T|t p N IH NO P]; [rewrite Forall_forall in F; apply F; exact T|].
  assert (FS : Forall (started s) (prereqs (g t))).
  { destruct IH as (r & E). pose proof (i_status _ _ _ _ I t) as O. rewrite E in O. cbn in O. unfold exec_ok in O. rewrite NO in O. destruct r as [x|].
    - destruct O as (f & R & _). apply (results_started _ _ _ R).
    - destruct O as [O _]. apply O. exact K. }
  apply (started_quiet s _ NB) in FS. rewrite Forall_forall in FS. apply FS. exact P.
Qed.

(* Progress. *)
Lemma busy_steps s : acyclic g -> Inv g kg groups s -> forall t, is_busy s t -> exists s', step s s'.
Proof.
  intros (rank & RK) I. assert (H : forall n t, rank t < n -> is_busy s t -> exists s', step s s').
  { induction n as [|n IH]; intros t L (x & q & B); [lia|]. pose proof (i_status _ _ _ _ I t) as O. rewrite B in O. destruct O as (N & Q & _ & O).
    assert (SE : forall p, In p (prereqs (g t)) -> started s p -> (exists s', step s s') \/ done s p).
    { intros p P SP. unfold started in SP. destruct (st s p) as [|y r|r] eqn:E; [contradiction | left; apply (IH p); [specialize (RK t p P); lia | exists y, r; exact E] | right; exists r; exact E]. }
    assert (WQ : (exists s', step s s') \/ forallb (fun p => is_executed (st s p)) q = true).
    { clear B. induction Q as [|p q [P SP] Q IHQ]; [right; reflexivity|]. destruct (SE p P SP) as [S|(r & E)]; [left; exact S|]. destruct IHQ as [S|W]; [left; exact S|]. right. cbn. rewrite E. exact W. }
    destruct x as [[|p ps]|p ps|[|p ps] r|r|]; cbn in O.
    - destruct WQ as [S|W]; [exact S|]. eexists. eapply s_wait; eassumption.
    - destruct (st s p) as [|y k|k] eqn:E.
      + destruct (noop (g p)) eqn:NP; eexists; (eapply s_call; [exact B|]); [apply call_noop | apply call_async]; assumption.
      + eexists. eapply s_call; [exact B|]. eapply call_busy. exact E.
      + eexists. eapply s_call; [exact B|]. eapply call_done. exact E.
    - destruct O as (d & E & _ & SP). destruct (SE p) as [S|(r & R)]; [rewrite E; apply in_elt | exact SP | exact S|]. eexists. eapply s_return; eassumption.
    - eexists. eapply s_run. exact B.
    - destruct O as (d & f & E & F & _). inversion F as [|? ? SP]; subst. destruct (SE p) as [S|([y|] & R)]; [rewrite E; apply in_elt | exact SP | exact S| |]; eexists; [eapply s_complete | eapply s_fail]; eassumption.
    - eexists. eapply s_end. exact B.
    - destruct WQ as [S|W]; [exact S|]. eexists. eapply s_unwind; eassumption. }
  intros t. apply (H (S (rank t))). lia.
Qed.
Lemma progress s : acyclic g -> All s -> (exists s', step s s') \/ exists fl pf, mn s = Finished fl pf.
Proof.
  intros AC [I O W M]. unfold main_ok in M. destruct (mn s) as [tp grp x q todo fl pf|fl pf] eqn:E; [left | right; exists fl, pf; reflexivity].
  destruct M as (_ & _ & Q & _ & X).
  assert (SE : forall p, started s p -> (exists s', step s s') \/ done s p).
  { intros p SP. unfold started in SP. destruct (st s p) as [|y r|r] eqn:EP; [contradiction | left; eapply busy_steps; [exact AC | exact I | exists y, r; exact EP] | right; exists r; exact EP]. }
  destruct x as [[|p ps]|p ps].
  - assert (WQ : (exists s', step s s') \/ forallb (fun p => is_executed (st s p)) q = true).
    { clear E. induction Q as [|p q SP Q IHQ]; [right; reflexivity|]. destruct (SE p SP) as [S|(r & R)]; [left; exact S|]. destruct IHQ as [S|F]; [left; exact S|]. right. cbn. rewrite R. exact F. }
    destruct WQ as [S|F]; [exact S|]. eexists. eapply s_mwait; eassumption.
  - destruct (st s p) as [|y k|k] eqn:EP.
    + destruct (noop (g p)) eqn:NP; eexists; (eapply s_mcall; [exact E|]); [apply call_noop | apply call_async]; assumption.
    + eexists. eapply s_mcall; [exact E|]. eapply call_busy. exact EP.
    + eexists. eapply s_mcall; [exact E|]. eapply call_done. exact EP.
  - destruct X as (d & _ & _ & SP). destruct (SE p SP) as [S|(r & R)]; [exact S|]. eexists. eapply s_mreturn; eassumption.
Qed.

(* Only finitely many targets are needed. *)
Fixpoint level (k : nat) (l : list nat) : list nat := match k with 0 => l | S k' => flat_map (fun t => prereqs (g t)) (level k' l) end.
Lemma needs_finite l : acyclic g -> exists all, forall t, needs g l t -> In t all.
Proof.
  intros (rank & RK). exists (flat_map (fun k => level k l) (seq 0 (S (list_max (map rank l))))). intros t N.
  assert (H : exists k u, In t (level k l) /\ In u l /\ rank t + k <= rank u).
  { induction N as [t T|t p N (k & u & A & B & C) NO P]; [exists 0, t; cbn; repeat split; try assumption; lia|].
    exists (S k), u. split; [cbn; apply in_flat_map; exists t; split; assumption|]. split; [exact B|]. specialize (RK t p P). lia. }
  destruct H as (k & u & A & B & C). apply in_flat_map. exists k. split; [|exact A]. apply in_seq. split; [lia|]. cbn.
  assert (rank u <= list_max (map rank l)); [|lia]. assert (F : Forall (fun y => y <= list_max (map rank l)) (map rank l)) by (apply list_max_le; lia).
  rewrite Forall_forall in F. apply F. apply in_map. exact B.
Qed.

Definition weight (t : nat) (x : status) : nat :=
  let n := length (prereqs (g t)) in
  match x with
  | Applied => 3 * n + 6
  | Busy (Starting rest) _ => 2 * length rest + n + 5
  | Busy (Calling _ rest) _ => 2 * length rest + n + 6
  | Busy (Completing rest _) _ => length rest + 3
  | Busy (Running _) _ => 2
  | Busy Unwinding _ => 1
  | Executed _ => 0
  end.
Definition sum (l : list nat) : nat := fold_right Nat.add 0 l.
Definition mweight (m : main) : nat :=
  match m with
  | Main _ _ x _ todo _ _ => match x with MStarting rest => 2 * length rest + 1 | MCalling _ rest => 2 * length rest + 2 end + sum (map (fun l => 2 * length l + 2) todo)
  | Finished _ _ => 0
  end.
Definition measure (all : list nat) (s : mstate) : nat := sum (map (fun t => weight t (st s t)) all) + mweight (mn s).
Lemma sum_le (f f' : nat -> nat) l : (forall x, f' x <= f x) -> sum (map f' l) <= sum (map f l).
Proof. intros H. induction l as [|x l IH]; cbn; [lia|]. specialize (H x). unfold sum in *. lia. Qed.
Lemma sum_lt (f f' : nat -> nat) l t : (forall x, f' x <= f x) -> In t l -> f' t < f t -> sum (map f' l) < sum (map f l).
Proof.
  intros H I L. induction l as [|x l IH]; [destruct I|]. destruct I as [->|I]; cbn.
  - pose proof (sum_le f f' l H). unfold sum in *. lia.
  - specialize (IH I). specialize (H x). unfold sum in *. lia.
Qed.
Lemma call_weight f p c f' : call g f p c f' -> forall t, weight t (f' t) <= weight t (f t).
Proof.
  intros C t. destruct C as [A O|A O|A O|x q A|r A]; try lia; unfold upd; destruct (Nat.eqb_spec t p) as [->|]; try lia; rewrite A; cbn [weight]; lia.
Qed.
Lemma upd_weight f t v all : weight t v < weight t (f t) -> In t all -> sum (map (fun x => weight x (upd f t v x)) all) < sum (map (fun x => weight x (f x)) all).
Proof.
  intros L IA. apply (sum_lt _ _ _ t); [|exact IA|rewrite upd_eq; exact L]. intros x. unfold upd. destruct (Nat.eqb_spec x t) as [->|]; lia.
Qed.
Lemma measure_step s s' all : (forall t, needs g (concat groups) t -> In t all) -> Inv g kg groups s -> step s s' -> measure all s' < measure all s.
Proof.
  intros FA I S. assert (BA : forall t x q, st s t = Busy x q -> In t all) by (intros t x q B; apply FA, (i_needs _ _ _ _ I); unfold started; rewrite B; discriminate).
  destruct S as
    [u p ps q c f s B C | u p ps q k s B P | u q s B W | u p ps k x q s B P | u p ps k q s B P | u k q s B | u k q s B | u q s B W
    | tp grp p ps q todo fl pf c f s M C | tp grp p ps q todo fl pf k s M P | tp grp q todo fl pf s M W]; unfold measure; cbn [st mn].
  - pose proof (call_le g _ _ _ _ C) as (CB & _). pose proof (call_weight _ _ _ _ C) as CW.
    assert (sum (map (fun x => weight x (upd f u (after_call kg c p ps q) x)) all) < sum (map (fun x => weight x (f x)) all)).
    { apply upd_weight; [|eapply BA; exact B]. rewrite (CB _ _ _ B). destruct c as [| | |[y|]]; cbn; try destruct kg; cbn; lia. }
    pose proof (sum_le (fun x => weight x (st s x)) (fun x => weight x (f x)) all CW). lia.
  - apply Nat.add_lt_mono_r, upd_weight; [|eapply BA; exact B]. rewrite B. destruct k; cbn; try destruct kg; cbn; lia.
  - apply Nat.add_lt_mono_r, upd_weight; [|eapply BA; exact B]. rewrite B. cbn. lia.
  - apply Nat.add_lt_mono_r, upd_weight; [|eapply BA; exact B]. rewrite B. cbn. lia.
  - apply Nat.add_lt_mono_r, upd_weight; [|eapply BA; exact B]. rewrite B. cbn. lia.
  - apply Nat.add_lt_mono_r, upd_weight; [|eapply BA; exact B]. rewrite B. cbn. lia.
  - apply Nat.add_lt_mono_r, upd_weight; [|eapply BA; exact B]. rewrite B. cbn. lia.
  - apply Nat.add_lt_mono_r, upd_weight; [|eapply BA; exact B]. rewrite B. cbn. lia.
  - pose proof (sum_le (fun x => weight x (st s x)) (fun x => weight x (f x)) all (call_weight _ _ _ _ C)). rewrite M.
    assert (mweight (m_after kg tp grp c p ps q todo fl pf) < mweight (Main tp grp (MStarting (p :: ps)) q todo fl pf)); [|lia].
    destruct c as [| | |[y|]]; cbn; try destruct kg; cbn; lia.
  - rewrite M. apply Nat.add_lt_mono_l. destruct k as [y|]; cbn; try destruct kg; cbn; lia.
  - rewrite M. apply Nat.add_lt_mono_l. unfold m_waited.
    assert (NL : forall a b c, mweight (next_list todo a b) < mweight (Main tp grp (MStarting []) q todo c pf)) by (intros a b c; destruct todo; unfold mweight, next_list, sum; cbn [map fold_right length]; lia).
    destruct tp; [destruct (negb fl || kg); [apply NL | cbn; lia]|]. destruct (_ && _); [cbn; lia | apply NL].
Qed.
Lemma steps_bound n s : acyclic g -> forall all, (forall t, needs g (concat groups) t -> In t all) -> steps g kg n (init top posthoc) s -> n + measure all s <= measure all (init top posthoc).
Proof.
  intros AC all FA H. remember (init top posthoc) as s0 eqn:E. induction H as [s|n s s' s'' H IH S]; [lia|]. specialize (IH E). subst s.
  pose proof (measure_step s' s'' all FA (a_inv _ (all_steps _ _ H)) S). lia.
Qed.
End Proofs.
