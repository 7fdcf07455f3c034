(* C77: what executing an operation does and reports, with and without keep going. *)
From Verif Require Import Base KeepModel KeepSpec KeepProofs KeepProofs2 KeepProofs3 KeepProofs4.

Section Finished.
Context (g : nat -> target) (kg : bool) (top : list nat) (posthoc : list (list nat)) (n : nat) (s : mstate).
Context (AC : acyclic g) (R : steps g kg n (init top posthoc) s).
Local Notation all := (top ++ concat posthoc).

Lemma k_done t r : st s t = Executed r -> match r with Some x => result g t x | None => ~ fine g t end.
Proof. apply (executed_result g kg top posthoc s AC (a_inv _ _ _ _ _ (all_steps _ _ _ _ _ _ R))). Qed.
Lemma k_bad l : bad s l -> exists t, In t l /\ ~ fine g t.
Proof. intros (t & I & E). exists t. split; [exact I | apply (k_done t None E)]. Qed.
Lemma k_busy t : started s t -> ~ is_busy s t -> done s t.
Proof. unfold started. intros S B. destruct (st s t) as [|x q|r] eqn:E; [contradiction | destruct B; exists x, q; exact E | exists r; exact E]. Qed.

Context (fl pf : bool) (F : mn s = Finished fl pf).
Lemma k_main : (fl = true -> exists t, In t top /\ ~ fine g t) /\ (pf = true -> exists t, In t (concat posthoc) /\ ~ fine g t) /\ (forall t, ~ is_busy s t) /\
  (kg = false /\ (fl = true \/ pf = true) \/ Forall (done s) all /\ (pf = false -> Forall (good s) (concat posthoc))).
Proof.
  pose proof (a_main _ _ _ _ _ (all_steps _ _ _ _ _ _ R)) as M. unfold main_ok in M. rewrite F in M. destruct M as ((A & B) & NB & C). cbn in *.
  split; [intros X; apply k_bad, A, X|]. split; [intros X; apply k_bad, B, X|]. split; [exact NB | exact C].
Qed.
Lemma k_ok : top <> [] -> op_failed g s top fl pf = false -> fl = false /\ pf = false /\ Forall (good s) all.
Proof.
  intros NE O. destruct k_main as (_ & _ & _ & C). unfold op_failed in O. apply orb_false_iff in O. destruct O as [L O].
  assert (P : pf = false) by (destruct top as [|t l]; [congruence|]; destruct pf; [discriminate O | reflexivity]).
  split; [exact L|]. split; [exact P|]. destruct C as [[_ [X|X]]|[D G]]; [congruence | congruence|]. apply Forall_app in D. destruct D as [D _]. apply Forall_app. split; [|exact (G P)].
  rewrite Forall_forall in D |- *. intros t T. destruct (D t T) as (r & E). destruct r as [x|]; [exists x; exact E|].
  assert (existsb (fun t => r_failed (report g s pf t)) top = true); [|congruence]. apply existsb_exists. exists t. split; [exact T|]. unfold report. rewrite P, E. reflexivity.
Qed.
Lemma k_fine : (forall t, In t all -> fine g t) -> op_failed g s top fl pf = false /\ fl = false /\ pf = false.
Proof.
  intros A. destruct k_main as (X & Y & _). destruct fl; [destruct (X eq_refl) as (t & T & N); destruct N; apply A, in_app_iff; left; exact T|].
  destruct pf; [destruct (Y eq_refl) as (t & T & N); destruct N; apply A, in_app_iff; right; exact T|]. split; [|split; reflexivity].
  unfold op_failed. cbn. destruct (existsb _ _) eqn:E; [|reflexivity]. apply existsb_exists in E. destruct E as (t & T & E). unfold report in E. destruct (st s t) as [|x q|r] eqn:ST.
  1-2: destruct (noop (g t)); discriminate E.
  destruct r as [[|]|]; try discriminate E. destruct (k_done t None ST). apply A, in_app_iff. left. exact T.
Qed.
End Finished.

(* The operation succeeds if and only if all targets and all post hoc prerequisites can
   be executed, with and without keep going and whatever the schedule. *)
Theorem C77_success g kg top posthoc n s fl pf : acyclic g -> top <> [] ->
  steps g kg n (init top posthoc) s -> mn s = Finished fl pf ->
  op_failed g s top fl pf = false <-> (forall t, In t (top ++ concat posthoc) -> fine g t).
Proof.
  intros AC NE R F. split.
  - intros O t T. destruct (k_ok g kg top posthoc n s AC R fl pf F NE O) as (_ & _ & G). rewrite Forall_forall in G. destruct (G t T) as (x & E). exists x. apply (k_done g kg top posthoc n s AC R t (Some x) E).
  - intros A. apply (k_fine g kg top posthoc n s AC R fl pf F A).
Qed.
Print Assumptions C77_success.

(* After success all that is needed has been executed, with the result it should have. *)
Theorem C77_complete g kg top posthoc n s fl pf : acyclic g -> top <> [] ->
  steps g kg n (init top posthoc) s -> mn s = Finished fl pf -> op_failed g s top fl pf = false ->
  forall t, needs g (top ++ concat posthoc) t ->
    (exists x, st s t = Executed (Some x) /\ result g t x) /\ (noop (g t) = false -> In t (log s)).
Proof.
  intros AC NE R F O t N. destruct (k_ok g kg top posthoc n s AC R fl pf F NE O) as (_ & _ & G).
  destruct (good_needs g kg top posthoc s (a_inv _ _ _ _ _ (all_steps _ _ _ _ _ _ R)) _ G t N) as [(x & E) L]. split; [|exact L].
  exists x. split; [exact E | apply (k_done g kg top posthoc n s AC R t (Some x) E)].
Qed.
Print Assumptions C77_complete.

(* What is reported about a target is true. *)
Definition truthful (g : nat -> target) (kg : bool) (top : list nat) (posthoc : list (list nat)) (t : nat) (r : reported) : Prop :=
  match r with
  | RChanged => result g t Changed
  | RUnchanged => result g t Unchanged
  | RFailed => exists u, In u (t :: concat posthoc) /\ ~ fine g u
  | RUnknown => kg = false /\ exists u, In u (top ++ concat posthoc) /\ ~ fine g u
  end.
Theorem C77_report g kg top posthoc n s fl pf t : acyclic g ->
  steps g kg n (init top posthoc) s -> mn s = Finished fl pf -> In t top -> truthful g kg top posthoc t (report g s pf t).
Proof.
  intros AC R F T. destruct (k_main g kg top posthoc n s AC R fl pf F) as (A & B & NB & C). unfold report. destruct pf.
  { destruct (B eq_refl) as (u & U & N). exists u. split; [right; exact U | exact N]. }
  pose proof (k_done g kg top posthoc n s AC R t) as D. destruct (st s t) as [|x q|[[|]|]] eqn:E.
  - destruct (noop (g t)) eqn:N; [apply res_noop; exact N|]. destruct C as [[-> [X|X]]|[DN _]]; [| discriminate |].
    + split; [reflexivity|]. destruct (A X) as (u & U & W). exists u. split; [apply in_app_iff; left; exact U | exact W].
    + rewrite Forall_forall in DN. destruct (DN t) as (r & Z); [apply in_app_iff; left; exact T | congruence].
  - destruct (NB t). exists x, q. exact E.
  - apply (D _ eq_refl).
  - apply (D _ eq_refl).
  - exists t. split; [left; reflexivity | apply (D _ eq_refl)].
Qed.
Print Assumptions C77_report.

(* At any time: a recipe is run once, if the target is needed, not noop and all its
   prerequisites can be executed, and after their recipes. *)
Theorem C77_recipes g kg top posthoc n s : acyclic g -> steps g kg n (init top posthoc) s ->
  NoDup (log s) /\
  (forall t, In t (log s) -> needs g (top ++ concat posthoc) t /\ noop (g t) = false /\ (forall p, In p (prereqs (g t)) -> fine g p)) /\
  (forall l1 t l2 p, log s = l1 ++ t :: l2 -> In p (prereqs (g t)) -> noop (g p) = false -> In p l2).
Proof.
  intros AC R. pose proof (a_inv _ _ _ _ _ (all_steps _ _ _ _ _ _ R)) as I. destruct (i_log _ _ _ _ I) as [ND O]. split; [exact ND|]. split; [|exact O].
  intros t T. pose proof (i_status _ _ _ _ I t) as S.
  assert (RF : forall f, results s f (prereqs (g t)) -> forall p, In p (prereqs (g t)) -> fine g p).
  { intros f RS p P. unfold results in RS. rewrite Forall_forall in RS. exists (f p). apply (k_done g kg top posthoc n s AC R p (Some (f p))). apply RS. exact P. }
  assert (ST : started s t -> needs g (top ++ concat posthoc) t) by apply (i_needs _ _ _ _ I). unfold started in ST.
  destruct (st s t) as [|x q|r] eqn:E; cbn in S.
  - contradiction.
  - destruct S as (N & _ & L & SO). split; [apply ST; discriminate|]. split; [exact N|]. apply L in T. destruct x; try contradiction. destruct SO as (f & RS & _). exact (RF f RS).
  - split; [apply ST; discriminate|]. unfold exec_ok in S. destruct (noop (g t)); [tauto|]. split; [reflexivity|]. destruct r as [x|].
    + destruct S as (f & RS & _). exact (RF f RS).
    + destruct S as [_ [[_ X]|(f & RS & _)]]; [contradiction | exact (RF f RS)].
Qed.
Print Assumptions C77_recipes.

(* With keep going nothing that could be done is left undone. *)
Theorem C77_keep_going g top posthoc n s fl pf t : acyclic g ->
  steps g true n (init top posthoc) s -> mn s = Finished fl pf ->
  needs g (top ++ concat posthoc) t -> noop (g t) = false -> (forall p, In p (prereqs (g t)) -> fine g p) -> In t (log s).
Proof.
  intros AC R F N NO FP. destruct (k_main g true top posthoc n s AC R fl pf F) as (_ & _ & NB & C). destruct C as [[X _]|[D _]]; [discriminate|].
  pose proof (a_inv _ _ _ _ _ (all_steps _ _ _ _ _ _ R)) as I.
  destruct (done_needs g true top posthoc s eq_refl I NB _ D t N) as (r & E). pose proof (i_status _ _ _ _ I t) as S. rewrite E in S. cbn in S. unfold exec_ok in S. rewrite NO in S. destruct r as [x|].
  - destruct S as (f & _ & _ & L). exact L.
  - destruct S as [_ [[(p & P & EP) _]|(f & _ & _ & L)]]; [|exact L]. destruct (k_done g true top posthoc n s AC R p None EP). apply FP. exact P.
Qed.
Print Assumptions C77_keep_going.

(* And so with keep going what is done and reported does not depend on the schedule. *)
Theorem C77_same g top posthoc n s fl pf n' s' fl' pf' : acyclic g ->
  steps g true n (init top posthoc) s -> mn s = Finished fl pf -> steps g true n' (init top posthoc) s' -> mn s' = Finished fl' pf' ->
  (forall t, In t (log s) <-> In t (log s')) /\
  (forall t, In t top -> report g s pf t = report g s' pf' t).
Proof.
  intros AC R F R' F'.
  assert (L : forall n s fl pf n' s', steps g true n (init top posthoc) s -> steps g true n' (init top posthoc) s' -> mn s' = Finished fl pf -> forall t, In t (log s) -> In t (log s')).
  { clear - AC. intros n s fl pf n' s' R R' F' t T. destruct (C77_recipes _ _ _ _ _ _ AC R) as (_ & H & _). destruct (H t T) as (A & B & C). eapply C77_keep_going; eassumption. }
  split; [intros t; split; [eapply L; eassumption | eapply L; eassumption]|]. intros t T.
  destruct (k_main g true top posthoc n s AC R fl pf F) as (_ & B & _ & [[X _]|[D G]]); [discriminate|].
  destruct (k_main g true top posthoc n' s' AC R' fl' pf' F') as (_ & B' & _ & [[X _]|[D' G']]); [discriminate|].
  assert (P : pf = pf').
  { destruct pf, pf'; try reflexivity.
    - destruct (B eq_refl) as (u & U & W). destruct W. specialize (G' eq_refl). rewrite Forall_forall in G'. destruct (G' u U) as (x & E). exists x. apply (k_done g true top posthoc n' s' AC R' u _ E).
    - destruct (B' eq_refl) as (u & U & W). destruct W. specialize (G eq_refl). rewrite Forall_forall in G. destruct (G u U) as (x & E). exists x. apply (k_done g true top posthoc n s AC R u _ E). }
  subst pf'. unfold report. destruct pf; [reflexivity|]. rewrite Forall_forall in D, D'.
  destruct (D t) as (r & E); [apply in_app_iff; left; exact T|]. destruct (D' t) as (r' & E'); [apply in_app_iff; left; exact T|].
  pose proof (k_done g true top posthoc n s AC R t r E) as K. pose proof (k_done g true top posthoc n' s' AC R' t r' E') as K'. rewrite E, E'.
  destruct r as [x|], r' as [x'|]; [rewrite (result_fun g t x K x' K'); reflexivity | destruct K'; exists x; exact K | destruct K; exists x'; exact K' | reflexivity].
Qed.
Print Assumptions C77_same.

(* When the operation has finished nothing is still being executed. *)
Theorem C77_quiet g kg top posthoc n s fl pf : acyclic g -> steps g kg n (init top posthoc) s -> mn s = Finished fl pf ->
  (forall t x q, st s t <> Busy x q) /\ forall s', ~ step g kg s s'.
Proof.
  intros AC R F. destruct (k_main g kg top posthoc n s AC R fl pf F) as (_ & _ & NB & _).
  assert (X : forall t x q, st s t <> Busy x q) by (intros t x q E; apply (NB t); exists x, q; exact E). split; [exact X|].
  intros s' S. destruct S; try (eapply X; eassumption); congruence.
Qed.
Print Assumptions C77_quiet.

(* It always can go on until it has finished, and does finish. *)
Theorem C77_progress g kg top posthoc n s : acyclic g -> steps g kg n (init top posthoc) s ->
  (exists s', step g kg s s') \/ exists fl pf, mn s = Finished fl pf.
Proof. intros AC R. apply (progress g kg top posthoc s AC (all_steps _ _ _ _ _ _ R)). Qed.
Print Assumptions C77_progress.
Theorem C77_ends g top posthoc : acyclic g -> exists bound, forall kg n s, steps g kg n (init top posthoc) s -> n <= bound.
Proof.
  intros AC. destruct (needs_finite g (concat (top :: posthoc)) AC) as (all & FA). exists (measure g all (init top posthoc)). intros kg n s R.
  pose proof (steps_bound g kg top posthoc n s AC all FA R). lia.
Qed.
Print Assumptions C77_ends.

(* 0 needs 1 and 2, 3 needs 2, 1 fails, 2 changes, 4 is noop. *)
Definition ex_g (t : nat) : target :=
  match t with
  | 0 => mktarget false [1; 2] Some
  | 1 => mktarget false [] (fun _ => None)
  | 2 => mktarget false [] (fun _ => Some Changed)
  | 3 => mktarget false [2; 4] Some
  | _ => mktarget true [] Some
  end.
Lemma ex_acyclic : acyclic ex_g.
Proof. exists (fun t => match t with 0 => 1 | 3 => 1 | _ => 0 end). intros [|[|[|[|t]]]] p; cbn; intuition subst; lia. Qed.
(* Tasks are queued, and the first target that can make a step makes it. *)
Definition ex_call (f : nat -> status) (p : nat) : called * (nat -> status) :=
  match f p with
  | Applied => if noop (ex_g p) then (Returned (Some Unchanged), upd f p (Executed (Some Unchanged))) else (Queued, upd f p (Busy (Starting (prereqs (ex_g p))) []))
  | Busy _ _ => (IsBusy, f)
  | Executed r => (Returned r, f)
  end.
Definition ex_frame (kg : bool) (s : mstate) (t : nat) : option mstate :=
  match st s t with
  | Busy (Starting (p :: ps)) q => let (c, f) := ex_call (st s) p in Some (mk (upd f t (after_call kg c p ps q)) (mn s) (log s))
  | Busy (Starting []) q => if forallb (fun p => is_executed (st s p)) q then Some (mk (upd (st s) t (Busy (Completing (prereqs (ex_g t)) Unchanged) q)) (mn s) (log s)) else None
  | Busy (Completing (p :: ps) r) q =>
      match st s p with
      | Executed (Some x) => Some (mk (upd (st s) t (Busy (Completing ps (merge r x)) q)) (mn s) (log s))
      | Executed None => Some (mk (upd (st s) t (Busy Unwinding q)) (mn s) (log s))
      | _ => None
      end
  | Busy (Completing [] r) q => Some (mk (upd (st s) t (Busy (Running r) q)) (mn s) (t :: log s))
  | Busy (Running r) q => Some (mk (upd (st s) t (Executed (own (ex_g t) r))) (mn s) (log s))
  | Busy Unwinding q => if forallb (fun p => is_executed (st s p)) q then Some (mk (upd (st s) t (Executed None)) (mn s) (log s)) else None
  | _ => None
  end.
Definition ex_main (kg : bool) (s : mstate) : option mstate :=
  match mn s with
  | Main top grp (MStarting (p :: ps)) q todo fl pf => let (c, f) := ex_call (st s) p in Some (mk f (m_after kg top grp c p ps q todo fl pf) (log s))
  | Main top grp (MStarting []) q todo fl pf => if forallb (fun p => is_executed (st s p)) q then Some (mk (st s) (m_waited kg (st s) top grp todo fl pf) (log s)) else None
  | _ => None
  end.
Definition ex_next (kg : bool) (s : mstate) : option mstate :=
  match find (fun t => match ex_frame kg s t with Some _ => true | None => false end) (seq 0 5) with
  | Some t => ex_frame kg s t
  | None => ex_main kg s
  end.
Fixpoint ex_run (kg : bool) (n : nat) (s : mstate) : option mstate :=
  match n with 0 => Some s | S n' => match ex_run kg n' s with Some s' => ex_next kg s' | None => None end end.
Lemma ex_call_ok f p : call ex_g f p (fst (ex_call f p)) (snd (ex_call f p)).
Proof.
  unfold ex_call. destruct (f p) as [|x q|r] eqn:E; [destruct (noop (ex_g p)) eqn:N; [apply call_noop | apply call_async]; assumption | eapply call_busy; exact E | eapply call_done; exact E].
Qed.
Lemma ex_frame_ok kg s t s' : ex_frame kg s t = Some s' -> step ex_g kg s s'.
Proof.
  unfold ex_frame. destruct (st s t) as [|[[|p ps]|p ps|[|p ps] r|r|] q|k] eqn:E; try discriminate.
  - destruct (forallb _ q) eqn:W; [|discriminate]. intros [= <-]. eapply s_wait; eassumption.
  - pose proof (ex_call_ok (st s) p) as C. destruct (ex_call (st s) p) as [c f]. cbn in C. intros [= <-]. eapply s_call; eassumption.
  - intros [= <-]. eapply s_run; eassumption.
  - destruct (st s p) as [| |[x|]] eqn:P; try discriminate; intros [= <-]; [eapply s_complete | eapply s_fail]; eassumption.
  - intros [= <-]. eapply s_end; eassumption.
  - destruct (forallb _ q) eqn:W; [|discriminate]. intros [= <-]. eapply s_unwind; eassumption.
Qed.
Lemma ex_run_ok kg n s s' : ex_run kg n s = Some s' -> steps ex_g kg n s s'.
Proof.
  revert s'. induction n as [|n IH]; intros s'; cbn; [intros [= <-]; constructor|]. destruct (ex_run kg n s) as [u|]; [|discriminate]. intros E. eapply steps_S; [apply IH; reflexivity|].
  unfold ex_next in E. destruct (find _ _) as [t|]; [eapply ex_frame_ok; exact E|]. unfold ex_main in E. destruct (mn u) as [tp grp [[|p ps]|p ps] q todo fl pf|fl pf] eqn:M; try discriminate.
  - destruct (forallb _ q) eqn:W; [|discriminate]. injection E as <-. eapply s_mwait; eassumption.
  - pose proof (ex_call_ok (st u) p) as C. destruct (ex_call (st u) p) as [c f]. cbn in C. injection E as <-. eapply s_mcall; eassumption.
Qed.
(* The steps until it has finished. *)
Fixpoint ex_all (kg : bool) (n k : nat) (s : mstate) : nat * mstate :=
  match n with 0 => (k, s) | S n' => match ex_next kg s with Some s' => ex_all kg n' (S k) s' | None => (k, s) end end.
Example C77_ex_keep_going : exists n s fl pf, steps ex_g true n (init [0; 1; 3] []) s /\ mn s = Finished fl pf /\
  map (report ex_g s pf) [0; 1; 3] = [RFailed; RFailed; RChanged] /\ In 2 (log s) /\ In 3 (log s) /\ ~ In 0 (log s) /\ op_failed ex_g s [0; 1; 3] fl pf = true.
Proof.
  set (k := fst (ex_all true 50 0 (init [0; 1; 3] []))). vm_compute in k. destruct (ex_run true k (init [0; 1; 3] [])) as [s|] eqn:E; [|vm_compute in E; discriminate].
  exists k, s. pose proof (ex_run_ok _ _ _ _ E) as S. vm_compute in E. injection E as <-. eexists. eexists. split; [exact S|]. split; [reflexivity|]. cbn. intuition discriminate.
Qed.
(* Without keep going the loop breaks if the failure is seen: here by executing 1 synchronously. *)
Example C77_ex_no_keep_going : exists n s fl pf, steps ex_g false n (init [1; 3] [[2]]) s /\ mn s = Finished fl pf /\
  map (report ex_g s pf) [1; 3] = [RFailed; RUnknown] /\ log s = [1] /\ op_failed ex_g s [1; 3] fl pf = true.
Proof.
  do 4 eexists. split.
  { eapply steps_S; [eapply steps_S; [eapply steps_S; [eapply steps_S; [eapply steps_S; [eapply steps_S; [apply steps_0|]|]|]|]|]|].
    - eapply s_mcall; [reflexivity | apply call_sync; reflexivity].
    - eapply (s_wait _ _ 1); reflexivity.
    - eapply (s_run _ _ 1); reflexivity.
    - eapply (s_end _ _ 1); reflexivity.
    - eapply s_mreturn; reflexivity.
    - eapply s_mwait; reflexivity. }
  repeat split.
Qed.
(* A failure of a task is not seen by the loop, and so post hoc prerequisites are
   executed also without keep going. *)
Example C77_ex_posthoc : exists n s pf, steps ex_g false n (init [1] [[2]]) s /\ mn s = Finished false pf /\ log s = [2; 1] /\ op_failed ex_g s [1] false pf = true.
Proof.
  set (k := fst (ex_all false 50 0 (init [1] [[2]]))). vm_compute in k. destruct (ex_run false k (init [1] [[2]])) as [s|] eqn:E; [|vm_compute in E; discriminate].
  exists k, s. pose proof (ex_run_ok _ _ _ _ E) as S. vm_compute in E. injection E as <-. eexists. split; [exact S|]. repeat split.
Qed.
Example C77_ex_success : exists n s fl pf, steps ex_g false n (init [3] [[2]]) s /\ mn s = Finished fl pf /\ op_failed ex_g s [3] fl pf = false /\ log s = [3; 2] /\ needs ex_g [3; 2] 4.
Proof.
  set (k := fst (ex_all false 50 0 (init [3] [[2]]))). vm_compute in k. destruct (ex_run false k (init [3] [[2]])) as [s|] eqn:E; [|vm_compute in E; discriminate].
  exists k, s. pose proof (ex_run_ok _ _ _ _ E) as S. vm_compute in E. injection E as <-. do 2 eexists. split; [exact S|]. repeat split. eapply (need_prereq _ _ 3); [apply need_top; left; reflexivity | reflexivity | right; left; reflexivity].
Qed.
