(* The invariant of paths of targets. *)
From Verif Require Import Base PathModel PathSpec.

Lemma upd_same {A} (f : nat -> A) i x : upd f i x i = x.
Proof. unfold upd. now rewrite Nat.eqb_refl. Qed.

Lemma upd_other {A} (f : nat -> A) i x j : j <> i -> upd f i x j = f j.
Proof. intros H. unfold upd. apply Nat.eqb_neq in H. now rewrite H. Qed.

Section Inv.
Context (fs : bytes -> nat) (prog : nat -> list op).

(* Setting a path is under way (or has failed). *)
Definition setting (c : pc) : bool :=
  match c with Claimed _ | Writing _ | Wrote _ | Spin _ | Check _ _ | Ret _ | Dead => true | _ => false end.

Definition pc_ok (n : nat) (v : cell) (c : pc) : Prop :=
  match c with
  | Claimed p => n = 1 /\ to_set prog p
  | Writing p => n = 1 /\ to_set prog p
  | Wrote p => n = 1 /\ v = Val p /\ to_set prog p
  | Read | LPath true => n = 2
  | Ret p => n = 2 /\ v = Val p
  | Spin p => n <> 0 /\ to_set prog p
  | Check e p => e = 2 /\ n = 2 /\ to_set prog p
  | LStore _ => n = 2
  | Ready | Dead | LPath false => True
  end.

Definition ev_ok (n : nat) (v : cell) (e : event) : Prop :=
  match e with
  | EGet _ (Some w) => n = 2 /\ w = v
  | ESet _ p w => n = 2 /\ w = v /\ v = Val p
  | EFail _ (Some p) => n = 2 /\ v <> Val p /\ to_set prog p
  | _ => True
  end.

Record inv (s : state) : Prop := Inv {
  i_st : pst s <= 2;
  i_pc : forall i, pc_ok (pst s) (pval s) (fst (thr s i));
  i_one : forall i j, owner (fst (thr s i)) = true -> owner (fst (thr s j)) = true -> i = j;
  i_some : pst s = 1 -> exists i, owner (fst (thr s i)) = true;
  i_val : pst s = 2 -> exists p, pval s = Val p /\ to_set prog p;
  i_ev : forall e, In e (log s) -> ev_ok (pst s) (pval s) e;
  i_none : forall x i z, log s = x ++ EGet i None :: z -> forall e v, In e z -> ~ finds e v;
  i_prog : forall i, exists d, prog i = d ++ snd (thr s i) /\
             ((exists p, In (SetPath p) d) -> setting (fst (thr s i)) = false -> pst s = 2) }.

Lemma inv_start : inv (start prog).
Proof.
  constructor; cbn; try easy.
  - lia.
  - intros [|? x] i z E; discriminate E.
  - intros i. exists []. split; [reflexivity|]. intros [p []].
Qed.

(* A step of thread i to (c, r) that leaves the rest of the threads. *)
Lemma inv_step s i s' c r c' r' :
  inv s -> thr s i = (c, r) -> thr s' = upd (thr s) i (c', r') ->
  pst s' <= 2 ->
  pst s <= pst s' ->
  (pval s' = pval s \/ (owner c = true /\ pst s = 1)) ->
  (pst s' = pst s \/ (pst s = 0 /\ pst s' = 1 /\ owner c' = true) \/
   (pst s = 1 /\ pst s' = 2 /\ owner c = true /\ owner c' = false)) ->
  (owner c' = true -> owner c = true \/ pst s = 0) ->
  (owner c = true -> owner c' = true \/ pst s' = 2) ->
  pc_ok (pst s') (pval s') c' ->
  (pst s' = 2 -> exists p, pval s' = Val p /\ to_set prog p) ->
  (log s' = log s \/ exists e, log s' = e :: log s /\ ev_ok (pst s') (pval s') e /\
     (forall j, e = EGet j None -> pst s <> 2)) ->
  (exists d, prog i = d ++ r' /\
     ((exists p, In (SetPath p) d) -> setting c' = false -> pst s' = 2)) ->
  inv s'.
Proof.
  intros [A1 A2 A3 A4 A5 A6 A7 A8] Ti Ts Le2 Mono Vv Stt Own Rel Pc Val2 Lg Pr.
  assert (forall j, j <> i -> owner (fst (thr s j)) = true -> owner c = true -> False) as Other.
  { intros j Nj Oj Oc. apply Nj. apply A3; [easy|]. now rewrite Ti. }
  assert (forall j, owner (fst (thr s j)) = true -> pst s = 1) as Own1.
  { intros j Oj. specialize (A2 j). destruct (fst (thr s j)); cbn in *; try discriminate; tauto. }
  assert (forall e, In e (log s) -> ev_ok (pst s') (pval s') e) as Evs.
  { intros e I. specialize (A6 e I). destruct e as [j [w|]|j a w|j [p|]|j m]; cbn in *; try easy.
    - destruct A6 as [E1 E2]. destruct Vv as [-> |[_ V1]]; [|lia]. split; [lia|easy].
    - destruct A6 as [E1 E2]. destruct Vv as [-> |[_ V1]]; [|lia]. split; [lia|easy].
    - destruct A6 as [E1 E2]. destruct Vv as [-> |[_ V1]]; [|lia]. split; [lia|easy]. }
  constructor.
  - exact Le2.
  - intros j. rewrite Ts. destruct (Nat.eq_dec j i) as [-> |Nj]; [now rewrite upd_same|].
    rewrite upd_other by easy. pose proof (A2 j) as Pj.
    pose proof (Other j Nj) as Oj. pose proof (Own1 j) as Oj1.
    destruct (fst (thr s j)) as [| |p|p|p|p|e p|p|[]|m|]; cbn in *; try easy; try lia;
      try (specialize (Oj eq_refl)); try (specialize (Oj1 eq_refl)).
    + split; [|tauto]. destruct Stt as [E|[[E _]|[_ [_ [Oc _]]]]]; [lia|lia|tauto].
    + split; [|tauto]. destruct Stt as [E|[[E _]|[_ [_ [Oc _]]]]]; [lia|lia|tauto].
    + destruct Pj as [P1 [P2 P3]]. destruct Stt as [E|[[E _]|[_ [_ [Oc _]]]]]; [|lia|tauto].
      destruct Vv as [-> |[Oc _]]; [|tauto]. repeat split; [lia|easy|easy].
    + split; [lia|tauto].
    + repeat split; [tauto|lia|tauto].
    + destruct Vv as [-> |[_ V1]]; [|lia]. split; [lia|tauto].
  - intros j k Oj Ok. rewrite Ts in Oj, Ok.
    destruct (Nat.eq_dec j i) as [-> |Nj]; destruct (Nat.eq_dec k i) as [-> |Nk]; [easy| | |].
    + rewrite upd_same in Oj. rewrite upd_other in Ok by easy. cbn in Oj.
      exfalso. destruct (Own Oj) as [Oc|Z]; [now apply (Other k Nk)|]. specialize (Own1 k Ok). lia.
    + rewrite upd_same in Ok. rewrite upd_other in Oj by easy. cbn in Ok.
      exfalso. destruct (Own Ok) as [Oc|Z]; [now apply (Other j Nj)|]. specialize (Own1 j Oj). lia.
    + rewrite upd_other in Oj, Ok by easy. now apply A3.
  - intros E1. rewrite Ts. destruct Stt as [E|[[_ [_ Oc]]|[_ [E _]]]]; [|exists i; now rewrite upd_same|lia].
    destruct A4 as [j Oj]; [lia|]. destruct (Nat.eq_dec j i) as [-> |Nj].
    + exists i. rewrite upd_same. rewrite Ti in Oj. destruct (Rel Oj); [easy|lia].
    + exists j. now rewrite upd_other.
  - exact Val2.
  - intros e I. destruct Lg as [L|[e' [L [Ok _]]]]; rewrite L in I; [auto|].
    destruct I as [<-|I]; auto.
  - intros x j z E. destruct Lg as [L|[e' [L [_ Nn]]]]; rewrite L in E; [now apply (A7 x j z)|].
    destruct x as [|y x]; cbn in E; injection E as -> E; [|now apply (A7 x j z)].
    intros e v I F. rewrite <- E in I. specialize (A6 e I). specialize (Nn j eq_refl).
    inversion F; subst; cbn in A6; lia.
  - intros j. rewrite Ts. destruct (Nat.eq_dec j i) as [-> |Nj]; [now rewrite upd_same|].
    rewrite upd_other by easy. destruct (A8 j) as [d [E H]]. exists d. split; [easy|].
    intros Hp Hs. specialize (H Hp Hs). lia.
Qed.

Lemma in_prog_set s i p r : inv s -> snd (thr s i) = SetPath p :: r -> to_set prog p.
Proof.
  intros I E. destruct (i_prog s I i) as [d [Ed _]]. exists i. rewrite Ed, E.
  apply in_or_app. right. now left.
Qed.

Lemma pop (o : op) d r : d ++ o :: r = (d ++ [o]) ++ r.
Proof. now rewrite <- app_assoc. Qed.

Lemma pop_set (o : op) d : (forall p, o <> SetPath p) ->
  (exists p, In (SetPath p) (d ++ [o])) -> exists p, In (SetPath p) d.
Proof.
  intros H [p I]. apply in_app_or in I. destruct I as [I|[I|[]]]; [now exists p|]. destruct (H p I).
Qed.

Lemma step_inv i s : inv s -> inv (step fs i s).
Proof.
  intros I. pose proof (i_st s I) as A1. pose proof (i_pc s I i) as Pc. pose proof (i_val s I) as A5.
  destruct (i_prog s I i) as [d [Ed Hd]]. pose proof (in_prog_set s i) as Ips.
  unfold step. destruct (thr s i) as [c r] eqn:Ti. cbn [fst snd] in *.
  destruct c as [| |p|p|p|p|e p|p|b0|m|]; cbn [pc_ok setting] in *.
  - destruct r as [|[|p|m| |] r']; [exact I| | | | |].
    + destruct (pst s =? 2) eqn:E2.
      * apply Nat.eqb_eq in E2.
        eapply inv_step with (i := i) (c' := Read) (r' := r'); eauto; cbn; try lia; try tauto; try discriminate; auto.
        exists (d ++ [GetPath]). rewrite <- pop. split; [easy|]. intros; lia.
      * apply Nat.eqb_neq in E2.
        eapply inv_step with (i := i) (c' := Ready) (r' := r'); eauto; cbn; try lia; try tauto; try discriminate; auto.
        -- right. exists (EGet i None). repeat split; auto.
        -- exists (d ++ [GetPath]). rewrite <- pop. split; [easy|]. intros H _.
           apply Hd; [|reflexivity]. apply pop_set in H; [easy|discriminate].
    + assert (to_set prog p) as Tp by (eapply Ips; eauto).
      assert (prog i = (d ++ [SetPath p]) ++ r') as Ed' by now rewrite <- pop.
      destruct (pst s =? 0) eqn:E0.
      * apply Nat.eqb_eq in E0.
        eapply inv_step with (i := i) (c' := Claimed p) (r' := r'); eauto; cbn; try lia; try tauto; try discriminate; auto.
        all: (exists (d ++ [SetPath p]); split; [easy|discriminate]).
      * apply Nat.eqb_neq in E0. destruct (pst s =? 1) eqn:E1.
        -- apply Nat.eqb_eq in E1.
           eapply inv_step with (i := i) (c' := Spin p) (r' := r'); eauto; cbn; try lia; try tauto; try discriminate; auto.
           all: (exists (d ++ [SetPath p]); split; [easy|discriminate]).
        -- apply Nat.eqb_neq in E1. assert (pst s = 2) as E2 by lia.
           eapply inv_step with (i := i) (c' := Check (pst s) p) (r' := r'); eauto; cbn; try lia; try tauto; try discriminate; auto.
           all: (exists (d ++ [SetPath p]); split; [easy|discriminate]).
    + eapply inv_step with (i := i) (c' := Ready) (r' := r'); eauto; cbn; try lia; try tauto; try discriminate; auto.
      exists (d ++ [SetTime m]). rewrite <- pop. split; [easy|]. intros H _.
      apply Hd; [|reflexivity]. apply pop_set in H; [easy|discriminate].
    + eapply inv_step with (i := i) (c' := Ready) (r' := r'); eauto; cbn; try lia; try tauto; try discriminate; auto.
      * right. exists (ETime i (mt s)). repeat split; auto; discriminate.
      * exists (d ++ [GetTime]). rewrite <- pop. split; [easy|]. intros H _.
        apply Hd; [|reflexivity]. apply pop_set in H; [easy|discriminate].
    + eapply inv_step with (i := i) (c' := LPath (pst s =? 2)) (r' := r'); eauto; cbn; try lia; try tauto; try discriminate; auto.
      * destruct (pst s =? 2) eqn:E2; [now apply Nat.eqb_eq|easy].
      * exists (d ++ [LoadTime]). rewrite <- pop. split; [easy|]. intros H _.
        apply Hd; [|reflexivity]. apply pop_set in H; [easy|discriminate].
  - eapply inv_step with (i := i) (c' := Ready) (r' := r); eauto; cbn; try lia; try tauto; try discriminate; auto.
    + right. exists (EGet i (Some (pval s))). repeat split; auto; discriminate.
  - eapply inv_step with (i := i) (c' := Writing p) (r' := r); eauto; cbn; try lia; try tauto; try discriminate; auto.
    all: (exists d; split; [easy|discriminate]).
  - eapply inv_step with (i := i) (c' := Wrote p) (r' := r); eauto; cbn; try lia; try tauto; try discriminate; auto.
    all: (exists d; split; [easy|discriminate]).
  - destruct Pc as [P1 [P2 P3]].
    eapply inv_step with (i := i) (c' := Ret p) (r' := r); eauto; cbn; try lia; try tauto; try discriminate; auto.
    all: (exists d; split; [easy|discriminate]).
  - destruct (pst s =? 1) eqn:E1; [exact I|]. apply Nat.eqb_neq in E1.
    assert (pst s = 2) as E2 by lia.
    eapply inv_step with (i := i) (c' := Check (pst s) p) (r' := r); eauto; cbn; try lia; try tauto; try discriminate; auto.
    all: (exists d; split; [easy|discriminate]).
  - destruct Pc as [-> [P2 P3]]. cbn [Nat.eqb andb].
    destruct (A5 P2) as [q [Eq Tq]]. rewrite Eq. destruct (beqb q p) eqn:Eb.
    + eapply inv_step with (i := i) (c' := Ret p) (r' := r); eauto; cbn; try lia; try tauto; try discriminate; auto.
      apply beqb_eq in Eb. subst q. now split.
    + eapply inv_step with (i := i) (c' := Dead) (r' := r); eauto; cbn; try lia; try tauto; try discriminate; auto.
      * right. exists (EFail i (Some p)). repeat split; auto; try discriminate.
        intros E. rewrite Eq in E. injection E as ->. now rewrite beqb_refl in Eb.
  - eapply inv_step with (i := i) (c' := Ready) (r' := r); eauto; cbn; try lia; try tauto; try discriminate; auto.
    + right. exists (ESet i p (pval s)). split; [easy|]. split; [|discriminate]. cbn. tauto.
    + exists d. split; [easy|]. intros; tauto.
  - destruct (mt s) as [m|].
    + eapply inv_step with (i := i) (c' := Ready) (r' := r); eauto; cbn; try lia; try tauto; try discriminate; auto.
      right. exists (ETime i (Some m)). repeat split; auto; discriminate.
    + assert (inv (emit s i Dead r (EFail i None))) as Bad.
      { eapply inv_step with (i := i) (c' := Dead) (r' := r); eauto; cbn; try lia; try tauto; try discriminate; auto.
        - right. exists (EFail i None). repeat split; auto; discriminate.
      }
      destruct b0; [|exact Bad]. destruct (pval s) as [|[|c q]] eqn:Ev; [exact Bad|exact Bad|]. clear Bad.
      eapply inv_step with (i := i) (c' := LStore (fs (c :: q))) (r' := r); eauto; cbn; try lia; try tauto; try discriminate; auto.
      rewrite Ev. eauto.
  - eapply inv_step with (i := i) (c' := Ready) (r' := r); eauto; cbn; try lia; try tauto; try discriminate; auto.
    right. exists (ETime i (Some m)). repeat split; auto; discriminate.
  - exact I.
Qed.

Lemma exec_inv sched s : inv s -> inv (exec fs sched s).
Proof. revert s. induction sched as [|i r IH]; intros s I; cbn; [easy|]. apply IH. now apply step_inv. Qed.

Lemma run_inv sched : inv (exec fs sched (start prog)).
Proof. apply exec_inv, inv_start. Qed.
End Inv.
