(* Times are known only once the path is. *)
From Verif Require Import Base PathModel PathSpec PathProofs.

Section Time.
Context (fs : bytes -> nat) (prog : nat -> list op) (First : path_first prog).

Record tinv (s : state) : Prop := TInv {
  t_inv : inv prog s;
  t_mt : mt s <> None -> pst s = 2;
  t_ev : forall i m, In (ETime i (Some m)) (log s) -> pst s = 2;
  t_order : forall x i z, log s = x ++ EGet i None :: z ->
              forall j m, ~ In (ETime j (Some m)) z }.

Lemma tinv_start : tinv (start prog).
Proof.
  constructor; cbn; try easy.
  - apply inv_start.
  - intros [|? x] i z E; discriminate E.
Qed.

Lemma step_mono i s : pst s <= pst (step fs i s).
Proof.
  unfold step. destruct (thr s i) as [[| |p|p|p|p|e p|p|b0|m|] r]; cbn; try lia.
  - destruct r as [|[|p|m| |] r']; cbn; try lia.
    + destruct (pst s =? 2); cbn; lia.
    + destruct (pst s =? 0) eqn:E; [apply Nat.eqb_eq in E; cbn; lia|].
      destruct (pst s =? 1); cbn; lia.
  - destruct (pst s =? 1); cbn; lia.
  - destruct ((e =? 2) && _); cbn; lia.
  - destruct (mt s); cbn; [lia|]. destruct (if b0 then pval s else Val []) as [|[|c q]]; cbn; lia.
Qed.

(* What a step can add: to the log, and a time. *)
Lemma step_log i s : log (step fs i s) = log s \/
  exists e, log (step fs i s) = e :: log s /\
    (forall j, e = EGet j None -> pst s <> 2) /\
    (forall j m, e = ETime j (Some m) -> mt (step fs i s) = Some m).
Proof.
  unfold step. destruct (thr s i) as [[| |p|p|p|p|e p|p|b0|m|] r]; cbn; auto.
  - destruct r as [|[|p|m| |] r']; cbn; auto.
    + destruct (pst s =? 2) eqn:E; cbn; auto. apply Nat.eqb_neq in E.
      right. eexists. split; [reflexivity|]. split; [auto|discriminate].
    + destruct (pst s =? 0); cbn; auto. destruct (pst s =? 1); cbn; auto.
    + right. eexists. split; [reflexivity|]. split; [discriminate|]. intros j m E. now injection E as _ E.
  - right. eexists. split; [reflexivity|]. split; discriminate.
  - destruct (pst s =? 1); cbn; auto.
  - destruct ((e =? 2) && _); cbn; auto. right. eexists. split; [reflexivity|]. split; discriminate.
  - right. eexists. split; [reflexivity|]. split; discriminate.
  - destruct (mt s) eqn:M; cbn.
    + right. eexists. split; [reflexivity|]. split; [discriminate|]. intros j m E. now injection E as _ <-.
    + destruct (if b0 then pval s else Val []) as [|[|c q]]; cbn; auto;
        right; eexists; (split; [reflexivity|]); split; discriminate.
  - right. eexists. split; [reflexivity|]. split; [discriminate|]. intros j m' E. now injection E as _ <-.
Qed.

Lemma step_mt i s : mt (step fs i s) = mt s \/
  (exists m r, thr s i = (Ready, SetTime m :: r)) \/ (exists m r, thr s i = (LStore m, r)).
Proof.
  unfold step. destruct (thr s i) as [[| |p|p|p|p|e p|p|b0|m|] r]; cbn; eauto.
  - destruct r as [|[|p|m| |] r']; cbn; eauto.
    + destruct (pst s =? 2); cbn; auto.
    + destruct (pst s =? 0); cbn; auto. destruct (pst s =? 1); cbn; auto.
  - destruct (pst s =? 1); cbn; auto.
  - destruct ((e =? 2) && _); cbn; auto.
  - destruct (mt s) eqn:M; cbn; auto.
    destruct (if b0 then pval s else Val []) as [|[|c q]]; cbn; auto.
Qed.

Lemma step_tinv i s : tinv s -> tinv (step fs i s).
Proof.
  intros [I M E O]. pose proof (step_inv fs prog i s I) as I'.
  pose proof (step_mono i s) as Mo. pose proof (i_st prog _ I') as Le.
  assert (mt (step fs i s) <> None -> pst (step fs i s) = 2) as M'.
  { intros Hn. destruct (step_mt i s) as [Em|[[m [r T]]|[m [r T]]]].
    - rewrite Em in Hn. specialize (M Hn). lia.
    - destruct (i_prog prog s I i) as [d [Ed Hd]]. rewrite T in Ed, Hd. cbn in Ed, Hd.
      assert (pst s = 2); [|lia]. apply Hd; [|reflexivity]. now apply (First i d m r).
    - pose proof (i_pc prog s I i) as P. rewrite T in P. cbn in P. lia. }
  constructor; [easy|easy| |].
  - intros j m In'. destruct (step_log i s) as [L|[e [L [_ Ht]]]]; rewrite L in In'.
    + specialize (E j m In'). lia.
    + destruct In' as [->|In']; [|specialize (E j m In'); lia].
      apply M'. rewrite (Ht j m eq_refl). discriminate.
  - intros x j z El k m In'. destruct (step_log i s) as [L|[e [L [Hn _]]]]; rewrite L in El.
    + now apply (O x j z El k m).
    + destruct x as [|y x]; cbn in El; injection El as -> El; [|now apply (O x j z El k m)].
      apply (Hn j eq_refl). apply (E k m). now rewrite El.
Qed.

Lemma run_tinv sched : tinv (exec fs sched (start prog)).
Proof.
  assert (forall s, tinv s -> tinv (exec fs sched s)) as H.
  { induction sched as [|i r IH]; intros s T; cbn; [easy|]. apply IH. now apply step_tinv. }
  apply H, tinv_start.
Qed.
End Time.
