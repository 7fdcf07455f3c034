(* The test rule: the properties. *)
From Coq Require Import Lia.
From Verif Require Import Base TruleModel TruleSpec TruleProofs TruleProofs2 TruleProofs3.

(* --- apply () --- *)

Definition decided (update : bool) (t : target) : recipe :=
  let pass := map Some (pass_through t) in
  let n := length (pass_through t) in
  match t_test t, t_var t, scripts_of t, t_script t with
  | true, VFalse, _, _ | false, _, _, _ => match pass with [] => Noop | _ => Default pass end
  | true, _, (_ :: _) as l, _ => if update then Update n (pass ++ map Some l) l else Script n (pass ++ map Some l)
  | true, _, [], true => match pass with [] => Noop | _ => Default pass end
  | true, v, [], false =>
    match collect_io (t_prereqs t) None with
    | None => Fails
    | Some _ =>
      if has_io t || (match v with VOther => true | _ => false end) || t_args t then
        if update then Update n (pass ++ test_files t) (some_of (test_files t)) else Simple n (pass ++ test_files t)
      else match pass with [] => Noop | _ => Default pass end
    end
  end.

Lemma apply_decided u t : apply u t = decided u t.
Proof.
  unfold apply, decided. fold (pass_through t). rewrite map_length. rewrite collect_start. fold (scripts_of t).
  assert (N : forall {A} (r1 r2 : A), (if length (pass_through t) =? 0 then r1 else r2) = match map Some (pass_through t) with [] => r1 | _ => r2 end)
    by (intros A r1 r2; destruct (pass_through t); reflexivity).
  destruct (t_test t); cbn [negb andb].
  2: { rewrite N, app_nil_r. destruct (pass_through t); reflexivity. }
  destruct (scripts_of t) as [|x l]; cbn [negb andb].
  - destruct (t_script t); cbn [negb andb].
    + rewrite N, app_nil_r. destruct (t_var t), (pass_through t); reflexivity.
    + destruct (t_var t) eqn:V; cbn [negb andb]; rewrite ?N.
      * destruct (collect_io (t_prereqs t) None) as [io|] eqn:C; [|reflexivity].
        assert (P : ps_proper (t_prereqs t)) by (apply collect_io_bad; congruence). rewrite (collect_io_ok _ P) in C. injection C as <-.
        unfold test_files, io_files, has_io. destruct (existsb is_io (t_prereqs t)); cbn [negb andb orb].
        -- destruct u; reflexivity.
        -- destruct (t_args t); cbn [negb andb orb]; rewrite ?N, ?app_nil_r.
           ++ reflexivity.
           ++ destruct (pass_through t); reflexivity.
      * rewrite app_nil_r. destruct (pass_through t); reflexivity.
      * destruct (collect_io (t_prereqs t) None) as [io|] eqn:C; [|reflexivity].
        assert (P : ps_proper (t_prereqs t)) by (apply collect_io_bad; congruence). rewrite (collect_io_ok _ P) in C. injection C as <-.
        unfold test_files, io_files, has_io. destruct (existsb is_io (t_prereqs t)); cbn [negb andb orb].
        -- destruct u; reflexivity.
        -- rewrite app_nil_r. reflexivity.
  - destruct (t_var t); cbn [negb andb]; rewrite ?N, ?app_nil_r.
    + destruct u; cbn; rewrite ?some_of_map; reflexivity.
    + destruct (pass_through t); reflexivity.
    + destruct u; cbn; rewrite ?some_of_map; reflexivity.
Qed.

Lemma simple_flag t : has_io t || (match t_var t with VOther => true | _ => false end) || t_args t = true <->
  (has_io t = true \/ t_var t = VOther \/ t_args t = true).
Proof. destruct (has_io t), (t_var t), (t_args t); cbn; split; intros; auto; try discriminate; intuition discriminate. Qed.

(* --- perform_script () --- *)

Section Run.
Context (scripts : list script) (bf : before) (af : after) (keep_going dry_run inside : bool) (w0 : wdir).

Notation step := (step scripts bf af keep_going dry_run inside).
Notation run := (run scripts bf af keep_going dry_run inside).
Notation selected := (selected scripts dry_run).

(* A script is done as it does. *)
Definition Truth (s : state) : Prop := forall i x ok, nth_error (tasks s) i = Some (x, Done ok) -> ok = s_pass x.

Lemma main_tasks y s s' : step (Main y) s = Some s' -> tasks s' = tasks s \/ (exists x, tasks s' = tasks s ++ [(x, Ready)]) \/ tasks s' = [].
Proof.
  cbn [TruleModel.step]. intros H. destruct (at_ s) as [|todo|i todo| |r] eqn:P; try discriminate.
  - injection H as <-. unfold start. destruct (only None scripts) as [[o|]|]; auto. destruct (wd s); auto. destruct bf; auto.
  - destruct todo as [|x todo]; injection H as <-; [auto|]. unfold iterate. destruct (_ || _); [|auto]. destruct dry_run; [auto|]. cbn. eauto.
  - destruct (nth_error (tasks s) i) as [[x t]|]; [|discriminate]. destruct (finished t); [|discriminate]. injection H as <-. auto.
  - destruct (forallb _ _) eqn:F; [|discriminate]. injection H as <-. unfold finish. destruct (_ && _ && _ && _ && _); [|auto].
    destruct (wd s) as [| |[|e es]]; auto.
Qed.

Lemma truth ms s : run ms (init w0) = Some s -> Truth s.
Proof.
  apply run_inv; [|intros [|i] x ok H; discriminate]. clear ms s. intros m s s' T H. destruct m as [y|i|i].
  - intros i x ok N. destruct (main_tasks _ _ _ H) as [E|[(z & E)|E]]; rewrite E in N.
    + eapply T; eauto.
    + apply nth_app_last in N as [N|[_ N]]; [eapply T; eauto|discriminate].
    + destruct i; discriminate.
  - cbn [TruleModel.step] in H. destruct (nth_error (tasks s) i) as [[x [| | |]]|] eqn:N; try discriminate.
    assert (Q : forall ok, fst (enter scripts x (wd s)) <> Done ok) by (intros ok; unfold enter; destruct (one scripts), (wd s); cbn; try discriminate; destruct (mem _ _); discriminate).
    destruct (enter scripts x (wd s)) as [t w]. injection H as <-. intros j y ok M. cbn [tasks] in M.
    apply set_nth_cases in M as [(_ & Q' & _)|(_ & M)]; [injection Q' as -> <-; now destruct (Q ok)|eapply T; eauto].
  - cbn [TruleModel.step] in H. destruct (nth_error (tasks s) i) as [[x [| | |]]|] eqn:N; try discriminate.
    assert (Q : fst (leave scripts af x (wd s)) = Done (s_pass x)) by (unfold leave; destruct (s_pass x), af; reflexivity).
    destruct (leave scripts af x (wd s)) as [t w]. injection H as <-. intros j y ok M. cbn [tasks] in M.
    apply set_nth_cases in M as [(_ & Q' & _)|(_ & M)]; [cbn in Q; subst t; injection Q' as -> ->; reflexivity|eapply T; eauto].
Qed.

(* Every task is of one of the scripts. *)
Lemma tasks_sel ms s : run ms (init w0) = Some s -> exists rest, map fst (tasks s) ++ rest = selected.
Proof.
  intros R. destruct (reach_inv _ _ _ _ _ _ _ _ _ R) as [->|[(_ & T & _)|(_ & _ & rest & E & _)]].
  - cbn. eauto.
  - rewrite T. cbn. eauto.
  - eauto.
Qed.

Lemma task_in ms s i x t : run ms (init w0) = Some s -> nth_error (tasks s) i = Some (x, t) -> In x selected /\ nth_error selected i = Some x.
Proof.
  intros R N. destruct (tasks_sel _ _ R) as (rest & E). assert (M : nth_error (map fst (tasks s)) i = Some x) by (rewrite nth_error_map, N; reflexivity).
  assert (X : nth_error selected i = Some x). { rewrite <- E, nth_error_app1; [exact M|]. apply nth_error_Some. rewrite M. discriminate. }
  split; [eapply nth_error_In; eauto|exact X].
Qed.

(* Without the same names, anything left and an existing directory, no one is refused. *)
Definition Proper : Prop := NoDup (map s_name selected) /\ (forall x, In x selected -> s_litter x = None) /\ w1 dry_run inside w0 = NoDir.

Lemma no_refused ms s : Proper -> run ms (init w0) = Some s -> forall i x, nth_error (tasks s) i <> Some (x, Refused).
Proof.
  intros (ND & NL & W1). revert s. induction ms as [|m ms IH] using rev_ind; intros s R.
  - cbn in R. injection R as <-. intros [|i] x; discriminate.
  - rewrite run_app in R. destruct (run ms (init w0)) as [s1|] eqn:R1; [|discriminate]. specialize (IH _ eq_refl). cbn [TruleModel.run] in R.
    destruct (step m s1) as [s2|] eqn:H; [|discriminate]. injection R as <-. rename s1 into s. destruct m as [y|i|i].
    + intros i x N. destruct (main_tasks _ _ _ H) as [E|[(z & E)|E]]; rewrite E in N.
      * eapply IH; eauto.
      * apply nth_app_last in N as [N|[_ N]]; [eapply IH; eauto|discriminate].
      * destruct i; discriminate.
    + cbn [TruleModel.step] in H. destruct (nth_error (tasks s) i) as [[x [| | |]]|] eqn:N; try discriminate.
      enough (Q : fst (enter scripts x (wd s)) <> Refused).
      { destruct (enter scripts x (wd s)) as [t w]. injection H as <-. intros j y M. cbn [tasks] in M.
        apply set_nth_cases in M as [(_ & Q' & _)|(_ & M)]; [injection Q' as -> <-; now destruct Q|eapply IH; eauto]. }
      assert (NE : tasks s <> []) by (intros X; rewrite X in N; destruct i; discriminate).
      destruct (reach_cont _ _ _ _ _ _ _ _ _ R1) as [->|[(_ & T & _)|L]]; [now destruct NE|now destruct NE|].
      assert (NO : forall r, at_ s <> Over r).
      { intros r X. pose proof (reach_ended _ _ _ _ _ _ _ _ _ R1) as En. unfold Ended in En. rewrite X in En. destruct En as [En _].
        pose proof (forallb_nth _ _ _ _ En N) as Y. discriminate. }
      unfold enter. destruct (one scripts) eqn:O.
      * assert (Y : exists z, tasks s = [z]).
        { destruct (tasks_sel _ _ R1) as (rest & E). pose proof (proj1 (one_is _) O) as (z & S & _).
          assert (length selected <= 1). { unfold TruleProofs2.selected. rewrite S. destruct dry_run; cbn; [lia|]. destruct (to_run_b [z] z); cbn; lia. }
          rewrite <- E, app_length, map_length in H0. destruct (tasks s) as [|a [|a' l]]; cbn in H0; [now destruct NE|eauto|lia]. }
        destruct Y as ([z t] & Y). rewrite Y in N. destruct i as [|[|i]]; try discriminate. injection N as -> ->.
        pose proof (l_one _ _ _ _ _ _ L O _ _ Y) as W. cbn in W. rewrite W, W1. discriminate.
      * destruct (multi_open _ _ _ _ _ (l_multi _ _ _ _ _ _ L O NE) NO) as (es & W & E). rewrite W.
        destruct (mem (s_name x) es) eqn:M; [|discriminate]. exfalso. apply mem_In in M.
        destruct (e_why _ _ _ _ _ _ E _ M) as [(l & A & _)|[(j & y & t & A & B & C)|(j & y & ok & A & B)]].
        -- congruence.
        -- destruct (task_in _ _ _ _ _ R1 N) as [_ X1]. destruct (task_in _ _ _ _ _ R1 A) as [_ X2].
           assert (i = j). { rewrite NoDup_nth_error in ND. apply ND; [apply nth_error_Some; rewrite nth_error_map, X1; discriminate|].
             rewrite !nth_error_map, X1, X2. cbn. congruence. }
           subst j. rewrite N in A. injection A as <- <-. discriminate.
        -- destruct (task_in _ _ _ _ _ R1 A) as [X1 _]. rewrite (NL _ X1) in B. discriminate.
    + cbn [TruleModel.step] in H. destruct (nth_error (tasks s) i) as [[x [| | |]]|] eqn:N; try discriminate.
      assert (Q : fst (leave scripts af x (wd s)) = Done (s_pass x)) by (unfold leave; destruct (s_pass x), af; reflexivity).
      destruct (leave scripts af x (wd s)) as [t w]. injection H as <-. intros j y M. cbn [tasks] in M.
      apply set_nth_cases in M as [(_ & Q' & _)|(_ & M)]; [cbn in Q; subst t; discriminate|eapply IH; eauto].
Qed.

(* All that are to be run are run, unless one fails. *)
Lemma over_all ms s r : names_ok scripts -> wd_ok bf w0 -> run ms (init w0) = Some s -> at_ s = Over r ->
  map fst (tasks s) = selected \/ (keep_going = false /\ is_bad s).
Proof.
  intros NK WK R P. destruct (reach_inv _ _ _ _ _ _ _ _ _ R) as [->|[(_ & _ & _ & X)|(_ & _ & rest & E & A)]]; [discriminate|now destruct X|].
  rewrite P in A. destruct A as [->|A]; [|right; exact A]. rewrite app_nil_r in E. left. exact E.
Qed.

Lemma over_done ms s r i x t : run ms (init w0) = Some s -> at_ s = Over r -> nth_error (tasks s) i = Some (x, t) -> t = Refused \/ t = Done (s_pass x).
Proof.
  intros R P N. pose proof (reach_ended _ _ _ _ _ _ _ _ _ R) as En. unfold Ended in En. rewrite P in En. destruct En as [En _].
  pose proof (forallb_nth _ _ _ _ En N) as Y. cbn in Y. destruct t; try discriminate; [auto|]. right. f_equal. eapply truth; eauto.
Qed.

Lemma over_changed ms s : run ms (init w0) = Some s -> at_ s = Over Changed ->
  names_ok scripts /\ wd_ok bf w0 /\ map fst (tasks s) = selected /\ (forall i x t, nth_error (tasks s) i = Some (x, t) -> t = Done true /\ s_pass x = true).
Proof.
  intros R P. pose proof (reach_inv _ _ _ _ _ _ _ _ _ R) as [->|[(X & _)|(NK & WK & _)]]; [discriminate|congruence|].
  split; [exact NK|]. split; [exact WK|]. pose proof (reach_ended _ _ _ _ _ _ _ _ _ R) as En. unfold Ended in En. rewrite P in En. destruct En as [En B].
  specialize (B eq_refl). assert (NB : forall i x t, nth_error (tasks s) i = Some (x, t) -> bad t = false).
  { intros i x t N. destruct (bad t) eqn:Bt; [|reflexivity]. assert (Y : existsb (fun x => bad (snd x)) (tasks s) = true).
    { apply existsb_exists. exists (x, t). split; [eapply nth_error_In; eauto|exact Bt]. } congruence. }
  split.
  - destruct (over_all _ _ _ NK WK R P) as [E|[_ (i & x & t & N & Bt)]]; [exact E|]. rewrite (NB _ _ _ N) in Bt. discriminate.
  - intros i x t N. specialize (NB _ _ _ N). destruct (over_done _ _ _ _ _ _ R P N) as [-> | ->]; [discriminate|]. destruct (s_pass x); [auto|discriminate].
Qed.

Lemma over_failed ms s : names_ok scripts -> wd_ok bf w0 -> run ms (init w0) = Some s -> at_ s = Over Failed -> is_bad s \/ exists e es, wd s = Dir (e :: es) /\ one scripts = false /\ tasks s <> [] /\ dry_run = false /\ af = AClean.
Proof.
  intros NK WK. revert s. induction ms as [|m ms IH] using rev_ind; intros s R P.
  - cbn in R. injection R as <-. discriminate.
  - rewrite run_app in R. destruct (run ms (init w0)) as [s1|] eqn:R1; [|discriminate]. cbn [TruleModel.run] in R.
    destruct (step m s1) as [s2|] eqn:H; [|discriminate]. injection R as <-. pose proof (reach_inv _ _ _ _ _ _ _ _ _ R1) as I1.
    pose proof (reach_cont _ _ _ _ _ _ _ _ _ R1) as C1.
    assert (R2 : run (ms ++ [m]) (init w0) = Some s2) by (rewrite run_app, R1; cbn [TruleModel.run]; rewrite H; reflexivity).
    pose proof (reach_inv _ _ _ _ _ _ _ _ _ R2) as I2. destruct I2 as [->|[(_ & _ & _ & X)|(_ & _ & O2)]]; [discriminate|now destruct X|].
    destruct m as [y|i|i].
    + cbn [TruleModel.step] in H. destruct (at_ s1) as [|todo|i todo| |r] eqn:P1; try discriminate.
      * injection H as <-. destruct I1 as [->|[(Q & _)|(_ & _ & rest & _ & A)]]; [|congruence|rewrite P1 in A; now destruct A]. exfalso.
        unfold start in P. apply only_names in NK as (o & O). rewrite O in P. cbn [init wd] in P. destruct w0; try (cbn in WK; now destruct WK); try discriminate.
        cbn in WK. destruct bf; [now destruct WK|discriminate|discriminate].
      * destruct todo as [|x todo]; injection H as <-; [discriminate|]. exfalso. unfold iterate in P. destruct (_ || _); [|discriminate].
        destruct dry_run; [discriminate|]. cbn in P. destruct y; discriminate.
      * destruct (nth_error (tasks s1) i) as [[x t]|]; [|discriminate]. destruct (finished t); [|discriminate]. injection H as <-. cbn in P. destruct (_ && _); discriminate.
      * destruct (forallb _ _) eqn:F; [|discriminate]. injection H as <-. clear R2 O2. unfold finish in *.
        destruct (existsb (fun x => bad (snd x)) (tasks s1)) eqn:B.
        -- left. rewrite Bool.andb_false_r. cbn [andb]. unfold is_bad. cbn [with_pc tasks]. apply existsb_exists in B as ([x t] & X & Y). apply In_nth_error in X as (i & N). eauto.
        -- cbn [negb] in *. destruct (negb dry_run && true && negb (one scripts) && negb (mk s1) && match af with AClean => true | AKeep => false end) eqn:C; [|discriminate].
           apply andb_prop in C as [C K1]. apply andb_prop in C as [C K2]. apply andb_prop in C as [C K3]. apply andb_prop in C as [K4 _].
           apply Bool.negb_true_iff in K2, K3, K4. destruct (wd s1) as [| |[|e es]] eqn:W; try discriminate. right. cbn [with_pc wd tasks]. exists e, es. split; [exact W|].
           split; [exact K3|]. split; [|split; [exact K4|destruct af; [reflexivity|discriminate]]].
           intros T. destruct C1 as [->|[(C1 & _ & _)|L]]; [discriminate|congruence|]. destruct (l_none _ _ _ _ _ _ L T) as [A _]. rewrite K3 in A. cbn in A. congruence.
    + exfalso. cbn [TruleModel.step] in H. destruct (nth_error (tasks s1) i) as [[x [| | |]]|] eqn:N; try discriminate.
      destruct (enter scripts x (wd s1)) as [t w]. injection H as <-. cbn in P. pose proof (reach_ended _ _ _ _ _ _ _ _ _ R1) as En. unfold Ended in En. rewrite P in En.
      destruct En as [En _]. pose proof (forallb_nth _ _ _ _ En N) as Y. discriminate.
    + exfalso. cbn [TruleModel.step] in H. destruct (nth_error (tasks s1) i) as [[x [| | |]]|] eqn:N; try discriminate.
      destruct (leave scripts af x (wd s1)) as [t w]. injection H as <-. cbn in P. pose proof (reach_ended _ _ _ _ _ _ _ _ _ R1) as En. unfold Ended in En. rewrite P in En.
      destruct En as [En _]. pose proof (forallb_nth _ _ _ _ En N) as Y. discriminate.
Qed.
End Run.
