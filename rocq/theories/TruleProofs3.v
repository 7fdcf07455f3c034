(* Performing the scripts: what is in the working directory. *)
From Coq Require Import Lia.
From Verif Require Import Base TruleModel TruleSpec TruleProofs2.

Section Run.
Context (scripts : list script) (bf : before) (af : after) (keep_going dry_run inside : bool) (w0 : wdir).

Notation step := (step scripts bf af keep_going dry_run inside).
Notation run := (run scripts bf af keep_going dry_run inside).

(* Whether the working directory of the script is there. *)
Definition occ (t : task) : bool :=
  match t with Running => true | Done false => true | Done true => match af with AKeep => true | AClean => false end | _ => false end.

(* The working directory once started. *)
Definition w1 : wdir := match w0 with Dir es => if inside || dry_run then Dir es else NoDir | w => w end.

Record Ent (ts : list (script * task)) (es : list bytes) : Prop :=
  { e_there : forall i x t, nth_error ts i = Some (x, t) -> occ t = true -> In (s_name x) es;
    e_one : forall i j x y t u, nth_error ts i = Some (x, t) -> nth_error ts j = Some (y, u) -> occ t = true -> occ u = true -> s_name x = s_name y -> i = j;
    e_why : forall n, In n es -> (exists l, w1 = Dir l /\ In n l) \/ (exists i x t, nth_error ts i = Some (x, t) /\ occ t = true /\ s_name x = n) \/
              (exists i x ok, nth_error ts i = Some (x, Done ok) /\ s_litter x = Some n) }.

Definition OneW (t : task) (w : wdir) : Prop :=
  match t with
  | Ready => w = w1
  | Running => w1 = NoDir /\ w = Dir []
  | Refused => w1 <> NoDir /\ w = w1
  | Done ok => w1 = NoDir /\ w = (if occ t then Dir [] else NoDir)
  end.

Definition MultiW (s : state) : Prop :=
  match at_ s, af with
  | Over Changed, AClean => wd s = if inside then Dir [] else NoDir
  | _, _ => exists es, wd s = Dir es /\ Ent (tasks s) es
  end.

Record Live (s : state) : Prop :=
  { l_at : at_ s <> Start;
    l_dry : dry_run = true -> tasks s = [];
    l_none : tasks s = [] -> mk s = negb (one scripts) /\ wd s = w1;
    l_some : tasks s <> [] -> mk s = false;
    l_one : one scripts = true -> forall x t, tasks s = [(x, t)] -> OneW t (wd s);
    l_multi : one scripts = false -> tasks s <> [] -> MultiW s }.

Definition Cont (s : state) : Prop := s = init w0 \/ (at_ s = Over Failed /\ tasks s = [] /\ wd s = w0) \/ Live s.

Lemma ent_enter ts es i x : Ent ts es -> nth_error ts i = Some (x, Ready) -> ~ In (s_name x) es ->
  Ent (set_nth ts i (x, Running)) (s_name x :: es).
Proof.
  intros E N NI. assert (L : i < length ts) by (apply nth_error_Some; rewrite N; discriminate). split.
  - intros j y t H O. apply set_nth_cases in H as [(<- & Q & _)|(D & H)]; [injection Q as -> ->; left; reflexivity|]. right. eapply e_there; eauto.
  - intros j k y z t u Hj Hk Ot Ou S. apply set_nth_cases in Hj as [(<- & Q & _)|(D & Hj)]; apply set_nth_cases in Hk as [(<- & Q' & _)|(D' & Hk)].
    + reflexivity.
    + injection Q as -> ->. exfalso. apply NI. rewrite S. eapply e_there; eauto.
    + injection Q' as -> ->. exfalso. apply NI. rewrite <- S. eapply e_there; eauto.
    + eapply (e_one _ _ E); eauto.
  - intros n [<-|H].
    + right. left. exists i, x, Running. rewrite set_nth_same by exact L. auto.
    + destruct (e_why _ _ E n H) as [A|[(j & y & t & A & B & C)|(j & y & ok & A & B)]]; [left; exact A| |].
      * right. left. exists j, y, t. rewrite set_nth_other; [auto|]. intros <-. rewrite N in A. injection A as <- <-. discriminate.
      * right. right. exists j, y, ok. rewrite set_nth_other; [auto|]. intros <-. rewrite N in A. discriminate.
Qed.

Lemma ent_refuse ts es i x : Ent ts es -> nth_error ts i = Some (x, Ready) -> Ent (set_nth ts i (x, Refused)) es.
Proof.
  intros E N. assert (L : i < length ts) by (apply nth_error_Some; rewrite N; discriminate). split.
  - intros j y t H O. apply set_nth_cases in H as [(<- & Q & _)|(D & H)]; [injection Q as -> ->; discriminate|]. eapply e_there; eauto.
  - intros j k y z t u Hj Hk Ot Ou S. apply set_nth_cases in Hj as [(<- & Q & _)|(D & Hj)]; [injection Q as -> ->; discriminate|].
    apply set_nth_cases in Hk as [(<- & Q' & _)|(D' & Hk)]; [injection Q' as -> ->; discriminate|]. eapply (e_one _ _ E); eauto.
  - intros n H. destruct (e_why _ _ E n H) as [A|[(j & y & t & A & B & C)|(j & y & ok & A & B)]]; [left; exact A| |].
    + right. left. exists j, y, t. rewrite set_nth_other; [auto|]. intros <-. rewrite N in A. injection A as <- <-. discriminate.
    + right. right. exists j, y, ok. rewrite set_nth_other; [auto|]. intros <-. rewrite N in A. discriminate.
Qed.

Definition litter (x : script) (es : list bytes) : list bytes := match s_litter x with Some n => n :: es | None => es end.

Lemma litter_In x n es : In n (litter x es) <-> In n es \/ s_litter x = Some n.
Proof.
  unfold litter. destruct (s_litter x) as [k|]; cbn.
  - split; [intros [<-|H]; auto|intros [H|H]; [auto|injection H; auto]].
  - split; [auto|intros [H|H]; [exact H|discriminate]].
Qed.

(* The directory stays. *)
Lemma ent_stay ts es i x ok : Ent ts es -> nth_error ts i = Some (x, Running) -> occ (Done ok) = true ->
  Ent (set_nth ts i (x, Done ok)) (litter x es).
Proof.
  intros E N O1. assert (L : i < length ts) by (apply nth_error_Some; rewrite N; discriminate). split.
  - intros j y t H O. apply litter_In. left. apply set_nth_cases in H as [(<- & Q & _)|(D & H)].
    + injection Q as -> ->. apply (e_there _ _ E _ _ _ N). reflexivity.
    + eapply e_there; eauto.
  - intros j k y z t u Hj Hk Ot Ou S. apply set_nth_cases in Hj as [(<- & Q & _)|(D & Hj)]; apply set_nth_cases in Hk as [(<- & Q' & _)|(D' & Hk)].
    + reflexivity.
    + injection Q as -> ->. apply (e_one _ _ E _ _ _ _ _ _ N Hk eq_refl Ou S).
    + injection Q' as -> ->. apply (e_one _ _ E _ _ _ _ _ _ Hj N Ot eq_refl S).
    + eapply (e_one _ _ E); eauto.
  - intros n H. apply litter_In in H as [H|H].
    + destruct (e_why _ _ E n H) as [A|[(j & y & t & A & B & C)|(j & y & o & A & B)]]; [left; exact A| |].
      * right. left. destruct (Nat.eq_dec i j) as [<-|D].
        -- rewrite N in A. injection A as <- <-. exists i, x, (Done ok). rewrite set_nth_same by exact L. auto.
        -- exists j, y, t. rewrite set_nth_other by exact D. auto.
      * right. right. exists j, y, o. rewrite set_nth_other; [auto|]. intros <-. rewrite N in A. discriminate.
    + right. right. exists i, x, ok. rewrite set_nth_same by exact L. auto.
Qed.

(* The directory is removed. *)
Lemma ent_remove ts es i x : Ent ts es -> nth_error ts i = Some (x, Running) -> occ (Done true) = false ->
  Ent (set_nth ts i (x, Done true)) (remove (s_name x) (litter x es)).
Proof.
  intros E N O1. assert (L : i < length ts) by (apply nth_error_Some; rewrite N; discriminate). split.
  - intros j y t H O. apply set_nth_cases in H as [(<- & Q & _)|(D & H)]; [injection Q as -> ->; congruence|].
    apply remove_In. split; [apply litter_In; left; eapply e_there; eauto|]. intros S. apply D. symmetry. eapply (e_one _ _ E); eauto.
  - intros j k y z t u Hj Hk Ot Ou S. apply set_nth_cases in Hj as [(<- & Q & _)|(D & Hj)]; [injection Q as -> ->; congruence|].
    apply set_nth_cases in Hk as [(<- & Q' & _)|(D' & Hk)]; [injection Q' as -> ->; congruence|]. eapply (e_one _ _ E); eauto.
  - intros n H. apply remove_In in H as [H NN]. apply litter_In in H as [H|H].
    + destruct (e_why _ _ E n H) as [A|[(j & y & t & A & B & C)|(j & y & o & A & B)]]; [left; exact A| |].
      * right. left. destruct (Nat.eq_dec i j) as [<-|D].
        -- rewrite N in A. injection A as <- <-. congruence.
        -- exists j, y, t. rewrite set_nth_other by exact D. auto.
      * right. right. exists j, y, o. rewrite set_nth_other; [auto|]. intros <-. rewrite N in A. discriminate.
    + right. right. exists i, x, true. rewrite set_nth_same by exact L. auto.
Qed.

Lemma ent_add ts es x : Ent ts es -> Ent (ts ++ [(x, Ready)]) es.
Proof.
  intros E. split.
  - intros i y t H O. apply nth_app_last in H as [H|[_ H]]; [eapply e_there; eauto|injection H as -> ->; discriminate].
  - intros i j y z t u Hi Hj Ot Ou S. apply nth_app_last in Hi as [Hi|[_ Hi]]; [|injection Hi as -> ->; discriminate].
    apply nth_app_last in Hj as [Hj|[_ Hj]]; [|injection Hj as -> ->; discriminate]. eapply (e_one _ _ E); eauto.
  - assert (Q : forall i p, nth_error ts i = Some p -> nth_error (ts ++ [(x, Ready)]) i = Some p).
    { intros i p H. rewrite nth_error_app1; [exact H|]. apply nth_error_Some. rewrite H. discriminate. }
    intros n H. destruct (e_why _ _ E n H) as [A|[(j & y & t & A & B)|(j & y & o & A & B)]]; [left; exact A| |].
    + right. left. exists j, y, t. split; [apply Q, A|exact B].
    + right. right. exists j, y, o. split; [apply Q, A|exact B].
Qed.

Lemma ent_first x es : es = [] \/ w1 = Dir es -> Ent [(x, Ready)] es.
Proof.
  intros W. split.
  - intros [|[|i]] y t H O; cbn in H; try discriminate. injection H as <- <-. discriminate.
  - intros [|[|i]] j y z t u H _ O; cbn in H; try discriminate. injection H as <- <-. discriminate.
  - intros n H. left. destruct W as [->|W]; [destruct H|]. eauto.
Qed.

Lemma multi_open s : MultiW s -> (forall r, at_ s <> Over r) -> exists es, wd s = Dir es /\ Ent (tasks s) es.
Proof. unfold MultiW. intros M N. destruct (at_ s) as [| | | |[|]]; try exact M; now destruct (N Changed). Qed.

Lemma multi_make s : (forall r, at_ s <> Over r) -> (exists es, wd s = Dir es /\ Ent (tasks s) es) -> MultiW s.
Proof. unfold MultiW. intros N M. destruct (at_ s) as [| | | |[|]]; try exact M; now destruct (N Changed). Qed.

Lemma set_nonempty (s : state) i (p q : script * task) : nth_error (tasks s) i = Some p -> tasks s <> [] /\ set_nth (tasks s) i q <> [].
Proof.
  intros H. assert (A : tasks s <> []) by (intros E; rewrite E in H; destruct i; discriminate). split; [exact A|].
  intros X. apply A, length_zero_iff_nil. rewrite <- (set_nth_length (tasks s) i q), X. reflexivity.
Qed.

Lemma set_single (s : state) i (p q r : script * task) : nth_error (tasks s) i = Some p -> set_nth (tasks s) i q = [r] -> i = 0 /\ tasks s = [p] /\ r = q.
Proof.
  intros H E. assert (L : length (tasks s) = 1) by (rewrite <- (set_nth_length (tasks s) i q), E; reflexivity).
  destruct (tasks s) as [|a [|a' l]]; cbn in L; try discriminate. destruct i as [|i]; cbn in *; [|destruct i; discriminate].
  injection H as ->. injection E as ->. auto.
Qed.

Lemma live_task m s s' : Ended s -> Live s -> step m s = Some s' -> (forall y, m <> Main y) -> Live s'.
Proof.
  intros En [LA LD L0 L1 L2 L3] H NM.
  assert (NO : forall i p, nth_error (tasks s) i = Some p -> finished (snd p) = false -> forall r, at_ s <> Over r).
  { intros i p N F r X. unfold Ended in En. rewrite X in En. destruct En as [En _]. pose proof (forallb_nth _ _ _ _ En N) as Y. cbn in Y. congruence. }
  destruct m as [y|i|i]; cbn [TruleModel.step] in H; [now destruct (NM y)| |].
  - destruct (nth_error (tasks s) i) as [[x [| | |]]|] eqn:N; try discriminate. specialize (NO _ _ N eq_refl).
    destruct (set_nonempty s i _ (x, fst (enter scripts x (wd s))) N) as [NE NE'].
    destruct (enter scripts x (wd s)) as [t w] eqn:Et. injection H as <-. cbn [fst] in NE'. unfold enter in Et. split; cbn [tasks mk wd].
    + exact LA.
    + intros D. now destruct NE; apply LD.
    + intros X. now destruct NE'.
    + intros _. apply L1, NE.
    + intros O1 y u X. destruct (set_single _ _ _ _ _ N X) as (_ & X' & Q). injection Q as -> ->. specialize (L2 O1 _ _ X'). cbn in L2.
      rewrite O1 in Et. rewrite L2 in Et. destruct w1 eqn:W; injection Et as <- <-; cbn; rewrite W; auto; split; congruence.
    + intros O0 _. rewrite O0 in Et. destruct (multi_open _ (L3 O0 NE) NO) as (es & W & E). rewrite W in Et. apply multi_make; [exact NO|]. cbn [wd tasks].
      destruct (mem (s_name x) es) eqn:M; injection Et as <- <-.
      * exists es. split; [reflexivity|]. apply ent_refuse; assumption.
      * exists (s_name x :: es). split; [reflexivity|]. apply ent_enter; [assumption|assumption|]. intros X. apply mem_In in X. congruence.
  - destruct (nth_error (tasks s) i) as [[x [| | |]]|] eqn:N; try discriminate. specialize (NO _ _ N eq_refl).
    destruct (set_nonempty s i _ (x, fst (leave scripts af x (wd s))) N) as [NE NE'].
    destruct (leave scripts af x (wd s)) as [t w] eqn:Et. injection H as <-. cbn [fst] in NE'. unfold leave in Et. split; cbn [tasks mk wd].
    + exact LA.
    + intros D. now destruct NE; apply LD.
    + intros X. now destruct NE'.
    + intros _. apply L1, NE.
    + intros O1 y u X. destruct (set_single _ _ _ _ _ N X) as (_ & X' & Q). injection Q as -> ->. specialize (L2 O1 _ _ X'). cbn in L2.
      rewrite O1 in Et. destruct L2 as [A B]. rewrite B in Et. destruct (s_pass x).
      * destruct af eqn:F; injection Et as <- <-; cbn; rewrite F; auto.
      * injection Et as <- <-. cbn. auto.
    + intros O0 _. rewrite O0 in Et. destruct (multi_open _ (L3 O0 NE) NO) as (es & W & E). rewrite W in Et. apply multi_make; [exact NO|]. cbn [wd tasks].
      replace (match s_litter x with Some n => Dir (n :: es) | None => Dir es end) with (Dir (litter x es)) in Et
        by (unfold litter; destruct (s_litter x); reflexivity).
      destruct (s_pass x).
      * destruct af eqn:F; injection Et as <- <-.
        -- exists (remove (s_name x) (litter x es)). split; [reflexivity|]. apply ent_remove; [assumption|assumption|cbn; rewrite F; reflexivity].
        -- exists (litter x es). split; [reflexivity|]. apply ent_stay; [assumption|assumption|cbn; rewrite F; reflexivity].
      * injection Et as <- <-. exists (litter x es). split; [reflexivity|]. apply ent_stay; [assumption|assumption|reflexivity].
Qed.

Lemma live_pc c s : Live s -> (forall r, at_ s <> Over r) -> (forall r, c <> Over r) -> c <> Start -> Live (with_pc c s).
Proof.
  intros [LA LD L0 L1 L2 L3] N N' NS. split; cbn [with_pc tasks mk wd]; try assumption. intros O NE. apply multi_make; [exact N'|]. cbn.
  apply multi_open; [apply L3; assumption|exact N].
Qed.

Lemma w1_nd : wd_ok bf w0 -> w1 <> NotDir.
Proof. unfold w1, wd_ok. destruct w0; intros W; [discriminate|now destruct W|]. destruct (_ || _); discriminate. Qed.

Lemma live_main y s s' : wd_ok bf w0 -> Ended s -> Live s -> step (Main y) s = Some s' -> Live s'.
Proof.
  intros WK En L H. pose proof (l_at _ L) as NS. cbn [TruleModel.step] in H. destruct (at_ s) as [|todo|i todo| |r] eqn:P; try discriminate; [now destruct NS| | |].
  - assert (NO : forall r, at_ s <> Over r) by (intros r; rewrite P; discriminate).
    assert (Q : forall t, Live (with_pc (Loop t) s)) by (intros t; apply live_pc; [exact L|exact NO|discriminate|discriminate]).
    destruct todo as [|x todo]; injection H as <-; [apply live_pc; [exact L|exact NO|discriminate|discriminate]|].
    unfold iterate. destruct (_ || _); [|apply Q]. destruct dry_run eqn:D; [apply Q|]. destruct L as [LA LD L0 L1 L2 L3].
    assert (NO' : forall r, (if y then Sync (length (tasks s)) todo else Loop todo) <> Over r) by (intros r; destruct y; discriminate).
    split; cbn [at_ tasks mk wd].
    + destruct y; discriminate.
    + congruence.
    + intros X. apply app_eq_nil in X as [_ X]. discriminate.
    + reflexivity.
    + intros O z t X. destruct (tasks s) as [|p l] eqn:T.
      * cbn in X. injection X as <- <-. destruct (L0 eq_refl) as [A B]. rewrite A, O, B. reflexivity.
      * cbn in X. injection X as _ X. apply app_eq_nil in X as [_ X]. discriminate.
    + intros O _. apply multi_make; [exact NO'|]. cbn [wd tasks]. destruct (tasks s) as [|p l] eqn:T.
      * destruct (L0 eq_refl) as [A B]. rewrite A, O, B. cbn [negb app]. pose proof (w1_nd WK) as ND. destruct w1 as [| |es] eqn:W.
        -- exists []. split; [reflexivity|]. apply ent_first. left. reflexivity.
        -- now destruct ND.
        -- exists es. split; [reflexivity|]. apply ent_first. right. exact W.
      * rewrite <- T in *. assert (NE : tasks s <> []) by (rewrite T; discriminate). rewrite (L1 NE).
        destruct (multi_open _ (L3 O NE) NO) as (es & W & E). exists es. split; [exact W|]. apply ent_add, E.
  - assert (NO : forall r, at_ s <> Over r) by (intros r; rewrite P; discriminate).
    destruct (nth_error (tasks s) i) as [[x t]|]; [|discriminate]. destruct (finished t); [|discriminate]. injection H as <-.
    apply live_pc; [exact L|exact NO| |]; [intros r|]; destruct (_ && _); discriminate.
  - assert (NO : forall r, at_ s <> Over r) by (intros r; rewrite P; discriminate).
    destruct (forallb _ _) eqn:F; [|discriminate]. injection H as <-. unfold finish. destruct L as [LA LD L0 L1 L2 L3].
    destruct (negb dry_run && negb (existsb (fun x => bad (snd x)) (tasks s)) && negb (one scripts) && negb (mk s) &&
              match af with AClean => true | AKeep => false end) eqn:C.
    + apply andb_prop in C as [C C1]. apply andb_prop in C as [C C2]. apply andb_prop in C as [C C3]. apply andb_prop in C as [C4 C5].
      apply Bool.negb_true_iff in C2, C3. assert (NE : tasks s <> []).
      { intros T. destruct (L0 T) as [A _]. rewrite C3 in A. cbn in A. congruence. }
      destruct (multi_open _ (L3 C3 NE) NO) as (es & W & E). rewrite W. destruct es as [|e es].
      * split; cbn [at_ tasks mk wd]; [discriminate|exact LD|intros T; now destruct NE|intros _; exact C2|intros O; congruence|].
        intros _ _. unfold MultiW. cbn [at_ wd]. destruct af; [reflexivity|discriminate].
      * split; cbn [at_ with_pc tasks mk wd]; [discriminate|exact LD|intros T; now destruct NE|intros _; exact C2|intros O; congruence|].
        intros _ _. unfold MultiW. cbn [at_ wd with_pc tasks]. exists (e :: es). auto.
    + split; cbn [with_pc at_ tasks mk wd]; try assumption; [discriminate|]. intros O NE. destruct (multi_open _ (L3 O NE) NO) as (es & W & E).
      unfold MultiW. cbn [at_ wd with_pc tasks].
      destruct (existsb (fun x => bad (snd x)) (tasks s)) eqn:B; [eauto|]. cbn [negb andb] in C. rewrite O, (L1 NE) in C. cbn [negb andb] in C.
      rewrite !Bool.andb_true_r in C. destruct af; [|eauto]. destruct dry_run eqn:D; [|discriminate]. now destruct (NE (LD eq_refl)).
Qed.

Lemma start_cont : Cont (start scripts bf dry_run inside (init w0)).
Proof.
  unfold start. assert (Q : Cont (with_pc (Over Failed) (init w0))) by (right; left; cbn; auto).
  destruct (only None scripts) as [[o|]|] eqn:O; try exact Q.
  assert (OO : one scripts = o) by (unfold one; rewrite O; reflexivity).
  assert (R : forall w, w = w1 -> Cont (mkstate (Loop scripts) (negb o) [] w)).
  { intros w ->. right. right. split; cbn [tasks mk wd]; try congruence; try discriminate. rewrite OO. auto. }
  cbn [init wd]. destruct w0 as [| |es] eqn:W; try exact Q; [apply R; unfold w1; rewrite W; reflexivity|].
  destruct bf; [exact Q| |]; apply R; unfold w1; rewrite W; reflexivity.
Qed.

Lemma reach_cont ms s : run ms (init w0) = Some s -> Cont s.
Proof.
  intros R. enough (Inv scripts bf keep_going dry_run w0 s /\ Ended s /\ Cont s) by tauto.
  revert R. apply run_inv with (P := fun s => Inv scripts bf keep_going dry_run w0 s /\ Ended s /\ Cont s).
  2: { split; [left; reflexivity|]. split; [reflexivity|]. left. reflexivity. }
  clear s. intros m s s' (I & En & C) H. split; [eapply inv_step; eauto|]. split; [eapply ended_step; eauto|].
  destruct C as [->|[(P & T & W)|L]].
  - destruct m as [y|i|i]; cbn [TruleModel.step] in H; [|destruct i; discriminate|destruct i; discriminate].
    cbn in H. injection H as <-. apply start_cont.
  - exfalso. destruct m as [y|i|i]; cbn [TruleModel.step] in H; [rewrite P in H; discriminate| |]; rewrite T in H; destruct i; discriminate.
  - right. right. destruct m as [y|i|i]; [|eapply live_task; eauto; discriminate|eapply live_task; eauto; discriminate].
    destruct I as [->|[(P & _)|(_ & WK & O)]].
    + now destruct (l_at _ L).
    + exfalso. cbn in H. rewrite P in H. discriminate.
    + eapply live_main; eauto.
Qed.
End Run.
