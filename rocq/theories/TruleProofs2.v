(* Performing the scripts: what holds in every state. *)
From Coq Require Import Lia.
From Verif Require Import Base TruleModel TruleSpec.

Lemma set_nth_length {A} (l : list A) : forall i a, length (set_nth l i a) = length l.
Proof. induction l as [|x l IH]; intros [|i] a; cbn; auto. Qed.

Lemma set_nth_same {A} (l : list A) : forall i a, i < length l -> nth_error (set_nth l i a) i = Some a.
Proof. induction l as [|x l IH]; intros [|i] a H; cbn in *; try lia; [reflexivity|]. apply IH. lia. Qed.

Lemma set_nth_other {A} (l : list A) : forall i j a, i <> j -> nth_error (set_nth l i a) j = nth_error l j.
Proof. induction l as [|x l IH]; intros [|i] [|j] a H; cbn; try reflexivity; try (now destruct H). apply IH. lia. Qed.

Lemma set_nth_map {A B} (f : A -> B) (l : list A) : forall i a x, nth_error l i = Some x -> f a = f x -> map f (set_nth l i a) = map f l.
Proof. induction l as [|y l IH]; intros [|i] a x H E; cbn in *; try discriminate; [injection H as ->; rewrite E; reflexivity|]. f_equal. eapply IH; eauto. Qed.

Lemma set_nth_cases {A} (l : list A) i a j y : nth_error (set_nth l i a) j = Some y -> (i = j /\ y = a /\ i < length l) \/ (i <> j /\ nth_error l j = Some y).
Proof.
  intros H. destruct (Nat.eq_dec i j) as [->|N].
  - left. assert (j < length l). { rewrite <- (set_nth_length l j a). apply nth_error_Some. rewrite H. discriminate. }
    rewrite set_nth_same in H by assumption. injection H as <-. auto.
  - right. rewrite set_nth_other in H by exact N. auto.
Qed.

Lemma nth_app_last {A} (l : list A) a i y : nth_error (l ++ [a]) i = Some y -> nth_error l i = Some y \/ (i = length l /\ y = a).
Proof.
  intros H. destruct (Nat.lt_ge_cases i (length l)) as [L|L].
  - left. rewrite nth_error_app1 in H by exact L. exact H.
  - right. rewrite nth_error_app2 in H by exact L. destruct (i - length l) as [|k] eqn:E; cbn in H; [|destruct k; discriminate].
    injection H as <-. split; [lia|reflexivity].
Qed.

Lemma mem_In n es : mem n es = true <-> In n es.
Proof.
  unfold mem. rewrite existsb_exists. split.
  - intros (x & Hx & E). apply beqb_eq in E as ->. exact Hx.
  - intros H. exists n. split; [exact H|]. apply beqb_eq. reflexivity.
Qed.

Lemma remove_In n x es : In x (remove n es) <-> In x es /\ x <> n.
Proof.
  unfold remove. rewrite filter_In. split; intros [A B]; split; try exact A.
  - intros ->. assert (X : beqb n n = true) by (apply beqb_eq; reflexivity). rewrite X in B. discriminate.
  - destruct (beqb n x) eqn:E; [apply beqb_eq in E; subst; now destruct B|reflexivity].
Qed.

(* The names. *)
Lemma only_false ss : forall r, only (Some false) ss = Some r -> r = Some false /\ forall x, In x ss -> s_name x <> b "testscript".
Proof.
  induction ss as [|x ss IH]; intros r; cbn [only].
  - intros H. injection H as <-. split; [reflexivity|]. intros x [].
  - destruct (beqb (s_name x) (b "testscript")) eqn:E; [discriminate|]. intros H. destruct (IH _ H) as [-> N]. split; [reflexivity|].
    intros y [<-|Y]; [|apply N, Y]. intros X. assert (beqb (s_name x) (b "testscript") = true) by (apply beqb_eq, X). congruence.
Qed.

Lemma only_names ss : (exists o, only None ss = Some (Some o)) <-> names_ok ss.
Proof.
  unfold names_ok, is_one. destruct ss as [|x ss]; cbn [only].
  - split; [intros (o & H); discriminate|intros [H _]; now destruct H].
  - destruct (beqb (s_name x) (b "testscript")) eqn:E.
    + apply beqb_eq in E. destruct ss as [|y ss]; cbn [only].
      * split; [|eauto]. intros _. split; [discriminate|]. left. eauto.
      * split; [intros (o & H); discriminate|]. intros [_ [(z & H & _)|H]]; [discriminate|]. exfalso. apply (H x); [left; reflexivity|exact E].
    + split.
      * intros (o & H). apply only_false in H as [_ N]. split; [discriminate|]. right. intros y [<-|Y]; [|apply N, Y].
        intros X. assert (beqb (s_name x) (b "testscript") = true) by (apply beqb_eq, X). congruence.
      * intros [_ [(z & H & Z)|H]].
        -- injection H as -> ->. assert (beqb (s_name z) (b "testscript") = true) by (apply beqb_eq, Z). congruence.
        -- clear E. assert (N : forall y, In y ss -> s_name y <> b "testscript") by (intros y Y; apply H; right; exact Y). clear H x.
           exists false. induction ss as [|y ss IH]; [reflexivity|]. cbn [only]. destruct (beqb (s_name y) (b "testscript")) eqn:E.
           ++ apply beqb_eq in E. exfalso. apply (N y); [left; reflexivity|exact E].
           ++ apply IH. intros z Z. apply N. right. exact Z.
Qed.

Lemma one_is ss : one ss = true <-> is_one ss.
Proof.
  unfold one, is_one. split.
  - destruct ss as [|x ss]; cbn [only]; [discriminate|]. destruct (beqb (s_name x) (b "testscript")) eqn:E.
    + apply beqb_eq in E. destruct ss; cbn [only]; [|discriminate]. eauto.
    + destruct (only (Some false) ss) as [r|] eqn:O; [|discriminate]. apply only_false in O as [-> _]. discriminate.
  - intros (x & -> & E). cbn [only]. assert (beqb (s_name x) (b "testscript") = true) as -> by (apply beqb_eq, E). reflexivity.
Qed.

Section Run.
Context (scripts : list script) (bf : before) (af : after) (keep_going dry_run inside : bool).

Notation step := (step scripts bf af keep_going dry_run inside).
Notation run := (run scripts bf af keep_going dry_run inside).

Lemma run_inv (P : state -> Prop) : (forall m s s', P s -> step m s = Some s' -> P s') -> forall ms s s', P s -> run ms s = Some s' -> P s'.
Proof.
  intros H. induction ms as [|m ms IH]; cbn [TruleModel.run]; intros s s' Hs R.
  - injection R as <-. exact Hs.
  - destruct (step m s) as [s1|] eqn:E; [|discriminate]. apply (IH s1); [eapply H; eauto|exact R].
Qed.

Definition to_run_b (x : script) : bool := one scripts || s_selected x.
Definition selected : list script := if dry_run then [] else filter to_run_b scripts.

Definition is_after (s : state) : Prop := at_ s <> Start.
Definition is_bad (s : state) : Prop := exists i x t, nth_error (tasks s) i = Some (x, t) /\ bad t = true.

(* What has been started and what remains. *)
Definition Order (s : state) : Prop :=
  exists rest, map fst (tasks s) ++ rest = selected /\
  match at_ s with
  | Loop todo => rest = if dry_run then [] else filter to_run_b todo
  | Sync i todo => rest = (if dry_run then [] else filter to_run_b todo) /\ i < length (tasks s)
  | Waiting => rest = [] \/ (keep_going = false /\ is_bad s)
  | Over _ => rest = [] \/ (keep_going = false /\ is_bad s)
  | Start => False
  end.

(* Started with nothing done, not able to start or started. *)
Definition Inv (w0 : wdir) (s : state) : Prop :=
  (s = init w0) \/ (at_ s = Over Failed /\ tasks s = [] /\ wd s = w0 /\ ~ (names_ok scripts /\ wd_ok bf w0)) \/
  (names_ok scripts /\ wd_ok bf w0 /\ Order s).

Lemma bad_set s i x t t' at' mk' wd' : nth_error (tasks s) i = Some (x, t) -> finished t = false -> is_bad s ->
  is_bad (mkstate at' mk' (set_nth (tasks s) i (x, t')) wd').
Proof.
  intros N F (j & y & u & H & B). unfold is_bad. cbn [tasks]. assert (i <> j). { intros ->. rewrite N in H. injection H as -> ->. destruct u; discriminate. }
  exists j, y, u. rewrite set_nth_other by assumption. auto.
Qed.

Lemma order_set s i x t t' wd' : nth_error (tasks s) i = Some (x, t) -> finished t = false -> Order s ->
  Order (mkstate (at_ s) (mk s) (set_nth (tasks s) i (x, t')) wd').
Proof.
  intros N F (rest & E & A). exists rest. cbn [at_ tasks]. split; [rewrite (set_nth_map fst _ _ _ _ N) by reflexivity; exact E|].
  destruct (at_ s); try exact A.
  - rewrite set_nth_length. exact A.
  - destruct A as [A|[A B]]; [left; exact A|right]. split; [exact A|]. eapply bad_set; eauto.
  - destruct A as [A|[A B]]; [left; exact A|right]. split; [exact A|]. eapply bad_set; eauto.
Qed.

Lemma order_main sync s s' : Order s -> step (Main sync) s = Some s' -> Order s'.
Proof.
  intros (rest & E & A) H. cbn [TruleModel.step] in H. destruct (at_ s) as [|todo|i todo| |r] eqn:P; try discriminate.
  - now destruct A.
  - destruct todo as [|x todo]; injection H as <-.
    + exists rest. cbn. split; [exact E|]. left. destruct dry_run; [exact A|exact A].
    + unfold iterate. fold (to_run_b x). cbn [filter] in A. destruct (to_run_b x) eqn:T.
      * destruct dry_run eqn:D; [exists rest; cbn; rewrite D; split; [exact E|exact A]|].
        exists (filter to_run_b todo). cbn [tasks at_]. split.
        -- rewrite map_app, <- app_assoc. cbn. rewrite <- A. exact E.
        -- rewrite D. destruct sync; [split; [reflexivity|]|reflexivity]. rewrite app_length. cbn. lia.
      * exists rest. cbn. split; [exact E|]. exact A.
  - destruct A as [A L]. destruct (nth_error (tasks s) i) as [[x t]|] eqn:N; [|discriminate]. destruct (finished t) eqn:F; [|discriminate].
    injection H as <-. destruct (bad t) eqn:B; cbn [andb].
    + destruct keep_going eqn:K; cbn [negb]; (exists rest; cbn [at_ with_pc]; split; [exact E|]); [exact A|]. right. split; [exact K|].
      exists i, x, t. auto.
    + exists rest. cbn. split; [exact E|exact A].
  - destruct (forallb _ _); [|discriminate]. injection H as <-. assert (Q : forall r m w, Order (mkstate (Over r) m (tasks s) w)).
    { intros r m w. exists rest. cbn [at_ tasks]. split; [exact E|exact A]. }
    unfold finish, with_pc. destruct (_ && _ && _ && _ && _); [|apply Q]. destruct (wd s) as [| |[|e es]]; apply Q.
Qed.

Lemma start_inv w0 : Inv w0 (start scripts bf dry_run inside (init w0)).
Proof.
  unfold start. destruct (only None scripts) as [[o|]|] eqn:O.
  - assert (NK : names_ok scripts) by (apply only_names; eauto).
    assert (Q : forall m w, Order (mkstate (Loop scripts) m [] w)) by (intros m w; exists selected; cbn; split; [reflexivity|reflexivity]).
    cbn [init wd]. destruct w0 as [| |es].
    + right. right. split; [exact NK|]. split; [exact Logic.I|]. apply Q.
    + right. left. cbn. repeat split. intros [_ []].
    + destruct bf eqn:B; [right; left; cbn; repeat split; intros [_ X]; apply X, B| |]; (right; right; split; [exact NK|]; split; [cbn; congruence|apply Q]).
  - right. left. cbn. repeat split. intros [X _]. apply only_names in X as (o & X). congruence.
  - right. left. cbn. repeat split. intros [X _]. apply only_names in X as (o & X). congruence.
Qed.

Lemma inv_step w0 m s s' : Inv w0 s -> step m s = Some s' -> Inv w0 s'.
Proof.
  intros [->|[(P & T & W & N)|(NK & WK & O)]] H.
  - destruct m as [y|i|i]; cbn [TruleModel.step] in H.
    + cbn in H. injection H as <-. apply start_inv.
    + destruct i; discriminate.
    + destruct i; discriminate.
  - exfalso. destruct m as [y|i|i]; cbn [TruleModel.step] in H.
    + rewrite P in H. discriminate.
    + rewrite T in H. destruct i; discriminate.
    + rewrite T in H. destruct i; discriminate.
  - right. right. split; [exact NK|]. split; [exact WK|]. destruct m as [y|i|i].
    + eapply order_main; eauto.
    + cbn [TruleModel.step] in H. destruct (nth_error (tasks s) i) as [[x [| | |]]|] eqn:N; try discriminate.
      destruct (enter scripts x (wd s)) as [t w]. injection H as <-. eapply order_set; eauto.
    + cbn [TruleModel.step] in H. destruct (nth_error (tasks s) i) as [[x [| | |]]|] eqn:N; try discriminate.
      destruct (leave scripts af x (wd s)) as [t w]. injection H as <-. eapply order_set; eauto.
Qed.

Lemma reach_inv w0 ms s : run ms (init w0) = Some s -> Inv w0 s.
Proof. apply run_inv; [apply inv_step|]. left. reflexivity. Qed.

(* Nothing is run any more when it is over, and the result is as follows. *)
Definition Ended (s : state) : Prop :=
  match at_ s with
  | Start => tasks s = []
  | Over r => forallb (fun x => finished (snd x)) (tasks s) = true /\ (r = Changed -> existsb (fun x => bad (snd x)) (tasks s) = false)
  | _ => True
  end.

Lemma forallb_nth {A} (f : A -> bool) l i x : forallb f l = true -> nth_error l i = Some x -> f x = true.
Proof. intros H N. rewrite forallb_forall in H. apply H. eapply nth_error_In; eauto. Qed.

Lemma ended_task m s s' : Ended s -> step m s = Some s' -> (forall y, m <> Main y) -> Ended s'.
Proof.
  intros I H NM. assert (Q : forall i x t t' w, nth_error (tasks s) i = Some (x, t) -> finished t = false ->
    Ended (mkstate (at_ s) (mk s) (set_nth (tasks s) i (x, t')) w)).
  { intros i x t t' w N F. unfold Ended in *. cbn [at_ tasks]. destruct (at_ s); try exact Logic.I.
    - rewrite I in *. reflexivity.
    - exfalso. destruct I as [I _]. pose proof (forallb_nth _ _ _ _ I N) as X. cbn in X. congruence. }
  destruct m as [y|i|i]; cbn [TruleModel.step] in H; [now destruct (NM y)| |].
  - destruct (nth_error (tasks s) i) as [[x [| | |]]|] eqn:N; try discriminate.
    destruct (enter scripts x (wd s)) as [t w]. injection H as <-. eapply Q; eauto.
  - destruct (nth_error (tasks s) i) as [[x [| | |]]|] eqn:N; try discriminate.
    destruct (leave scripts af x (wd s)) as [t w]. injection H as <-. eapply Q; eauto.
Qed.

Lemma ended_step m s s' : Ended s -> step m s = Some s' -> Ended s'.
Proof.
  intros I H. destruct m as [y|i|i]; [|eapply ended_task; eauto; discriminate|eapply ended_task; eauto; discriminate].
  cbn [TruleModel.step] in H. destruct (at_ s) as [|todo|i todo| |r] eqn:P; try discriminate.
  - injection H as <-. unfold Ended in I. rewrite P in I.
    assert (Q : Ended (with_pc (Over Failed) s)) by (unfold Ended; cbn; rewrite I; split; [reflexivity|discriminate]).
    unfold start. destruct (only None scripts) as [[o|]|]; try exact Q. destruct (wd s); try exact Q; [exact Logic.I|].
    destruct bf; try exact Q; exact Logic.I.
  - destruct todo as [|x todo]; injection H as <-; [exact Logic.I|]. unfold iterate.
    destruct (_ || _); [|exact Logic.I]. destruct dry_run; [exact Logic.I|]. destruct y; exact Logic.I.
  - destruct (nth_error (tasks s) i) as [[x t]|]; [|discriminate]. destruct (finished t); [|discriminate]. injection H as <-.
    destruct (_ && _); exact Logic.I.
  - destruct (forallb _ _) eqn:F; [|discriminate]. injection H as <-. unfold finish.
    destruct (existsb (fun x => bad (snd x)) (tasks s)) eqn:B.
    + rewrite Bool.andb_false_r. cbn [andb]. unfold Ended. cbn. split; [exact F|discriminate].
    + assert (Q : forall r mk' w, Ended (mkstate (Over r) mk' (tasks s) w)) by (intros; unfold Ended; cbn; auto).
      destruct (_ && _ && _ && _ && _); [|apply Q]. destruct (wd s) as [| |[|e es]]; apply Q.
Qed.

Lemma reach_ended w0 ms s : run ms (init w0) = Some s -> Ended s.
Proof. apply run_inv; [apply ended_step|]. reflexivity. Qed.

Lemma selected_In x : dry_run = false -> In x selected <-> to_run scripts x.
Proof.
  intros D. unfold selected, to_run. rewrite D, filter_In. unfold to_run_b. rewrite Bool.orb_true_iff, one_is. reflexivity.
Qed.

(* --- No waiting for ever --- *)
Lemma progress w0 ms s : run ms (init w0) = Some s -> (exists r, at_ s = Over r) \/ exists m s', step m s = Some s'.
Proof.
  intros R. pose proof (reach_inv _ _ _ R) as [->|[(P & _)|(_ & _ & (rest & E & A))]]; [right; exists (Main true); eexists; reflexivity|eauto|].
  assert (T : forall i x t, nth_error (tasks s) i = Some (x, t) -> finished t = false -> exists m s', step m s = Some s').
  { intros i x [| | |] N F; try discriminate.
    - exists (Enter i). cbn. rewrite N. destruct (enter scripts x (wd s)). eauto.
    - exists (Leave i). cbn. rewrite N. destruct (leave scripts af x (wd s)). eauto. }
  destruct (at_ s) as [|todo|i todo| |r] eqn:P; [now destruct A| | | |eauto]; right.
  - exists (Main true). cbn. rewrite P. destruct todo; eauto.
  - destruct A as [_ L]. destruct (nth_error (tasks s) i) as [[x t]|] eqn:N.
    2: { apply nth_error_None in N. lia. }
    destruct (finished t) eqn:F; [|eapply T; eauto]. exists (Main true). cbn. rewrite P, N, F. eauto.
  - destruct (forallb (fun x => finished (snd x)) (tasks s)) eqn:F.
    + exists (Main true). cbn. rewrite P, F. eauto.
    + assert (X : exists p, In p (tasks s) /\ finished (snd p) = false).
      { clear -F. induction (tasks s) as [|p l IH]; cbn in F; [discriminate|]. destruct (finished (snd p)) eqn:E; [|exists p; split; [left; reflexivity|exact E]].
        destruct (IH F) as (q & Q & X). exists q. split; [right; exact Q|exact X]. }
      destruct X as ([x t] & X & Y). apply In_nth_error in X as (i & N). eapply T; eauto.
Qed.

(* --- Nor going on for ever --- *)
Definition task_left (t : task) : nat := match t with Ready => 2 | Running => 1 | _ => 0 end.
Definition pc_left (c : pc) : nat :=
  match c with
  | Start => 3 + 4 * length scripts
  | Loop l => 2 + 4 * length l
  | Sync _ l => 3 + 4 * length l
  | Waiting => 1
  | Over _ => 0
  end.
Definition left_over (s : state) : nat := pc_left (at_ s) + list_sum (map (fun x => task_left (snd x)) (tasks s)).

Lemma sum_set l : forall i (x : script) t t', nth_error l i = Some (x, t) ->
  list_sum (map (fun x => task_left (snd x)) (set_nth l i (x, t'))) + task_left t = list_sum (map (fun x => task_left (snd x)) l) + task_left t'.
Proof.
  induction l as [|y l IH]; intros [|i] x t t' H; cbn in *; try discriminate.
  - injection H as ->. cbn. lia.
  - pose proof (IH i x t t' H) as X. unfold list_sum in X. lia.
Qed.

Lemma step_less w0 ms m s s' : run ms (init w0) = Some s -> step m s = Some s' -> left_over s' < left_over s.
Proof.
  intros R H. pose proof (reach_ended _ _ _ R) as En. unfold left_over. destruct m as [y|i|i]; cbn [TruleModel.step] in H.
  - destruct (at_ s) as [|todo|i todo| |r] eqn:P; try discriminate.
    + injection H as <-. unfold Ended in En. rewrite P in En. unfold start, with_pc.
      destruct (only None scripts) as [[o|]|]; try (cbn -[list_sum]; rewrite En; cbn; lia). destruct (wd s); try (cbn -[list_sum]; rewrite En; cbn; lia).
      destruct bf; cbn -[list_sum]; rewrite En; cbn; lia.
    + destruct todo as [|x todo]; injection H as <-; [cbn -[list_sum] in *; lia|]. unfold iterate.
      destruct (_ || _); [|cbn -[list_sum] in *; lia]. destruct dry_run; [cbn -[list_sum] in *; lia|]. cbn [at_ tasks]. rewrite map_app, list_sum_app. replace (list_sum (map (fun x => task_left (snd x)) [(x, Ready)])) with 2 by reflexivity. destruct y; cbn -[list_sum] in *; lia.
    + destruct (nth_error (tasks s) i) as [[x t]|]; [|discriminate]. destruct (finished t); [|discriminate]. injection H as <-.
      destruct (_ && _); cbn -[list_sum] in *; lia.
    + destruct (forallb _ _) eqn:F; [|discriminate]. injection H as <-. unfold finish.
      destruct (_ && _ && _ && _ && _); [|cbn -[list_sum] in *; lia]. destruct (wd s) as [| |[|e es]]; cbn -[list_sum] in *; lia.
  - destruct (nth_error (tasks s) i) as [[x [| | |]]|] eqn:N; try discriminate.
    assert (L : task_left (fst (enter scripts x (wd s))) < 2).
    { unfold enter. destruct (one scripts), (wd s); cbn; try lia. destruct (mem _ _); cbn -[list_sum] in *; lia. }
    destruct (enter scripts x (wd s)) as [t w]. injection H as <-. cbn [at_ tasks fst] in *. pose proof (sum_set _ _ _ _ t N) as X. cbn -[list_sum] in X. lia.
  - destruct (nth_error (tasks s) i) as [[x [| | |]]|] eqn:N; try discriminate.
    assert (L : task_left (fst (leave scripts af x (wd s))) < 1).
    { unfold leave. destruct (s_pass x), af; cbn -[list_sum] in *; lia. }
    destruct (leave scripts af x (wd s)) as [t w]. injection H as <-. cbn [at_ tasks fst] in *. pose proof (sum_set _ _ _ _ t N) as X. cbn -[list_sum] in X. lia.
Qed.

Lemma run_app ms1 ms2 s : run (ms1 ++ ms2) s = match run ms1 s with Some s => run ms2 s | None => None end.
Proof. revert s. induction ms1 as [|m ms IH]; intros s; cbn [app TruleModel.run]; [reflexivity|]. destruct (step m s); auto. Qed.

Lemma bounded w0 ms s : run ms (init w0) = Some s -> length ms + left_over s <= 3 + 4 * length scripts.
Proof.
  revert s. induction ms as [|m ms IH] using rev_ind; intros s H.
  - cbn in H. injection H as <-. cbn. lia.
  - rewrite run_app in H. destruct (run ms (init w0)) as [s1|] eqn:R; [|discriminate]. cbn [TruleModel.run] in H.
    destruct (step m s1) as [s2|] eqn:S; [|discriminate]. injection H as <-. pose proof (step_less _ _ _ _ _ R S). specialize (IH _ eq_refl).
    rewrite app_length. cbn. lia.
Qed.
End Run.
