From Verif Require Import Base DepdbModel DepdbSpec GraphModel GraphSpec GraphProofs.
From Verif Require InModel.

(* C57. After any history (edits, removals of outputs and of databases, changes of recipes, runs
   that failed or were killed at any point other than while a recipe is writing its output), a run
   that completes leaves every target that has been asked for, and everything these depend on, with
   the contents a build from scratch makes. *)
Definition up_to_date (torn : bool) : Prop := forall hash body used (allowed : bytes -> recipe -> Prop), good_hash hash used -> (forall t r, allowed t r -> hashed used t r) ->
  forall w0 w proj roots w' t, fresh w0 -> history hash body torn allowed w0 w -> (forall t r, proj t = Some r -> allowed t r) -> complete_run hash body torn proj roots w w' -> reachable proj roots t ->
  exists x m, file w' t = Some (x, m) /\ built body proj (sources w) t x.
Theorem C57_up_to_date : up_to_date false.
Proof.
  intros hash body used allowed Hh Ha w0 w proj roots w' t F H Al (st & R & D) Re. destruct (done_right hash body used allowed Hh Ha w0 w proj roots w' st F H Al R) as (K & _).
  assert (E : is_done st t); [|destruct E as (s & E); exact (K t s E)]. eapply settled_reachable; [|exact D|exact Re]. eapply runs; [exact Hh|exact Ha|exact Al| |exact R]. eapply history_inv; [exact Hh|exact Ha|exact H|]. apply fresh_inv, F.
Qed.
Print Assumptions C57_up_to_date.

(* Also in a run that does not complete: a target that has been updated is right, the recipe of a
   target fails only if it fails in a build from scratch, and sources are not changed. *)
Theorem C57_as_far : forall hash body used (allowed : bytes -> recipe -> Prop), good_hash hash used -> (forall t r, allowed t r -> hashed used t r) ->
  forall w0 w proj roots w' st, fresh w0 -> history hash body false allowed w0 w -> (forall t r, proj t = Some r -> allowed t r) -> run_steps hash body false proj roots (begin w) (w', st) ->
  (forall t s, st t = Done s -> exists x m, file w' t = Some (x, m) /\ built body proj (sources w) t x) /\
  (forall t, st t = Failed -> ~ exists x, built body proj (sources w) t x) /\
  forall t, proj t = None -> file w' t = file w t.
Proof. exact done_right. Qed.
Print Assumptions C57_as_far.

(* If a build from scratch is possible, then every run can be completed. *)
Theorem C57_progress : forall hash body used (allowed : bytes -> recipe -> Prop), good_hash hash used -> (forall t r, allowed t r -> hashed used t r) ->
  forall w0 w proj roots w1 st1, fresh w0 -> history hash body false allowed w0 w -> (forall t r, proj t = Some r -> allowed t r) -> (forall t, In t roots -> exists x, built body proj (sources w) t x) ->
  run_steps hash body false proj roots (begin w) (w1, st1) -> (forall t, st1 t <> Interrupted) ->
  exists w2 st2, run_steps hash body false proj roots (w1, st1) (w2, st2) /\ forall t, In t roots -> exists s, st2 t = Done s.
Proof. exact progress. Qed.
Print Assumptions C57_progress.

(* Nothing is updated again. *)
Theorem C57_no_more : forall hash body used (allowed : bytes -> recipe -> Prop), good_hash hash used -> (forall t r, allowed t r -> hashed used t r) ->
  forall w0 w proj roots w1 w2 st2, fresh w0 -> history hash body false allowed w0 w -> (forall t r, proj t = Some r -> allowed t r) -> complete_run hash body false proj roots w w1 ->
  run_steps hash body false proj roots (begin w1) (w2, st2) -> (forall t, file w2 t = file w1 t /\ dd w2 t = dd w1 t) /\ forall t, st2 t = Idle \/ st2 t = Done Unchanged.
Proof. exact no_more. Qed.
Print Assumptions C57_no_more.

(* The schedule does not matter. *)
Theorem C57_any_schedule : forall hash body used (allowed : bytes -> recipe -> Prop), good_hash hash used -> (forall t r, allowed t r -> hashed used t r) ->
  forall w0 w proj roots w1 w2 t, fresh w0 -> history hash body false allowed w0 w -> (forall t r, proj t = Some r -> allowed t r) -> complete_run hash body false proj roots w w1 -> complete_run hash body false proj roots w w2 -> reachable proj roots t ->
  contents (file w1 t) = contents (file w2 t).
Proof.
  intros hash body used allowed Hh Ha w0 w proj roots w1 w2 t F H Al C1 C2 Re. destruct (C57_up_to_date _ _ _ _ Hh Ha _ _ _ _ _ _ F H Al C1 Re) as (x1 & m1 & F1 & B1). destruct (C57_up_to_date _ _ _ _ Hh Ha _ _ _ _ _ _ F H Al C2 Re) as (x2 & m2 & F2 & B2).
  rewrite F1, F2. cbn [contents]. f_equal. exact (built_unique body proj (sources w) _ _ B2 _ B1).
Qed.
Print Assumptions C57_any_schedule.

(* A case: c is made of b and a, and b of a. *)
Definition ex_hash (l : list bytes) : bytes := filter (fun x => negb (ceqb x NL) && negb (ceqb x NUL)) (concat (map (fun x => x ++ b "/") l)).
Definition ex_used (l : list bytes) : Prop := In l [[]; [b "a"]; [b "b"; b "a"]; [b "cat $< >$>"]; [b "cat $< $< >$>"]].
Definition ex_body (t : bytes) (r : recipe) (cs : list bytes) : option bytes := Some (if beqb (text r) (b "cat $< >$>") then concat cs else concat (cs ++ cs)).
Definition rb := mkrecipe (b "cat $< >$>") [] [b "a"] [] [].
Definition rb2 := mkrecipe (b "cat $< $< >$>") [] [b "a"] [] [].
Definition rc := mkrecipe (b "cat $< >$>") [] [b "b"; b "a"] [] [].
Definition ex_allowed (t : bytes) (r : recipe) : Prop := In r [rb; rb2; rc].
Definition ex_proj (r : recipe) (t : bytes) : option recipe := if beqb t (b "b") then Some r else if beqb t (b "c") then Some rc else None.
Definition ex_w0 := mkworld (upd (fun _ => None) (b "a") (Some (b "1", 0))) (fun _ => None) 0.
Example ex_good : good_hash ex_hash ex_used.
Proof.
  split.
  - intros l. split.
    + intros X. apply filter_In in X. destruct X as [_ X]. vm_compute in X. discriminate X.
    + intros X. unfold ex_hash in X. destruct (filter _ _) as [|c s] eqn:E; [discriminate X|]. injection X as ->. assert (Y : In NUL (NUL :: s)) by (left; reflexivity). rewrite <- E in Y. apply filter_In in Y. destruct Y as [_ Y]. vm_compute in Y. discriminate Y.
  - intros l l' U U' E. unfold ex_used in *. cbn [In] in U, U'. repeat (destruct U as [<-|U]; [repeat (destruct U' as [<-|U']; [try reflexivity; vm_compute in E; discriminate E|]); destruct U'|]). destruct U.
Qed.
Example ex_hashed : forall t r, ex_allowed t r -> hashed ex_used t r.
Proof. intros t r H. unfold ex_allowed, hashed, ex_used in *. cbn [In] in *. intuition subst; cbn; auto. Qed.
Example ex_fresh : fresh ex_w0.
Proof. split; [reflexivity|]. intros t x m. cbn [file ex_w0 clock]. unfold upd. destruct (beqb t (b "a")); [|discriminate]. intros E. injection E as <- <-. lia. Qed.
Example ex_all_allowed r : In r [rb; rb2] -> forall t r', ex_proj r t = Some r' -> ex_allowed t r'.
Proof. intros I t r'. unfold ex_proj, ex_allowed. destruct (beqb t (b "b")); [intros E; injection E as <-; cbn in *; tauto|]. destruct (beqb t (b "c")); [|discriminate]. intros E. injection E as <-. cbn. auto. Qed.
Lemma ex_built r w x : In r [rb; rb2] -> contents (file w (b "a")) = Some x -> exists y, ex_body (b "b") r [x] = Some y /\ built ex_body (ex_proj r) (sources w) (b "c") (y ++ x ++ []).
Proof.
  intros I E. assert (A : built ex_body (ex_proj r) (sources w) (b "a") x) by (apply bu_source; [reflexivity|exact E]). 
  destruct (ex_body (b "b") r [x]) as [y|] eqn:Y; [|discriminate Y]. exists y. split; [reflexivity|]. apply (bu_recipe ex_body (ex_proj r) (sources w) (b "c") rc [y; x]); [reflexivity| |reflexivity]. constructor; [|constructor; [exact A|constructor]].
  apply (bu_recipe ex_body (ex_proj r) (sources w) (b "b") r [x]); [reflexivity| |exact Y]. replace (prereqs r) with [b "a"] by (destruct I as [<-|[<-|[]]]; reflexivity). constructor; [exact A|constructor].
Qed.
Definition ex_history := history ex_hash ex_body false ex_allowed.
Definition ex_complete r := complete_run ex_hash ex_body false (ex_proj r) [b "c"].
Lemma ex_run r w : In r [rb; rb2] -> ex_history ex_w0 w -> contents (file w (b "a")) <> None -> exists w', ex_complete r w w'.
Proof.
  intros I H E. destruct (contents (file w (b "a"))) as [x|] eqn:F; [|contradiction]. destruct (ex_built r w x I F) as (y & _ & B).
  destruct (C57_progress _ _ _ _ ex_good ex_hashed _ w (ex_proj r) [b "c"] (fst (begin w)) (snd (begin w)) ex_fresh H (ex_all_allowed r I)) as (w2 & st2 & R & D); [|apply run_none|discriminate|].
  - intros t [<-|[]]. eexists. exact B.
  - exists w2, st2. split; [exact R|exact D].
Qed.
Lemma ex_value r w w' x y : In r [rb; rb2] -> ex_history ex_w0 w -> ex_complete r w w' -> contents (file w (b "a")) = Some x -> ex_body (b "b") r [x] = Some y -> contents (file w' (b "c")) = Some (y ++ x ++ []).
Proof.
  intros I H C F E. destruct (C57_up_to_date _ _ _ _ ex_good ex_hashed _ w (ex_proj r) [b "c"] w' (b "c") ex_fresh H (ex_all_allowed r I) C) as (z & m & Fz & B); [apply re_root; left; reflexivity|].
  rewrite Fz. cbn [contents]. f_equal. destruct (ex_built r w x I F) as (y' & E' & B'). rewrite E in E'. injection E' as <-. exact (built_unique ex_body (ex_proj r) (sources w) _ _ B' _ B).
Qed.
(* Built from scratch, again after a change of a and again after a change of the recipe of b. *)
Example C57_case : exists w1 w2 w3, ex_complete rb ex_w0 w1 /\ contents (file w1 (b "c")) = Some (b "11") /\
  (let e := set_file (b "a") (Some (b "2", S (clock w1))) (at_time (S (clock w1)) w1) in ex_complete rb e w2) /\ contents (file w2 (b "c")) = Some (b "22") /\
  ex_complete rb2 w2 w3 /\ contents (file w3 (b "c")) = Some (b "222").
Proof.
  assert (I1 : In rb [rb; rb2]) by (left; reflexivity). assert (I2 : In rb2 [rb; rb2]) by (right; left; reflexivity).
  assert (H0 : ex_history ex_w0 ex_w0) by apply hi_none. destruct (ex_run rb ex_w0 I1 H0) as (w1 & C1); [discriminate|].
  assert (Src : forall r w w', In r [rb; rb2] -> ex_history ex_w0 w -> ex_complete r w w' -> file w' (b "a") = file w (b "a") /\ ex_history ex_w0 w' /\ (dd w (b "a") = None -> dd w' (b "a") = None)).
  { intros r w w' I H C. pose proof C as (st & R & D). split; [|split].
    - destruct (C57_as_far _ _ _ _ ex_good ex_hashed _ w (ex_proj r) [b "c"] w' st ex_fresh H (ex_all_allowed r I) R) as (_ & _ & K). apply K. reflexivity.
    - eapply hi_more; [exact H|]. eapply ev_run; [exact (ex_all_allowed r I)|exact R].
    - clear - R. remember (w', st) as c' eqn:E. assert (K : dd w (b "a") = None -> dd (fst c') (b "a") = None); [|subst; exact K]. clear E w' st. remember (begin w) as c0 eqn:E0. induction R as [|c c1 c2 R IH H]; [subst; auto|]. intros X. specialize (IH E0 X). clear - IH H.
      assert (N : forall t r', ex_proj r t = Some r' -> b "a" <> t) by (intros t r' P <-; discriminate P).
      destruct H; cbn [fst set_dd set_file at_time dd] in *; try exact IH; rewrite upd_other; eauto. }
  destruct (Src _ _ _ I1 H0 C1) as (S1 & H1 & D1). specialize (D1 eq_refl). pose proof (ex_value rb ex_w0 w1 (b "1") (b "1") I1 H0 C1 eq_refl eq_refl) as V1.
  set (e := set_file (b "a") (Some (b "2", S (clock w1))) (at_time (S (clock w1)) w1)). assert (He : ex_history ex_w0 e) by (eapply hi_more; [exact H1|]; apply ev_edit; exact D1).
  assert (Ee : contents (file e (b "a")) = Some (b "2")) by reflexivity.
  destruct (ex_run rb e I1 He) as (w2 & C2); [discriminate|]. destruct (Src _ _ _ I1 He C2) as (S2 & H2 & _). pose proof (ex_value rb e w2 (b "2") (b "2") I1 He C2 eq_refl eq_refl) as V2.
  assert (E2 : contents (file w2 (b "a")) = Some (b "2")) by (rewrite S2; exact Ee).
  destruct (ex_run rb2 w2 I2 H2) as (w3 & C3); [rewrite E2; discriminate|]. pose proof (ex_value rb2 w2 w3 (b "2") (b "22") I2 H2 C3 E2 eq_refl) as V3.
  exists w1, w2, w3. auto 10.
Qed.

(* Being killed while a recipe is writing its output is not recovered from: the database has already
   been written and the incomplete output is newer. *)
Theorem C57_interrupted_refuted : ~ up_to_date true.
Proof.
  intros H. set (proj := fun t => if beqb t (b "b") then Some rb else None). pose (idle := fun _ : bytes => Idle).
  assert (Al : forall t r, proj t = Some r -> ex_allowed t r) by (intros t r; unfold proj; destruct (beqb t (b "b")); [intros E; injection E as <-; left; reflexivity|discriminate]).
  assert (Re : reachable proj [b "b"] (b "b")) by (apply re_root; left; reflexivity). assert (Ra : reachable proj [b "b"] (b "a")) by (eapply re_prereq; [exact Re|reflexivity|left; reflexivity]).
  (* the run that is killed *)
  pose (s1 := upd idle (b "a") (Done Unchanged)).
  destruct (decide ex_hash (fst (begin ex_w0)) s1 (b "b") rb) as [[[u s] d]|] eqn:D; [|vm_compute in D; discriminate D].
  assert (u = true) as -> by (vm_compute in D; congruence). assert (C : closed d (dd (fst (begin ex_w0)) (b "b")) 1 = Some (close_db TNone d, 1)) by (cbn; unfold closed; destruct (DepdbModel.st d); reflexivity).
  pose (w1 := set_dd (b "b") (closed d (dd (fst (begin ex_w0)) (b "b")) 1) (at_time 1 (fst (begin ex_w0)))).
  pose (w2 := set_file (b "b") (Some ([], 1)) (at_time 1 w1)).
  assert (R1 : run_steps ex_hash ex_body true proj [b "b"] (begin ex_w0) (w2, upd (upd s1 (b "b") Begun) (b "b") Interrupted)).
  { eapply run_more; [eapply run_more; [eapply run_more; [apply run_none|]|]|].
    - apply (rs_source ex_hash ex_body true proj [b "b"] (b "a") (b "1", 0) _ idle Ra); reflexivity.
    - apply (rs_begin ex_hash ex_body true proj [b "b"] (b "b") rb s d 1 _ s1 Re); [reflexivity|reflexivity|exact D|apply le_n].
    - apply (rs_torn_body ex_hash ex_body true proj [b "b"] (b "b") rb [] 1 w1); [reflexivity|reflexivity|reflexivity|apply le_n]. }
  (* the next one *)
  assert (D2 : exists d2, decide ex_hash (fst (begin w2)) s1 (b "b") rb = Some (false, Unchanged, d2)).
  { unfold w2, w1. rewrite C. clear - D. vm_compute in D. injection D as _ <-. eexists. vm_compute. reflexivity. }
  destruct D2 as (d2 & D2). specialize (H ex_hash ex_body ex_used ex_allowed ex_good ex_hashed ex_w0 w2 proj [b "b"] (set_dd (b "b") (closed d2 (dd (fst (begin w2)) (b "b")) 2) (at_time 2 (fst (begin w2)))) (b "b") ex_fresh).
  destruct H as (x & m & F & B); [eapply hi_more; [apply hi_none|]; eapply ev_run; [exact Al|exact R1]|exact Al| |exact Re|].
  - exists (upd s1 (b "b") (Done Unchanged)). split; [|intros t [<-|[]]; exists Unchanged; reflexivity]. eapply run_more; [eapply run_more; [apply run_none|]|].
    + apply (rs_source ex_hash ex_body true proj [b "b"] (b "a") (b "1", 0) _ idle Ra); reflexivity.
    + apply (rs_up_to_date ex_hash ex_body true proj [b "b"] (b "b") rb Unchanged d2 2 _ s1 Re); [reflexivity|reflexivity|exact D2|apply le_n].
  - cbn in F. injection F as <- <-. inversion B as [|t r cs y P Bs Bo]; subst; [discriminate|]. injection P as <-. inversion Bs as [|p ps c cs' Bp Bps]; subst. inversion Bps; subst. inversion Bp as [t0 x0 P0 S0|t0 r0 cs0 x0 P0]; subst; [|discriminate P0]. cbn in S0. injection S0 as <-. discriminate Bo.
Qed.
Print Assumptions C57_interrupted_refuted.
