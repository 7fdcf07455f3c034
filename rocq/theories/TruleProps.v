(* C80: testing a target. *)
From Coq Require Import Lia.
From Verif Require Import Base TruleModel TruleSpec TruleProofs TruleProofs2 TruleProofs3 TruleProofs4.

(* --- What is done for a target --- *)

(* Tests with testscripts: all of them, and those the target leads to, are performed, and updated before that. *)
Theorem C80_scripts t :
  script_test t ->
  apply false t = Script (length (pass_through t)) (map Some (pass_through t ++ scripts_of t)) /\
  apply true t = Update (length (pass_through t)) (map Some (pass_through t ++ scripts_of t)) (scripts_of t).
Proof.
  intros (A & B & C). rewrite !apply_decided. unfold decided. rewrite A. destruct (scripts_of t) as [|x l]; [now destruct C|]. rewrite map_app.
  destruct (t_var t); [auto|now destruct B|auto].
Qed.

(* Simple tests: stdin, stdout and the inputs are given to the test, and updated before that. *)
Theorem C80_simple t :
  simple_test t -> proper t ->
  apply false t = Simple (length (pass_through t)) (map Some (pass_through t) ++ test_files t) /\
  exists inner, apply true t = Update (length (pass_through t)) (map Some (pass_through t) ++ test_files t) inner /\
  (forall n, In n inner <-> In (Some n) (test_files t)).
Proof.
  intros (A & B & C & D & E) P. rewrite !apply_decided. unfold decided. rewrite A, C, D. rewrite (collect_io_ok _ P).
  pose proof (proj2 (simple_flag t) E) as F.
  assert (G : forall n, In n (some_of (test_files t)) <-> In (Some n) (test_files t)).
  { intros n. unfold some_of. rewrite in_flat_map. split.
    - intros ([m|] & X & Y); [destruct Y as [->|[]]; exact X|destruct Y].
    - intros X. exists (Some n). split; [exact X|left; reflexivity]. }
  destruct (t_var t); [rewrite F|now destruct B|rewrite F]; (split; [reflexivity|]); eexists; split; try reflexivity; exact G.
Qed.

(* Anything else is not tested: only those it leads to, if any. *)
Theorem C80_neither u t :
  ~ script_test t -> ~ simple_test t -> (t_test t = true -> t_var t <> VFalse -> scripts_of t = [] -> t_script t = false -> proper t) ->
  apply u t = match pass_through t with [] => Noop | l => Default (map Some l) end.
Proof.
  intros A B C. rewrite apply_decided. unfold decided, script_test, simple_test in *.
  assert (Q : match map Some (pass_through t) with [] => Noop | _ => Default (map Some (pass_through t)) end = match pass_through t with [] => Noop | l => Default (map Some l) end)
    by (destruct (pass_through t); reflexivity).
  destruct (t_test t); [|exact Q]. destruct (scripts_of t) as [|x l].
  2: { destruct (t_var t) eqn:V; [exfalso; apply A; repeat split; discriminate|exact Q|exfalso; apply A; repeat split; discriminate]. }
  destruct (t_script t); [destruct (t_var t); exact Q|].
  assert (F : has_io t || (match t_var t with VOther => true | _ => false end) || t_args t = true -> t_var t <> VFalse -> False).
  { intros F N. apply B. repeat split; [exact N|]. apply simple_flag, F. }
  destruct (t_var t) eqn:V; [|exact Q|];
    (rewrite (collect_io_ok (t_prereqs t)) by (apply C; congruence)); (destruct (has_io t || _ || t_args t); [exfalso; apply F; [reflexivity|discriminate]|exact Q]).
Qed.

(* It only fails because of what is specified for a simple test. *)
Theorem C80_fails u t :
  apply u t = Fails <-> t_test t = true /\ t_var t <> VFalse /\ scripts_of t = [] /\ t_script t = false /\ ~ proper t.
Proof.
  rewrite apply_decided. unfold decided. pose proof (collect_io_ok (t_prereqs t)) as K1. pose proof (collect_io_bad (t_prereqs t)) as K2.
  assert (P : collect_io (t_prereqs t) None = None <-> ~ proper t).
  { split; [intros X Y; rewrite (K1 Y) in X; discriminate|]. intros X. destruct (collect_io (t_prereqs t) None); [|reflexivity]. destruct X. apply K2. discriminate. }
  clear K1 K2. split.
  - destruct (t_test t), (t_var t), (scripts_of t), (t_script t); try discriminate; try (destruct u; discriminate); try (destruct (map Some (pass_through t)); discriminate);
    (destruct (collect_io (t_prereqs t) None);
     [destruct (has_io t || _ || t_args t); [destruct u; discriminate|destruct (map Some (pass_through t)); discriminate]|]);
    intros _; repeat split; try discriminate; apply P; reflexivity.
  - intros (-> & B & -> & -> & X). apply P in X. rewrite X. destruct (t_var t); [reflexivity|now destruct B|reflexivity].
Qed.

(* --- Performing the scripts --- *)

Section Run.
Context (scripts : list script) (bf : before) (af : after) (keep_going inside : bool) (w0 : wdir).
Notation run := (run scripts bf af keep_going false inside).

(* Success means that every script that is to be run was run, once, and passed. *)
Theorem C80_success ms s :
  run ms (init w0) = Some s -> at_ s = Over Changed ->
  (forall x, to_run scripts x -> s_pass x = true) /\
  map fst (tasks s) = filter (fun x => one scripts || s_selected x) scripts /\
  (forall x t, In (x, t) (tasks s) -> t = Done true).
Proof.
  intros R P. destruct (over_changed _ _ _ _ _ _ _ _ _ R P) as (_ & _ & E & D). split; [|split; [exact E|]].
  - intros x X. apply (selected_In scripts false x eq_refl) in X. rewrite <- E in X. apply in_map_iff in X as ([y t] & Y & N). cbn in Y. subst y.
    apply In_nth_error in N as (i & N). apply (D _ _ _ N).
  - intros x t N. apply In_nth_error in N as (i & N). apply (D _ _ _ N).
Qed.

(* The result is the same whatever the order they are run in: success if and only if every script passes. *)
Theorem C80_result ms s r :
  names_ok scripts -> wd_ok bf w0 -> (inside = true -> w0 = NoDir) ->
  (forall x, to_run scripts x -> s_litter x = None) ->
  NoDup (map s_name (filter (fun x => one scripts || s_selected x) scripts)) ->
  run ms (init w0) = Some s -> at_ s = Over r ->
  (r = Changed <-> forall x, to_run scripts x -> s_pass x = true).
Proof.
  intros NK WK IN NL ND R P. split; [intros ->; apply (C80_success _ _ R P)|]. intros A. destruct r; [reflexivity|]. exfalso.
  assert (PR : Proper scripts false inside w0).
  { split; [exact ND|]. split; [intros x X; apply NL; apply (selected_In scripts false x eq_refl); exact X|].
    unfold w1. rewrite Bool.orb_false_r. destruct w0; [reflexivity|now destruct WK|]. destruct inside; [discriminate (IN eq_refl)|reflexivity]. }
  destruct (over_failed _ _ _ _ _ _ _ _ _ NK WK R P) as [(i & x & t & N & B)|(e & es & W & O & NE & _ & F)].
  - destruct (over_done _ _ _ _ _ _ _ _ _ _ _ _ _ R P N) as [-> | ->]; [now apply (no_refused _ _ _ _ _ _ _ _ _ PR R i x)|].
    rewrite (A x) in B; [discriminate|]. apply (selected_In scripts false x eq_refl). apply (task_in _ _ _ _ _ _ _ _ _ _ _ _ R N).
  - destruct (reach_cont _ _ _ _ _ _ _ _ _ R) as [->|[(_ & T & _)|L]]; [discriminate|now destruct NE|].
    pose proof (l_multi _ _ _ _ _ _ L O NE) as M. unfold MultiW in M. rewrite P in M. assert (M' : exists es, wd s = Dir es /\ Ent af false inside w0 (tasks s) es) by (destruct af; exact M).
    destruct M' as (es' & W' & E). rewrite W in W'. injection W' as <-. destruct PR as (_ & NL' & W1).
    destruct (e_why _ _ _ _ _ _ E e (or_introl eq_refl)) as [(l & X & _)|[(j & y & t & X & Y & _)|(j & y & ok & X & Y)]].
    + congruence.
    + destruct (over_done _ _ _ _ _ _ _ _ _ _ _ _ _ R P X) as [-> | ->]; [discriminate|].
      rewrite (A y) in Y; [cbn in Y; rewrite F in Y; discriminate|]. apply (selected_In scripts false y eq_refl). apply (task_in _ _ _ _ _ _ _ _ _ _ _ _ R X).
    + rewrite (NL' y) in Y; [discriminate|]. apply (task_in _ _ _ _ _ _ _ _ _ _ _ _ R X).
Qed.

(* The working directory is removed after success. *)
Theorem C80_clean ms s :
  af = AClean -> inside = false -> run ms (init w0) = Some s -> at_ s = Over Changed -> wd s = NoDir.
Proof.
  intros F IN R P. destruct (over_changed _ _ _ _ _ _ _ _ _ R P) as (NK & WK & E & D).
  destruct (reach_cont _ _ _ _ _ _ _ _ _ R) as [->|[(X & _)|L]]; [discriminate|congruence|].
  assert (W : w1 false inside w0 = NoDir) by (unfold w1; rewrite IN; destruct w0; [reflexivity|now destruct WK|reflexivity]).
  destruct (tasks s) as [|[x t] l] eqn:T.
  - destruct (l_none _ _ _ _ _ _ L T) as [_ ->]. exact W.
  - assert (NE : tasks s <> []) by (rewrite T; discriminate). destruct (one scripts) eqn:O.
    + pose proof (proj1 (one_is _) O) as (z & S & _). assert (l = []).
      { unfold selected in E. rewrite S in E. cbn in E. destruct (to_run_b _ _); [injection E; intros E'; destruct l; [reflexivity|discriminate]|discriminate]. }
      subst l. pose proof (l_one _ _ _ _ _ _ L O _ _ T) as Q. destruct (D 0 x t eq_refl) as [-> _]. cbn in Q. rewrite F in Q. apply Q.
    + pose proof (l_multi _ _ _ _ _ _ L O NE) as M. unfold MultiW in M. rewrite P, F, IN in M. exact M.
Qed.

(* What a failed script has left is kept. *)
Theorem C80_kept ms s r x :
  run ms (init w0) = Some s -> at_ s = Over r -> In (x, Done false) (tasks s) ->
  exists es, wd s = Dir es /\ (one scripts = false -> In (s_name x) es).
Proof.
  intros R P N. assert (NE : tasks s <> []) by (intros T; rewrite T in N; destruct N). destruct r.
  { exfalso. destruct (over_changed _ _ _ _ _ _ _ _ _ R P) as (_ & _ & _ & D). apply In_nth_error in N as (i & N). destruct (D _ _ _ N) as [X _]. discriminate. }
  destruct (reach_cont _ _ _ _ _ _ _ _ _ R) as [->|[(_ & T & _)|L]]; [destruct N|now destruct NE|]. destruct (one scripts) eqn:O.
  - assert (Y : tasks s = [(x, Done false)]).
    { destruct (tasks_sel _ _ _ _ _ _ _ _ _ R) as (rest & E). pose proof (proj1 (one_is _) O) as (z & S & _).
      assert (H : length (selected scripts false) <= 1) by (unfold selected; rewrite S; cbn; destruct (to_run_b [z] z); cbn; lia).
      rewrite <- E, app_length, map_length in H. destruct (tasks s) as [|a [|a' l]]; cbn in H; [now destruct NE| |lia]. destruct N as [->|[]]. reflexivity. }
    destruct (l_one _ _ _ _ _ _ L O _ _ Y) as [_ W]. cbn in W. exists []. split; [exact W|discriminate].
  - pose proof (l_multi _ _ _ _ _ _ L O NE) as M. unfold MultiW in M. rewrite P in M.
    assert (M' : exists es, wd s = Dir es /\ Ent af false inside w0 (tasks s) es) by (destruct af; exact M).
    destruct M' as (es & W & E). exists es. split; [exact W|]. intros _. apply In_nth_error in N as (i & N). apply (e_there _ _ _ _ _ _ E _ _ _ N). reflexivity.
Qed.

(* No script sees what a previous run has left. *)
Theorem C80_fresh ms s es n :
  inside = false -> one scripts = false -> run ms (init w0) = Some s -> tasks s <> [] -> wd s = Dir es -> In n es ->
  exists x, to_run scripts x /\ (s_name x = n \/ s_litter x = Some n).
Proof.
  intros IN O R NE W N. destruct (reach_cont _ _ _ _ _ _ _ _ _ R) as [->|[(_ & T & _)|L]]; [now destruct NE|now destruct NE|].
  pose proof (l_multi _ _ _ _ _ _ L O NE) as M. unfold MultiW in M.
  assert (M' : exists es, wd s = Dir es /\ Ent af false inside w0 (tasks s) es).
  { destruct (at_ s) as [| | | |[|]]; try exact M; try (destruct af; exact M). destruct af; [|exact M]. rewrite IN in M. congruence. }
  destruct M' as (es' & W' & E). rewrite W in W'. injection W' as <-.
  destruct (e_why _ _ _ _ _ _ E n N) as [(l & X & _)|[(j & y & t & X & _ & Y)|(j & y & ok & X & Y)]].
  - unfold w1 in X. rewrite IN in X. cbn in X. destruct w0; discriminate || (destruct (reach_inv _ _ _ _ _ _ _ _ _ R) as [->|[(_ & T & _)|(_ & WK & _)]]; [now destruct NE|now destruct NE|now destruct WK]).
  - exists y. split; [|left; exact Y]. apply (selected_In scripts false y eq_refl). apply (task_in _ _ _ _ _ _ _ _ _ _ _ _ R X).
  - exists y. split; [|right; exact Y]. apply (selected_In scripts false y eq_refl). apply (task_in _ _ _ _ _ _ _ _ _ _ _ _ R X).
Qed.

(* All are run unless one has failed and it is not asked to keep going; none is still running. *)
Theorem C80_complete ms s r :
  names_ok scripts -> wd_ok bf w0 -> run ms (init w0) = Some s -> at_ s = Over r ->
  (forall x t, In (x, t) (tasks s) -> finished t = true) /\
  ((forall x, to_run scripts x -> exists t, In (x, t) (tasks s)) \/
   (keep_going = false /\ r = Failed /\ exists x t, In (x, t) (tasks s) /\ bad t = true)).
Proof.
  intros NK WK R P. split.
  - intros x t N. apply In_nth_error in N as (i & N). destruct (over_done _ _ _ _ _ _ _ _ _ _ _ _ _ R P N) as [-> | ->]; reflexivity.
  - destruct (over_all _ _ _ _ _ _ _ _ _ _ NK WK R P) as [E|[K (i & x & t & N & B)]].
    + left. intros x X. apply (selected_In scripts false x eq_refl) in X. rewrite <- E in X. apply in_map_iff in X as ([y t] & Y & N). cbn in Y. subst y. eauto.
    + right. split; [exact K|]. split; [|exists x, t; split; [eapply nth_error_In; eauto|exact B]].
      destruct r; [|reflexivity]. destruct (over_changed _ _ _ _ _ _ _ _ _ R P) as (_ & _ & _ & D). destruct (D _ _ _ N) as [-> _]. discriminate.
Qed.

(* Nothing is run and nothing is changed if the names or the working directory are not as they should be. *)
Theorem C80_refuse ms s :
  ~ (names_ok scripts /\ wd_ok bf w0) -> run ms (init w0) = Some s -> tasks s = [] /\ wd s = w0 /\ (forall r, at_ s = Over r -> r = Failed).
Proof.
  intros N R. destruct (reach_inv _ _ _ _ _ _ _ _ _ R) as [->|[(P & T & W & _)|(A & B & _)]].
  - repeat split. intros r X. discriminate.
  - rewrite P, T, W. repeat split. intros r X. congruence.
  - destruct N; auto.
Qed.
End Run.

Section Any.
Context (scripts : list script) (bf : before) (af : after) (keep_going dry_run inside : bool) (w0 : wdir).
Notation step := (step scripts bf af keep_going dry_run inside).
Notation run := (run scripts bf af keep_going dry_run inside).

(* It always comes to an end. *)
Theorem C80_ends ms s :
  run ms (init w0) = Some s ->
  length ms <= 3 + 4 * length scripts /\ ((exists r, at_ s = Over r) \/ exists m s', step m s = Some s').
Proof.
  intros R. split; [pose proof (bounded _ _ _ _ _ _ _ _ _ R); lia|]. eapply progress; eauto.
Qed.
End Any.

(* With dry run nothing is run or changed. *)
Theorem C80_dry_run scripts bf af keep_going inside w0 ms s :
  run scripts bf af keep_going true inside ms (init w0) = Some s ->
  tasks s = [] /\ wd s = w0 /\ (names_ok scripts -> wd_ok bf w0 -> forall r, at_ s = Over r -> r = Changed).
Proof.
  intros R. assert (A : tasks s = [] /\ wd s = w0).
  { destruct (reach_cont _ _ _ _ _ _ _ _ _ R) as [->|[(_ & T & W)|L]]; [auto|auto|]. pose proof (l_dry _ _ _ _ _ _ L eq_refl) as T. split; [exact T|].
    destruct (l_none _ _ _ _ _ _ L T) as [_ ->]. unfold w1. rewrite Bool.orb_true_r. destruct w0; reflexivity. }
  destruct A as [T W]. split; [exact T|]. split; [exact W|]. intros NK WK [|] P; [reflexivity|]. exfalso.
  destruct (over_failed _ _ _ _ _ _ _ _ _ NK WK R P) as [(i & x & t & N & _)|(e & es & _ & _ & NE & _)]; [rewrite T in N; destruct i; discriminate|now destruct NE].
Qed.

(* --- What does not hold --- *)

(* Testscripts with the same name in different directories: both pass, but whether the test succeeds depends on the order. *)
Definition ex_same : list script := [mkscript (b "x") true true None; mkscript (b "x") true true None].
Theorem C80_same_name_refuted :
  exists ms ms' s s',
    run ex_same BWarn AClean false false false ms (init NoDir) = Some s /\ at_ s = Over Changed /\
    run ex_same BWarn AClean false false false ms' (init NoDir) = Some s' /\ at_ s' = Over Failed.
Proof.
  exists [Main false; Main false; Enter 0; Leave 0; Main false; Enter 1; Leave 1; Main false; Main false],
         [Main false; Main false; Enter 0; Main false; Enter 1; Leave 0; Main false; Main false].
  eexists. eexists. split; [vm_compute; reflexivity|]. split; [reflexivity|]. split; [vm_compute; reflexivity|]. reflexivity.
Qed.

(* Different targets have different working directories. *)
Theorem C80_working_dir t u :
  working_dir t = working_dir u -> d_out t = d_out u /\ (d_type t = b "dir" <-> d_type u = b "dir") /\ (d_type t = b "dir" \/ d_name t = d_name u).
Proof.
  unfold working_dir. destruct (beqb (d_type t) (b "dir")) eqn:T, (beqb (d_type u) (b "dir")) eqn:U; intros E; apply app_inj_tail in E as [E F].
  - apply beqb_eq in T, U. rewrite T, U. repeat split; auto.
  - discriminate.
  - discriminate.
  - split; [exact E|]. split; [|right; apply app_inv_head in F; exact F].
    split; intros X; exfalso; [assert (Y : beqb (d_type t) (b "dir") = true) by (apply beqb_eq, X)|assert (Y : beqb (d_type u) (b "dir") = true) by (apply beqb_eq, X)]; congruence.
Qed.

(* But not if they only differ in type. *)
Theorem C80_working_dir_refuted : exists t u, t <> u /\ working_dir t = working_dir u.
Proof. exists (mktested [b "p"] (b "exe") (b "hello")), (mktested [b "p"] (b "libs") (b "hello")). split; [discriminate|reflexivity]. Qed.

Print Assumptions C80_scripts.
Print Assumptions C80_simple.
Print Assumptions C80_neither.
Print Assumptions C80_fails.
Print Assumptions C80_success.
Print Assumptions C80_result.
Print Assumptions C80_clean.
Print Assumptions C80_kept.
Print Assumptions C80_fresh.
Print Assumptions C80_complete.
Print Assumptions C80_refuse.
Print Assumptions C80_ends.
Print Assumptions C80_dry_run.
Print Assumptions C80_same_name_refuted.
Print Assumptions C80_working_dir.
Print Assumptions C80_working_dir_refuted.

(* --- Examples --- *)

(* Three scripts, one not selected, after a previous run that failed. *)
Definition ex_scripts : list script := [mkscript (b "basics") true true None; mkscript (b "slow") false false None; mkscript (b "errors") true true None].
Definition ex_old : wdir := Dir [b "errors"].

Example C80_ex_hyps :
  names_ok ex_scripts /\ wd_ok BWarn ex_old /\ (forall x, to_run ex_scripts x -> s_litter x = None) /\
  NoDup (map s_name (filter (fun x => one ex_scripts || s_selected x) ex_scripts)).
Proof.
  split; [apply only_names; exists false; reflexivity|]. split; [discriminate|]. split.
  - intros x [[<-|[<-|[<-|[]]]] _]; reflexivity.
  - vm_compute. repeat constructor; cbn; intuition discriminate.
Qed.

(* One is executed synchronously, the other at the same time as it. *)
Example C80_ex_success :
  option_map (fun s => (at_ s, wd s, map snd (tasks s)))
    (run ex_scripts BWarn AClean false false false
       [Main false; Main false; Main false; Main true; Enter 1; Enter 0; Leave 1; Main false; Leave 0; Main false; Main false] (init ex_old))
  = Some (Over Changed, NoDir, [Done true; Done true]).
Proof. vm_compute. reflexivity. Qed.

(* The first one fails when executed synchronously: the other is not run unless asked to keep going; its directory is kept. *)
Definition ex_bad : list script := [mkscript (b "basics") true false None; mkscript (b "errors") true true None].
Example C80_ex_failed :
  option_map (fun s => (at_ s, wd s, map snd (tasks s)))
    (run ex_bad BWarn AClean false false false [Main false; Main true; Enter 0; Leave 0; Main true; Main true] (init NoDir))
  = Some (Over Failed, Dir [b "basics"], [Done false]) /\
  option_map (fun s => (at_ s, wd s, map snd (tasks s)))
    (run ex_bad BWarn AClean true false false [Main false; Main true; Enter 0; Leave 0; Main true; Main true; Enter 1; Leave 1; Main true; Main true; Main true] (init NoDir))
  = Some (Over Failed, Dir [b "basics"], [Done false; Done true]).
Proof. vm_compute. auto. Qed.

(* Something left in the root working directory. *)
Example C80_ex_litter :
  option_map (fun s => (at_ s, wd s))
    (run [mkscript (b "basics") true true (Some (b "core"))] BWarn AClean false false false [Main true; Main true; Enter 0; Leave 0; Main true; Main true; Main true] (init NoDir))
  = Some (Over Failed, Dir [b "core"]).
Proof. vm_compute. reflexivity. Qed.

(* The only one. *)
Example C80_ex_one :
  option_map (fun s => (at_ s, wd s))
    (run [mkscript (b "testscript") false true None] BClean AClean false false false [Main true; Main true; Enter 0; Leave 0; Main true; Main true; Main true] (init ex_old))
  = Some (Over Changed, NoDir).
Proof. vm_compute. reflexivity. Qed.

(* The two kinds of names. *)
Example C80_ex_names : ~ names_ok [mkscript (b "testscript") true true None; mkscript (b "basics") true true None].
Proof. intros X. apply only_names in X as (o & X). discriminate. Qed.

(* exe{hello}: testscript{basics} cxx{hello} testscript{errors}: include = false *)
Definition ex_p (n : nat) (sc nm : bool) : prereq := mkprereq n sc nm false false false false true.
Definition ex_t (ps : list prereq) (v : test_var) : target := mktarget false true [] [] true ps false v false.
Example C80_ex_script_test : script_test (ex_t [ex_p 1 true true; ex_p 2 false true; ex_p 3 true false] VNone) /\
  apply false (ex_t [ex_p 1 true true; ex_p 2 false true; ex_p 3 true false] VNone) = Script 0 [Some 1].
Proof. split; [repeat split; discriminate|reflexivity]. Qed.

(* exe{hello}: file{in}: test.input = true file{out}: test.stdout = true *)
Definition ex_io : list prereq := [mkprereq 1 false true false false false true true; mkprereq 2 false true false false true false true].
Example C80_ex_simple_test : simple_test (ex_t ex_io VNone) /\ proper (ex_t ex_io VNone) /\ apply false (ex_t ex_io VNone) = Simple 0 [None; Some 2; Some 1].
Proof.
  split; [repeat split; try discriminate; left; reflexivity|]. split; [|reflexivity]. split; [cbn; lia|]. split; [cbn; lia|].
  intros p [<-|[<-|[]]] _; reflexivity.
Qed.
