(* C48, C49 and C50: scripts. *)
From Verif Require Import Base FlowModel FlowSpec FlowProofs FlowProofs2 FlowProofs3 CmdModel CmdSpec CmdProofs.

(* C48: a script that is accepted (in either version of the syntax) is the text of a structured
   program, with break and continue only in loops, and its lines are the lines of the program. *)
Theorem C48_accepted steps s l : proper false s -> pre_parse_script steps false s = Some l -> exists b, text b s /\ in_loops false b /\ l = lines_of b.
Proof. intros Hp E. destruct (pre_parse_script_sound2 _ _ _ Hp E) as (b & H1 & H2 & H3). eauto. Qed.
Theorem C48_accepted_v1 steps s l : proper true s -> pre_parse_script steps true s = Some l -> exists b, s = text1 b /\ in_loops false b /\ l = lines_of b.
Proof. intros Hp E. destruct (pre_parse_script_sound1 _ _ _ Hp E) as (b & H1 & H2 & H3). eauto. Qed.
(* Every such program can be written. *)
Theorem C48_written b : in_loops false b -> exists n, forall steps, n <= steps -> pre_parse_script steps false (braces b) = Some (lines_of b).
Proof. apply script_complete2. Qed.
Theorem C48_written_v1 b : in_loops false b -> exists n, forall steps, n <= steps -> pre_parse_script steps true (text1 b) = Some (lines_of b).
Proof. apply script_complete1. Qed.
(* Executing the lines of a program runs the program, and terminates if it does. *)
Theorem C48_runs {St Val} (env : environment St Val) throw b ii li st r :
  (exists steps, exec env throw steps ii (TLines (lines_of b) li) st = Some r) <-> runs env throw b ii li st r.
Proof.
  split.
  - intros [f E]. apply (exec_sound env throw f) in E. exact E.
  - intros H. apply exec_complete in H. exact H.
Qed.
(* Executing an accepted script completes, exits or fails: no assertion and no break or
   continue that gets out of it. *)
Theorem C48_outcome {St Val} (env : environment St Val) throw v1 steps steps' s l ii li st r :
  proper v1 s -> pre_parse_script steps v1 s = Some l -> exec env throw steps' ii (TLines l li) st = Some r ->
  (exists li' st', r = Done li' st') \/ (exists c st', r = Exit c st') \/ (exists st', r = Failed st').
Proof.
  intros Hp E Ex.
  assert (Hb : exists b, in_loops false b /\ l = lines_of b).
  { destruct v1; [destruct (C48_accepted_v1 _ _ _ Hp E) as (b & _ & H1 & H2)|destruct (C48_accepted _ _ _ Hp E) as (b & _ & H1 & H2)]; eauto. }
  destruct Hb as (b & Hl & ->). apply exec_sound in Ex. pose proof (proj1 (proj2 (runs_no_assert env throw)) _ _ _ _ _ Ex) as Ha.
  pose proof (proj1 (proj2 (runs_no_loop env throw)) _ _ _ _ _ Ex Hl) as Hn. destruct r; [eauto..| | |]; try contradiction; eauto. 
Qed.

(* The environment of the examples: the state is what was done, newest first. Condition 1 is true
   in the second iteration, 5 in the first two. *)
Definition ex_env : environment (list (nat * list nat * nat)) nat :=
  {| e_set id st := ((id, [], 0) :: st, true);
     e_cmd id ii li single st := ((id, ii, li) :: st, if id =? 100 then Exits 3 else Ok tt);
     e_cond id ii li st := ((id, ii, li) :: st, Ok (match id, ii with 1, [2] => true | 5, [1] => true | 5, [2] => true | _, _ => false end));
     e_null id st := (st, Some false);
     e_empty id st := (st, Some true);
     e_values id st := (st, Some [10; 20; 30]);
     e_for id v st := ((v, [], 0) :: st, true);
     e_stream id ii li st := ((id, ii, li) :: st, Some [40]);
     e_stream_end id st := (st, true) |}.
(* for x: 10 20 30            (0)
   {
     if cond                  (1)
       break                  (2)
     cmd                      (3)
   }
   while cond                 (5)
   {
     if! empty($x)            (6)
       continue
     else
       cmd                    (8)
   }
   cmd                        (9)  *)
Definition ex_script : list src :=
  [SLine LForArgs 0; LBrace; SLine (LIf KCmd false) 1; SLine LBreak 2; SLine LCmd 3; RBrace;
   SLine LWhile 5; LBrace; SLine (LIf KEmpty true) 6; SLine LContinue 7; SLine LElse 0; SLine LCmd 8; RBrace; SLine LCmd 9].
Example ex_runs : exists l, pre_parse_script 20 false ex_script = Some l /\
  exec ex_env true 100 [] (TLines l 1) [] =
    Some (Done 7 [(9, [], 6); (5, [3], 3); (8, [2], 4); (5, [2], 3); (8, [1], 4); (5, [1], 3); (1, [2], 1); (20, [], 0); (3, [1], 2); (1, [1], 1); (10, [], 0)]).
Proof. eexists. split; [vm_compute; reflexivity|]. vm_compute. reflexivity. Qed.
Example ex_proper : proper false ex_script.
Proof. intros id H. repeat (destruct H as [H|H]; [discriminate|]). contradiction. Qed.
(* break outside of a loop, else after else, else without if and a missing brace. *)
Example ex_rejected : pre_parse_script 20 false [SLine (LIf KCmd false) 1; SLine LBreak 2] = None /\
  pre_parse_script 20 false [SLine (LIf KCmd false) 1; SLine LCmd 2; SLine LElse 3; SLine LCmd 4; SLine LElse 5; SLine LCmd 6] = None /\
  pre_parse_script 20 false [SLine LWhile 1; SLine LCmd 2; SLine LElse 3; SLine LCmd 4] = None /\
  pre_parse_script 20 false [SLine LWhile 1; LBrace; SLine LCmd 2] = None /\
  pre_parse_script 20 true [SLine LWhile 1; SLine LCmd 2; SLine LElse 3; SLine LEnd 0] = None.
Proof. repeat split; vm_compute; reflexivity. Qed.
Example ex_v1 : pre_parse_script 20 true [SLine (LIf KCmd false) 1; SLine LWhile 2; SLine LBreak 3; SLine LEnd 0; SLine LElse 4; SLine LEnd 0] =
  Some [(LIf KCmd false, 1); (LWhile, 2); (LBreak, 3); (LEnd, 0); (LElse, 4); (LEnd, 0)].
Proof. vm_compute. reflexivity. Qed.
(* Exit in a loop ends the script. *)
Example ex_exit : exec ex_env false 100 [] (TLines (lines_of (BCons (SFor true 1 (BCons (SCmd 100) BNil)) (BCons (SCmd 2) BNil))) 1) [] = Some (Exit 3 [(100, [1], 2); (40, [], 0); (1, [], 1)]).
Proof. vm_compute. reflexivity. Qed.
Print Assumptions C48_accepted.
Print Assumptions C48_accepted_v1.
Print Assumptions C48_written.
Print Assumptions C48_written_v1.
Print Assumptions C48_runs.
Print Assumptions C48_outcome.

(* C49: commands are executed with unique pairs of the iteration indexes and the line index, if no
   if-else in a for-loop has elif or tests for null or empty. *)
Theorem C49_unique_partial {St Val} (env : environment St Val) throw b st r :
  plain_loops b -> runs (logged env) throw b [] 1 (st, []) r -> NoDup (map (fun e => (snd (fst e), snd e)) (log_of r)).
Proof.
  intros Hp H. pose proof (proj1 (proj2 (runs_no_assert (logged env) throw)) _ _ _ _ _ H) as Ha.
  destruct (proj1 (proj2 (unique_log env throw)) _ _ _ _ _ H Hp) as [H1|(new & E & Hn & _)]; [contradiction|].
  rewrite E. cbn [snd]. rewrite app_nil_r. exact Hn.
Qed.
(* Without the exception this is not so: here commands 4 and 8 are both executed as line 4 of the
   first iteration.

   for x: 10 20
   {
     if cond    (1)
       cmd      (2)
     elif cond  (3)
       cmd      (4)
   }
   for y: 10 20
     cmd        (8)  *)
Theorem C49_unique_refuted : exists (env : environment unit nat) s l r,
  proper false s /\ pre_parse_script 20 false s = Some l /\ exec (logged env) true 100 [] (TLines l 1) (tt, []) = Some r /\
  In (4, [1], 4) (log_of r) /\ In (8, [1], 4) (log_of r).
Proof.
  exists {| e_set id st := (st, true); e_cmd id ii li single st := (st, Ok tt);
     e_cond id ii li st := (st, Ok (match id, ii with 1, [2] => true | 3, _ => true | _, _ => false end));
     e_null id st := (st, Some false); e_empty id st := (st, Some true); e_values id st := (st, Some [10; 20]);
     e_for id v st := (st, true); e_stream id ii li st := (st, Some []); e_stream_end id st := (st, true) |}.
  exists [SLine LForArgs 0; LBrace; SLine (LIf KCmd false) 1; SLine LCmd 2; SLine (LElif KCmd false) 3; SLine LCmd 4; RBrace; SLine LForArgs 7; SLine LCmd 8].
  eexists _, _. split; [|split; [vm_compute; reflexivity|split; [vm_compute; reflexivity|]]].
  - intros id H. repeat (destruct H as [H|H]; [discriminate|]). contradiction.
  - vm_compute. tauto.
Qed.
(* In a program all if-else of which are such, the index of every command is its position, in all
   iterations and whatever branches are taken. *)
Theorem C49_position {St Val} (env : environment St Val) throw b st r id ii li :
  plain b -> runs (logged env) throw b [] 1 (st, []) r -> In (id, ii, li) (log_of r) -> In (id, li) (positions b 1).
Proof.
  intros Hp H Hi. pose proof (proj1 (proj2 (runs_no_assert (logged env) throw)) _ _ _ _ _ H) as Ha.
  destruct (proj1 (proj2 (positions_log env throw)) _ _ _ _ _ H Hp) as [H1|(new & E & Hn)]; [contradiction|].
  rewrite E in Hi. cbn [snd] in Hi. rewrite app_nil_r in Hi. eauto.
Qed.
Example ex_positions : positions (BCons (SIf KCmd false 1 (BCons (SCmd 2) BNil) (CElse 0 (BCons (SCmd 3) BNil))) (BCons (SFor false 4 (BCons (SCmd 5) BNil)) (BCons (SFor true 6 (BCons (SCmd 7) BNil)) BNil))) 1 =
  [(1, 1); (2, 2); (3, 3); (5, 4); (6, 5); (7, 6)].
Proof. reflexivity. Qed.
Example ex_plain : plain_loops (BCons (SIf KNull true 1 (BCons (SCmd 2) BNil) (CElif KCmd false 3 (BCons (SFor true 4 (BCons (SIf KCmd false 5 BNil (CElse 0 BNil)) BNil)) BNil) CNone)) BNil).
Proof. cbn. tauto. Qed.
(* The name of a file for a standard stream determines the stream, the iteration indexes, the line
   and the command. *)
Theorem C49_name nm nm' ii li ci ii' li' ci' : In nm [b "stdin"; b "stdout"; b "stderr"] -> In nm' [b "stdin"; b "stdout"; b "stderr"] ->
  std_name nm ii li ci = std_name nm' ii' li' ci' -> nm = nm' /\ ii = ii' /\ li = li' /\ ci = ci'.
Proof.
  assert (H : forall x, In x [b "stdin"; b "stdout"; b "stderr"] -> dashless x).
  { intros x [<-|[<-|[<-|[]]]] Hi; repeat (destruct Hi as [Hi|Hi]; [discriminate|]); contradiction. }
  intros H1 H2. apply std_name_inj; auto.
Qed.
Example ex_name : std_name (b "stdout") [12; 3] 4 1 = b "stdout-i3-i12-n4-c1" /\ std_name (b "stdin") [] 0 0 = b "stdin".
Proof. split; reflexivity. Qed.
Print Assumptions C49_unique_partial.
Print Assumptions C49_unique_refuted.
Print Assumptions C49_position.
Print Assumptions C49_name.

(* C50: expressions are evaluated from left to right with both operators having the same
   precedence, running only the pipes that decide. Commands are numbered throughout the expression,
   starting with 1, or 0 if there is only one. *)
Theorem C50_value {P St} (run_pipe : P -> nat -> bool -> St -> St * outcome) e diag st :
  run_expr run_pipe (terms e) diag st = eval run_pipe diag (match e with EPipe _ n => if n =? 1 then 0 else 1 | _ => 1 end) e st.
Proof. apply run_expr_eval. Qed.
(* If diagnostics is to be printed, then it is printed about exactly one pipe if the expression is
   false, and about none otherwise. *)
Theorem C50_diagnostics {P St} (run_pipe : P -> nat -> bool -> St -> St * outcome) e diag st st' failed o :
  run_expr (reporting run_pipe) (terms e) diag (st, []) = ((st', failed), o) -> length failed = (match o with Returns false => if diag then 1 else 0 | _ => 0 end).
Proof.
  rewrite C50_value. intros E. apply eval_reports in E. cbn [snd] in E. destruct o as [[]|]; [subst; reflexivity| |subst; reflexivity].
  destruct diag; [destruct E as [p ->]|subst]; reflexivity.
Qed.
(* false && a || b | c && d: *)
Example ex_expr : run_expr (fun p ci print (st : list (nat * nat * bool)) => ((p, ci, print) :: st, Returns (negb (p =? 0))))
  (terms (EAnd (EOr (EAnd (EPipe 0 1) 1 1) 2 2) 3 1)) true [] = ([(3, 5, true); (2, 3, true); (0, 1, false)], Returns true).
Proof. reflexivity. Qed.
Print Assumptions C50_value.
Print Assumptions C50_diagnostics.
