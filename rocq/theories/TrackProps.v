(* C78: an ad hoc recipe is executed again if what it does could change.

   The lines saved in the dependency database are the checksums of the text of the recipe, of
   the values of the variables that it uses, and of its targets and prerequisites. If they are
   the same as saved by the previous update, then the recipe would have executed the same
   commands with the same results, provided that commands do the same when executed again
   (m_run), and so it need not be executed. *)
From Verif Require Import Base NameModel FlowModel TrackModel TrackSpec TrackProofs TrackProofs2.

(* Proved for recipes whose values, prerequisites and assignments meet the conditions of
   TrackSpec.v; without them it does not hold, see the theorems below. The previous update is
   1, this one is 2. *)
Theorem C78_same_partial (parse : bytes -> option (list item * (nat -> code))) fs sm H text1 text2 is1 is2 codes1 codes2 p1 p2 w1 w2 ts1 ts2 ps1 ps2 tmp :
  parse text1 = Some (is1, codes1) -> parse text2 = Some (is2, codes2) ->
  pre_parse fs codes1 is1 = Some p1 -> pre_parse fs codes2 is2 = Some p2 -> p_clear p1 = false ->
  values_ok w1 w2 (p_vars p1) -> no_special w1 -> no_special w2 -> targets_ok ts1 ts2 -> prereqs_ok ps1 ps2 ->
  Forall (line_ok codes1 (p_vars p1)) (p_body p1) ->
  no_collision H (hashed text1 p1 w1 ts1 ps1) (hashed text2 p2 w2 ts2 ps2) ->
  saved H text1 p1 (w_var w1) ts1 ps1 = saved H text2 p2 (w_var w2) ts2 ps2 ->
  text1 = text2 /\ start tmp ts1 ps1 = start tmp ts2 ps2 /\
  forall steps li s, execute_body fs sm codes1 p1 w1 steps li s = execute_body fs sm codes2 p2 w2 steps li s.
Proof.
  intros X1 X2 P1 P2 C V S1 S2 T P L NC E. unfold saved in E. cbn [app] in E. injection E as ET E. unfold no_collision, hashed in NC.
  assert (TE : text1 = text2) by (apply NC; cbn; auto). rewrite TE in X1. rewrite X1 in X2. injection X2 as <- <-. rewrite P1 in P2. injection P2 as <-. rewrite C in E. injection E as EV EG EP.
  apply NC in EV; [|cbn; auto | cbn; auto]. apply NC in EG; [|cbn; auto | cbn; auto]. apply NC in EP; [|cbn; auto 6 | cbn; auto 6].
  split; [exact TE|]. split; [apply same_start; assumption|]. intros steps li s. apply body_same.
  - intros x [I|I]; [eapply vars_inj; eassumption | rewrite (S1 x I), (S2 x I); reflexivity].
  - eapply pre_parse_covered; eassumption.
  - exact L.
Qed.
Print Assumptions C78_same_partial.

(* It cannot be executed if it uses anything that is not tracked: the names of all variables
   that are expanded in its body, with the names of functions not computed, are known, and no
   function is impure. *)
Theorem C78_collected fs codes is p : pre_parse fs codes is = Some p -> p_clear p = false ->
  forall l, In l (p_body p) -> has_exp (fst l) = true -> static_calls (c_exp (codes (snd l))) -> covered fs (p_vars p) (c_exp (codes (snd l))).
Proof. intros E C l I. pose proof (pre_parse_covered fs codes is p E C) as F. rewrite Forall_forall in F. exact (F l I). Qed.
Print Assumptions C78_collected.

(* Examples. o = $opts; if ($size($o) == 1); $cxx $o $< else $cxx $<. *)
Definition ex_name (s : bytes) : name := mkname None [] [] s NUL None.
Definition ex_val (s : bytes) : val := untyped [ex_name s].
Definition ex_cat (a c : val) : val :=
  untyped (match vnames a with Some ns => ns | None => [] end ++ match vnames c with Some ns => ns | None => [] end).
(* $size (): of a string its length, functions-string.cxx:562; otherwise of names,
   functions-name.cxx:387. *)
Definition ex_size (v : val) : val :=
  match vtype v, vnames v with
  | Some _, Some [n] => ex_val (repeat "I"%char (length (value n)))
  | _, Some ns => ex_val (repeat "I"%char (length ns))
  | _, None => ex_val []
  end.
Definition ex_sem : semantics :=
  mksem (fun _ x y => Some (ex_cat x y)) (fun v => match vnames v with Some [n] => Some (beqb (value n) (b "I")) | _ => None end)
    (fun v => match vnames v with Some [n] => Some ([], value n) | _ => None end)
    (fun f v => if beqb f (b "size") then Some (ex_size v) else Some v)
    (fun k o v => match k, vtype o with Assign, _ => Some v | _, Some _ => None | Append, None => Some (ex_cat o v) | Prepend, None => Some (ex_cat v o) end)
    (fun v => Some (match vnames v with Some (_ :: _) => false | _ => true end))
    (fun v => match vnames v with Some ns => map (fun n => untyped [n]) ns | None => [] end)
    (fun _ ev => mkout (Ok match vnames (ev_command ev) with Some [n] => beqb (value n) (b "I") | _ => true end) null []).
Definition ex_fs : functions := mkfns (fun f => if beqb f (b "size") then Some true else if beqb f (b "getenv") then Some false else None).
Definition ex_codes (id : nat) : code :=
  match id with
  | 0 => mkcode (b "o") Assign (Var (b "opts")) None
  | 1 => mkcode [] Assign (Call (b "size") (Var (b "o"))) None
  | 2 => mkcode [] Assign (Op 0 (Op 0 (Var (b "cxx")) (Var (b "o"))) (Var (b "<"))) None
  | _ => mkcode [] Assign (Op 0 (Var (b "cxx")) (Var (b "<"))) None
  end.
Definition ex_items : list item := [Lines [(LVar, 0)]; Lines [(LIf KCmd false, 1); (LCmd, 2); (LElse, 9); (LCmd, 3); (LEnd, 9)]].
Definition ex_world (l : list (bytes * val)) : world := mkworld (fun x => get x l) (fun _ _ => None) (fun f v => if beqb f (b "getenv") then get (b "env") l else None).
Definition ex_w1 : world := ex_world [(b "opts", ex_val (b "-g")); (b "cxx", ex_val (b "g++")); (b "unused", ex_val (b "a"))].
Definition ex_w2 : world := ex_world [(b "opts", ex_val (b "-g")); (b "cxx", ex_val (b "g++")); (b "unused", ex_val (b "b"))].
Definition ex_tgt (s : bytes) : tgt := mktgt [ex_name s] (Some s).
Definition ex_ts := [ex_tgt (b "hello")].
Definition ex_ps := [mkprereq PNormal (ex_tgt (b "hello.cxx")); mkprereq PAdhoc (ex_tgt (b "hello.hxx"))].
Definition ex_pre : pre := mkpre [b "opts"; b "o"; b "cxx"] false false false false [] [(LVar, 0); (LIf KCmd false, 1); (LCmd, 2); (LElse, 9); (LCmd, 3); (LEnd, 9)].

Example C78_ex_pre : pre_parse ex_fs ex_codes ex_items = Some ex_pre.
Proof. reflexivity. Qed.
Lemma ex_no_nul s : forallb (fun c => negb (ceqb c NUL)) s = true -> no_nul s.
Proof. intros F I. rewrite forallb_forall in F. specialize (F _ I). discriminate F. Qed.
Lemma ex_plain s : no_nul s -> plain (ex_name s).
Proof.
  intros N. unfold plain, ex_name; cbn. assert (no_nul []) by (intros []). repeat (split; [auto; left; reflexivity|]).
  intros c [<-|[<-|[<-|[]]]]; discriminate.
Qed.
Lemma ex_world_ok l x : (forall v, In v (map snd l) -> exists s, v = ex_val s /\ no_nul s) -> plain_lookup (get x l) /\ type_of (get x l) = None.
Proof.
  intros A. induction l as [|[y v] l IH]; cbn; [split; [intros ? ? [=] | reflexivity]|].
  destruct (beqb x y); [|apply IH; intros u U; apply A; right; exact U].
  destruct (A v) as (s & -> & N); [left; reflexivity|]. split; [|reflexivity]. intros ? ? [= <-] [= <-]. constructor; [apply ex_plain; exact N | constructor].
Qed.
Lemma ex_targets_ok ss : (forall s, In s ss -> no_nul s) -> targets_ok (map ex_tgt ss) (map ex_tgt ss).
Proof.
  intros N. split.
  - intros t I. rewrite <- map_app in I. apply in_map_iff in I. destruct I as (s & <- & I). exists s. split; [reflexivity | apply N; apply in_app_iff in I; tauto].
  - intros t1 t2 I1 I2 E. apply in_map_iff in I1, I2. destruct I1 as (s1 & <- & _), I2 as (s2 & <- & _). cbn in *. injection E as <-. reflexivity.
Qed.
Lemma ex_prereqs_ok : prereqs_ok ex_ps ex_ps.
Proof.
  split; [|split; [reflexivity | intros p [<-|[<-|[]]]; auto]].
  apply (ex_targets_ok [b "hello.cxx"; b "hello.hxx"]). intros s [<-|[<-|[]]]; apply ex_no_nul; reflexivity.
Qed.
(* Only a variable that is not used is changed: all the conditions are met, the recipe is
   not executed, and would execute the same commands. *)
Example C78_ex_same :
  values_ok ex_w1 ex_w2 (p_vars ex_pre) /\ no_special ex_w1 /\ no_special ex_w2 /\ targets_ok ex_ts ex_ts /\ prereqs_ok ex_ps ex_ps /\
  Forall (line_ok ex_codes (p_vars ex_pre)) (p_body ex_pre) /\ w_var ex_w1 <> w_var ex_w2 /\
  saved (fun x => x) (b "text") ex_pre (w_var ex_w1) ex_ts ex_ps = saved (fun x => x) (b "text") ex_pre (w_var ex_w2) ex_ts ex_ps /\
  option_map (fun r => match r with Done _ s => map ev_command (s_log s) | _ => [] end) (execute_body ex_fs ex_sem ex_codes ex_pre ex_w1 9 1 (start null ex_ts ex_ps)) =
    Some [untyped [ex_name (b "g++"); ex_name (b "-g"); ex_name (b "hello.cxx")]; ex_val (b "I")].
Proof.
  assert (SP : forall l, forallb (fun x => negb (special x)) (map fst l) = true -> no_special (ex_world l)).
  { intros l F x S. cbn. induction l as [|[y v] l IH]; cbn in *; [reflexivity|]. apply andb_true_iff in F. destruct F as [F1 F2].
    destruct (beqb x y) eqn:E; [apply beqb_eq in E; subst; rewrite S in F1; discriminate | apply IH; exact F2]. }
  split; [|split; [apply SP; reflexivity | split; [apply SP; reflexivity | split; [|split; [exact ex_prereqs_ok | split; [|split; [|split]]]]]]].
  - assert (A1 : forall x, plain_lookup (w_var ex_w1 x) /\ type_of (w_var ex_w1 x) = None) by (intros x; apply ex_world_ok; intros v [<-|[<-|[<-|[]]]]; eexists; (split; [reflexivity | apply ex_no_nul; reflexivity])).
    assert (A2 : forall x, plain_lookup (w_var ex_w2 x) /\ type_of (w_var ex_w2 x) = None) by (intros x; apply ex_world_ok; intros v [<-|[<-|[<-|[]]]]; eexists; (split; [reflexivity | apply ex_no_nul; reflexivity])).
    intros x I. split; [|split; [apply A1 | split; [apply A2 | destruct (A1 x) as [_ ->], (A2 x) as [_ ->]; reflexivity]]].
    cbn in I. destruct I as [<-|[<-|[<-|[]]]]; apply ex_no_nul; reflexivity.
  - apply (ex_targets_ok [b "hello"]). intros s [<-|[]]. apply ex_no_nul. reflexivity.
  - repeat constructor; cbn; auto; try discriminate; intros _; left; reflexivity.
  - intros E. pose proof (f_equal (fun w => w (b "unused")) E) as E'. discriminate E'.
  - reflexivity.
  - reflexivity.
Qed.
(* A used one is changed: something else is saved. *)
Example C78_ex_changed : saved (fun x => x) (b "text") ex_pre (w_var ex_w1) ex_ts ex_ps <>
  saved (fun x => x) (b "text") ex_pre (w_var (ex_world [(b "opts", ex_val (b "-g")); (b "cxx", ex_val (b "clang++"))])) ex_ts ex_ps.
Proof. discriminate. Qed.
(* Computed variable names and impure functions are diagnosed. Also in the arguments of the
   last depdb builtin, since what was seen is only forgotten before they are parsed. *)
Example C78_ex_rejected :
  pre_parse ex_fs (fun _ => mkcode [] Assign (Computed (Var (b "x"))) None) [Lines [(LCmd, 0)]] = None /\
  pre_parse ex_fs (fun _ => mkcode [] Assign (Call (b "getenv") (Lit (ex_val (b "X")))) None) [Lines [(LCmd, 0)]] = None /\
  pre_parse ex_fs ex_codes ([Depdb K_STRING (Call (b "getenv") (Lit (ex_val (b "X"))))] ++ ex_items) = None /\
  pre_parse ex_fs ex_codes ([Depdb K_STRING (Call (b "getenv") (Lit (ex_val (b "X")))); Depdb K_STRING (Var (b "y"))] ++ ex_items) <> None.
Proof. repeat split. discriminate. Qed.

(* The conditions are needed. The type of a value is not saved: x = [string] abc changed to
   x = abc, with the recipe using $size($x). *)
Definition ex_cmd (e : exp) : nat -> code := fun _ => mkcode [] Assign e None.
Definition ex_one : list item := [Lines [(LCmd, 0)]].
Theorem C78_type_refuted : exists codes w1 w2,
  (forall x, option_map vnames (w_var w1 x) = option_map vnames (w_var w2 x)) /\ missed ex_fs ex_sem codes ex_one w1 w2 ex_ts ex_ts ex_ps ex_ps.
Proof.
  exists (ex_cmd (Call (b "size") (Var (b "x")))), (ex_world [(b "x", mkval (Some 0) (Some [ex_name (b "abc")]))]), (ex_world [(b "x", ex_val (b "abc"))]).
  split; [intros x; cbn; destruct (beqb x _); reflexivity|].
  exists (mkpre [b "x"] false false false false [] [(LCmd, 0)]). split; [reflexivity|]. split; [reflexivity|]. split; [reflexivity|]. split; [reflexivity|].
  exists 2, null. eexists. eexists. split; [reflexivity|]. split; [reflexivity|]. discriminate.
Qed.
Print Assumptions C78_type_refuted.
(* Whether a name has a project is not saved: x = p% v changed to x = p/ %v. *)
Theorem C78_project_refuted : exists codes w1 w2,
  (forall x, type_of (w_var w1 x) = type_of (w_var w2 x)) /\ missed ex_fs ex_sem codes ex_one w1 w2 ex_ts ex_ts ex_ps ex_ps.
Proof.
  exists (ex_cmd (Var (b "x"))).
  exists (ex_world [(b "x", untyped [mkname (Some (b "p")) [] [] [] NUL None; mkname None [] [] (b "v") NUL None])]),
         (ex_world [(b "x", untyped [mkname None (b "p/") [] [] NUL None; mkname (Some []) [] [] (b "v") NUL None])]).
  split; [intros x; cbn; destruct (beqb x _); reflexivity|].
  exists (mkpre [b "x"] false false false false [] [(LCmd, 0)]). split; [reflexivity|]. split; [reflexivity|]. split; [reflexivity|]. split; [vm_compute; reflexivity|].
  exists 2, null. eexists. eexists. split; [reflexivity|]. split; [reflexivity|]. discriminate.
Qed.
Print Assumptions C78_project_refuted.
(* A prerequisite becomes ad hoc and so is no longer in $<. *)
Theorem C78_adhoc_refuted : exists codes w ps1 ps2,
  map ptgt ps1 = map ptgt ps2 /\ missed ex_fs ex_sem codes ex_one w w ex_ts ex_ts ps1 ps2.
Proof.
  exists (ex_cmd (Var (b "<"))), ex_w1, ex_ps, (map (fun p => mkprereq PAdhoc (ptgt p)) ex_ps). split; [reflexivity|].
  exists (mkpre [] false false false false [] [(LCmd, 0)]). split; [reflexivity|]. split; [reflexivity|]. split; [reflexivity|]. split; [reflexivity|].
  exists 2, null. eexists. eexists. split; [reflexivity|]. split; [reflexivity|]. discriminate.
Qed.
Print Assumptions C78_adhoc_refuted.
(* An update=unmatch prerequisite, which is in $<, is added. *)
Theorem C78_unmatch_refuted : exists codes w ps q,
  pkind_of q = PUnmatch /\ missed ex_fs ex_sem codes ex_one w w ex_ts ex_ts ps (ps ++ [q]).
Proof.
  exists (ex_cmd (Var (b "<"))), ex_w1, ex_ps, (mkprereq PUnmatch (ex_tgt (b "extra.txt"))). split; [reflexivity|].
  exists (mkpre [] false false false false [] [(LCmd, 0)]). split; [reflexivity|]. split; [reflexivity|]. split; [reflexivity|]. split; [reflexivity|].
  exists 2, null. eexists. eexists. split; [reflexivity|]. split; [reflexivity|]. discriminate.
Qed.
Print Assumptions C78_unmatch_refuted.
(* An impure function whose name is computed is not diagnosed. *)
Theorem C78_function_refuted : exists codes w1 w2,
  w_var w1 = w_var w2 /\ missed ex_fs ex_sem codes ex_one w1 w2 ex_ts ex_ts ex_ps ex_ps.
Proof.
  exists (ex_cmd (CallComputed (Lit (ex_val (b "getenv"))) (Lit (ex_val (b "X"))))).
  exists (mkworld (fun _ => None) (fun _ _ => None) (fun _ _ => Some (ex_val (b "1")))), (mkworld (fun _ => None) (fun _ _ => None) (fun _ _ => Some (ex_val (b "2")))).
  split; [reflexivity|].
  exists (mkpre [] false false false false [] [(LCmd, 0)]). split; [reflexivity|]. split; [reflexivity|]. split; [reflexivity|]. split; [reflexivity|].
  exists 2, null. eexists. eexists. split; [reflexivity|]. split; [reflexivity|]. discriminate.
Qed.
Print Assumptions C78_function_refuted.
(* opts += -g in a recipe that does not expand opts: its value as seen from the target is
   used but not saved. Here it becomes a bool to which -g cannot be appended, and so the
   recipe would now fail. *)
Theorem C78_append_refuted : exists codes is w1 w2,
  (forall l, In (Lines l) is -> Forall (fun t => static_calls (c_exp (codes (snd t)))) l) /\ missed ex_fs ex_sem codes is w1 w2 ex_ts ex_ts ex_ps ex_ps.
Proof.
  exists (fun id => match id with 0 => mkcode (b "opts") Append (Lit (ex_val (b "-g"))) None | _ => mkcode [] Assign (Var (b "<")) None end), [Lines [(LVar, 0)]; Lines [(LCmd, 1)]].
  exists ex_w1, (ex_world [(b "opts", mkval (Some 1) (Some [ex_name (b "true")]))]).
  split; [intros l [[= <-]|[[= <-]|[]]]; constructor; try exact Logic.I; constructor|].
  exists (mkpre [] false false false false [] [(LVar, 0); (LCmd, 1)]). split; [reflexivity|]. split; [reflexivity|]. split; [reflexivity|]. split; [reflexivity|].
  exists 3, null. eexists. eexists. split; [reflexivity|]. split; [reflexivity|]. discriminate.
Qed.
Print Assumptions C78_append_refuted.
