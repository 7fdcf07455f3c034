(* Proofs about flow control in buildfiles: what the program means is executed. *)
From Verif Require Import Base CtlModel CtlSpec CtlProofs CtlProofs2.

Section Complete.
Context {state val elem : Type}.
Context (eval : nat -> state -> option val) (truth null empty : val -> option bool)
        (compare : val -> option nat -> nat -> state -> option (bool * val))
        (elems : nat -> state -> option (list elem)) (touch : nat -> state -> state) (assign : nat -> elem -> state -> option state)
        (exec : nat -> state -> option state) (enter : nat -> state -> option state) (leave : state -> state -> state)
        (declare : nat -> list nat -> list (list line) -> state -> option state).
Notation Clause := (clause eval truth null empty compare elems touch assign exec enter leave declare).
Notation Branch := (branch eval truth null empty compare elems touch assign exec enter leave declare).
Notation IfElse := (if_else eval truth null empty compare elems touch assign exec enter leave declare).
Notation Cases := (cases eval truth null empty compare elems touch assign exec enter leave declare).
Notation Each := (each eval truth null empty compare elems touch assign exec enter leave declare).
Notation Repeat := (repeat eval truth null empty compare elems touch assign exec enter leave declare).
Notation After := (after eval truth null empty compare elems touch assign exec enter leave declare).
Notation OfStmt := (of_stmt eval truth null empty compare elems touch assign exec enter leave declare).
Notation Runs := (runs eval truth null empty compare elems touch assign exec enter leave declare).
Notation RunsBlock := (runs_block eval truth null empty compare elems touch assign exec enter leave declare).
Notation RunsBody := (runs_body eval truth null empty compare elems touch assign exec enter leave declare).
Notation RunsBranches := (runs_branches eval truth null empty compare elems touch assign exec enter leave declare).
Notation RunsSwitch := (runs_switch eval truth null empty compare elems touch assign exec enter leave declare).
Notation RunsFor := (runs_for eval truth null empty compare elems touch assign exec enter leave declare).
Notation RunsWhile := (runs_while eval truth null empty compare elems touch assign exec enter leave declare).
Notation lp level := (negb (level =? 0)).
Notation Labels := (labels compare).
Implicit Types s : state.


Scheme runs_ind' := Induction for runs Sort Prop
with runs_block_ind' := Induction for runs_block Sort Prop
with runs_body_ind' := Induction for runs_body Sort Prop
with runs_branches_ind' := Induction for runs_branches Sort Prop
with runs_switch_ind' := Induction for runs_switch Sort Prop
with runs_for_ind' := Induction for runs_for Sort Prop
with runs_while_ind' := Induction for runs_while Sort Prop.
Combined Scheme runs_all from runs_ind', runs_block_ind', runs_body_ind', runs_branches_ind', runs_switch_ind', runs_for_ind', runs_while_ind'.

(* For every limit that is large enough. *)
Definition large (P : nat -> Prop) : Prop := exists n0, forall n, n0 <= n -> P n.
Lemma large_and P Q : large P -> large Q -> large (fun n => P n /\ Q n).
Proof. intros (a & A) (c & C). exists (max a c). intros n L. split; [ apply A; lia | apply C; lia ]. Qed.
Lemma large_S P : large P -> large (fun n => match n with O => False | S n => P n end).
Proof. intros (a & A). exists (S a). intros [ | n ] L; [ lia | ]. apply A. lia. Qed.
Lemma large_imp (P Q : nat -> Prop) : (forall n, P n -> Q n) -> large P -> large Q.
Proof. intros H (a & A). exists a. auto. Qed.
Lemma large_always (P : nat -> Prop) : (forall n, P n) -> large P.
Proof. intros H. exists 0. auto. Qed.
Lemma large_step (P Q : nat -> Prop) : (forall n, P n -> Q (S n)) -> large P -> large Q.
Proof. intros H (a & A). exists (S a). intros [ | n ] L; [ lia | ]. apply H, A. lia. Qed.
Lemma large_ge k : large (fun n => k <= n).
Proof. exists k. auto. Qed.

Definition stmt_at lp' x s o := wf x -> forall level rest, lp' = lp level -> follow2 rest -> large (fun n => OfStmt n level x rest s = fin rest o).
Definition block_at lp' b s o := wfs b -> forall level parsed tail, lp' = lp level -> tail = [] \/ (exists t, tail = Close :: t) ->
  large (fun n => Clause n level false parsed (prints b ++ tail) s = fin tail o).
Definition body_at lp' b s o := wf_body b ->
  (forall level strict rest, lp' = lp level -> follow1 rest -> large (fun n => Branch n level strict true (print_body b ++ rest) s = fin rest o))
  /\ (forall level, lp' = lp level -> large (fun n => Clause n level false false (snd (text b)) s = fin (if fst (text b) then [Close] else []) o)).
Definition branches_at lp' br s o := wf_branches br -> forall level rest, lp' = lp level -> follow2 rest ->
  match br with BEnd => o = Normal s | _ => large (fun n => IfElse n level false (print_branches br ++ rest) s = fin rest o) end.
Definition switch_at lp' cs vs s o := wf_switch cs -> forall level rest, lp' = lp level ->
  large (fun n => Cases n level vs false false (print_switch cs ++ Close :: rest) s = fin rest o).
Definition for_at v b xs s o := wf_body b -> forall level, large (fun n => Each n level v xs (fst (text b)) (snd (text b)) s = fin [] o).
Definition while_at neg e b s o := wf_body b -> forall level, large (fun n => Repeat n level neg e (fst (text b)) (snd (text b)) s = fin [] o).

Lemma if_elif n level taken k neg e r s : IfElse n level taken (If k neg e :: r) s = IfElse n level taken (Elif k neg e :: r) s.
Proof. destruct n; reflexivity. Qed.

(* Labels are tried one after another. *)
Definition starts_special (T : list line) : bool := match T with (Case _ | Default) :: _ => true | _ => false end.
Lemma after_take n level s vs seen T : After n level false s vs seen true T =
  match special seen T with None => Failed | Some (seen, r) => and_then (Branch n level false true r s) (Cases n level vs true seen) end.
Proof. unfold after. now replace (match T with (Case _ | Default) :: _ => negb true && negb false | _ => false end) with false by now destruct T as [ | [] ]. Qed.
Lemma after_miss n level s vs T : After n level false s vs false false T =
  if starts_special T then Cases n level vs false false T s else and_then (Branch n level false false T s) (Cases n level vs false false).
Proof. unfold after. destruct T as [ | [] ]; reflexivity. Qed.
Lemma labels_fails s vs ls r : Labels s vs ls r -> r = None -> wf_labels ls -> forall T level, large (fun n => Cases n level vs false false (map Case ls ++ T) s = Failed).
Proof.
  induction 1 as [ vs | vs l ls P | vs l ls vs' P | vs l ls vs' r P L IH ]; intros E W T level; try discriminate;
  inversion W as [ | ? ? [Na Nb] W3 ]; subst; pose proof (proj2 (pats_iff compare s l Na Nb vs _) P) as Q.
  - apply large_step with (P := fun _ => True); [ | now apply large_always ]. intros n _. cbn [map app]. rewrite cases_case, Q. reflexivity.
  - destruct ls as [ | l2 ls ]; [ inversion L | ].
    eapply large_step; [ | exact (IH eq_refl W3 T level) ]. intros n E. cbn [map app] in *. rewrite cases_case, Q, after_miss. exact E.
Qed.
Lemma labels_take s vs ls r : Labels s vs ls r -> forall vs', r = Some (true, vs') -> wf_labels ls -> forall T seen T' (R : result) level,
  special false T = Some (seen, T') -> large (fun n => and_then (Branch n level false true T' s) (Cases n level vs' true seen) = R) ->
  large (fun n => Cases n level vs false false (map Case ls ++ T) s = R).
Proof.
  induction 1 as [ vs | vs l ls P | vs l ls vs' P | vs l ls vs' r P L IH ]; intros us E W T seen T' R level Sp Lg; try discriminate;
  inversion W as [ | ? ? [Na Nb] W3 ]; subst; pose proof (proj2 (pats_iff compare s l Na Nb vs _) P) as Q.
  - injection E as <-. eapply large_step; [ | exact Lg ]. intros n E. cbn [map app]. rewrite cases_case, Q, after_take, special_cases, Sp. exact E.
  - destruct ls as [ | l2 ls ]; [ inversion L | ].
    eapply large_step; [ | exact (IH us eq_refl W3 T seen T' R level Sp Lg) ]. intros n E. cbn [map app] in *. rewrite cases_case, Q, after_miss. exact E.
Qed.
Lemma labels_miss s vs ls r : Labels s vs ls r -> forall vs', r = Some (false, vs') -> wf_labels ls -> ls <> [] -> forall T (R : result) level,
  large (fun n => (if starts_special T then Cases n level vs' false false T s else and_then (Branch n level false false T s) (Cases n level vs' false false)) = R) ->
  large (fun n => Cases n level vs false false (map Case ls ++ T) s = R).
Proof.
  induction 1 as [ vs | vs l ls P | vs l ls vs' P | vs l ls vs' r P L IH ]; intros us E W N T R level Lg; try discriminate; [ congruence | ].
  inversion W as [ | ? ? [Na Nb] W3 ]; subst; pose proof (proj2 (pats_iff compare s l Na Nb vs _) P) as Q.
  destruct ls as [ | l2 ls ].
  - inversion L; subst. eapply large_step; [ | exact Lg ]. intros n E. cbn [map app] in *. rewrite cases_case, Q, after_miss. exact E.
  - eapply large_step; [ | exact (IH us eq_refl W3 ltac:(discriminate) T R level Lg) ]. intros n E. cbn [map app] in *. rewrite cases_case, Q, after_miss. exact E.
Qed.

Lemma iteration_body b s (o : outcome) : body_at true b s o -> wf_body b -> forall level,
  large (fun n => Clause n (S level) false false (snd (text b)) s = fin (if fst (text b) then [Close] else []) o).
Proof. intros H W level. exact (proj2 (H W) (S level) eq_refl). Qed.
Lemma complete_all :
  (forall l x s o, Runs l x s o -> stmt_at l x s o) /\ (forall l b s o, RunsBlock l b s o -> block_at l b s o)
  /\ (forall l b s o, RunsBody l b s o -> body_at l b s o) /\ (forall l br s o, RunsBranches l br s o -> branches_at l br s o)
  /\ (forall l cs vs s o, RunsSwitch l cs vs s o -> switch_at l cs vs s o)
  /\ (forall v b xs s o, RunsFor v b xs s o -> for_at v b xs s o) /\ (forall neg e b s o, RunsWhile neg e b s o -> while_at neg e b s o).
Proof.
  apply (runs_all state val elem eval truth null empty compare elems touch assign exec enter leave declare
    (fun l x s o _ => stmt_at l x s o) (fun l b s o _ => block_at l b s o) (fun l b s o _ => body_at l b s o) (fun l br s o _ => branches_at l br s o)
    (fun l cs vs s o _ => switch_at l cs vs s o) (fun v b xs s o _ => for_at v b xs s o) (fun neg e b s o _ => while_at neg e b s o)).
  - (* plain *) intros l c s W level rest El F. now apply large_always.
  - intros l c s W level rest El F. now apply large_always.
  - intros l c vars rs s W level rest El F. now apply large_always.
  - (* scope *) intros l d b s s1 o En _ IH W level rest El F. cbn [of_stmt]. rewrite En.
    eapply large_imp; [ | apply (IH W level false (Close :: rest) El); right; now exists rest ]. intros n E. cbn beta in E. rewrite E. now destruct o.
  - intros l d b s En W level rest El F. cbn [of_stmt]. rewrite En. now apply large_always.
  - (* if *) intros l k neg e b rest s o _ IH W level tail El F. cbn [of_stmt]. eapply large_imp; [ | exact (IH W level tail El F) ].
    intros n E. cbn beta in E. rewrite if_elif. cbn [print_branches app] in E. now rewrite <- app_assoc in E.
  - (* switch *) intros l es cs s vs o V _ IH W level rest El F. cbn [of_stmt]. apply values_some in V. rewrite V. exact (IH W level rest El).
  - intros l es cs s V W level rest El F. cbn [of_stmt]. apply values_none in V. rewrite V. now apply large_always.
  - (* for *) intros l v e b s xs o X _ IH W level rest El F. cbn [of_stmt]. rewrite X. eapply large_imp; [ | exact (IH W level) ].
    intros n E. cbn beta in E. destruct b; cbn [text fst snd] in E; rewrite E; now destruct o.
  - intros l v e b s X W level rest El F. cbn [of_stmt]. rewrite X. now apply large_always.
  - (* while *) intros l neg e b s o _ IH W level rest El F. cbn [of_stmt]. eapply large_imp; [ | exact (IH W level) ].
    intros n E. cbn beta in E. destruct b; cbn [text fst snd] in E; rewrite E; now destruct o.
  - (* jump *) intros l c s W level rest El F. cbn [of_stmt]. apply large_always. intros n. subst l. now destruct (level =? 0).
  - (* nil *) intros l s W level parsed tail El T. apply large_step with (P := fun _ => True); [ | now apply large_always ]. intros n _. cbn [prints app].
    destruct T as [-> | (t & ->)]; [ reflexivity | apply clause_close ].
  - (* cons *) intros l x b s s1 o _ IH1 _ IH2 [W1 W2] level parsed tail El T. pose proof (follow_prints b tail (follow_tail tail T)) as F.
    eapply large_step; [ | exact (large_and _ _ (IH1 W1 level _ El F) (IH2 W2 level true tail El T)) ].
    intros n [E1 E2]. cbn [prints]. rewrite <- app_assoc, clause_stmt by auto using follow21. now rewrite E1.
  - intros l x b s c s1 _ IH1 [W1 W2] level parsed tail El T. pose proof (follow_prints b tail (follow_tail tail T)) as F.
    eapply large_step; [ | exact (IH1 W1 level _ El F) ]. intros n E1. cbn beta in E1. cbn [prints]. rewrite <- app_assoc, clause_stmt by auto using follow21. now rewrite E1.
  - intros l x b s _ IH1 [W1 W2] level parsed tail El T. pose proof (follow_prints b tail (follow_tail tail T)) as F.
    eapply large_step; [ | exact (IH1 W1 level _ El F) ]. intros n E1. cbn beta in E1. cbn [prints]. rewrite <- app_assoc, clause_stmt by auto using follow21. now rewrite E1.
  - (* block *) intros l b s o _ IH W. split.
    + intros level strict rest El F. eapply large_step; [ | apply (IH W level false (Close :: rest) El); right; now exists rest ]. intros n E. cbn beta in E.
      cbn [print_body app]. rewrite <- app_assoc. cbn [app]. rewrite branch_block, E. now destruct o.
    + intros level El. apply (IH W level false [Close] El). right. now exists [].
  - (* line *) intros l x s o _ IH W. pose proof (wf_simple x W) as W1. split.
    + intros level strict rest El F.
      assert (X : large (fun n => OfStmt n level x rest s = fin rest o)).
      { assert (Y : exists o, forall n r, OfStmt n level x r s = fin r o).
        { destruct x as [ c | c | c [vs | ] [ | r rs ] | d b | k neg e b r | es cs | v e b | neg e b | c ]; try contradiction; cbn [of_stmt]; try (eexists; reflexivity).
          exists (if level =? 0 then Error else Jump c s). intros n r. now destruct (level =? 0). }
        destruct Y as (o' & Y). destruct (IH W1 level [] El I) as (n0 & E). specialize (E n0 (le_n _)). rewrite Y in E.
        assert (o' = o) by (destruct o', o; cbn in E; congruence). subst. now apply large_always. }
      apply (large_step (fun n => match n with O => False | S n => (OfStmt n level x rest s = fin rest o) /\ 1 <= n end)).
      * intros [ | n ] H; [ contradiction | ]. destruct H as [E L]. destruct (simple_line x W) as (l' & El' & _ & N1 & N2 & N3 & N4). cbn [print_body].
        transitivity (Clause (S n) level true false (print x ++ rest) s); [ rewrite El'; cbn [app]; now apply branch_line | ].
        rewrite clause_stmt, E by auto. destruct n as [ | n ]; [ lia | ]. rewrite and_then_fin. destruct o; try reflexivity. apply clause_one.
      * apply large_S. apply large_and; [ exact X | apply large_ge ].
    + intros level El. cbn [text fst snd].
      eapply large_step; [ | exact (large_and _ _ (IH W1 level [] El I) (large_ge 1)) ]. intros n [E L].
      replace (print x) with (print x ++ []) by apply app_nil_r. rewrite clause_stmt, E by (auto; exact I). destruct n as [ | n ]; [ lia | ]. rewrite and_then_fin. now destruct o.
  - (* end *) intros l s W level rest El F. reflexivity.
  - (* else *) intros l b s o _ IH W level rest El F. eapply large_step; [ | exact (proj1 (IH W) level true rest El (follow21 _ F)) ]. intros n E. cbn beta in E.
    cbn [print_branches app]. rewrite if_else_S. cbn [negb]. rewrite E. now destruct o.
  - (* taken *) intros l k neg e b rest s o H _ IH [W1 W2] level tail El F. pose proof (follow_branches rest tail (follow21 _ F)) as F1. apply condition_some in H.
    eapply large_step; [ | exact (large_and _ _ (proj1 (IH W1) level true _ El F1) (large_ge (size rest))) ]. intros n [E L].
    cbn [print_branches app]. rewrite <- app_assoc, if_else_S, H, E. destruct o as [ s1 | | ]; cbn [fin and_then orb]; try reflexivity.
    destruct rest as [ | b' | k' neg' e' b' r' ].
    + cbn [print_branches app]. destruct tail as [ | [] ]; try reflexivity; cbn in F; tauto.
    + exact (proj2 (if_skip eval truth null empty compare elems touch assign exec enter leave declare (BElse b') W2 ltac:(discriminate) tail F n level s1) L).
    + exact (proj2 (if_skip eval truth null empty compare elems touch assign exec enter leave declare (BElif k' neg' e' b' r') W2 ltac:(discriminate) tail F n level s1) L).
  - (* skipped *) intros l k neg e b rest s o H _ IH [W1 W2] level tail El F. apply condition_some in H. specialize (IH W2 level tail El F).
    assert (X : large (fun n => match print_branches rest ++ tail with (Elif _ _ _ | Else) :: _ => IfElse n level false (print_branches rest ++ tail) s | _ => Done (print_branches rest ++ tail) s end = fin tail o)).
    { destruct rest as [ | b' | k' neg' e' b' r' ].
      - subst o. apply large_always. intros n. cbn [print_branches app]. destruct tail as [ | [] ]; try reflexivity; cbn in F; tauto.
      - exact IH.
      - exact IH. }
    eapply large_step; [ | exact (large_and _ _ X (large_ge 1)) ]. intros n [E L]. destruct n as [ | n ]; [ lia | ].
    cbn [print_branches app]. rewrite <- app_assoc, if_else_S, H, branch_skip by exact W1. exact E.
  - (* senseless *) intros l k neg e b rest s H W level tail El F. apply condition_none in H. apply large_step with (P := fun _ => True); [ | now apply large_always ]. intros n _.
    cbn [print_branches app]. now rewrite if_else_S, H.
  - (* no cases *) intros l vs s W level rest El. apply large_step with (P := fun _ => True); [ | now apply large_always ]. reflexivity.
  - (* default *) intros l ls b vs s r o Lb _ IH [W1 W2] level rest El. cbn [print_switch]. rewrite <- app_assoc. cbn [app].
    pose proof (proj1 (IH W2) level false (Close :: rest) El I) as Hb.
    assert (Z : forall vs', large (fun n => and_then (Branch n level false true (print_body b ++ Close :: rest) s) (Cases n level vs' true true) = fin rest o)).
    { intros vs'. eapply large_imp; [ | exact (large_and _ _ Hb (large_ge 1)) ]. intros n [E L]. cbn beta. rewrite E. destruct n; [ lia | ]. now destruct o. }
    assert (D : forall vs', large (fun n => Cases n level vs' false false (Default :: print_body b ++ Close :: rest) s = fin rest o)).
    { intros vs'. eapply large_step; [ | exact (Z vs') ]. intros n E. cbn beta in E. rewrite cases_default. cbn [negb]. rewrite after_take, special_body by exact W2. exact E. }
    destruct ls as [ | l0 ls ]; [ exact (D vs) | ]. destruct r as [ [ | ] vs' ].
    + eapply (labels_take _ _ _ _ Lb vs' eq_refl W1); [ cbn [special]; apply special_body; exact W2 | exact (Z vs') ].
    + eapply (labels_miss _ _ _ _ Lb vs' eq_refl W1); [ discriminate | ]. cbn [starts_special]. exact (D vs').
  - intros l ls b vs s Lb [W1 W2] level rest El. cbn [print_switch]. rewrite <- app_assoc. exact (labels_fails _ _ _ _ Lb eq_refl W1 _ level).
  - (* case *) intros l ls b rest vs s vs' o Lb _ IH (N & W1 & W2 & W3) level tail El. cbn [print_switch]. rewrite <- !app_assoc.
    eapply (labels_take _ _ _ _ Lb vs' eq_refl W1); [ apply special_body; exact W2 | ].
    eapply large_imp; [ | exact (large_and _ _ (proj1 (IH W2) level false _ El (follow_switch rest tail W3)) (large_ge (S (length (print_switch rest))))) ].
    intros n [E L]. cbn beta. rewrite E. destruct o as [ s1 | | ]; try reflexivity. cbn [fin and_then].
    exact (proj2 (switch_skip eval truth null empty compare elems touch assign exec enter leave declare rest W3 n level vs' s1 tail) L).
  - (* other *) intros l ls b rest vs s vs' o Lb _ IH (N & W1 & W2 & W3) level tail El. cbn [print_switch]. rewrite <- !app_assoc.
    eapply (labels_miss _ _ _ _ Lb vs' eq_refl W1 N). replace (starts_special (print_body b ++ print_switch rest ++ Close :: tail)) with false.
    2: { symmetry. exact (not_special_body b _ true W2). }
    eapply large_imp; [ | exact (large_and _ _ (IH W3 level tail El) (large_ge 1)) ]. intros n [E L]. destruct n as [ | n ]; [ lia | ]. rewrite branch_skip by exact W2. exact E.
  - intros l ls b rest vs s Lb (N & W1 & W2 & W3) level tail El. cbn [print_switch]. rewrite <- !app_assoc. exact (labels_fails _ _ _ _ Lb eq_refl W1 _ level).
  - (* for *) intros v b s W level. apply large_step with (P := fun _ => True); [ | now apply large_always ]. reflexivity.
  - intros v b x xs s A W level. apply large_step with (P := fun _ => True); [ | now apply large_always ]. intros n _. now rewrite each_S, A.
  - intros v b x xs s s1 o1 s2 o A _ IH1 Ag _ IH2 W level.
    eapply large_step; [ | exact (large_and _ _ (iteration_body _ _ _ IH1 W level) (IH2 W level)) ]. intros n [E1 E2]. rewrite each_S, A, E1.
    destruct Ag; cbn [fin]; [ rewrite complete_text | ]; exact E2.
  - intros v b x xs s s1 s2 A _ IH1 W level. eapply large_step; [ | exact (iteration_body _ _ _ IH1 W level) ]. intros n E1. cbn beta in E1. rewrite each_S, A, E1. reflexivity.
  - intros v b x xs s s1 A _ IH1 W level. eapply large_step; [ | exact (iteration_body _ _ _ IH1 W level) ]. intros n E1. cbn beta in E1. rewrite each_S, A, E1. reflexivity.
  - (* while *) intros neg e b s H W level. apply condition_none in H. apply large_step with (P := fun _ => True); [ | now apply large_always ]. intros n _. now rewrite repeat_S, H.
  - intros neg e b s H W level. apply condition_some in H. apply large_step with (P := fun _ => True); [ | now apply large_always ]. intros n _. now rewrite repeat_S, H.
  - intros neg e b s o1 s1 o H _ IH1 Ag _ IH2 W level. apply condition_some in H.
    eapply large_step; [ | exact (large_and _ _ (iteration_body _ _ _ IH1 W level) (IH2 W level)) ]. intros n [E1 E2]. rewrite repeat_S, H, E1.
    destruct Ag; cbn [fin]; [ rewrite complete_text | ]; exact E2.
  - intros neg e b s s1 H _ IH1 W level. apply condition_some in H. eapply large_step; [ | exact (iteration_body _ _ _ IH1 W level) ]. intros n E1. cbn beta in E1. rewrite repeat_S, H, E1. reflexivity.
  - intros neg e b s H _ IH1 W level. apply condition_some in H. eapply large_step; [ | exact (iteration_body _ _ _ IH1 W level) ]. intros n E1. cbn beta in E1. rewrite repeat_S, H, E1. reflexivity.
Qed.
End Complete.
