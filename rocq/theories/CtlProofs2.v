(* Proofs about flow control in buildfiles: what is executed is what the program means. *)
From Verif Require Import Base CtlModel CtlSpec CtlProofs.

Section Sound.
Context {state val elem : Type}.
Context (eval : nat -> state -> option val) (truth null empty : val -> option bool)
        (compare : val -> option nat -> nat -> state -> option (bool * val))
        (elems : nat -> state -> option (list elem)) (touch : nat -> state -> state) (assign : nat -> elem -> state -> option state)
        (exec : nat -> state -> option state) (enter : nat -> state -> option state) (leave : state -> state -> state)
        (declare : nat -> list nat -> list (list line) -> state -> option state).
Notation Clause := (clause eval truth null empty compare elems touch assign exec enter leave declare).
Notation Branch := (branch eval truth null empty compare elems touch assign exec enter leave declare).
Notation IfElse := (if_else eval truth null empty compare elems touch assign exec enter leave declare).
Notation Cases := (cases eval truth null empty compare elems touch assign exec enter leave declare).
Notation Each := (each eval truth null empty compare elems touch assign exec enter leave declare).
Notation Repeat := (repeat eval truth null empty compare elems touch assign exec enter leave declare).
Notation After := (after eval truth null empty compare elems touch assign exec enter leave declare).
Notation OfStmt := (of_stmt eval truth null empty compare elems touch assign exec enter leave declare).
Notation Runs := (runs eval truth null empty compare elems touch assign exec enter leave declare).
Notation RunsBlock := (runs_block eval truth null empty compare elems touch assign exec enter leave declare).
Notation RunsBody := (runs_body eval truth null empty compare elems touch assign exec enter leave declare).
Notation RunsBranches := (runs_branches eval truth null empty compare elems touch assign exec enter leave declare).
Notation RunsSwitch := (runs_switch eval truth null empty compare elems touch assign exec enter leave declare).
Notation RunsFor := (runs_for eval truth null empty compare elems touch assign exec enter leave declare).
Notation RunsWhile := (runs_while eval truth null empty compare elems touch assign exec enter leave declare).
Notation lp level := (negb (level =? 0)).
Implicit Types s : state.

(* What the limit allows is what the program means. *)
Definition block_ok n := forall level parsed b s tail r, wfs b -> tail = [] \/ (exists t, tail = Close :: t) ->
  Clause n level false parsed (prints b ++ tail) s = r -> r <> More -> exists o, RunsBlock (lp level) b s o /\ r = fin tail o.
Definition body_ok n := forall level strict b s rest r, wf_body b -> follow1 rest ->
  Branch n level strict true (print_body b ++ rest) s = r -> r <> More -> exists o, RunsBody (lp level) b s o /\ r = fin rest o.
Definition if_ok n := forall level l k neg e b br s rest r, l = If k neg e \/ l = Elif k neg e -> wf_body b -> wf_branches br -> follow2 rest ->
  IfElse n level false (l :: print_body b ++ print_branches br ++ rest) s = r -> r <> More ->
  exists o, RunsBranches (lp level) (BElif k neg e b br) s o /\ r = fin rest o.
Definition else_ok n := forall level b s rest r, wf_body b -> follow2 rest ->
  IfElse n level false (Else :: print_body b ++ rest) s = r -> r <> More -> exists o, RunsBody (lp level) b s o /\ r = fin rest o.
Definition switch_ok n := forall level vs cs s rest r, wf_switch cs ->
  Cases n level vs false false (print_switch cs ++ Close :: rest) s = r -> r <> More ->
  exists o, RunsSwitch (lp level) cs vs s o /\ r = fin rest o.
(* The saved body. *)
Definition text (b : body) : bool * list line := match b with Block b => (true, prints b ++ [Close]) | Line x => (false, print x) end.
Definition for_ok n := forall level v xs b s r, wf_body b ->
  Each n level v xs (fst (text b)) (snd (text b)) s = r -> r <> More -> exists o, RunsFor v b xs s o /\ r = fin [] o.
Definition while_ok n := forall level neg e b s r, wf_body b ->
  Repeat n level neg e (fst (text b)) (snd (text b)) s = r -> r <> More -> exists o, RunsWhile neg e b s o /\ r = fin [] o.

Lemma wf_simple x : simple x -> wf x.
Proof. destruct x as [ | | c [ | ] [ | ] | | | | | | ]; cbn; try easy. Qed.
Lemma and_then_more {r : @result state} {f} : and_then r f <> More -> r <> More.
Proof. intros H ->. now apply H. Qed.

(* Once taken, the rest of a switch is skipped. *)
Lemma special_cases ls T : special false (map Case ls ++ T) = special false T.
Proof. induction ls; cbn; auto. Qed.
Lemma special_body b T seen : wf_body b -> special seen (print_body b ++ T) = Some (seen, print_body b ++ T).
Proof. destruct b as [ b | x ]; cbn; [ reflexivity | ]. destruct x as [ | | c [ | ] [ | ] | | | | | | [] ]; cbn; easy. Qed.
Lemma not_special_body b T (x : bool) : wf_body b -> match print_body b ++ T with (Case _ | Default) :: _ => x | _ => false end = false.
Proof. destruct b as [ b | y ]; cbn; [ reflexivity | ]. destruct y as [ | | c [ | ] [ | ] | | | | | | [] ]; cbn; easy. Qed.
Lemma switch_skip cs : wf_switch cs -> forall n level vs s rest,
  (Cases n level vs true false (print_switch cs ++ Close :: rest) s = More \/ Cases n level vs true false (print_switch cs ++ Close :: rest) s = Done rest s)
  /\ (length (print_switch cs) < n -> Cases n level vs true false (print_switch cs ++ Close :: rest) s = Done rest s).
Proof.
  induction cs as [ | ls b | ls b cs IH ]; intros W n level vs s rest.
  - destruct n; cbn; split; auto; lia.
  - destruct W as [W1 W2]. destruct n as [ | [ | n ] ]; [ cbn; split; auto; lia | | ].
    + cbn [print_switch]. rewrite app_length. cbn [length]. split; [ | lia ]. left. rewrite <- app_assoc. destruct ls as [ | l ls ]; cbn [map app].
      * rewrite cases_default. unfold after. cbn [negb andb]. rewrite not_special_body, special_body by exact W2. reflexivity.
      * rewrite cases_case. unfold after. cbn [negb andb]. replace (match _ with (Case _ | Default) :: _ => false | _ => false end) with false.
        2: { destruct ls; cbn; [ reflexivity | reflexivity ]. }
        rewrite special_cases. cbn [app special]. rewrite special_body by exact W2. reflexivity.
    + cbn [print_switch]. rewrite <- app_assoc. assert (X : Cases (S (S n)) level vs true false (map Case ls ++ (Default :: print_body b) ++ Close :: rest) s = Done rest s).
      { destruct ls as [ | l ls ]; cbn [map app].
        - rewrite cases_default. unfold after. cbn [negb andb]. rewrite not_special_body, special_body by exact W2. rewrite branch_skip by exact W2. reflexivity.
        - rewrite cases_case. unfold after. cbn [negb andb]. replace (match _ with (Case _ | Default) :: _ => false | _ => false end) with false.
          2: { destruct ls; cbn; [ reflexivity | reflexivity ]. }
          rewrite special_cases. cbn [app special]. rewrite special_body, branch_skip by exact W2. reflexivity. }
      split; auto.
  - destruct W as (N & W1 & W2 & W3). destruct ls as [ | l ls ]; [ congruence | ]. cbn [print_switch map app].
    destruct n as [ | [ | n ] ].
    + cbn; split; auto; lia.
    + split; [ | cbn; rewrite !app_length; destruct b as [ | x ]; cbn; [ lia | destruct (simple_line x W2) as (l' & -> & _); cbn; lia ] ]. left.
      rewrite cases_case. unfold after. cbn [negb andb]. rewrite <- !app_assoc.
      replace (match _ with (Case _ | Default) :: _ => false | _ => false end) with false by (now destruct (map Case ls ++ print_body b ++ print_switch cs ++ Close :: rest) as [ | [] ]).
      rewrite special_cases, special_body by exact W2. reflexivity.
    + assert (E : Cases (S (S n)) level vs true false (Case l :: (map Case ls ++ print_body b ++ print_switch cs) ++ Close :: rest) s
        = Cases (S n) level vs true false (print_switch cs ++ Close :: rest) s).
      { rewrite cases_case. unfold after. cbn [negb andb]. rewrite <- !app_assoc.
        replace (match _ with (Case _ | Default) :: _ => false | _ => false end) with false by (now destruct (map Case ls ++ print_body b ++ print_switch cs ++ Close :: rest) as [ | [] ]).
        rewrite special_cases, special_body by exact W2. rewrite branch_skip by exact W2. reflexivity. }
      cbn [app]. rewrite E. destruct (IH W3 (S n) level vs s rest) as [A B]. split; [ exact A | ]. intros L. apply B. cbn in L. rewrite !app_length in L. cbn in *.
      destruct b as [ | x ]; cbn in L; [ lia | destruct (simple_line x W2) as (l' & E' & _); rewrite E' in L; cbn in L; lia ].
Qed.

Definition stmt_ok n := forall level x rest s r, wf x -> follow2 rest -> OfStmt n level x rest s = r -> r <> More ->
  exists o, Runs (lp level) x s o /\ r = fin rest o.
Lemma stmt_step n : block_ok n -> if_ok n -> switch_ok n -> for_ok n -> while_ok n -> stmt_ok n.
Proof.
  intros HB HI HS HF HW level x rest s r W F E N. subst r.
  destruct x as [ c | c | c vars rs | d b | k neg e b r | es cs | v e b | neg e b | c ]; cbn [of_stmt] in *; cbn [wf] in W.
  - eexists. split; [ apply r_plain | reflexivity ].
  - eexists. split; [ apply r_assign | reflexivity ].
  - eexists. split; [ apply r_decl | reflexivity ].
  - destruct (enter d s) as [ s1 | ] eqn:En; [ | exists Error; split; [ now apply r_scope_fail | reflexivity ] ].
    destruct (HB level false b s1 (Close :: rest) _ W (or_intror (ex_intro _ rest eq_refl)) eq_refl) as (o & R & Eo).
    { intros X. rewrite X in N. now apply N. }
    rewrite Eo. eexists. split; [ eapply r_scope; [ exact En | exact R ] | ]. now destruct o.
  - destruct W as [W1 W2]. destruct (HI level _ k neg e b r s rest _ (or_introl eq_refl) W1 W2 F eq_refl N) as (o & R & ->).
    exists o. split; [ now apply r_if | reflexivity ].
  - destruct (values eval es s) as [ vs | ] eqn:V.
    + destruct (HS level vs cs s rest _ W eq_refl N) as (o & R & ->). exists o. split; [ | reflexivity ]. eapply r_switch; [ apply values_some; exact V | exact R ].
    + exists Error. split; [ apply r_switch_fail; now apply values_none | reflexivity ].
  - destruct (elems e s) as [ xs | ] eqn:X; [ | exists Error; split; [ now apply r_for_fail | reflexivity ] ].
    assert (Y : (match b with Block b => Each n level v xs true (prints b ++ [Close]) (touch v s) | Line x => Each n level v xs false (print x) (touch v s) end)
      = Each n level v xs (fst (text b)) (snd (text b)) (touch v s)) by now destruct b.
    rewrite Y in *. destruct (HF level v xs b (touch v s) _ W eq_refl (and_then_more N)) as (o & R & ->).
    exists o. split; [ now apply r_for with xs | now destruct o ].
  - assert (Y : (match b with Block b => Repeat n level neg e true (prints b ++ [Close]) s | Line x => Repeat n level neg e false (print x) s end)
      = Repeat n level neg e (fst (text b)) (snd (text b)) s) by now destruct b.
    rewrite Y in *. destruct (HW level neg e b s _ W eq_refl (and_then_more N)) as (o & R & ->).
    exists o. split; [ now apply r_while | now destruct o ].
  - eexists. split; [ apply r_jump | ]. now destruct (level =? 0).
Qed.
Lemma follow_tail tail : tail = [] \/ (exists t, tail = Close :: t) -> follow2 tail.
Proof. intros [-> | (t & ->)]; exact I. Qed.
Lemma block_step n : stmt_ok n -> block_ok n -> block_ok (S n).
Proof.
  intros HS HB level parsed b s tail r W T E N. subst r. destruct b as [ | x b ]; cbn [prints app] in *.
  - exists (Normal s). split; [ constructor | ]. destruct T as [-> | (t & ->)]; [ reflexivity | apply clause_close ].
  - destruct W as [W1 W2]. rewrite <- app_assoc in *. pose proof (follow_prints b tail (follow_tail tail T)) as F.
    rewrite clause_stmt in * by auto using follow21.
    destruct (HS level x _ s _ W1 F eq_refl (and_then_more N)) as (o & R & Eo). rewrite Eo in *. destruct o as [ s1 | c s1 | ]; cbn [fin and_then] in *.
    + destruct (HB level true b s1 tail _ W2 T eq_refl N) as (o & R2 & ->). exists o. split; [ eapply r_cons; eauto | reflexivity ].
    + exists (Jump c s1). split; [ now apply r_cons_jump | reflexivity ].
    + exists Error. split; [ now apply r_cons_fail | reflexivity ].
Qed.
(* A simple statement: nothing inside. *)
Lemma line_ok n level x s rest r : simple x -> follow1 rest -> Clause n level true false (print x ++ rest) s = r -> r <> More ->
  exists o, Runs (lp level) x s o /\ r = fin rest o.
Proof.
  intros W F <- N. destruct n as [ | n ]; [ now destruct N | ]. rewrite clause_stmt in * by auto using wf_simple.
  assert (X : exists o, Runs (lp level) x s o /\ OfStmt n level x rest s = fin rest o).
  { destruct x as [ c | c | c [vs | ] [ | r rs ] | d b | k neg e b r | es cs | v e b | neg e b | c ]; try contradiction; cbn [of_stmt]; eexists.
    - split; [ apply r_plain | reflexivity ].
    - split; [ apply r_assign | reflexivity ].
    - split; [ apply r_decl | reflexivity ].
    - split; [ apply r_jump | now destruct (level =? 0) ]. }
  destruct X as (o & R & E). rewrite E in *. exists o. split; [ exact R | ]. destruct o as [ s1 | | ]; cbn [and_then fin] in *; try reflexivity.
  destruct n as [ | n ]; [ now destruct N | ]. apply clause_one.
Qed.
Lemma body_step n : block_ok n -> body_ok (S n).
Proof.
  intros HB level strict b s rest r W F <- N. destruct b as [ b | x ].
  - cbn [print_body app wf_body] in *. rewrite <- app_assoc in *. cbn [app] in *. rewrite branch_block in *.
    destruct (HB level false b s (Close :: rest) _ W (or_intror (ex_intro _ rest eq_refl)) eq_refl (and_then_more N)) as (o & R & E). rewrite E.
    exists o. split; [ now constructor | now destruct o ].
  - cbn [print_body wf_body] in *. destruct (simple_line x W) as (l & E & _ & N1 & N2 & N3 & N4). rewrite E in *. cbn [app] in *. rewrite branch_line in * by assumption.
    destruct (line_ok n level x s rest _ W F eq_refl) as (o & R & Eo); rewrite E in *; cbn [app] in *; [ exact N | ].
    exists o. split; [ now constructor | exact Eo ].
Qed.
Lemma else_step n : body_ok n -> else_ok (S n).
Proof.
  intros HB level b s rest r W F <- N. rewrite if_else_S in *. cbn [negb] in *.
  destruct (HB level true b s rest _ W (follow21 _ F) eq_refl (and_then_more N)) as (o & R & E). rewrite E. exists o. split; [ exact R | now destruct o ].
Qed.
Lemma if_step n : body_ok n -> if_ok n -> else_ok n -> if_ok (S n).
Proof.
  intros HB HI HE level l k neg e b br s rest r L W1 W2 F <- N.
  assert (X : IfElse (S n) level false (l :: print_body b ++ print_branches br ++ rest) s =
    match condition eval truth null empty k neg e s with
    | None => Failed
    | Some take =>
        and_then (Branch n level true take (print_body b ++ print_branches br ++ rest) s) (fun ls s =>
        match ls with (Elif _ _ _ | Else) :: _ => IfElse n level take ls s | _ => Done ls s end)
    end) by (rewrite if_else_S; destruct L as [-> | ->]; reflexivity).
  rewrite X in *. clear X. destruct (condition eval truth null empty k neg e s) as [ [ | ] | ] eqn:C.
  - pose proof (follow_branches br rest (follow21 _ F)) as F1.
    destruct (HB level true b s _ _ W1 F1 eq_refl (and_then_more N)) as (o & R & E). rewrite E in *. exists o.
    split; [ apply r_taken; [ now apply condition_some | exact R ] | ]. destruct o as [ s1 | | ]; cbn [fin and_then] in *; try reflexivity.
    destruct br as [ | b' | k' neg' e' b' br' ]; cbn [print_branches app] in *.
    + destruct rest as [ | [] ]; try reflexivity; cbn in F; tauto.
    + destruct (proj1 (if_skip eval truth null empty compare elems touch assign exec enter leave declare (BElse b') W2 ltac:(discriminate) rest F n level s1)) as [M | M];
      cbn [print_branches app] in M; [ congruence | exact M ].
    + destruct (proj1 (if_skip eval truth null empty compare elems touch assign exec enter leave declare (BElif k' neg' e' b' br') W2 ltac:(discriminate) rest F n level s1)) as [M | M];
      cbn [print_branches app] in M; [ congruence | exact M ].
  - destruct n as [ | n ]; [ now destruct N | ]. rewrite branch_skip in * by exact W1. cbn [and_then] in *.
    apply condition_some in C. destruct br as [ | b' | k' neg' e' b' br' ]; cbn [print_branches app] in *.
    + exists (Normal s). split; [ apply r_skipped; [ exact C | constructor ] | ]. destruct rest as [ | [] ]; try reflexivity; cbn in F; tauto.
    + destruct (HE level b' s rest _ W2 F eq_refl N) as (o & R & ->). exists o. split; [ apply r_skipped; [ exact C | now constructor ] | reflexivity ].
    + destruct W2 as [W2 W3]. rewrite <- app_assoc in *.
      destruct (HI level _ k' neg' e' b' br' s rest _ (or_intror eq_refl) W2 W3 F eq_refl N) as (o & R & ->).
      exists o. split; [ now apply r_skipped | reflexivity ].
  - exists Error. split; [ apply r_senseless; now apply condition_none | reflexivity ].
Qed.
Lemma switch_step n : body_ok n -> switch_ok n -> switch_ok (S n).
Proof.
  intros HB HS level vs cs s rest r W <- N. destruct cs as [ | ls b | ls b cs ]; cbn [print_switch app] in *.
  - exists (Normal s). split; [ constructor | reflexivity ].
  - destruct W as [W1 W2]. rewrite <- app_assoc in *. destruct ls as [ | l ls ]; cbn [map app] in *.
    + rewrite cases_default in *. unfold after in *. cbn [negb andb orb] in *. rewrite not_special_body, special_body in * by exact W2.
      destruct (HB level false b s (Close :: rest) _ W2 I eq_refl (and_then_more N)) as (o & R & E). rewrite E in *.
      exists o. split; [ eapply r_default; [ constructor | exact R ] | ]. destruct o; try reflexivity. cbn [fin and_then] in *. destruct n; [ now destruct N | reflexivity ].
    + inversion W1 as [ | ? ? [Na Nb] W3 ]; subst. rewrite cases_case in *. pose proof (pats_iff compare s l Na Nb vs) as P.
      destruct (patterns compare vs l s) as [ [ [ | ] vs' ] | ] eqn:E; pose proof (proj1 (P _) eq_refl) as Q; unfold after in *; cbn [negb andb orb] in *.
      * replace (match map Case ls ++ Default :: print_body b ++ Close :: rest with (Case _ | Default) :: _ => false | _ => false end) with false in * by now destruct ls.
        rewrite special_cases in *. cbn [special] in *. rewrite special_body in * by exact W2.
        destruct (HB level false b s (Close :: rest) _ W2 I eq_refl (and_then_more N)) as (o & R & Eo). rewrite Eo in *.
        exists o. split; [ eapply r_default; [ eapply labels_hit; exact Q | exact R ] | ]. destruct o; try reflexivity. cbn [fin and_then] in *. destruct n; [ now destruct N | reflexivity ].
      * replace (match map Case ls ++ Default :: print_body b ++ Close :: rest with (Case _ | Default) :: _ => true | _ => false end) with true in * by now destruct ls.
        destruct (HS level vs' (CDefault ls b) s rest (Cases n level vs' false false (map Case ls ++ Default :: print_body b ++ Close :: rest) s)) as (o & R & Eo); [ now split | cbn [print_switch]; now rewrite <- app_assoc | exact N | ].
        rewrite Eo. exists o. split; [ | reflexivity ]. inversion R; subst.
        -- eapply r_default; [ eapply labels_next; eauto | assumption ].
        -- eapply r_default_fail. eapply labels_next; eauto.
      * exists Error. split; [ apply r_default_fail; now apply labels_fail | reflexivity ].
  - destruct W as (Nl & W1 & W2 & W4). destruct ls as [ | l ls ]; [ congruence | ]. cbn [map app] in *. rewrite <- !app_assoc in *.
    inversion W1 as [ | ? ? [Na Nb] W3 ]; subst. rewrite cases_case in *. pose proof (pats_iff compare s l Na Nb vs) as P.
    pose proof (follow_switch cs rest W4) as F.
    destruct (patterns compare vs l s) as [ [ [ | ] vs' ] | ] eqn:E; pose proof (proj1 (P _) eq_refl) as Q; unfold after in *; cbn [negb andb orb] in *.
    + replace (match map Case ls ++ print_body b ++ print_switch cs ++ Close :: rest with (Case _ | Default) :: _ => false | _ => false end) with false in *
        by (now destruct (map Case ls ++ print_body b ++ print_switch cs ++ Close :: rest) as [ | [] ]).
      rewrite special_cases, special_body in * by exact W2.
      destruct (HB level false b s _ _ W2 F eq_refl (and_then_more N)) as (o & R & Eo). rewrite Eo in *.
      exists o. split; [ eapply r_case; [ eapply labels_hit; exact Q | exact R ] | ]. destruct o as [ s1 | | ]; try reflexivity. cbn [fin and_then] in *.
      destruct (proj1 (switch_skip cs W4 n level vs' s1 rest)) as [M | M]; [ congruence | exact M ].
    + destruct ls as [ | l2 ls ]; cbn [map app] in *.
      * rewrite not_special_body, special_body in * by exact W2. destruct n as [ | n ]; [ now destruct N | ]. rewrite branch_skip in * by exact W2. cbn [and_then] in *.
        destruct (HS level vs' cs s rest _ W4 eq_refl N) as (o & R & ->). exists o. split; [ | reflexivity ].
        eapply r_other; [ eapply labels_next; [ exact Q | constructor ] | exact R ].
      * destruct (HS level vs' (CCase (l2 :: ls) b cs) s rest (Cases n level vs' false false (Case l2 :: map Case ls ++ print_body b ++ print_switch cs ++ Close :: rest) s)) as (o & R & Eo);
          [ repeat split; easy | cbn [print_switch map app]; now rewrite <- !app_assoc | exact N | ].
        rewrite Eo. exists o. split; [ | reflexivity ]. inversion R; subst.
        -- eapply r_case; [ eapply labels_next; eauto | assumption ].
        -- eapply r_other; [ eapply labels_next; eauto | assumption ].
        -- eapply r_case_fail. eapply labels_next; eauto.
    + exists Error. split; [ apply r_case_fail; now apply labels_fail | reflexivity ].
Qed.
(* An iteration *)
Lemma text_ok n level b s r : block_ok n -> wf_body b -> Clause n (S level) false false (snd (text b)) s = r -> r <> More ->
  exists o, RunsBody true b s o /\ r = fin (if fst (text b) then [Close] else []) o.
Proof.
  intros HB W <- N. destruct b as [ b | x ]; cbn [text fst snd wf_body] in *.
  - destruct (HB (S level) false b s [Close] _ W (or_intror (ex_intro _ [] eq_refl)) eq_refl N) as (o & R & ->). exists o. split; [ now constructor | reflexivity ].
  - destruct (HB (S level) false (Cons x Nil) s [] (Clause n (S level) false false (print x) s)) as (o & R & ->).
    + split; [ now apply wf_simple | exact I ].
    + now left.
    + cbn [prints]. now rewrite !app_nil_r.
    + exact N.
    + exists o. split; [ | reflexivity ]. constructor. inversion R; subst; try assumption.
      match goal with H : RunsBlock _ Nil _ _ |- _ => inversion H; subst end. assumption.
Qed.
Lemma complete_text b : complete (fst (text b)) (if fst (text b) then [Close] else []) = true.
Proof. now destruct b. Qed.
Lemma for_step n : block_ok n -> for_ok n -> for_ok (S n).
Proof.
  intros HB HF level v xs b s r W <- N. rewrite each_S in *. destruct xs as [ | x xs ]; [ exists (Normal s); split; [ constructor | reflexivity ] | ].
  destruct (assign v x s) as [ s1 | ] eqn:A; [ | exists Error; split; [ now constructor | reflexivity ] ].
  destruct (text_ok n level b s1 _ HB W eq_refl) as (o & R & E); [ intros M; rewrite M in N; now apply N | ]. rewrite E in *.
  destruct o as [ s2 | [ | ] s2 | ]; cbn [fin] in *.
  - rewrite complete_text in *. destruct (HF level v xs b s2 _ W eq_refl N) as (o & R2 & ->). exists o. split; [ | reflexivity ].
    eapply r_for_next; [ exact A | exact R | constructor | exact R2 ].
  - destruct (HF level v xs b s2 _ W eq_refl N) as (o & R2 & ->). exists o. split; [ | reflexivity ].
    eapply r_for_next; [ exact A | exact R | constructor | exact R2 ].
  - exists (Normal s2). split; [ eapply r_for_break; eauto | reflexivity ].
  - exists Error. split; [ eapply r_for_error; eauto | reflexivity ].
Qed.
Lemma while_step n : block_ok n -> while_ok n -> while_ok (S n).
Proof.
  intros HB HF level neg e b s r W <- N. rewrite repeat_S in *. destruct (condition eval truth null empty Truth neg e s) as [ [ | ] | ] eqn:C.
  - apply condition_some in C. destruct (text_ok n level b s _ HB W eq_refl) as (o & R & E); [ intros M; rewrite M in N; now apply N | ]. rewrite E in *.
    destruct o as [ s2 | [ | ] s2 | ]; cbn [fin] in *.
    + rewrite complete_text in *. destruct (HF level neg e b s2 _ W eq_refl N) as (o & R2 & ->). exists o. split; [ | reflexivity ].
      eapply r_while_next; [ exact C | exact R | constructor | exact R2 ].
    + destruct (HF level neg e b s2 _ W eq_refl N) as (o & R2 & ->). exists o. split; [ | reflexivity ].
      eapply r_while_next; [ exact C | exact R | constructor | exact R2 ].
    + exists (Normal s2). split; [ eapply r_while_break; eauto | reflexivity ].
    + exists Error. split; [ eapply r_while_error; eauto | reflexivity ].
  - exists (Normal s). split; [ apply r_while_end; now apply condition_some | reflexivity ].
  - exists Error. split; [ apply r_while_senseless; now apply condition_none | reflexivity ].
Qed.
Lemma sound n : block_ok n /\ body_ok n /\ if_ok n /\ else_ok n /\ switch_ok n /\ for_ok n /\ while_ok n.
Proof.
  induction n as [ | n (A & B & C & D & E & F & G) ].
  - repeat split; red; intros; subst; cbn in *; congruence.
  - pose proof (stmt_step n A C E F G) as S0. repeat split; auto using block_step, body_step, if_step, else_step, switch_step, for_step, while_step.
Qed.
End Sound.
