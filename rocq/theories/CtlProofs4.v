(* Proofs about flow control in buildfiles: programs without while end. *)
From Verif Require Import Base CtlModel CtlSpec CtlProofs CtlProofs2 CtlProofs3.

Section Ends.
Context {state val elem : Type}.
Context (eval : nat -> state -> option val) (truth null empty : val -> option bool)
        (compare : val -> option nat -> nat -> state -> option (bool * val))
        (elems : nat -> state -> option (list elem)) (touch : nat -> state -> state) (assign : nat -> elem -> state -> option state)
        (exec : nat -> state -> option state) (enter : nat -> state -> option state) (leave : state -> state -> state)
        (declare : nat -> list nat -> list (list line) -> state -> option state).
Notation Runs := (runs eval truth null empty compare elems touch assign exec enter leave declare).
Notation RunsBlock := (runs_block eval truth null empty compare elems touch assign exec enter leave declare).
Notation RunsBody := (runs_body eval truth null empty compare elems touch assign exec enter leave declare).
Notation RunsBranches := (runs_branches eval truth null empty compare elems touch assign exec enter leave declare).
Notation RunsSwitch := (runs_switch eval truth null empty compare elems touch assign exec enter leave declare).
Notation RunsFor := (runs_for eval truth null empty compare elems touch assign exec enter leave declare).
Implicit Types s : state.

Lemma labels_total s ls : wf_labels ls -> forall vs, exists r, labels compare s vs ls r.
Proof.
  induction 1 as [ | l ls [A B] W IH ]; intros vs; [ eexists; constructor | ].
  pose proof (proj1 (pats_iff compare s l A B vs _) eq_refl) as P. destruct (patterns compare vs l s) as [ [ [ | ] vs' ] | ].
  - eexists. eapply labels_hit. exact P.
  - destruct (IH vs') as (r & R). exists r. eapply labels_next; eauto.
  - eexists. now eapply labels_fail.
Qed.
Lemma for_total b : (forall s, exists o, RunsBody true b s o) -> forall v xs s, exists o, RunsFor v b xs s o.
Proof.
  intros H v xs. induction xs as [ | x xs IH ]; intros s; [ eexists; constructor | ].
  destruct (assign v x s) as [ s1 | ] eqn:A; [ | eexists; now apply r_for_assign ]. destruct (H s1) as (o & R).
  destruct o as [ s2 | [ | ] s2 | ].
  - destruct (IH s2) as (o & R2). exists o. eapply r_for_next; eauto. constructor.
  - destruct (IH s2) as (o & R2). exists o. eapply r_for_next; eauto. constructor.
  - eexists. eapply r_for_break; eauto.
  - eexists. eapply r_for_error; eauto.
Qed.
Lemma total :
  (forall x, wf x -> bounded x -> forall l s, exists o, Runs l x s o) /\ (forall b, wfs b -> boundeds b -> forall l s, exists o, RunsBlock l b s o)
  /\ (forall b, wf_body b -> bounded_body b -> forall l s, exists o, RunsBody l b s o)
  /\ (forall r, wf_branches r -> bounded_branches r -> forall l s, exists o, RunsBranches l r s o)
  /\ (forall c, wf_switch c -> bounded_switch c -> forall l vs s, exists o, RunsSwitch l c vs s o).
Proof.
  assert (BR : forall k neg e b r, (forall l s, exists o, RunsBody l b s o) -> (forall l s, exists o, RunsBranches l r s o) ->
    forall l s, exists o, RunsBranches l (BElif k neg e b r) s o).
  { intros k neg e b r Hb Hr l s. destruct (condition eval truth null empty k neg e s) as [ [ | ] | ] eqn:C.
    - destruct (Hb l s) as (o & R). exists o. apply r_taken; [ now apply condition_some | exact R ].
    - destruct (Hr l s) as (o & R). exists o. apply r_skipped; [ now apply condition_some | exact R ].
    - exists Error. apply r_senseless. now apply condition_none. }
  apply ast_ind; cbn [wf bounded wfs boundeds wf_body bounded_body wf_branches bounded_branches wf_switch bounded_switch].
  - intros c _ _ l s. eexists. apply r_plain.
  - intros c _ _ l s. eexists. apply r_assign.
  - intros c vars rs _ _ l s. eexists. apply r_decl.
  - intros d b IH W B l s. destruct (enter d s) as [ s1 | ] eqn:E; [ | eexists; now apply r_scope_fail ].
    destruct (IH W B l s1) as (o & R). eexists. eapply r_scope; eauto.
  - intros k neg e b IHb r IHr [W1 W2] [B1 B2] l s. destruct (BR k neg e b r (IHb W1 B1) (IHr W2 B2) l s) as (o & R). exists o. now apply r_if.
  - intros es cs IH W B l s. destruct (values eval es s) as [ vs | ] eqn:V.
    + destruct (IH W B l vs s) as (o & R). exists o. eapply r_switch; [ apply values_some; exact V | exact R ].
    + eexists. apply r_switch_fail. now apply values_none.
  - intros v e b IH W B l s. destruct (elems e s) as [ xs | ] eqn:E; [ | eexists; now apply r_for_fail ].
    destruct (for_total b (IH W B true) v xs (touch v s)) as (o & R). exists o. eapply r_for; eauto.
  - contradiction.
  - intros c _ _ l s. eexists. apply r_jump.
  - intros _ _ l s. eexists. apply r_nil.
  - intros x IHx b IHb [W1 W2] [B1 B2] l s. destruct (IHx W1 B1 l s) as (o & R). destruct o as [ s1 | c s1 | ].
    + destruct (IHb W2 B2 l s1) as (o & R2). exists o. eapply r_cons; eauto.
    + eexists. eapply r_cons_jump; eauto.
    + eexists. eapply r_cons_fail; eauto.
  - intros b IH W B l s. destruct (IH W B l s) as (o & R). exists o. now constructor.
  - intros x IH W B l s. destruct (IH (wf_simple x W) B l s) as (o & R). exists o. now constructor.
  - intros _ _ l s. eexists. apply r_end.
  - intros b IH W B l s. destruct (IH W B l s) as (o & R). exists o. now apply r_else.
  - intros k neg e b IHb r IHr [W1 W2] [B1 B2] l s. apply BR; auto.
  - intros _ _ l vs s. eexists. apply r_none.
  - intros ls b IH [W1 W2] B l vs s. destruct (labels_total s ls W1 vs) as ([ r | ] & L).
    + destruct (IH W2 B l s) as (o & R). exists o. eapply r_default; eauto.
    + eexists. now apply r_default_fail.
  - intros ls b IHb r IHr (N & W1 & W2 & W3) [B1 B2] l vs s. destruct (labels_total s ls W1 vs) as ([ [ [ | ] vs' ] | ] & L).
    + destruct (IHb W2 B1 l s) as (o & R). exists o. eapply r_case; eauto.
    + destruct (IHr W3 B2 l vs' s) as (o & R). exists o. eapply r_other; eauto.
    + eexists. now apply r_case_fail.
Qed.

(* Outside of loops there are no jumps. *)
Notation RunsWhile := (runs_while eval truth null empty compare elems touch assign exec enter leave declare).
Definition no (o : @outcome state) : Prop := forall c s, o <> Jump c s.
Lemma jumpless :
  (forall l x s o, Runs l x s o -> l = false -> no o) /\ (forall l b s o, RunsBlock l b s o -> l = false -> no o)
  /\ (forall l b s o, RunsBody l b s o -> l = false -> no o) /\ (forall l br s o, RunsBranches l br s o -> l = false -> no o)
  /\ (forall l cs vs s o, RunsSwitch l cs vs s o -> l = false -> no o)
  /\ (forall v b xs s o, RunsFor v b xs s o -> no o) /\ (forall neg e b s o, RunsWhile neg e b s o -> no o).
Proof.
  assert (O : forall x, no (of_option x)) by (intros [ ? | ] ? ?; discriminate).
  apply (runs_all state val elem eval truth null empty compare elems touch assign exec enter leave declare
    (fun l x s o _ => l = false -> no o) (fun l b s o _ => l = false -> no o) (fun l b s o _ => l = false -> no o) (fun l br s o _ => l = false -> no o)
    (fun l cs vs s o _ => l = false -> no o) (fun v b xs s o _ => no o) (fun neg e b s o _ => no o)); intros; subst; auto; try discriminate.
  - destruct o as [ | c2 s2 | ]; try discriminate. intros c0 s0 _. exact (H eq_refl c2 s2 eq_refl).
Qed.
End Ends.
