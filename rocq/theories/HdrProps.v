(* C65: headers that a source file includes. *)
From Verif Require Import Base HdrModel HdrSpec HdrProofs.

(* What is found is what would be included in a build from scratch and all of it is up to date, whatever is in
   the database, whatever other threads do and however many times the compiler had to be run. *)
Theorem C65_sound : forall P fuel w0 f old s, start P w0 -> previous P w0 f old -> extract P fuel w0 old = Found s ->
  includes P (lines (dd s)) /\ (forall h, In h (lines (dd s)) -> file (w s) h = goal P h) /\ rest (dd s) = [] /\ ended (dd s) = true.
Proof.
  intros P fuel w0 f old s ST PR E. destruct (extract_ok P fuel w0 f old ST PR) as (R & _). rewrite E in R. destruct R as (I & G & SE & A & B & _).
  split; [auto |]. split; [| auto]. intros h H. unfold settled in SE. rewrite Forall_forall in SE. apply G; [apply G |]; auto.
Qed.
Print Assumptions C65_sound.

(* There is only one such list: the result is a function of the source and the rules. *)
Theorem C65_unique : forall P hs hs', includes P hs -> includes P hs' -> hs = hs'.
Proof. exact includes_unique. Qed.
Print Assumptions C65_unique.
Theorem C65_same : forall P P' fuel fuel' w0 w0' f f' old old' s s',
  next P' = next P -> goal P' = goal P ->
  start P w0 -> previous P w0 f old -> start P' w0' -> previous P' w0' f' old' ->
  extract P fuel w0 old = Found s -> extract P' fuel' w0' old' = Found s' -> lines (dd s) = lines (dd s').
Proof.
  intros P P' fuel fuel' w0 w0' f f' old old' s s' N G S1 P1 S2 P2 E1 E2.
  destruct (C65_sound _ _ _ _ _ _ S1 P1 E1) as (I1 & _). destruct (C65_sound _ _ _ _ _ _ S2 P2 E2) as (I2 & _).
  apply (C65_unique P); auto. assert (F : forall hs, fresh P' hs = fresh P hs) by (intro hs; unfold fresh; now rewrite G).
  destruct I2 as (L & C). rewrite F, N in C. split; auto. clear - L N G F. induction L; constructor; auto; [rewrite <- F, <- N; auto | rewrite <- G; auto].
Qed.
Print Assumptions C65_same.

(* It is found if the source is correct, no step of which depends on luck: if the compiler reports what it has
   read even if it fails, or if it cannot fail because of outdated headers. *)
Theorem C65_complete : forall P fuel w0 f old hs, start P w0 -> previous P w0 f old -> includes P hs -> length hs <= limit P ->
  reports P \/ ~ wrong_mixed P w0 -> 3 * limit P + 3 < fuel -> exists s, extract P fuel w0 old = Found s /\ lines (dd s) = hs.
Proof.
  intros P fuel w0 f old hs ST PR I LE RP FU. destruct (extract_ok P fuel w0 f old ST PR) as (R & X). specialize (X FU).
  destruct (extract P fuel w0 old) as [s | h | s | |]; cbn in R; try contradiction.
  - exists s. split; auto. apply (includes_unique P); tauto.
  - exfalso. eapply includes_lacks; eauto.
  - exfalso. destruct R as (R1 & R2). destruct RP as [RP | RP]; [| auto]. eapply includes_wrong; eauto.
Qed.
Print Assumptions C65_complete.

(* Nothing is updated only if nothing that is included has changed. *)
Theorem C65_update : forall P fuel w0 f old s, start P w0 -> previous P w0 f old -> extract P fuel w0 old = Found s ->
  update s = false -> written (dd s) = false -> old = Some (lines (dd s), true) /\ forall h, In h (lines (dd s)) -> goal P h = f h.
Proof.
  intros P fuel w0 f old s ST PR E U W. destruct (extract_ok P fuel w0 f old ST PR) as (R & _). rewrite E in R. destruct R as (_ & _ & _ & _ & _ & A & B).
  split; auto. specialize (B U W). now rewrite Forall_forall in B.
Qed.
Print Assumptions C65_update.

Theorem C65_terminates : forall P fuel w0 f old, start P w0 -> previous P w0 f old -> 3 * limit P + 3 < fuel -> extract P fuel w0 old <> Exhausted.
Proof. intros P fuel w0 f old ST PR. apply (extract_ok P fuel w0 f old ST PR). Qed.
Print Assumptions C65_terminates.

(* Failures: there is no such header; the source is wrong; the compiler is never blamed. *)
Theorem C65_deferred : forall P fuel w0 f old h, start P w0 -> previous P w0 f old -> extract P fuel w0 old = Deferred h -> lacks P h.
Proof. intros P fuel w0 f old h ST PR E. destruct (extract_ok P fuel w0 f old ST PR) as (R & _). now rewrite E in R. Qed.
Print Assumptions C65_deferred.
Theorem C65_failed : forall P fuel w0 f old s, start P w0 -> previous P w0 f old -> extract P fuel w0 old = Failed s ->
  (reports P -> wrong P) /\ wrong_mixed P w0.
Proof. intros P fuel w0 f old h ST PR E. destruct (extract_ok P fuel w0 f old ST PR) as (R & _). now rewrite E in R. Qed.
Print Assumptions C65_failed.
Theorem C65_consistent : forall P fuel w0 f old, start P w0 -> previous P w0 f old -> extract P fuel w0 old <> Inconsistent.
Proof. intros P fuel w0 f old ST PR E. destruct (extract_ok P fuel w0 f old ST PR) as (R & _). now rewrite E in R. Qed.
Print Assumptions C65_consistent.

(* What is stored is right for the next time, when some headers have changed and so has the target. *)
Theorem C65_history : forall P fuel w0 f old s P' w', start P w0 -> previous P w0 f old -> extract P fuel w0 old = Found s ->
  next P' = next P -> (forall h, In h (lines (dd s)) -> file w' h <> file (w s) h -> target_time P' < time w' h) ->
  previous P' w' (goal P) (Some (lines (dd s), ended (dd s))).
Proof.
  intros P fuel w0 f old s P' w' ST PR E N H. destruct (C65_sound _ _ _ _ _ _ ST PR E) as ((L & C) & F & _ & EN). rewrite EN. constructor.
  - intros a h c X. rewrite N. rewrite X in L. apply (leads_next P a h c L).
  - intros _. rewrite N. exact C.
  - intros h I NE. apply H; auto. rewrite F; auto.
Qed.
Print Assumptions C65_history.

(* Examples: 0 is a generated header that includes 1 (also generated) in its new version and 2 in the old one. *)
Definition ex_next (l : list (header * option content)) : step :=
  match l with
  | [] => Include 0
  | [(0, Some 1)] => Include 1
  | [(0, Some 1); (1, _)] => Include 3
  | [(0, Some 1); (1, Some _); (3, Some _)] => Complete
  | [(0, Some 1); (1, None); (3, Some _)] => Complete
  | [(0, Some 0)] => Include 2
  | [(0, Some 0); (2, Some _)] => Complete
  | [(0, None)] => Complete
  | _ => Error
  end.
Definition ex_P : params := mkparams ex_next 9 (fun _ => 9) (fun h => if h =? 4 then None else Some 1) (fun h => h <? 2) (fun n => ([], 1)) false 5.
Definition ex_w : world := mkworld (fun h => if h =? 0 then Some 0 else if h =? 1 then None else if h =? 4 then None else Some 1) (fun h => 3) (fun _ => Unknown) 10 0.
Lemma ex_start : start ex_P ex_w.
Proof.
  constructor; try (intros h; cbn); auto; try (cbn; lia).
  - intros G S. destruct h as [| [| h]]; try discriminate. cbn. destruct (h =? 2) eqn: X; [congruence | auto].
  - destruct (h =? 4) eqn: X; [| discriminate]. apply Nat.eqb_eq in X as ->. auto.
Qed.
(* The database is from the time of the old version. *)
Definition ex_f (h : header) : option content := if h =? 0 then Some 0 else Some 1.
Lemma ex_stored : previous ex_P ex_w ex_f (Some ([0; 2], true)).
Proof.
  constructor.
  - intros [| x [| y a]] h c E; injection E; intros; subst; auto; try discriminate. destruct a; discriminate.
  - auto.
  - intros h [<- | [<- | []]]; cbn; congruence.
Qed.
Example C65_ex_includes : includes ex_P [0; 1; 3].
Proof. split; [| reflexivity]. apply (leads_more _ [0; 1] 3); [apply (leads_more _ [0] 1); [apply (leads_more _ [] 0); [constructor | |] | |] | |]; cbn; auto; discriminate. Qed.
Definition ex_lines (r : outcome) := match r with Found s => Some (lines (dd s), update s, written (dd s), runs s) | _ => None end.
Example C65_ex_cached : ex_lines (extract ex_P 40 ex_w (Some ([0; 2], true))) = Some ([0; 1; 3], true, true, 3).
Proof. reflexivity. Qed.
Example C65_ex_scratch : ex_lines (extract ex_P 40 ex_w None) = Some ([0; 1; 3], true, true, 4).
Proof. reflexivity. Qed.
(* Nothing has changed *)
Definition ex_P1 : params := mkparams ex_next 9 (fun _ => 9) (fun h => if h =? 4 then None else Some 1) (fun h => false) (fun n => ([n], 1)) false 12.
Definition ex_w1 : world := mkworld (fun h => if h =? 4 then None else Some 1) (fun h => 11) (fun _ => Unknown) 20 0.
Example C65_ex_nothing : ex_lines (extract ex_P1 40 ex_w1 (Some ([0; 1; 3], true))) = Some ([0; 1; 3], false, false, 0).
Proof. reflexivity. Qed.
(* A header that isn't there *)
Definition ex_P2 : params := mkparams (fun l => match l with [] => Include 0 | _ => Include 4 end) 9 (fun _ => 9) (goal ex_P) (stale ex_P) (others ex_P) false 5.
Example C65_ex_deferred : extract ex_P2 40 ex_w None = Deferred 4.
Proof. reflexivity. Qed.

(* The hypothesis about reporting is necessary: if an outdated generated header is an error (or it lacks a
   header that it checks for) and the compiler reports nothing in this case, then the build fails while it would
   succeed from scratch. *)
Definition refuted_next (l : list (header * option content)) : step :=
  match l with
  | [] => Include 0
  | [(0, Some 1)] => Complete
  | [(0, None)] => Complete
  | _ => Error
  end.
Theorem C65_stale_error_refuted : exists P w0 hs, start P w0 /\ includes P hs /\ length hs <= limit P /\
  (forall fuel, 5 < fuel -> exists s, extract P fuel w0 None = Failed s) /\
  (* the same without this header *)
  (forall fuel, 5 < fuel -> exists s, extract P fuel (mkworld (fun _ => None) (time w0) (known w0) (clock w0) (ticks w0)) None = Found s /\ lines (dd s) = hs).
Proof.
  exists (mkparams refuted_next 9 (fun _ => 0) (fun h => if h =? 0 then Some 1 else None) (fun h => h =? 0) (fun _ => ([], 1)) false 5),
    (mkworld (fun h => if h =? 0 then Some 0 else None) (fun _ => 3) (fun _ => Unknown) 10 0), [0].
  split.
  { constructor; try (intros h; cbn); auto; try (cbn; lia); destruct (h =? 0); auto; discriminate. }
  split; [split; [apply (leads_more _ [] 0); [constructor | |]; cbn; auto; discriminate | reflexivity] |]. split; [cbn; lia |].
  split; intros fuel F; do 6 (destruct fuel as [| fuel]; [lia |]); eexists; [reflexivity | split; reflexivity].
Qed.
Print Assumptions C65_stale_error_refuted.
