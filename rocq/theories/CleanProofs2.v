(* Proofs about clean: executions. *)
From Verif Require Import Base CleanModel CleanSpec CleanProofs.

(* Sums over the targets of a graph. *)
Definition total (f : nat -> nat) (n : nat) : nat := list_sum (map f (seq 0 n)).
Lemma total_S f n : total f (S n) = total f n + f n.
Proof. unfold total. rewrite seq_S, map_app, list_sum_app. cbn. lia. Qed.
Lemma total_ext f h n : (forall i, i < n -> f i = h i) -> total f n = total h n.
Proof. induction n as [| n IH]; intros H; [reflexivity |]. rewrite !total_S, IH, H; auto. Qed.
Lemma total_set f h n i : i < n -> (forall j, j < n -> j <> i -> f j = h j) -> total f n + h i = total h n + f i.
Proof.
  induction n as [| n IH]; intros L H; [lia |]. rewrite !total_S. destruct (Nat.eq_dec i n) as [-> | N].
  - rewrite (total_ext f h n); [lia |]. intros j J. apply H; lia.
  - rewrite (H n) by lia. assert (X := IH ltac:(lia) ltac:(intros; apply H; lia)). lia.
Qed.
Lemma total_le f n i : i < n -> f i <= total f n.
Proof. induction n as [| n IH]; intros L; [lia |]. rewrite total_S. destruct (Nat.eq_dec i n) as [-> | N]; [lia |]. specialize (IH ltac:(lia)). lia. Qed.
Lemma total_pos f n : 0 < total f n -> exists i, i < n /\ 0 < f i.
Proof.
  induction n as [| n IH]; [cbn; lia |]. rewrite total_S. destruct (Nat.eq_dec (f n) 0) as [E | E].
  - intros H. destruct IH as (i & I & P); [lia |]. exists i. split; [lia | exact P].
  - intros _. exists n. split; lia.
Qed.
Lemma sum_nodes (g : graph) i : list_sum (map (fun n => occ (pre n) i) g) =
  total (fun j => match nth_error g j with Some n => occ (pre n) i | None => 0 end) (length g).
Proof.
  induction g as [| n g IH] using rev_ind; [reflexivity |]. rewrite map_app, list_sum_app, IH, app_length. cbn. rewrite Nat.add_1_r, total_S.
  rewrite nth_error_app2, Nat.sub_diag by lia. cbn. rewrite Nat.add_0_r. f_equal. apply total_ext. intros j J. rewrite nth_error_app1 by exact J. reflexivity.
Qed.
Lemma occ_app l r i : occ (l ++ r) i = occ l i + occ r i.
Proof. apply count_occ_app. Qed.
Lemma occ_pos l i : In i l <-> 0 < occ l i.
Proof. unfold occ. rewrite (count_occ_In Nat.eq_dec). lia. Qed.
Lemma occ_cons i l j : occ (i :: l) j = (if Nat.eqb j i then 1 else 0) + occ l j.
Proof. unfold occ. cbn. destruct (Nat.eq_dec i j) as [-> | N]; [rewrite Nat.eqb_refl; reflexivity |]. destruct (Nat.eqb_spec j i); [congruence | reflexivity]. Qed.
Lemma occ_rev l i : occ (rev l) i = occ l i.
Proof. induction l as [| x l IH]; [reflexivity |]. cbn [rev]. rewrite occ_app, IH, !occ_cons. unfold occ at 2. cbn. lia. Qed.
Lemma set_same {A} (f : nat -> A) i x : set f i x i = x.
Proof. unfold set. rewrite Nat.eqb_refl. reflexivity. Qed.
Lemma set_other {A} (f : nat -> A) i x j : j <> i -> set f i x j = f j.
Proof. unfold set. destruct (Nat.eqb_spec j i); congruence. Qed.
Lemma set_cases {A} (f : nat -> A) i x j : (j = i /\ set f i x j = x) \/ (j <> i /\ set f i x j = f j).
Proof. destruct (Nat.eq_dec j i) as [-> | N]; [left; split; [reflexivity | apply set_same] | right; split; [exact N | apply set_other, N]]. Qed.

Section Clean.
Context (base : bytes -> bytes) (denied : path -> bool) (work : path) (keep_going : bool) (g : graph) (tops : list nat) (s0 : fs).
Notation recipe := (recipe base).
Notation perform := (perform denied work).
Notation step := (step base denied work keep_going g).
Notation execution := (execution base denied work keep_going g).
Notation Claimed := (Claimed base work g).
Notation Kept := (Kept base work g s0).
Notation Directory := (Directory g).
Notation start := (start g tops s0).
Context (G : Graph g tops).

(* What always holds. *)
Record Inv (s : state) : Prop := {
  i_out : forall i, length g <= i -> stat s i = Waiting;
  i_wait : forall i, i < length g -> (stat s i = Waiting <-> 0 < counts s i);
  i_drops : forall i, In i (drops s) -> i < length g;
  i_files : forall p, In p (files (sfs s)) -> In p (files s0);
  i_dirs : forall p, In p (dirs (sfs s)) -> In p (dirs s0);
  i_kept_files : forall p, In p (files s0) -> Kept p -> In p (files (sfs s));
  i_kept_dirs : forall p, In p (dirs s0) -> Kept p -> In p (dirs (sfs s));
  i_removed_files : forall p, In p (files s0) -> In p (files (sfs s)) \/ Claimed p;
  i_removed_dirs : forall p, In p (dirs s0) -> In p (dirs (sfs s)) \/ Claimed p \/ Directory p;
  i_ops : forall i os, stat s i = Running os -> exists n dn, nth_error g i = Some n /\ recipe (what n) = dn ++ os }.

Lemma graph_lt i n : nth_error g i = Some n -> i < length g.
Proof. intros H. apply nth_error_Some. congruence. Qed.
Lemma start_pos i : i < length g -> 0 < dependents g tops i.
Proof.
  intros L. destruct G as (_ & _ & _ & C & _). unfold dependents. destruct (C i L) as [H | (n & N & H)]; [apply occ_pos in H; lia |].
  apply occ_pos in H. rewrite sum_nodes. apply In_nth_error in N as (j & J).
  pose proof (total_le (fun j => match nth_error g j with Some n => occ (pre n) i | None => 0 end) (length g) j (graph_lt _ _ J)) as X. cbn in X. rewrite J in X. lia.
Qed.
Lemma inv_start : Inv start.
Proof.
  constructor; cbn; auto; try discriminate.
  - intros i L. split; [intros _; apply start_pos, L | reflexivity].
  - intros i H. apply (proj1 (proj2 G)), H.
Qed.
Lemma op_claims n o p s : In n g -> In o (recipe (what n)) -> Gone work s o p -> Claimed p \/ (Directory p /\ ~ prefix p work /\ forall x, ~ Has s (p ++ [x])).
Proof.
  intros N O H. destruct H as [p | d p P W | d W C].
  - left. exists n. split; [exact N |]. left. apply recipe_file with (base := base), O.
  - left. exists n. split; [exact N |]. right. exists d. repeat split; try assumption. apply recipe_tree, O.
  - right. repeat split; try assumption. exists n. split; [exact N |]. apply recipe_dir with (base := base), O.
Qed.
Lemma kept_stays s o n p : Inv s -> In n g -> In o (recipe (what n)) -> Kept p -> ~ Gone work (sfs s) o p.
Proof.
  intros I N O K H. destruct (op_claims n o p (sfs s) N O H) as [C | (D & W & C)]; [exact (kept_not_claimed base work g s0 p K C) |].
  destruct K as [p NC ND | p NC W' | p x NC Hx K]; try contradiction. apply (C x). destruct Hx as [Hx | Hx]; [left; apply (i_kept_files s I) | right; apply (i_kept_dirs s I)]; assumption.
Qed.
Lemma inv_step s s' : step s s' -> Inv s -> Inv s'.
Proof.
  intros S I. pose proof I as [I1 I2 I3 I4 I5 I6 I7 I8 I9 I10]. destruct S as [s l i r n D N | s i o os x R P | s i o os R P | s i n R N | s l i r j D K F].
  - pose proof (graph_lt i n N) as L. constructor; cbn; auto.
    + intros j J. destruct (Nat.eqb (counts s i) 1); [| auto]. rewrite set_other by lia. auto.
    + intros j J. destruct (Nat.eqb_spec (counts s i) 1) as [E | E].
      * destruct (set_cases (counts s) i (pred (counts s i)) j) as [[-> ->] | [Nj ->]]; [rewrite set_same, E; cbn; split; [discriminate | lia] | rewrite set_other by exact Nj; auto].
      * destruct (set_cases (counts s) i (pred (counts s i)) j) as [[-> ->] | [Nj ->]]; [rewrite (I2 i L); lia | auto].
    + intros j H. apply I3. rewrite D. apply in_app_or in H. apply in_or_app. destruct H; [left | right; right]; assumption.
    + intros j os. destruct (Nat.eqb (counts s i) 1); [| auto]. destruct (set_cases (stat s) i (Running (recipe (what n))) j) as [[-> ->] | [Nj ->]]; [| auto].
      intros E. injection E as <-. exists n, []. auto.
  - destruct (I10 i (o :: os) R) as (n & dn & N & E). pose proof (graph_lt i n N) as L. assert (O : In o (recipe (what n))) by (rewrite E; apply in_or_app; right; left; reflexivity).
    assert (Ng : In n g) by (eapply nth_error_In; exact N). destruct (perform_removes denied work o _ _ P) as (A & B & C & D). constructor; cbn; auto.
    + intros j J. rewrite set_other by lia. auto.
    + intros j J. destruct (set_cases (stat s) i (Running os) j) as [[-> ->] | [Nj ->]]; [| auto]. rewrite <- (I2 i L), R. split; discriminate.
    + intros p H K. destruct (C p (I6 p H K)) as [X | [X _]]; [exact X |]. exfalso. exact (kept_stays s o n p I Ng O K X).
    + intros p H K. destruct (D p (I7 p H K)) as [X | X]; [exact X |]. exfalso. exact (kept_stays s o n p I Ng O K X).
    + intros p H. destruct (I8 p H) as [X | X]; [| auto]. destruct (C p X) as [Y | [Y Z]]; [auto |]. right.
      destruct Y as [p | d p Pd W | d W Cd]; [| | congruence].
      * exists n. split; [exact Ng |]. left. apply recipe_file with (base := base), O.
      * exists n. split; [exact Ng |]. right. exists d. repeat split; try assumption. apply recipe_tree, O.
    + intros p H. destruct (I9 p H) as [X | X]; [| auto]. destruct (D p X) as [Y | Y]; [auto |]. right. destruct (op_claims n o p (sfs s) Ng O Y) as [Z | (Z & _)]; auto.
    + intros j os'. destruct (set_cases (stat s) i (Running os) j) as [[-> ->] | [Nj ->]]; [| auto]. intros X. injection X as <-. exists n, (dn ++ [o]). rewrite <- app_assoc. auto.
  - destruct (I10 i (o :: os) R) as (n & dn & N & E). pose proof (graph_lt i n N) as L. constructor; cbn; auto.
    + intros j J. rewrite set_other by lia. auto.
    + intros j J. destruct (set_cases (stat s) i Failed j) as [[-> ->] | [Nj ->]]; [| auto]. rewrite <- (I2 i L), R. split; discriminate.
    + intros j os'. destruct (set_cases (stat s) i Failed j) as [[-> ->] | [Nj ->]]; [discriminate | auto].
  - pose proof (graph_lt i n N) as L. constructor; cbn; auto.
    + intros j J. rewrite set_other by lia. auto.
    + intros j J. destruct (set_cases (stat s) i Released j) as [[-> ->] | [Nj ->]]; [| auto]. rewrite <- (I2 i L), R. split; discriminate.
    + intros j H. apply in_app_or in H as [H | H]; [auto |]. apply in_rev in H. apply (proj1 G n j); [eapply nth_error_In; exact N | exact H].
    + intros j os'. destruct (set_cases (stat s) i Released j) as [[-> ->] | [Nj ->]]; [discriminate | auto].
  - constructor; cbn; auto. intros k H. apply I3. rewrite D. apply in_app_or in H. apply in_or_app. destruct H; [left | right; right]; assumption.
Qed.
Lemma inv_execution s : execution start s -> Inv s.
Proof. intros E. remember start as a. induction E as [a | a s s' _ IH S]; subst; [apply inv_start | apply (inv_step _ _ S), IH; reflexivity]. Qed.

(* Failures are not forgotten. *)
Lemma failed_stays s s' i : Inv s -> step s s' -> stat s i = Failed -> stat s' i = Failed.
Proof.
  intros I S F. destruct S as [s l j r n D N | s j o os x R P | s j o os R P | s j n R N | s l j r k D K F']; cbn; auto.
  - destruct (Nat.eqb_spec (counts s j) 1) as [E | E]; [| exact F]. destruct (set_cases (stat s) j (Running (recipe (what n))) i) as [[-> ->] | [_ ->]]; [| exact F].
    assert (W : stat s j = Waiting) by (apply (i_wait s I j (graph_lt _ _ N)); lia). congruence.
  - destruct (set_cases (stat s) j (Running os) i) as [[-> ->] | [_ ->]]; [congruence | exact F].
  - destruct (set_cases (stat s) j Failed i) as [[-> ->] | [_ ->]]; [reflexivity | exact F].
  - destruct (set_cases (stat s) j Released i) as [[-> ->] | [_ ->]]; [congruence | exact F].
Qed.

(* What an executed operation leaves. *)
Definition Effect (s : fs) (o : op) : Prop :=
  match o with
  | RmFile p => ~ Has s p
  | RmTree d => prefix d work \/ forall p, prefix d p -> ~ Has s p
  | RmDir d => ~ Has s d \/ Kept d \/ Claimed d
  end.
Lemma effect_sub s s' o : (forall p, Has s' p -> Has s p) -> Effect s o -> Effect s' o.
Proof.
  intros H. destruct o as [p | d | d]; cbn.
  - intros A B. apply A, H, B.
  - intros [A | A]; [left; exact A | right]. intros p P B. exact (A p P (H p B)).
  - intros [A | A]; [left; intros B; exact (A (H d B)) | right; exact A].
Qed.
(* What holds without failures. *)
Definition left_to (s : state) (i j : nat) : nat :=
  match nth_error g j with Some n => match stat s j with Released => 0 | _ => occ (pre n) i end | None => 0 end.
Record Good (s : state) : Prop := {
  g_counts : forall i, counts s i = occ (drops s) i + total (left_to s i) (length g);
  g_running : forall i n os, nth_error g i = Some n -> stat s i = Running os -> exists dn, recipe (what n) = dn ++ os /\ Forall (Effect (sfs s)) dn;
  g_released : forall i n, nth_error g i = Some n -> stat s i = Released -> Forall (Effect (sfs s)) (recipe (what n)) }.
Lemma good_start : Good start.
Proof. constructor; cbn; try discriminate. intros i. unfold dependents. rewrite sum_nodes. f_equal. Qed.

Lemma done_before s i n j : Inv s -> Good s -> (exists os, stat s i = Running os) -> nth_error g j = Some n -> In i (pre n) -> stat s j = Released.
Proof.
  intros I Gd (os & R) N P. destruct (i_ops s I i os R) as (m & dn & M & _). pose proof (graph_lt i m M) as L.
  assert (C : counts s i = 0). { destruct (Nat.eq_dec (counts s i) 0) as [E | E]; [exact E |]. assert (W : stat s i = Waiting) by (apply (i_wait s I i L); lia). congruence. }
  pose proof (g_counts s Gd i) as X. rewrite C in X. pose proof (total_le (left_to s i) (length g) j (graph_lt _ _ N)) as Y. unfold left_to in Y at 1. rewrite N in Y.
  apply occ_pos in P. destruct (stat s j); try reflexivity; lia.
Qed.
Context (J : Injected base g).
Lemma rmdir_effect s s' i m d dn os : Inv s -> Good s -> stat s i = Running (RmDir d :: os) -> nth_error g i = Some m -> recipe (what m) = dn ++ RmDir d :: os ->
  perform (RmDir d) (sfs s) = Some s' -> Effect s' (RmDir d).
Proof.
  intros I Gd R M E P. assert (Dm : what m = DirT d) by (apply recipe_dir with (base := base); rewrite E; apply in_or_app; right; left; reflexivity).
  destruct (claimed_dec base work g d) as [Cd | Cd]; [right; right; exact Cd |].
  destruct (perform_done denied work _ _ _ P) as [W | [H | (y & H)]]; [right; left; apply K_work; assumption | left; exact H |]. right. left.
  assert (H0 : Has s0 (d ++ [y])) by (destruct H as [H | H]; [left; apply (i_files s I) | right; apply (i_dirs s I)]; exact H).
  apply (K_inside _ _ _ _ d y Cd H0).
  assert (Rel : forall j n, nth_error g j = Some n -> (OwnFile base (what n) (d ++ [y]) \/ OwnTree base (what n) (d ++ [y]) \/ what n = DirT (d ++ [y])) -> stat s j = Released).
  { intros j n N O. apply (done_before s i n j I Gd); [eauto | exact N |]. apply (J n d y m i); [eapply nth_error_In; exact N | exact O | exact M | exact Dm]. }
  destruct (claimed_dec base work g (d ++ [y])) as [C | C].
  - exfalso. destruct C as (n & N & C). apply In_nth_error in N as (j & N). destruct C as [C | (e & C & Pe & We)].
    + pose proof (g_released s Gd j n N (Rel j n N (or_introl C))) as X. rewrite Forall_forall in X. apply (X (RmFile (d ++ [y]))); [apply recipe_file, C | exact H].
    + apply prefix_snoc_cases in Pe as [-> | Pe].
      * pose proof (g_released s Gd j n N (Rel j n N (or_intror (or_introl C)))) as X. rewrite Forall_forall in X.
        destruct (X (RmTree (d ++ [y]))) as [Y | Y]; [apply recipe_tree, C | contradiction | exact (Y _ (prefix_refl _) H)].
      * apply Cd. exists n. split; [eapply nth_error_In; exact N |]. right. exists e. auto.
  - destruct (directory_dec g (d ++ [y])) as [D | D]; [| apply K_other; assumption].
    destruct D as (n & N & D). apply In_nth_error in N as (j & N).
    pose proof (g_released s Gd j n N (Rel j n N (or_intror (or_intror D)))) as X. rewrite Forall_forall in X.
    destruct (X (RmDir (d ++ [y]))) as [Y | [Y | Y]]; [apply recipe_dir, D | contradiction | exact Y | contradiction].
Qed.
Lemma op_effect s s' i m o dn os : Inv s -> Good s -> stat s i = Running (o :: os) -> nth_error g i = Some m -> recipe (what m) = dn ++ o :: os ->
  perform o (sfs s) = Some s' -> Effect s' o.
Proof.
  intros I Gd R M E P. destruct o as [p | d | d]; [exact (perform_done denied work _ _ _ P) | exact (perform_done denied work _ _ _ P) |]. eapply rmdir_effect; eassumption.
Qed.

Lemma left_set s i x j : left_to (mkstate (sfs s) (drops s) (counts s) (set (stat s) i x)) j i = match nth_error g i with Some n => match x with Released => 0 | _ => occ (pre n) j end | None => 0 end.
Proof. unfold left_to. cbn. rewrite set_same. reflexivity. Qed.
Lemma good_step s s' : step s s' -> Inv s -> Good s -> (forall i, stat s' i <> Failed) -> Good s'.
Proof.
  intros S I Gd NF. pose proof Gd as [G1 G2 G3]. destruct S as [s l i r n D N | s i o os x R P | s i o os R P | s i n R N | s l i r j D K F].
  - pose proof (graph_lt i n N) as L. constructor; cbn.
    + intros j. assert (T : total (left_to (mkstate (sfs s) (l ++ r) (set (counts s) i (pred (counts s i))) (if Nat.eqb (counts s i) 1 then set (stat s) i (Running (recipe (what n))) else stat s)) j) (length g)
                            = total (left_to s j) (length g)).
      { apply total_ext. intros k Lk. unfold left_to. cbn. destruct (Nat.eqb_spec (counts s i) 1) as [E | E]; [| reflexivity].
        destruct (set_cases (stat s) i (Running (recipe (what n))) k) as [[-> ->] | [_ ->]]; [| reflexivity].
        assert (W : stat s i = Waiting) by (apply (i_wait s I i L); lia). rewrite W. reflexivity. }
      rewrite T. pose proof (G1 j) as X. rewrite D, occ_app, occ_cons in X. rewrite occ_app. pose proof (G1 i) as Y. rewrite D, occ_app, occ_cons, Nat.eqb_refl in Y.
      destruct (set_cases (counts s) i (pred (counts s i)) j) as [[-> ->] | [Nj ->]]; [lia |]. destruct (Nat.eqb_spec j i); [congruence | lia].
    + intros j m os M. destruct (Nat.eqb (counts s i) 1); [| apply G2; exact M]. destruct (set_cases (stat s) i (Running (recipe (what n))) j) as [[-> ->] | [_ ->]]; [| apply G2; exact M].
      intros E. injection E as <-. exists []. assert (m = n) by congruence. subst m. split; [reflexivity | constructor].
    + intros j m M. destruct (Nat.eqb (counts s i) 1); [| apply G3; exact M]. destruct (set_cases (stat s) i (Running (recipe (what n))) j) as [[-> ->] | [_ ->]]; [discriminate | apply G3; exact M].
  - destruct (i_ops s I i _ R) as (n & dn' & N & _). destruct (G2 i n _ N R) as (dn & E & F). pose proof (op_effect s x i n o dn os I Gd R N E P) as Ef.
    assert (Sub : forall p, Has x p -> Has (sfs s) p). { destruct (perform_removes denied work o _ _ P) as (A & B & _). intros p [H | H]; [left; apply A, H | right; apply B, H]. }
    assert (Mono : forall os', Forall (Effect (sfs s)) os' -> Forall (Effect x) os'). { intros os'. apply Forall_impl. intros a. apply effect_sub, Sub. }
    constructor; cbn.
    + intros j. rewrite (G1 j). f_equal. apply total_ext. intros k Lk. unfold left_to. cbn. destruct (set_cases (stat s) i (Running os) k) as [[-> ->] | [_ ->]]; [| reflexivity]. rewrite R. reflexivity.
    + intros j m os' M. destruct (set_cases (stat s) i (Running os) j) as [[-> ->] | [_ ->]].
      * intros X. injection X as <-. exists (dn ++ [o]). assert (m = n) by congruence. subst m. rewrite <- app_assoc. split; [exact E |]. apply Forall_app. split; [apply Mono, F | repeat constructor; exact Ef].
      * intros X. destruct (G2 j m os' M X) as (dj & A & B). exists dj. split; [exact A | apply Mono, B].
    + intros j m M. destruct (set_cases (stat s) i (Running os) j) as [[-> ->] | [_ ->]]; [discriminate |]. intros X. apply Mono, (G3 j m M X).
  - exfalso. apply (NF i). cbn. apply set_same.
  - pose proof (graph_lt i n N) as L. constructor; cbn.
    + intros j. pose proof (total_set (left_to s j) (left_to (mkstate (sfs s) (drops s ++ rev (pre n)) (counts s) (set (stat s) i Released)) j) (length g) i L) as X.
      assert (Y : left_to (mkstate (sfs s) (drops s ++ rev (pre n)) (counts s) (set (stat s) i Released)) j i = 0) by (unfold left_to; cbn; rewrite N, set_same; reflexivity).
      assert (Z : left_to s j i = occ (pre n) j) by (unfold left_to; rewrite N, R; reflexivity).
      rewrite Y, Z in X. rewrite occ_app, occ_rev, (G1 j). assert (X' := X ltac:(intros k Lk Nk; unfold left_to; cbn; rewrite set_other by exact Nk; reflexivity)). lia.
    + intros j m os' M. destruct (set_cases (stat s) i Released j) as [[-> ->] | [_ ->]]; [discriminate | apply G2; exact M].
    + intros j m M. destruct (set_cases (stat s) i Released j) as [[-> ->] | [_ ->]]; [| apply G3; exact M]. intros _. destruct (G2 i n _ N R) as (dn & E & F). rewrite app_nil_r in E.
      assert (m = n) by congruence. subst m. rewrite E. exact F.
  - exfalso. apply (NF j). exact F.
Qed.
Lemma good_execution s : execution start s -> (forall i, stat s i <> Failed) -> Good s.
Proof.
  intros E. remember start as a. induction E as [a | a s s' E IH S]; subst; intros NF; [apply good_start |].
  assert (I : Inv s) by (apply inv_execution, E). apply (good_step s s' S I); [| exact NF]. apply IH; [reflexivity |]. intros i F. apply (NF i). apply (failed_stays s s' i I S F).
Qed.

(* Everything is cleaned at the end. *)
Lemma all_released s : execution start s -> (forall i, stat s i <> Failed) -> Ended s -> forall i, i < length g -> stat s i = Released.
Proof.
  intros E NF (D & R). pose proof (inv_execution s E) as I. pose proof (good_execution s E NF) as Gd.
  assert (W : forall i, i < length g -> stat s i = Waiting \/ stat s i = Released). { intros i L. destruct (stat s i) eqn:X; auto; exfalso; [exact (R i _ X) | exact (NF i X)]. }
  destruct G as (_ & _ & (rank & K) & _ & _).
  assert (B : exists top, forall i, i < length g -> rank i <= top).
  { clear. exists (total rank (length g)). intros i L. apply total_le, L. }
  destruct B as (top & B).
  assert (X : forall k i, i < length g -> top < rank i + k -> stat s i = Released); [| intros i L; apply (X (S top) i L); lia].
  induction k as [| k IH]; intros i L Rk; [specialize (B i L); lia |]. destruct (W i L) as [Wi | Ri]; [exfalso | exact Ri].
  apply (i_wait s I i L) in Wi. rewrite (g_counts s Gd i), D in Wi. unfold occ in Wi at 1. cbn in Wi. apply total_pos in Wi as (j & Lj & P). unfold left_to in P.
  destruct (nth_error g j) as [n |] eqn:N; [| lia]. assert (Pi : In i (pre n)) by (apply occ_pos; destruct (stat s j); lia).
  assert (stat s j = Released) by (apply (IH j Lj); specialize (K j n i N Pi); lia). rewrite H in P. lia.
Qed.
Lemma end_kept s : execution start s -> (forall i, stat s i <> Failed) -> Ended s -> forall p, Has (sfs s) p -> Kept p.
Proof.
  intros E NF En p H. pose proof (inv_execution s E) as I. pose proof (good_execution s E NF) as Gd. pose proof (all_released s E NF En) as A.
  assert (X : forall n o, In n g -> In o (recipe (what n)) -> Effect (sfs s) o).
  { intros n o N O. apply In_nth_error in N as (j & N). pose proof (g_released s Gd j n N (A j (graph_lt _ _ N))) as F. rewrite Forall_forall in F. apply F, O. }
  assert (NC : ~ Claimed p).
  { intros (n & N & [C | (d & C & P & W)]); [apply (X n (RmFile p) N); [apply recipe_file, C | exact H] |].
    destruct (X n (RmTree d) N) as [Y | Y]; [apply recipe_tree, C | contradiction | exact (Y p P H)]. }
  destruct (directory_dec g p) as [(n & N & D) | D]; [| apply K_other; assumption].
  destruct (X n (RmDir p) N) as [Y | [Y | Y]]; [apply recipe_dir, D | contradiction | exact Y | contradiction].
Qed.

(* Failures. *)
Lemma no_failure : (forall p, denied p = false) -> Typed base g s0 -> forall s, execution start s -> forall i, stat s i <> Failed.
Proof.
  intros Dn T s E. remember start as a. induction E as [a | a s s' E IH S]; subst; [intros i; discriminate |]. specialize (IH eq_refl).
  pose proof (inv_execution s E) as I. intros i. destruct S as [s l j r n D N | s j o os x R P | s j o os R P | s j n R N | s l j r k D K F']; cbn; auto.
  - destruct (Nat.eqb (counts s j) 1); [| apply IH]. destruct (set_cases (stat s) j (Running (recipe (what n))) i) as [[-> ->] | [_ ->]]; [discriminate | apply IH].
  - destruct (set_cases (stat s) j (Running os) i) as [[-> ->] | [_ ->]]; [discriminate | apply IH].
  - exfalso. destruct (i_ops s I j _ R) as (n & dn & N & X). assert (O : In o (recipe (what n))) by (rewrite X; apply in_or_app; right; left; reflexivity).
    destruct (T n (nth_error_In _ _ N)) as (T1 & T2 & T3). pose proof (perform_fails denied work o (sfs s) Dn P) as Y. destruct o as [p | d | d].
    + apply (T1 p); [apply recipe_file, O | apply (i_dirs s I), Y].
    + apply (T2 d); [apply recipe_tree, O | apply (i_files s I), Y].
    + apply (T3 d); [apply recipe_dir with (base := base), O | apply (i_files s I), Y].
  - destruct (set_cases (stat s) j Released i) as [[-> ->] | [_ ->]]; [discriminate | apply IH].
Qed.

(* Termination. *)
Definition weigh (s : state) (i : nat) : nat :=
  match nth_error g i with
  | Some n => match stat s i with Waiting => 1 + length (recipe (what n)) + length (pre n) | Running os => 1 + length os + length (pre n) | _ => 0 end
  | None => 0
  end.
Definition weight (s : state) : nat := length (drops s) + total (weigh s) (length g).
Lemma step_weight s s' : Inv s -> step s s' -> weight s' < weight s.
Proof.
  intros I S. unfold weight. destruct S as [s l i r n D N | s i o os x R P | s i o os R P | s i n R N | s l i r j D K F].
  - cbn [drops]. rewrite D, !app_length. cbn [length]. assert (T : forall h, (forall k, k < length g -> h k = weigh s k) -> total h (length g) = total (weigh s) (length g)) by (intros; apply total_ext; assumption).
    rewrite T; [lia |]. intros k Lk. unfold weigh. cbn. destruct (Nat.eqb_spec (counts s i) 1) as [E | E]; [| reflexivity].
    destruct (set_cases (stat s) i (Running (recipe (what n))) k) as [[-> ->] | [_ ->]]; [| reflexivity].
    assert (W : stat s i = Waiting) by (apply (i_wait s I i (graph_lt _ _ N)); lia). rewrite W, N. reflexivity.
  - destruct (i_ops s I i _ R) as (n & dn & N & _). cbn [drops].
    pose proof (total_set (weigh s) (weigh (mkstate x (drops s) (counts s) (set (stat s) i (Running os)))) (length g) i (graph_lt _ _ N)) as X.
    assert (X' := X ltac:(intros k Lk Nk; unfold weigh; cbn; rewrite set_other by exact Nk; reflexivity)). unfold weigh in X' at 2 4. cbn in X'. rewrite N, R, set_same in X'. cbn in X'. lia.
  - destruct (i_ops s I i _ R) as (n & dn & N & _). cbn [drops].
    pose proof (total_set (weigh s) (weigh (mkstate (sfs s) (drops s) (counts s) (set (stat s) i Failed))) (length g) i (graph_lt _ _ N)) as X.
    assert (X' := X ltac:(intros k Lk Nk; unfold weigh; cbn; rewrite set_other by exact Nk; reflexivity)). unfold weigh in X' at 2 4. cbn in X'. rewrite N, R, set_same in X'. cbn in X'. lia.
  - cbn [drops]. rewrite app_length, rev_length.
    pose proof (total_set (weigh s) (weigh (mkstate (sfs s) (drops s ++ rev (pre n)) (counts s) (set (stat s) i Released))) (length g) i (graph_lt _ _ N)) as X.
    assert (X' := X ltac:(intros k Lk Nk; unfold weigh; cbn; rewrite set_other by exact Nk; reflexivity)). unfold weigh in X' at 2 4. cbn in X'. rewrite N, R, set_same in X'. cbn in X'. lia.
  - cbn [drops]. rewrite D, !app_length. cbn [length]. assert (T : total (weigh (mkstate (sfs s) (l ++ r) (counts s) (stat s))) (length g) = total (weigh s) (length g)) by reflexivity. lia.
Qed.
Lemma progress s : Inv s -> Ended s \/ exists s', step s s'.
Proof.
  intros I. destruct (drops s) as [| i r] eqn:D.
  - destruct (existsb (fun i => match stat s i with Running _ => true | _ => false end) (seq 0 (length g))) eqn:E.
    + right. apply existsb_exists in E as (i & L & E). destruct (stat s i) as [| [| o os] | |] eqn:R; try discriminate.
      * apply in_seq in L. destruct (nth_error g i) as [n |] eqn:N; [| apply nth_error_None in N; lia]. eexists. eapply S_release; eassumption.
      * destruct (perform o (sfs s)) as [x |] eqn:P; eexists; [eapply S_op | eapply S_fail]; eassumption.
    + left. split; [exact D |]. intros i os R. destruct (Nat.lt_ge_cases i (length g)) as [L | L].
      * match type of E with existsb ?f ?l = false => assert (X : existsb f l = true) end; [| congruence]. apply existsb_exists. exists i. split; [apply in_seq; lia | rewrite R; reflexivity].
      * rewrite (i_out s I i L) in R. discriminate.
  - right. assert (L : i < length g) by (apply (i_drops s I); rewrite D; left; reflexivity). destruct (nth_error g i) as [n |] eqn:N; [| apply nth_error_None in N; lia].
    eexists. eapply (S_drop _ _ _ _ _ s [] i r n); [exact D | exact N].
Qed.
End Clean.

(* Checks, for examples. *)
Definition op_path (o : op) : path := match o with RmFile p | RmTree p | RmDir p => p end.
Definition typedb (base : bytes -> bytes) (g : graph) (s : fs) : bool :=
  forallb (fun n => forallb (fun o => match o with RmFile p => negb (mem p (dirs s)) | RmTree d | RmDir d => negb (mem d (files s)) end) (recipe base (what n))) g.
Lemma typedb_Typed base g s : typedb base g s = true -> Typed base g s.
Proof.
  unfold typedb. rewrite forallb_forall. intros H n N. specialize (H n N). rewrite forallb_forall in H. split; [| split]; intros p O.
  - apply recipe_file in O. specialize (H _ O). cbn in H. intros X. apply mem_In in X. rewrite X in H. discriminate.
  - apply recipe_tree in O. specialize (H _ O). cbn in H. intros X. apply mem_In in X. rewrite X in H. discriminate.
  - apply (recipe_dir base) in O. specialize (H _ O). cbn in H. intros X. apply mem_In in X. rewrite X in H. discriminate.
Qed.
Definition injectedb (base : bytes -> bytes) (g : graph) : bool :=
  forallb (fun n => forallb (fun o => forallb (fun i =>
    match nth_error g i with Some m => match what m with DirT d => negb (inside d (op_path o)) || existsb (Nat.eqb i) (pre n) | _ => true end | None => true end)
    (seq 0 (length g))) (recipe base (what n))) g.
Lemma injectedb_Injected base g : injectedb base g = true -> Injected base g.
Proof.
  unfold injectedb. rewrite forallb_forall. intros H n d x m i N O M D. specialize (H n N). rewrite forallb_forall in H.
  assert (X : exists o, In o (recipe base (what n)) /\ op_path o = d ++ [x]).
  { destruct O as [O | [O | O]]; [exists (RmFile (d ++ [x])) | exists (RmTree (d ++ [x])) | exists (RmDir (d ++ [x]))]; (split; [| reflexivity]);
      [apply recipe_file, O | apply recipe_tree, O | apply recipe_dir, O]. }
  destruct X as (o & Io & Po). specialize (H o Io). rewrite forallb_forall in H. assert (L : i < length g) by (apply nth_error_Some; congruence).
  specialize (H i ltac:(apply in_seq; lia)). rewrite M, D, Po in H. apply orb_true_iff in H as [H | H].
  - apply negb_true_iff in H. assert (Y : inside d (d ++ [x]) = true) by (apply inside_child; eauto). congruence.
  - apply existsb_exists in H as (j & Ij & Ej). apply Nat.eqb_eq in Ej. subst j. exact Ij.
Qed.
(* Executing by choices, for examples. *)
Inductive choice := CDrop (k : nat) | CRun (i : nat).
Section Choices.
Context (base : bytes -> bytes) (denied : path -> bool) (work : path) (keep_going : bool) (g : graph).
Definition next (s : state) (c : choice) : option state :=
  match c with
  | CDrop k =>
      match nth_error (drops s) k with
      | Some i =>
          match nth_error g i with
          | Some n => Some (mkstate (sfs s) (firstn k (drops s) ++ skipn (S k) (drops s)) (set (counts s) i (pred (counts s i)))
                       (if Nat.eqb (counts s i) 1 then set (stat s) i (Running (recipe base (what n))) else stat s))
          | None => None
          end
      | None => None
      end
  | CRun i =>
      match stat s i with
      | Running (o :: os) => match perform denied work o (sfs s) with Some x => Some (mkstate x (drops s) (counts s) (set (stat s) i (Running os))) | None => None end
      | Running [] => match nth_error g i with Some n => Some (mkstate (sfs s) (drops s ++ rev (pre n)) (counts s) (set (stat s) i Released)) | None => None end
      | _ => None
      end
  end.
Fixpoint run (s : state) (cs : list choice) : option state :=
  match cs with [] => Some s | c :: r => match next s c with Some s' => run s' r | None => None end end.
Lemma next_step s c s' : next s c = Some s' -> step base denied work keep_going g s s'.
Proof.
  destruct c as [k | i]; cbn [next].
  - destruct (nth_error (drops s) k) as [i |] eqn:K; [| discriminate]. destruct (nth_error g i) as [n |] eqn:N; [| discriminate]. intros H. injection H as <-.
    apply (S_drop _ _ _ _ _ s (firstn k (drops s)) i (skipn (S k) (drops s)) n); [| exact N].
    clear N. revert K. generalize (drops s). induction k as [| k IH]; intros [| x l] K; try discriminate; cbn in *; [congruence | f_equal; apply IH, K].
  - destruct (stat s i) as [| [| o os] | |] eqn:R; try discriminate.
    + destruct (nth_error g i) as [n |] eqn:N; [| discriminate]. intros H. injection H as <-. apply S_release; assumption.
    + destruct (perform denied work o (sfs s)) as [x |] eqn:P; [| discriminate]. intros H. injection H as <-. eapply S_op; eassumption.
Qed.
Lemma run_execution cs : forall a s s', execution base denied work keep_going g a s -> run s cs = Some s' -> execution base denied work keep_going g a s'.
Proof.
  induction cs as [| c cs IH]; intros a s s' E R; cbn in R; [congruence |]. destruct (next s c) as [x |] eqn:N; [| discriminate]. apply (IH a x s' (E_step _ _ _ _ _ _ _ _ E (next_step _ _ _ N)) R).
Qed.
End Choices.
Definition endedb (n : nat) (s : state) : bool :=
  match drops s with [] => true | _ => false end && forallb (fun i => match stat s i with Released => true | _ => false end) (seq 0 n).
Lemma run_ended base denied work keep_going g tops s0 cs x : Graph g tops ->
  match run base denied work g (start g tops s0) cs with Some s => (endedb (length g) s, sfs s) | None => (false, s0) end = (true, x) ->
  exists s, execution base denied work keep_going g (start g tops s0) s /\ Ended s /\ (forall i, stat s i <> Failed) /\ sfs s = x.
Proof.
  intros G C. destruct (run base denied work g (start g tops s0) cs) as [s |] eqn:R; [| discriminate]. injection C as D F.
  assert (E := run_execution base denied work keep_going g cs _ _ _ (E_refl _ _ _ _ _ _) R). unfold endedb in D. apply andb_true_iff in D as [D A]. rewrite forallb_forall in A.
  assert (S : forall i, stat s i = Released \/ stat s i = Waiting).
  { intros i. destruct (Nat.lt_ge_cases i (length g)) as [L | L]; [left; specialize (A i ltac:(apply in_seq; lia)); destruct (stat s i); congruence | right].
    apply (i_out _ _ _ _ _ (inv_execution _ _ _ _ _ _ _ G s E)), L. }
  exists s. split; [exact E |]. split; [| split; [| exact F]].
  - split; [destruct (drops s); [reflexivity | discriminate] |]. intros i os X. destruct (S i); congruence.
  - intros i X. destruct (S i); congruence.
Qed.
