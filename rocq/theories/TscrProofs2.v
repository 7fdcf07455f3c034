(* Proofs about testscripts: the order and termination. *)
From Verif Require Import Base TscrModel TscrSpec TscrProofs.
From Coq Require Import Permutation.

(* Termination. *)
Fixpoint w_scope (s : scope) : nat := match s with Test _ => 3 | Group _ cs _ => 6 + w_chains cs end
with w_chains (cs : chains) : nat := match cs with CNil => 0 | CCons _ bs r => 2 + w_branches bs + w_chains r end
with w_branches (bs : branches) : nat := match bs with BNil => 0 | BCons _ s r => 2 + w_scope s + w_branches r end.
Fixpoint weight (k : proc) : nat :=
  match k with
  | Start _ s => w_scope s
  | TestBody _ _ | TeardownBody _ _ => 2
  | SetupBody _ _ cs _ => 5 + w_chains cs
  | Loop _ cs _ ks => 4 + w_chains cs + weights ks
  | Pick _ _ bs cs _ ks => 5 + w_branches bs + w_chains cs + weights ks
  | Sync _ cs _ ks k => 5 + w_chains cs + weights ks + weight k
  | Wait _ _ ks _ => 3 + weights ks
  | Leaving _ => 1
  | Done _ => 0
  end
with weights (ks : procs) : nat := match ks with PNil => 0 | PCons k r => weight k + weights r end.

Lemma prefix_len {A} (p q : list A) : prefix p q -> length p <= length q.
Proof. intros [z ->]. rewrite app_length. lia. Qed.
Lemma prefix_antisym {A} (p q : list A) : prefix p q -> prefix q p -> p = q.
Proof.
  intros [z ->] H. apply prefix_len in H. rewrite app_length in H. destruct z; [symmetry; apply app_nil_r | cbn in H; lia].
Qed.
Lemma prefix_snoc_l {A} (p q : list A) x : prefix (p ++ [x]) q -> prefix p q.
Proof. intros [z ->]. exists ([x] ++ z). rewrite <- app_assoc. reflexivity. Qed.
Lemma not_below {A} (p q : list A) x : prefix (p ++ [x]) q -> ~ prefix q p.
Proof. intros H K. apply prefix_len in H, K. rewrite app_length in H. cbn in H. lia. Qed.
Lemma siblings (p q : path) x y : prefix (p ++ [x]) q -> prefix (p ++ [y]) q -> x = y.
Proof.
  intros [u E] [v E']. rewrite <- !app_assoc in *. rewrite E in E'. apply app_inv_head in E'. injection E' as H _. exact H.
Qed.

Lemma NoDup_app_remove_l {A} (l r : list A) : NoDup (l ++ r) -> NoDup r.
Proof. induction l as [| x l IH]; cbn; [auto |]. intros H. apply NoDup_cons_iff in H. apply IH, H. Qed.

(* What can be before what. *)
Definition early (p : path) (e : event) : Prop := e = Enter p \/ exists k, e = Run p SetupLines k.
Definition late (p : path) (e : event) : Prop := e = Leave p \/ exists k, e = Run p TeardownLines k.
Lemma before_cases f x : Before f x -> (early (where_ f) f /\ prefix (where_ f) (where_ x)) \/ (late (where_ x) x /\ prefix (where_ x) (where_ f)).
Proof.
  intros H. destruct H as [p e P _ | p e P _ | p k e I | p k e I | p k j]; cbn.
  - left. split; [left; reflexivity | exact P].
  - right. split; [left; reflexivity | exact P].
  - left. split; [right; eauto |]. destruct I as [[P _] | (j & ->)]; [exact P | apply prefix_refl].
  - right. split; [right; eauto |]. destruct I as [[P _] | (j & ->)]; [exact P | apply prefix_refl].
  - left. split; [right; eauto | apply prefix_refl].
Qed.
(* x is of this scope, f is later in this scope. *)
Lemma own_order p f x : where_ x = p -> ~ late p x -> prefix p (where_ f) -> ~ early p f -> ~ Before f x.
Proof.
  intros Wx Lx Pf Ef H. destruct (before_cases f x H) as [[E P] | [L P]].
  - rewrite Wx in P. rewrite (prefix_antisym _ _ P Pf) in E. contradiction.
  - rewrite Wx in L. contradiction.
Qed.
Lemma enter_order p f : prefix p (where_ f) -> ~ Before f (Enter p).
Proof.
  intros Pf H. inversion H as [q e P N E1 E2 | | q k e I E1 E2 | |]; subst.
  - cbn in P. cbn in Pf. apply N. f_equal. apply (prefix_antisym _ _ Pf P).
  - cbn in Pf. destruct I as [[P N] | (j & F)]; [| discriminate]. cbn in P, N. apply N, (prefix_antisym _ _ P Pf).
Qed.
Lemma teardown_order p k : ~ Before (Leave p) (Run p TeardownLines k).
Proof.
  intros H. inversion H as [| | | q j e I |]; subst. destruct I as [[_ N] | (i & F)]; [| discriminate]. cbn in N. congruence.
Qed.
(* x is of an inner scope, f of the outer one. *)
Lemma outer_order p id f x : prefix (p ++ [id]) (where_ x) -> where_ f = p -> ~ early p f -> ~ Before f x.
Proof.
  intros Px Wf Ef H. destruct (before_cases f x H) as [[E P] | [L P]].
  - rewrite Wf in E. contradiction.
  - rewrite Wf in P. apply (not_below _ _ _ Px), P.
Qed.
Lemma sibling_order p id id' f x : prefix (p ++ [id]) (where_ x) -> prefix (p ++ [id']) (where_ f) -> id <> id' -> ~ Before f x.
Proof.
  intros Px Pf N H. destruct (before_cases f x H) as [[_ P] | [_ P]]; apply N.
  - apply (siblings p (where_ x)); [exact Px | apply (prefix_trans _ _ _ Pf P)].
  - apply (siblings p (where_ f)); [apply (prefix_trans _ _ _ Px P) | exact Pf].
Qed.

Section Run.
Context (enters leaves : path -> bool) (run : nat -> outcome) (holds : nat -> check) (selected : path -> bool) (keep_going : bool).
Notation step := (step enters leaves run holds selected keep_going).
Notation steps := (steps enters leaves run holds selected keep_going).
Notation execution := (execution enters leaves run holds selected keep_going).

Lemma step_weight : (forall k e k', step k e k' -> weight k' < weight k) /\ (forall ks e ks', steps ks e ks' -> weights ks' < weights ks).
Proof.
  apply (step_steps_ind enters leaves run holds selected keep_going
    (fun k e k' _ => weight k' < weight k) (fun ks e ks' _ => weights ks' < weights ks)); intros; cbn in *; try lia.
  - destruct (enters p); [destruct s | destruct s]; cbn; lia.
  - destruct (result run l); cbn; lia.
  - destruct (result run su); cbn; lia.
  - destruct (b || keep_going); cbn; lia.
  - destruct (t || some_failed ks); cbn; lia.
  - destruct (result run td); cbn; lia.
Qed.

(* Processes of a scope. *)
Fixpoint At (p : path) (k : proc) : Prop :=
  match k with
  | Start q s => q = p /\ Unique s
  | SetupBody q _ cs _ => q = p /\ NoDup (ids cs) /\ Unique_chains cs
  | Loop q cs _ ks => q = p /\ Unique_chains cs /\ exists l, AtAll p l ks /\ NoDup (ids cs ++ l)
  | Pick q id bs cs _ ks => q = p /\ Unique_branches bs /\ Unique_chains cs /\ exists l, AtAll p l ks /\ NoDup (id :: ids cs ++ l)
  | Sync q cs _ ks k => q = p /\ Unique_chains cs /\ exists id l, At (p ++ [id]) k /\ AtAll p l ks /\ NoDup (id :: ids cs ++ l)
  | Wait q _ ks _ => q = p /\ exists l, AtAll p l ks /\ NoDup l
  | TestBody q _ | TeardownBody q _ | Leaving q => q = p
  | Done _ => True
  end
with AtAll (p : path) (l : list bytes) (ks : procs) : Prop :=
  match ks, l with
  | PNil, [] => True
  | PCons k r, id :: l => At (p ++ [id]) k /\ AtAll p l r
  | _, _ => False
  end.
(* Events that can still happen. *)
Definition in_chains (p : path) (l : list bytes) (e : event) : Prop := exists id, In id l /\ prefix (p ++ [id]) (where_ e).
Fixpoint may (k : proc) (e : event) : Prop :=
  match k with
  | Start p s => prefix p (where_ e)
  | TestBody p _ => (exists k, e = Run p TestLines k) \/ e = Leave p
  | SetupBody p _ cs _ => (exists k, e = Run p SetupLines k) \/ in_chains p (ids cs) e \/ (exists k, e = Check p k) \/ late p e
  | Loop p cs _ ks => in_chains p (ids cs) e \/ (exists k, e = Check p k) \/ late p e \/ mays ks e
  | Pick p id _ cs _ ks => in_chains p (id :: ids cs) e \/ (exists k, e = Check p k) \/ late p e \/ mays ks e
  | Sync p cs _ ks k => in_chains p (ids cs) e \/ (exists k, e = Check p k) \/ late p e \/ mays ks e \/ may k e
  | Wait p _ ks _ => late p e \/ mays ks e
  | TeardownBody p _ => late p e
  | Leaving p => e = Leave p
  | Done _ => False
  end
with mays (ks : procs) (e : event) : Prop := match ks with PNil => False | PCons k r => may k e \/ mays r e end.

Lemma may_under : forall k p e, At p k -> may k e -> prefix p (where_ e).
Proof.
  fix F 1. assert (G : forall ks p l e, AtAll p l ks -> mays ks e -> exists id, In id l /\ prefix (p ++ [id]) (where_ e)).
  { fix G 1. intros [| k r] p l e A M; [destruct M |]. destruct l as [| id l]; [destruct A |]. destruct A as [A1 A2]. destruct M as [M | M].
    - exists id. split; [left; reflexivity |]. apply (F k); assumption.
    - destruct (G r p l e A2 M) as (i & I & P). exists i. split; [right; exact I | exact P]. }
  assert (C : forall p l e, in_chains p l e -> prefix p (where_ e)) by (intros p l e (id & _ & P); apply (prefix_snoc_l _ _ _ P)).
  assert (L : forall p e, late p e -> prefix p (where_ e)) by (intros p e [-> | (j & ->)]; apply prefix_refl).
  assert (K : forall p e, (exists k, e = Check p k) -> prefix p (where_ e)) by (intros p e (j & ->); apply prefix_refl).
  assert (G' : forall ks p l e, AtAll p l ks -> mays ks e -> prefix p (where_ e)) by (intros ks p l e A M; apply (C p l), (G ks p l e A M)).
  intros k p e A M. destruct k as [q s | q l | q su cs td | q cs td ks | q id bs cs td ks | q cs td ks k | q td ks t | q td | q | b]; cbn in A, M.
  - destruct A as [-> _]. exact M.
  - subst q. destruct M as [(j & ->) | ->]; apply prefix_refl.
  - destruct A as (-> & _). destruct M as [(j & ->) | [M | [M | M]]]; [apply prefix_refl | eauto | eauto | eauto].
  - destruct A as (-> & _ & l & A & _). destruct M as [M | [M | [M | M]]]; eauto.
  - destruct A as (-> & _ & _ & l & A & _). destruct M as [M | [M | [M | M]]]; eauto.
  - destruct A as (-> & _ & id & l & Ak & A & _). destruct M as [M | [M | [M | [M | M]]]]; eauto. apply (prefix_snoc_l _ _ id). apply (F k); assumption.
  - destruct A as (-> & l & A & _). destruct M as [M | M]; eauto.
  - subst q. eauto.
  - subst q. rewrite M. apply prefix_refl.
  - destruct M.
Qed.
Lemma mays_under ks : forall p l e, AtAll p l ks -> mays ks e -> in_chains p l e.
Proof.
  induction ks as [| k r IH]; intros p l e A M; [destruct M |]. destruct l as [| id l]; [destruct A |]. destruct A as [A1 A2]. destruct M as [M | M].
  - exists id. split; [left; reflexivity |]. apply (may_under k); assumption.
  - destruct (IH p l e A2 M) as (i & I & P). exists i. split; [right; exact I | exact P].
Qed.

Lemma not_early_check p k : ~ early p (Check p k).
Proof. intros [H | (j & H)]; discriminate. Qed.
Lemma not_early_late p e : late p e -> ~ early p e.
Proof. intros [-> | (j & ->)] [H | (i & H)]; discriminate. Qed.
Lemma not_early_chains p l e : in_chains p l e -> ~ early p e.
Proof.
  intros (id & _ & P) [-> | (j & ->)]; cbn in P; apply (not_below _ _ _ P), prefix_refl.
Qed.
Lemma late_where p e : late p e -> where_ e = p.
Proof. intros [-> | (j & ->)]; reflexivity. Qed.
Lemma nodup_mid {A} (x : A) l r : NoDup (x :: l ++ r) -> NoDup (l ++ x :: r).
Proof. intros H. apply NoDup_cons_iff in H. destruct H as [N H]. apply (Permutation_NoDup (Permutation_middle l r x)). constructor; assumption. Qed.

(* An event x of kid id and what can happen elsewhere. *)
Definition Later (x : event) (M : event -> Prop) : Prop := forall f, M f -> ~ Before f x.
Lemma later_chains p id l x : prefix (p ++ [id]) (where_ x) -> ~ In id l -> Later x (in_chains p l).
Proof. intros P N f (id' & I & Pf). apply (sibling_order p id id'); [exact P | exact Pf |]. intros ->. contradiction. Qed.
Lemma later_late p id x : prefix (p ++ [id]) (where_ x) -> Later x (late p).
Proof. intros P f L. apply (outer_order p id); [exact P | apply late_where, L | apply not_early_late, L]. Qed.
Lemma later_check p id x : prefix (p ++ [id]) (where_ x) -> Later x (fun f => exists k, f = Check p k).
Proof. intros P f (k & ->). apply (outer_order p id); [exact P | reflexivity | apply not_early_check]. Qed.

Definition Kept (p : path) (k : proc) (e : list event) (k' : proc) : Prop :=
  At p k' /\ (forall f, may k' f -> may k f) /\ forall x, In x e -> may k x /\ Later x (may k').
(* Other kids can do what they could before. *)
Definition KeptAll (p : path) (l : list bytes) (ks : procs) (e : list event) (ks' : procs) : Prop :=
  AtAll p l ks' /\ (forall f, mays ks' f -> mays ks f) /\ forall x, In x e -> (exists id, In id l /\ prefix (p ++ [id]) (where_ x)) /\ mays ks x /\ Later x (mays ks').
Lemma unique_branch c s r : Unique_branches (BCons c s r) -> Unique s.
Proof. intros [H _]. exact H. Qed.

Definition mid (k : proc) : Prop := match k with Loop _ _ _ _ | Pick _ _ _ _ _ _ | Sync _ _ _ _ _ | Wait _ _ _ _ => True | _ => False end.
Lemma mid_not_early k p f : mid k -> At p k -> may k f -> ~ early p f.
Proof.
  assert (K : forall p f, (exists k, f = Check p k) -> ~ early p f) by (intros q g (j & ->); apply not_early_check).
  destruct k as [q s | q l | q su cs td | q cs td ks | q id bs cs td ks | q cs td ks k | q td ks t | q td | q | b]; intros D A M; try destruct D; cbn in A, M.
  - destruct A as (-> & _ & l & A & _). destruct M as [M | [M | [M | M]]]; eauto using not_early_chains, not_early_late, mays_under.
  - destruct A as (-> & _ & _ & l & A & _). destruct M as [M | [M | [M | M]]]; eauto using not_early_chains, not_early_late, mays_under.
  - destruct A as (-> & _ & id & l & Ak & A & _). destruct M as [M | [M | [M | [M | M]]]]; eauto using not_early_chains, not_early_late, mays_under.
    apply (not_early_chains p [id]). exists id. split; [left; reflexivity | apply (may_under k); assumption].
  - destruct A as (-> & l & A & _). destruct M as [M | M]; eauto using not_early_chains, not_early_late, mays_under.
Qed.
Lemma cond_kept p k c k' : mid k' -> At p k' -> (forall f, may k' f -> may k f) -> (forall j, may k (Check p j)) -> Kept p k (checked p c) k'.
Proof.
  intros D A S C. split; [exact A |]. split; [exact S |]. intros x X. destruct c as [| neg j |]; try (destruct X; fail). destruct X as [<- | []].
  split; [apply C |]. intros f M. apply (own_order p); [reflexivity | intros [H | (i & H)]; discriminate | apply (may_under k' p f A M) | apply (mid_not_early k'); assumption].
Qed.
Lemma in_chains_more p l l' f : (forall i, In i l -> In i l') -> in_chains p l f -> in_chains p l' f.
Proof. intros S (i & I & P). exists i. auto. Qed.

Lemma step_order :
  (forall k e k', step k e k' -> forall p, At p k -> Kept p k e k') /\
  (forall ks e ks', steps ks e ks' -> forall p l, NoDup l -> AtAll p l ks -> KeptAll p l ks e ks').
Proof.
  apply (step_steps_ind enters leaves run holds selected keep_going
    (fun k e k' _ => forall p, At p k -> Kept p k e k') (fun ks e ks' _ => forall p l, NoDup l -> AtAll p l ks -> KeptAll p l ks e ks')).
  - (* enter *) intros p s q [<- U]. set (k' := if enters p then _ else _). assert (A : At p k').
    { unfold k'. destruct (enters p); [| exact I]. destruct s as [l | su cs td]; [reflexivity |]. destruct U. repeat split; assumption. }
    split; [exact A |]. split.
    + intros f M. apply (may_under k' p f A M).
    + intros x [<- | []]. split; [apply prefix_refl |]. intros f M. apply enter_order, (may_under k' p f A M).
  - (* test *) intros p l q A. cbn in A. subst q. split; [destruct (result run l); exact I || reflexivity |]. split.
    + intros f M. destruct (result run l); cbn in *; tauto.
    + intros x X. destruct l as [k |]; [| destruct X]. destruct X as [<- | []]. split; [left; eauto |]. intros f M.
      assert (E : f = Leave p) by (cbn in M; destruct (run k); [exact M | exact M | destruct M]). subst f.
      apply (own_order p); [reflexivity | intros [H | (i & H)]; discriminate | apply prefix_refl | intros [H | (i & H)]; discriminate].
  - (* setup *) intros p su cs td q (<- & N & U). assert (T : forall f, may (match result run su with Success => Loop p cs td PNil | ExitScript => TeardownBody p td | Failure => Done false end) f ->
      in_chains p (ids cs) f \/ (exists k, f = Check p k) \/ late p f).
    { intros f M. destruct (result run su); cbn in M; tauto. }
    split.
    + destruct (result run su); cbn; auto. split; [reflexivity |]. split; [exact U |]. exists []. rewrite app_nil_r. split; [exact I | exact N].
    + split; [intros f M; apply T in M; cbn; tauto |]. intros x X. destruct su as [k |]; [| destruct X]. destruct X as [<- | []]. split; [left; eauto |].
      intros f M. apply T in M. assert (Pf : prefix p (where_ f) /\ ~ early p f).
      { destruct M as [M | [(j & ->) | M]].
        - split; [destruct M as (id & _ & P); apply (prefix_snoc_l _ _ _ P) | apply (not_early_chains _ _ _ M)].
        - split; [apply prefix_refl | apply not_early_check].
        - split; [rewrite (late_where _ _ M); apply prefix_refl | apply not_early_late, M]. }
      apply (own_order p); [reflexivity | intros [H | (i & H)]; discriminate | apply Pf | apply Pf].
  - intros p td ks q (<- & _ & l & A & N). split; [cbn; eauto |]. split; [cbn; tauto | intros x []].
  - intros p id bs cs td ks S q (<- & U & l & A & N). cbn in U, N. split.
    + cbn. split; [reflexivity |]. split; [apply U |]. exists l. split; [exact A |]. apply NoDup_cons_iff in N. apply N.
    + split; [| intros x []]. intros f M. cbn in *. destruct M as [(i & I & P) | M]; [left; exists i; split; [right; exact I | exact P] | right; exact M].
  - intros p id bs cs td ks S q (<- & U & l & A & N). cbn in U, N. split.
    + cbn. split; [reflexivity |]. split; [apply U |]. split; [apply U |]. exists l. split; [exact A | exact N].
    + split; [| intros x []]. intros f M. exact M.
  - intros p id cs td ks q (<- & _ & U & l & A & N). split.
    + cbn. split; [reflexivity |]. split; [exact U |]. exists l. split; [exact A |]. apply NoDup_cons_iff in N. apply N.
    + split; [| intros x []]. intros f M. cbn in *. destruct M as [(i & I & P) | M]; [left; exists i; split; [right; exact I | exact P] | right; exact M].
  - (* conditions *) intros p id c s bs cs td ks T q (<- & Ub & U & l & A & N). apply cond_kept; [exact I | | intros f M; exact M | intros j; cbn; eauto].
    cbn. split; [reflexivity |]. split; [apply Ub |]. split; [exact U |]. eauto.
  - intros p id c s bs cs td ks T q (<- & Ub & U & l & A & N). apply cond_kept; [exact I | | intros f M; cbn in *; tauto | intros j; cbn; eauto].
    cbn. split; [reflexivity |]. exists l. split; [exact A |]. apply NoDup_cons_iff in N. apply (NoDup_app_remove_l _ _ (proj2 N)).
  - intros p id c s bs cs td ks T q (<- & Ub & U & l & A & N). apply cond_kept; [exact I | | intros f M; cbn in *; tauto | intros j; cbn; eauto].
    cbn. split; [reflexivity |]. exists l. split; [exact A |]. apply NoDup_cons_iff in N. apply (NoDup_app_remove_l _ _ (proj2 N)).
  - intros p id c s bs cs td ks T E q (<- & Ub & U & l & A & N). apply cond_kept; [exact I | | | intros j; cbn; eauto].
    + cbn. split; [reflexivity |]. split; [exact U |]. exists l. split; [exact A |]. apply NoDup_cons_iff in N. apply N.
    + intros f M. cbn in *. destruct M as [M | M]; [left | right; exact M]. revert M. apply in_chains_more. intros i Ii. right. exact Ii.
  - intros p id c s bs cs td ks T E q (<- & Ub & U & l & A & N). apply cond_kept; [exact I | | | intros j; cbn; eauto].
    + cbn. split; [reflexivity |]. split; [exact U |]. exists (id :: l). split; [split; [split; [reflexivity | apply (unique_branch c s bs Ub)] | exact A] |]. apply nodup_mid, N.
    + intros f M. cbn in *. destruct M as [M | [M | [M | [M | M]]]]; auto.
      * left. revert M. apply in_chains_more. intros i Ii. right. exact Ii.
      * left. exists id. split; [left; reflexivity | exact M].
  - intros p id c s bs cs td ks T E q (<- & Ub & U & l & A & N). apply cond_kept; [exact I | | | intros j; cbn; eauto].
    + cbn. split; [reflexivity |]. split; [exact U |]. exists id, l. split; [split; [reflexivity | apply (unique_branch c s bs Ub)] |]. split; [exact A | exact N].
    + intros f M. cbn in *. destruct M as [M | [M | [M | [M | M]]]]; auto.
      * left. revert M. apply in_chains_more. intros i Ii. right. exact Ii.
      * left. exists id. split; [left; reflexivity | exact M].
  - (* inside *) intros p cs td ks k e k' _ IH q (<- & U & id & l & Ak & A & N). destruct (IH (p ++ [id]) Ak) as (Ak' & S & X). split.
    + cbn. split; [reflexivity |]. split; [exact U |]. exists id, l. auto.
    + split; [intros f M; cbn in *; specialize (S f); tauto |]. intros x Hx. destruct (X x Hx) as [Mx Lx]. split; [cbn; auto |].
      pose proof (may_under k (p ++ [id]) x Ak Mx) as P. apply NoDup_cons_iff in N. destruct N as [N _]. rewrite in_app_iff in N.
      intros f M. cbn in M. destruct M as [M | [M | [M | [M | M]]]].
      * revert f M. apply (later_chains p id (ids cs)); auto.
      * revert f M. apply (later_check p id); auto.
      * revert f M. apply (later_late p id); auto.
      * apply (mays_under ks p l f A) in M. revert f M. apply (later_chains p id l); auto.
      * apply Lx, M.
  - (* return *) intros p cs td ks b q (<- & U & id & l & Ak & A & N). destruct (b || keep_going).
    + split; [| split; [| intros x []]].
      * cbn. split; [reflexivity |]. split; [exact U |]. exists (id :: l). split; [split; [exact I | exact A] |]. apply nodup_mid, N.
      * intros f M. cbn in *. tauto.
    + split; [| split; [intros f M; cbn in *; tauto | intros x []]]. cbn. split; [reflexivity |]. exists l. split; [exact A |].
      apply NoDup_cons_iff in N. apply (NoDup_app_remove_l _ _ (proj2 N)).
  - (* wait *) intros p td ks t D q (<- & l & A & N). split; [destruct (t || some_failed ks); exact I || reflexivity |].
    split; [| intros x []]. intros f M. destruct (t || some_failed ks); cbn in *; tauto.
  - (* teardown *) intros p td q A. cbn in A. subst q. split; [destruct (result run td); exact I || reflexivity |]. split.
    + intros f M. unfold late. destruct (result run td); cbn in *; try tauto; left; exact M.
    + intros x X. destruct td as [k |]; [| destruct X]. destruct X as [<- | []]. split; [right; eauto |]. intros f M.
      assert (E : f = Leave p) by (cbn in M; destruct (run k); [exact M | exact M | destruct M]). subst f. apply teardown_order.
  - (* leave *) intros p q A. cbn in A. subst q. split; [exact I |]. split; [intros f [] |]. intros x [<- | []]. split; [reflexivity | intros f []].
  - intros p cs td ks e ks' _ IH q (<- & U & l & A & N). destruct (IH p l (NoDup_app_remove_l _ _ N) A) as (A' & S & X). split; [cbn; eauto 6 |].
    split; [intros f M; cbn in *; specialize (S f); tauto |]. intros x Hx. destruct (X x Hx) as ((id & Ii & P) & Mx & Lx). split; [cbn; auto |].
    assert (Nc : ~ In id (ids cs)) by (intros H; apply in_split in Ii; destruct Ii as (u & v & ->); rewrite app_assoc in N; apply NoDup_remove_2 in N; apply N; rewrite !in_app_iff; auto).
    intros f M. cbn in M. destruct M as [M | [M | [M | M]]]; [revert f M; apply (later_chains p id (ids cs)); auto | revert f M; apply (later_check p id); auto | revert f M; apply (later_late p id); auto | apply Lx, M].
  - intros p i bs cs td ks e ks' _ IH q (<- & Ub & U & l & A & N). pose proof N as N0. apply NoDup_cons_iff in N0. destruct N0 as [Ni N0].
    destruct (IH p l (NoDup_app_remove_l _ _ N0) A) as (A' & S & X). split; [cbn; eauto 8 |].
    split; [intros f M; cbn in *; specialize (S f); tauto |]. intros x Hx. destruct (X x Hx) as ((id & Ii & P) & Mx & Lx). split; [cbn; auto |].
    assert (Nc : ~ In id (i :: ids cs)) by (intros H; apply in_split in Ii; destruct Ii as (u & v & ->); rewrite app_comm_cons, app_assoc in N; apply NoDup_remove_2 in N; apply N; rewrite !in_app_iff; auto).
    intros f M. cbn in M. destruct M as [M | [M | [M | M]]]; [revert f M; apply (later_chains p id (i :: ids cs)); auto | revert f M; apply (later_check p id); auto | revert f M; apply (later_late p id); auto | apply Lx, M].
  - intros p cs td ks k e ks' _ IH q (<- & U & i & l & Ak & A & N). pose proof N as N0. apply NoDup_cons_iff in N0. destruct N0 as [Ni N0].
    destruct (IH p l (NoDup_app_remove_l _ _ N0) A) as (A' & S & X). split; [cbn; eauto 10 |].
    split; [intros f M; cbn in *; specialize (S f); tauto |]. intros x Hx. destruct (X x Hx) as ((id & Ii & P) & Mx & Lx). split; [cbn; auto |].
    assert (Nc : ~ In id (i :: ids cs)) by (intros H; apply in_split in Ii; destruct Ii as (u & v & ->); rewrite app_comm_cons, app_assoc in N; apply NoDup_remove_2 in N; apply N; rewrite !in_app_iff; auto).
    intros f M. cbn in M. destruct M as [M | [M | [M | [M | M]]]].
    * revert f M. apply (later_chains p id (ids cs)); [exact P |]. intros H. apply Nc. right. exact H.
    * revert f M. apply (later_check p id); auto.
    * revert f M. apply (later_late p id); auto.
    * apply Lx, M.
    * apply (may_under k (p ++ [i]) f Ak) in M. apply (sibling_order p id i); [exact P | exact M |]. intros ->. apply Nc. left. reflexivity.
  - intros p td ks t e ks' _ IH q (<- & l & A & N). destruct (IH p l N A) as (A' & S & X). split; [cbn; eauto |].
    split; [intros f M; cbn in *; specialize (S f); tauto |]. intros x Hx. destruct (X x Hx) as ((id & Ii & P) & Mx & Lx). split; [cbn; auto |].
    intros f M. cbn in M. destruct M as [M | M]; [revert f M; apply (later_late p id); auto | apply Lx, M].
  - intros k e k' ks _ IH p l N A. destruct l as [| id l]; [destruct A |]. destruct A as [A1 A2]. destruct (IH (p ++ [id]) A1) as (A' & S & X).
    split; [split; assumption |]. split; [intros f M; cbn in *; specialize (S f); tauto |]. intros x Hx. destruct (X x Hx) as [Mx Lx].
    pose proof (may_under k (p ++ [id]) x A1 Mx) as P. split; [exists id; split; [left; reflexivity | exact P] |]. split; [left; exact Mx |].
    intros f M. cbn in M. destruct M as [M | M]; [apply Lx, M |]. apply (mays_under ks p l f A2) in M. apply NoDup_cons_iff in N.
    revert f M. apply (later_chains p id l); [exact P | apply N].
  - intros k e ks ks' _ IH p l N A. destruct l as [| id l]; [destruct A |]. destruct A as [A1 A2]. apply NoDup_cons_iff in N. destruct N as [Ni N].
    destruct (IH p l N A2) as (A' & S & X). split; [split; assumption |]. split; [intros f M; cbn in *; specialize (S f); tauto |].
    intros x Hx. destruct (X x Hx) as ((i & Ii & P) & Mx & Lx). split; [exists i; split; [right; exact Ii | exact P] |]. split; [right; exact Mx |].
    intros f M. cbn in M. destruct M as [M | M]; [| apply Lx, M]. apply (may_under k (p ++ [id]) f A1) in M. apply (sibling_order p i id); [exact P | exact M |]. intros ->. contradiction.
Qed.

Fixpoint ordered (es : list event) : Prop := match es with [] => True | e :: r => (forall f, In f r -> ~ Before f e) /\ ordered r end.
Lemma ordered_InOrder es : ordered es -> InOrder es.
Proof.
  intros H l. revert es H. induction l as [| x l IH]; intros es H e m f r E; subst es; cbn in H.
  - destruct H as [H _]. apply H. apply in_or_app. right. left. reflexivity.
  - destruct H as [_ H]. apply (IH _ H e m f r). reflexivity.
Qed.
Lemma step_one : (forall k e k', step k e k' -> length e <= 1) /\ (forall ks e ks', steps ks e ks' -> length e <= 1).
Proof.
  assert (B : forall p c l, length (block p c l) <= 1) by (intros p c [l |]; cbn; lia).
  assert (C : forall p c, length (checked p c) <= 1) by (intros p [| n k |]; cbn; lia).
  apply (step_steps_ind enters leaves run holds selected keep_going (fun k e k' _ => length e <= 1) (fun ks e ks' _ => length e <= 1)); intros; cbn; auto.
Qed.
Lemma execution_order k es k' : execution k es k' -> forall p, At p k -> ordered es /\ forall x, In x es -> may k x.
Proof.
  induction 1 as [k | k e k' es k'' S _ IH]; intros p A; [split; [exact I | intros x []] |].
  destruct (proj1 step_order k e k' S p A) as (A' & Sub & X). destruct (IH p A') as [O M]. pose proof (proj1 step_one k e k' S) as L.
  destruct e as [| x [| y e]]; cbn in L; [cbn | cbn | lia].
  - split; [exact O | auto].
  - destruct (X x (or_introl eq_refl)) as [Mx Lx]. split; [split; [intros f Hf; apply Lx, M, Hf | exact O] |]. intros f [<- | Hf]; [exact Mx | apply Sub, M, Hf].
Qed.
End Run.
