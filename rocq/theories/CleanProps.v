(* C74: clean. *)
From Verif Require Import Base CleanModel CleanSpec CleanProofs CleanProofs2.

Section Props.
Context (base : bytes -> bytes) (denied : path -> bool) (work : path) (keep_going : bool) (g : graph) (tops : list nat) (s0 : fs).
Local Notation execution := (execution base denied work keep_going g (start g tops s0)).
Local Notation step := (step base denied work keep_going g).
Local Notation Claimed := (Claimed base work g).
Local Notation Kept := (Kept base work g s0).

(* At any point, whatever fails: nothing is created, only what targets say is removed, and what should stay is there. *)
Theorem C74_only s : Graph g tops -> execution s ->
  (forall p, (In p (files (sfs s)) -> In p (files s0)) /\ (In p (dirs (sfs s)) -> In p (dirs s0))) /\
  (forall p, In p (files s0) -> In p (files (sfs s)) \/ Claimed p) /\
  (forall p, In p (dirs s0) -> In p (dirs (sfs s)) \/ Claimed p \/ Directory g p) /\
  (forall p, Kept p -> (In p (files s0) -> In p (files (sfs s))) /\ (In p (dirs s0) -> In p (dirs (sfs s)))).
Proof.
  intros G E. pose proof (inv_execution _ _ _ _ _ _ _ G s E) as [].
  split; [split; auto |]. split; [assumption |]. split; [assumption |]. split; auto.
Qed.
(* Directories are only removed when there is nothing in them. *)
Theorem C74_tree s : Tree s0 -> execution s -> Tree (sfs s).
Proof.
  intros T E. remember (start g tops s0) as a. induction E as [a | a s s' _ IH S]; subst; [exact T |]. specialize (IH eq_refl).
  destruct S as [s l j r n D N | s j o os x R P | s j o os R P | s j n R N | s l j r k D K F]; cbn; auto.
  destruct (perform_removes denied work o _ _ P) as (A & B & _ & D). intros p y H. destruct (IH p y) as [X | X]; [destruct H as [H | H]; [left; apply A, H | right; apply B, H] | left; exact X |].
  right. destruct (D p X) as [Y | Y]; [exact Y | exfalso]. destruct Y as [p | d p Pd W | d W C].
  - cbn in P. destruct (denied p); cbn in P; [discriminate |]. assert (M : mem p (dirs (sfs s)) = true) by (apply mem_In, X). rewrite M in P. discriminate.
  - destruct (perform_done denied work _ _ _ P) as [W' | Z]; [contradiction |]. apply (Z (p ++ [y])); [| exact H]. apply prefix_app_l, Pd.
  - apply (C y). destruct H as [H | H]; [left; apply A, H | right; apply B, H].
Qed.
(* At the end, if nothing failed, exactly what should stay is there. *)
Theorem C74_clean s : Graph g tops -> Injected base g -> execution s -> Ended s -> (forall i, stat s i <> Failed) ->
  forall p, (In p (files (sfs s)) <-> In p (files s0) /\ Kept p) /\ (In p (dirs (sfs s)) <-> In p (dirs s0) /\ Kept p).
Proof.
  intros G J E N F p. pose proof (inv_execution _ _ _ _ _ _ _ G s E) as I. pose proof (end_kept _ _ _ _ _ _ _ G J s E F N) as K.
  split; split.
  - intros H. split; [apply (i_files _ _ _ _ _ I), H | apply K; left; exact H].
  - intros [H Kp]. apply (i_kept_files _ _ _ _ _ I); assumption.
  - intros H. split; [apply (i_dirs _ _ _ _ _ I), H | apply K; right; exact H].
  - intros [H Kp]. apply (i_kept_dirs _ _ _ _ _ I); assumption.
Qed.
(* Nothing fails if everything can be removed, and all targets are cleaned. *)
Theorem C74_succeeds s : Graph g tops -> (forall p, denied p = false) -> Typed base g s0 -> execution s -> forall i, stat s i <> Failed.
Proof. intros G D T E. apply (no_failure base denied work keep_going g tops s0 G D T s E). Qed.
Theorem C74_all s : Graph g tops -> Injected base g -> execution s -> Ended s -> (forall i, stat s i <> Failed) -> forall i, i < length g -> stat s i = Released.
Proof. intros G J E N F. apply (all_released base denied work keep_going g tops s0 G J s E F N). Qed.
(* It ends. *)
Theorem C74_progress s : Graph g tops -> execution s -> Ended s \/ exists s', step s s'.
Proof. intros G E. apply (progress base denied work keep_going g s0), (inv_execution _ denied _ keep_going _ tops _ G s E). Qed.
Theorem C74_ends : Graph g tops -> exists n, forall f, f 0 = start g tops s0 -> (forall i, i < n -> step (f i) (f (S i))) -> False.
Proof.
  intros G. exists (S (weight base g (start g tops s0))). intros f F H.
  assert (A : forall i, i <= S (weight base g (start g tops s0)) -> execution (f i) /\ weight base g (f i) + i <= weight base g (start g tops s0)).
  { induction i as [| i IH]; intros L; [rewrite F; split; [apply E_refl | lia] |]. destruct (IH ltac:(lia)) as [E W]. specialize (H i ltac:(lia)). split; [eapply E_step; eassumption |].
    pose proof (step_weight base denied work keep_going g s0 _ _ (inv_execution _ denied _ keep_going _ tops _ G _ E) H). lia. }
  destruct (A _ (le_n _)) as [_ W]. lia.
Qed.
End Props.

(* Clean undoes update: if all that update added is files and directories of targets, and they were not there before, then clean
   restores what was. *)
Theorem C74_undo base denied work keep_going g tops before after s :
  Graph g tops -> Injected base g -> Tree before -> Tree after -> ~ Claimed base work g [] -> ~ Directory g [] ->
  (forall p, In p (files before) -> In p (files after)) -> (forall p, In p (dirs before) -> In p (dirs after)) ->
  (forall p, In p (files after) -> In p (files before) \/ Claimed base work g p) ->
  (forall p, In p (dirs after) -> In p (dirs before) \/ Claimed base work g p \/ Directory g p) ->
  (forall p, Has before p -> ~ Claimed base work g p /\ ~ Directory g p) -> (forall d, Directory g d -> ~ prefix d work) ->
  execution base denied work keep_going g (start g tops after) s -> Ended s -> (forall i, stat s i <> Failed) ->
  forall p, (In p (files (sfs s)) <-> In p (files before)) /\ (In p (dirs (sfs s)) <-> In p (dirs before)).
Proof.
  intros G J Tb Ta R1 R2 F D F' D' N W E En NF p. destruct (C74_clean base denied work keep_going g tops after s G J E En NF p) as [A B].
  assert (H : forall q, Kept base work g after q -> ~ Directory g q).
  { intros q K. induction K as [q C X | q C X | q x C Hx K IH]; [exact X | intros Dq; exact (W q Dq X) |]. intros Dq.
    assert (Nq : ~ Has before q) by (intros X; exact (proj2 (N q X) Dq)).
    pose proof (kept_not_claimed base work g after _ K) as C'.
    assert (Y : Has before (q ++ [x])) by (destruct Hx as [Y | Y]; [destruct (F' _ Y); [left; assumption | contradiction] | destruct (D' _ Y) as [Z | [Z | Z]]; [right; assumption | contradiction | contradiction]]).
    destruct (Tb q x Y) as [-> | Z]; [contradiction | apply Nq; right; exact Z]. }
  rewrite A, B. split; split.
  - intros [X K]. destruct (F' p X) as [Y | Y]; [exact Y | exfalso; exact (kept_not_claimed base work g after p K Y)].
  - intros X. split; [apply F, X |]. destruct (N p (or_introl X)). apply K_other; assumption.
  - intros [X K]. destruct (D' p X) as [Y | [Y | Y]]; [exact Y | exfalso; exact (kept_not_claimed base work g after p K Y) | exfalso; exact (H p K Y)].
  - intros X. split; [apply D, X |]. destruct (N p (or_intror X)). apply K_other; assumption.
Qed.

(* inject_fsdir () only looks at the directory of the target, not of its members: a directory with a member of an ad hoc group may
   be left behind. *)
Definition exr_m : path := [b "out"; b "sub"; b "m"].
Definition exr_g : graph :=
  [mknode (FileT (Some [b "out"; b "t"]) [] [mkmember (Some exr_m) []] true) [];
   mknode (FileT (Some [b "out"; b "sub"; b "u"]) [] [] true) [2];
   mknode (DirT [b "out"; b "sub"]) []].
Definition exr_fs : fs := mkfs [[b "out"; b "t"]; exr_m; [b "out"; b "sub"; b "u"]] [[b "out"]; [b "out"; b "sub"]].
Theorem C74_member_refuted : exists s,
  Graph exr_g [0; 1] /\ Typed (fun x => x) exr_g exr_fs /\
  execution (fun x => x) (fun _ => false) [] true exr_g (start exr_g [0; 1] exr_fs) s /\ Ended s /\ (forall i, stat s i <> Failed) /\
  files (sfs s) = [] /\ dirs (sfs s) = [[b "out"]; [b "out"; b "sub"]] /\ Directory exr_g [b "out"; b "sub"].
Proof.
  assert (G : Graph exr_g [0; 1]).
  { split; [| split; [| split; [| split]]].
    - intros n i H P. repeat (destruct H as [<- | H]; [cbn in P; cbn; intuition lia |]). destruct H.
    - cbn. intuition lia.
    - exists (fun i => match i with 1 => 1 | _ => 0 end). intros [| [| [| i]]] n j N P; cbn in N; try discriminate; try (injection N as <-; cbn in P; intuition (subst; lia)). destruct i; discriminate.
    - intros [| [| [| i]]] L; cbn in L; [left; cbn; auto | left; cbn; auto | right | lia]. eexists. split; [right; left; reflexivity | left; reflexivity].
    - intros [| [| [| i]]] [| [| [| j]]] n m d N M A B; cbn in N, M; try reflexivity; try discriminate; try (destruct i; discriminate); try (destruct j; discriminate);
        try (injection N as <-; discriminate); try (injection M as <-; discriminate). }
  destruct (run_ended (fun x => x) (fun _ => false) [] true exr_g [0; 1] exr_fs
              [CDrop 1; CRun 1; CRun 1; CDrop 1; CRun 2; CRun 2; CDrop 0; CRun 0; CRun 0; CRun 0] (mkfs [] [[b "out"]; [b "out"; b "sub"]]) G) as (s & E & D & F & X);
    [vm_compute; reflexivity |].
  exists s. split; [exact G |]. split; [apply typedb_Typed; reflexivity |]. split; [exact E |]. split; [exact D |]. split; [exact F |]. rewrite X.
  split; [reflexivity |]. split; [reflexivity |]. eexists. split; [right; right; left; reflexivity | reflexivity].
Qed.

Print Assumptions C74_only.
Print Assumptions C74_tree.
Print Assumptions C74_clean.
Print Assumptions C74_succeeds.
Print Assumptions C74_all.
Print Assumptions C74_progress.
Print Assumptions C74_ends.
Print Assumptions C74_undo.
Print Assumptions C74_member_refuted.

(* Examples: out/a with a dependency database and a member in out/, out/sub/c with an extra directory, both depend on out/gen which
   is not to be removed; somebody has put a file into out/. *)
Definition exl_g : graph :=
  [mknode (FileT (Some [b "out"; b "a"]) [Suffix 0 (b ".d") false] [mkmember (Some [b "out"; b "a.h"]) []] true) [3; 2];
   mknode (FileT (Some [b "out"; b "sub"; b "c"]) [Suffix 0 (b ".tmp") true] [] true) [4; 2];
   mknode (FileT (Some [b "out"; b "gen"]) [Suffix 0 (b ".d") false] [] false) [3];
   mknode (DirT [b "out"]) [];
   mknode (DirT [b "out"; b "sub"]) [3]].
Definition exl_fs : fs :=
  mkfs [[b "out"; b "a"]; [b "out"; b "a.d"]; [b "out"; b "a.h"]; [b "out"; b "sub"; b "c"]; [b "out"; b "sub"; b "c.tmp"; b "x"]; [b "out"; b "gen"]; [b "out"; b "gen.d"]; [b "src"; b "a.c"]]
       [[b "out"]; [b "out"; b "sub"]; [b "out"; b "sub"; b "c.tmp"]; [b "src"]].
Example C74_graph : Graph exl_g [0; 1] /\ Injected (fun x => x) exl_g /\ Typed (fun x => x) exl_g exl_fs.
Proof.
  split; [| split; [apply injectedb_Injected; reflexivity | apply typedb_Typed; reflexivity]]. split; [| split; [| split; [| split]]].
  - intros n i H P. repeat (destruct H as [<- | H]; [cbn in P; cbn; intuition lia |]). destruct H.
  - cbn. intuition lia.
  - exists (fun i => match i with 0 => 2 | 1 => 2 | 2 => 1 | 3 => 0 | _ => 1 end). intros [| [| [| [| [| i]]]]] n j N P; cbn in N; try discriminate;
      try (injection N as <-; cbn in P; intuition (subst; lia)). destruct i; discriminate.
  - intros [| [| [| [| [| i]]]]] L; cbn in L; [left; cbn; auto | left; cbn; auto | right | right | right | lia].
    + eexists. split; [left; reflexivity | cbn; auto].
    + eexists. split; [left; reflexivity | cbn; auto].
    + eexists. split; [right; left; reflexivity | cbn; auto].
  - intros [| [| [| [| [| i]]]]] [| [| [| [| [| j]]]]] n m d N M A B; cbn in N, M; try reflexivity; try discriminate; try (destruct i; discriminate); try (destruct j; discriminate);
      injection N as <-; injection M as <-; try discriminate; injection A as <-; discriminate.
Qed.
Definition exl_choices : list choice :=
  [CDrop 0; CRun 0; CRun 0; CRun 0; CRun 0; CDrop 0; CRun 1; CRun 1; CRun 1; CDrop 0; CDrop 1; CRun 2; CRun 2; CDrop 1; CRun 4; CRun 4;
   CDrop 0; CDrop 0; CDrop 0; CRun 3; CRun 3].
Example C74_example : exists s,
  execution (fun x => x) (fun _ => false) [] false exl_g (start exl_g [0; 1] exl_fs) s /\ Ended s /\ (forall i, stat s i <> Failed) /\
  files (sfs s) = [[b "out"; b "gen"]; [b "src"; b "a.c"]] /\ dirs (sfs s) = [[b "out"]; [b "src"]].
Proof.
  destruct (run_ended (fun x => x) (fun _ => false) [] false exl_g [0; 1] exl_fs exl_choices (mkfs [[b "out"; b "gen"]; [b "src"; b "a.c"]] [[b "out"]; [b "src"]])
              (proj1 C74_graph)) as (s & E & D & F & X); [vm_compute; reflexivity |].
  exists s. rewrite X. auto.
Qed.
(* Before an update there was nothing in out/. *)
Definition exu_g : graph := [mknode (FileT (Some [b "out"; b "a"]) [Suffix 0 (b ".d") false] [] true) [1]; mknode (DirT [b "out"]) []].
Definition exu_before : fs := mkfs [[b "src"; b "a.c"]] [[b "src"]].
Definition exu_after : fs := mkfs [[b "src"; b "a.c"]; [b "out"; b "a"]; [b "out"; b "a.d"]] [[b "src"]; [b "out"]].
Definition exu_claimed (p : path) : Prop := Claimed (fun x => x) [b "src"] exu_g p.
Lemma exu_claims p : exu_claimed p <-> p = [b "out"; b "a.d"] \/ p = [b "out"; b "a"].
Proof.
  split.
  - intros (n & [<- | [<- | []]] & [H | (d & H & _)]); first [apply recipe_file in H | apply recipe_tree in H]; cbn in H; intuition (try discriminate).
    + injection H0 as <-. auto.
    + injection H as <-. auto.
  - intros H. exists (mknode (FileT (Some [b "out"; b "a"]) [Suffix 0 (b ".d") false] [] true) [1]). split; [left; reflexivity |]. left. apply recipe_file. cbn. destruct H as [-> | ->]; auto.
Qed.
Lemma exu_directory p : Directory exu_g p <-> p = [b "out"].
Proof.
  split; [intros (n & [<- | [<- | []]] & H); [discriminate | injection H as <-; reflexivity] |]. intros ->. eexists. split; [right; left; reflexivity | reflexivity].
Qed.
Example C74_undo_example :
  Graph exu_g [0] /\ Injected (fun x => x) exu_g /\ Tree exu_before /\ Tree exu_after /\ ~ exu_claimed [] /\ ~ Directory exu_g [] /\
  (forall p, In p (files exu_before) -> In p (files exu_after)) /\ (forall p, In p (dirs exu_before) -> In p (dirs exu_after)) /\
  (forall p, In p (files exu_after) -> In p (files exu_before) \/ exu_claimed p) /\
  (forall p, In p (dirs exu_after) -> In p (dirs exu_before) \/ exu_claimed p \/ Directory exu_g p) /\
  (forall p, Has exu_before p -> ~ exu_claimed p /\ ~ Directory exu_g p) /\ (forall d, Directory exu_g d -> ~ prefix d [b "src"]).
Proof.
  split; [| split; [apply injectedb_Injected; reflexivity |]].
  - split; [| split; [| split; [| split]]].
    + intros n i H P. repeat (destruct H as [<- | H]; [cbn in P; cbn; intuition lia |]). destruct H.
    + cbn. intuition lia.
    + exists (fun i => match i with 0 => 1 | _ => 0 end). intros [| [| i]] n j N P; cbn in N; try (injection N as <-; cbn in P; intuition (subst; lia)). destruct i; discriminate.
    + intros [| [| i]] L; cbn in L; [left; cbn; auto | right | lia]. eexists. split; [left; reflexivity | left; reflexivity].
    + intros [| [| i]] [| [| j]] n m d N M A B; cbn in N, M; try reflexivity; try (destruct i; discriminate); try (destruct j; discriminate);
        injection N as <-; injection M as <-; discriminate.
  - assert (T : forall s, forallb (fun p => match p with [] => true | _ => path_eqb (removelast p) [] || mem (removelast p) (dirs s) end) (files s ++ dirs s) = true -> Tree s).
    { intros s H p x I. rewrite forallb_forall in H. specialize (H (p ++ [x]) ltac:(apply in_or_app; exact I)). rewrite removelast_last in H.
      destruct (p ++ [x]) eqn:E; [destruct p; discriminate |]. apply orb_true_iff in H as [H | H]; [left; apply path_eqb_eq, H | right; apply mem_In, H]. }
    split; [apply T; reflexivity |]. split; [apply T; reflexivity |]. rewrite exu_claims, exu_directory. split; [intuition discriminate |]. split; [discriminate |].
    split; [cbn; tauto |]. split; [cbn; tauto |]. split; [intros p; rewrite exu_claims; cbn; intuition congruence |].
    split; [intros p; rewrite exu_claims, exu_directory; cbn; intuition congruence |].
    split; [intros p [H | H]; rewrite exu_claims, exu_directory; cbn in H; destruct H as [<- | []]; split; [intros [X | X]; discriminate | discriminate | intros [X | X]; discriminate | discriminate] |].
    intros d. rewrite exu_directory. intros -> (z & Z). discriminate.
Qed.
