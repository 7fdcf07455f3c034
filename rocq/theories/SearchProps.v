(* C79: which target a prerequisite is resolved to does not depend on when it is searched for. *)
From Verif Require Import Base SearchModel SearchSpec SearchProofs SearchProofs2 SearchProofs3.

Section Props.
Context (P : project) (kind : nat -> tkind) (default_ext : nat -> scope -> bytes -> option bytes).
Context (file_exists : path -> bytes -> bytes -> bool) (src_only : path -> bool).
Context (ext_of : nat -> path -> bytes -> bytes) (T0 : list entry).
Notation run := (run kind default_ext file_exists src_only).
Notation all_regular := (all_regular P kind default_ext file_exists ext_of T0).
Notation resolves := (resolves P kind file_exists src_only ext_of T0).

(* Any prerequisites of a project are searched for by any number of threads, in any order and
   with any interleaving of the steps. Those that are done have been resolved to the targets
   that they should be, given only the declared targets and the files. *)
Theorem C79_resolved l i k r : project_ok P src_only ext_of T0 -> all_regular l -> nth_error (searches (run T0 l)) i = Some (k, Done r) ->
  match r with
  | Target j => exists t, nth_error (targets (run T0 l)) j = Some t /\ resolves k (Some (e_base t))
  | Failed => resolves k None
  end.
Proof.
  intros OK A N. destruct (run_ok P kind default_ext file_exists src_only ext_of T0 OK l A) as [I S]. destruct (S i _ N) as (g & s & u & R & _ & ST). cbn [fst snd] in *.
  pose proof (result_resolves P kind file_exists src_only ext_of T0 k g s u R) as RES. destruct r as [j|]; cbn in ST.
  - destruct ST as [NE E]. rewrite nth_error_map in E, NE. destruct (nth_error (targets _) j) as [t|]; [|destruct (NE eq_refl)]. exists t. split; [reflexivity|]. cbn in E. rewrite E. exact RES.
  - rewrite <- ST. exact RES.
Qed.

(* There is only one such target. *)
Theorem C79_deterministic l k r r' : all_regular l -> In (Start k) l -> resolves k r -> resolves k r' -> r = r'.
Proof.
  intros A I R R'. destruct (A k I) as (g & s & u & RF & _). rewrite (resolves_result P kind file_exists src_only ext_of T0 k g s u r RF R), (resolves_result P kind file_exists src_only ext_of T0 k g s u r' RF R'). reflexivity.
Qed.

(* Prerequisites that should be resolved to the same target are, however they are written. *)
Theorem C79_same l i i' k k' j j' b : project_ok P src_only ext_of T0 -> all_regular l ->
  nth_error (searches (run T0 l)) i = Some (k, Done (Target j)) -> nth_error (searches (run T0 l)) i' = Some (k', Done (Target j')) ->
  resolves k (Some b) -> resolves k' (Some b) -> j = j'.
Proof.
  intros OK A N N' R R'. destruct (run_ok P kind default_ext file_exists src_only ext_of T0 OK l A) as [I S].
  destruct (S i _ N) as (g & s & u & RF & _ & NE & E), (S i' _ N') as (g' & s' & u' & RF' & _ & NE' & E'). cbn [fst snd] in *.
  rewrite <- (resolves_result P kind file_exists src_only ext_of T0 k g s u _ RF R) in E. rewrite <- (resolves_result P kind file_exists src_only ext_of T0 k' g' s' u' _ RF' R') in E'.
  pose proof (i_nodup _ _ _ _ _ _ _ _ I) as ND. rewrite NoDup_nth_error in ND. apply ND; [apply nth_error_Some; exact NE | congruence].
Qed.

(* No targets are created but those that prerequisites are resolved to, and those declared
   stay. In particular none in the src tree without a file. *)
Theorem C79_targets l b : project_ok P src_only ext_of T0 -> all_regular l ->
  (declared T0 b -> exists t, In t (targets (run T0 l)) /\ e_base t = b) /\
  forall t, In t (targets (run T0 l)) -> e_base t = b -> declared T0 b \/ exists k, resolves k (Some b).
Proof.
  intros OK A. destruct (run_ok P kind default_ext file_exists src_only ext_of T0 OK l A) as [I _]. split.
  - intros D. apply (decb_spec T0) in D. pose proof (declared_in P kind default_ext file_exists src_only ext_of T0 _ b I D) as IN. apply in_map_iff in IN. destruct IN as (t & E & IN). exists t. auto.
  - intros t IN <-. destruct (in_targets P kind default_ext file_exists src_only ext_of T0 _ (e_base t) I (in_map e_base _ _ IN)) as [D|(_ & k & g & s & u & R & _ & Q)]; [left; apply decb_spec; exact D|].
    right. exists k. rewrite <- Q. apply result_resolves. exact R.
Qed.
Theorem C79_source l t : project_ok P src_only ext_of T0 -> all_regular l -> In t (targets (run T0 l)) -> ~ declared T0 (e_base t) ->
  b_out (e_base t) <> None -> kind (b_type (e_base t)) = KFile /\ has_file file_exists ext_of (e_base t).
Proof.
  intros OK A IN ND O. destruct (C79_targets l (e_base t) OK A) as [_ T]. destruct (T t IN eq_refl) as [D|(k & R)]; [contradiction|]. clear T.
  remember (Some (e_base t)) as r eqn:ER. destruct R as [g s u R K D|g b u R K D F|g s u R K D F AL|g s u R K D F AL|g s u R K D|g s u R K D]; try discriminate ER; injection ER as ER.
  - rewrite ER in D. contradiction.
  - rewrite ER in *. destruct F as [[_ F]|F]; [contradiction|]. split; [|exact F]. destruct (type_of P k g (Some (e_base t)) u R) as (_ & _ & TY). destruct (TY _ eq_refl) as [-> _]. exact K.
  - exfalso. apply O. destruct AL as [AL _]. rewrite <- ER. destruct R; cbn in *; try reflexivity. discriminate AL.
  - rewrite ER in D. destruct D as (t' & IT & E & _). destruct ND. exists t'. auto.
Qed.

(* A search takes at most four steps. *)
Fixpoint steps_of (i : nat) (l : list action) : nat := match l with [] => 0 | Step j :: l => (if j =? i then 1 else 0) + steps_of i l | Start _ :: l => steps_of i l end.
Definition left (st : stage) : nat := match st with InOut => 4 | InSrc => 3 | OnDisk => 2 | Create => 1 | Done _ => 0 end.
Lemma step_left ts k st : left (snd (step kind default_ext file_exists src_only ts k st)) <= left st - 1.
Proof.
  destruct st; cbn.
  - destruct (find ts (given k) (k_ext k)) as [[ts' i]|]; cbn; [lia|]. destruct (kind (k_type k)); cbn; try lia. destruct (try_src k); cbn; lia.
  - destruct (find ts (in_src k) (k_ext k)) as [[ts' i]|]; cbn; lia.
  - destruct (on_disk default_ext file_exists k) as [[b e]|]; cbn; [destruct (insert ts b (Some e)); cbn; lia | lia].
  - destruct (can_create src_only k); cbn; [destruct (insert ts (given k) (k_ext k)); cbn; lia | lia].
  - lia.
Qed.
Lemma steps_left l : forall s i k st, nth_error (searches s) i = Some (k, st) ->
  exists st', nth_error (searches (fold_left (act kind default_ext file_exists src_only) l s)) i = Some (k, st') /\ left st' <= left st - steps_of i l.
Proof.
  induction l as [|a l IH]; intros s i k st N; cbn; [exists st; split; [exact N | lia]|].
  destruct a as [k0|j]; cbn.
  - apply IH. cbn. rewrite nth_error_app1; [exact N | apply nth_error_Some; congruence].
  - destruct (nth_error (searches s) j) as [[kj stj]|] eqn:NJ.
    + pose proof (step_left (targets s) kj stj) as L. destruct (step kind default_ext file_exists src_only (targets s) kj stj) as [ts' st']. cbn [snd] in L.
      destruct (Nat.eqb_spec j i) as [E|E].
      * subst j. rewrite N in NJ. injection NJ as <- <-. destruct (IH (mkstate ts' (set_nth (searches s) i (k, st'))) i k st') as (st2 & N2 & L2).
        { cbn. rewrite nth_set_nth, Nat.eqb_refl. replace (i <? length (searches s)) with true; [reflexivity|]. symmetry. apply Nat.ltb_lt, nth_error_Some. congruence. }
        exists st2. split; [exact N2 | lia].
      * apply IH. cbn. rewrite nth_set_nth. replace (i =? j) with false by (symmetry; apply Nat.eqb_neq; congruence). exact N.
    + destruct (Nat.eqb_spec j i) as [E|E]; [subst; congruence|]. apply IH. exact N.
Qed.
Theorem C79_finishes l i k st : nth_error (searches (run T0 l)) i = Some (k, st) -> forall l', 4 <= steps_of i l' -> exists r, nth_error (searches (run T0 (l ++ l'))) i = Some (k, Done r).
Proof.
  intros N l' L. unfold SearchModel.run in *. rewrite fold_left_app. destruct (steps_left l' _ _ _ _ N) as (st' & N' & L'). exists (match st' with Done r => r | _ => Failed end). rewrite N'.
  assert (left st <= 4) by (destruct st; cbn; lia). destruct st'; cbn in L'; try lia. reflexivity.
Qed.
End Props.
Print Assumptions C79_resolved.
Print Assumptions C79_deterministic.
Print Assumptions C79_same.
Print Assumptions C79_targets.
Print Assumptions C79_source.
Print Assumptions C79_finishes.

(* Examples: /o and /s, file foo.c in /s/lib; exe foo declared in /o. *)
Definition ex_P : project := mkproj [b "o"] [b "s"].
Definition ex_kind (t : nat) : tkind := match t with 0 => KFile | 1 => KTarget | _ => KAlias end.
Definition ex_default (t : nat) (s : scope) (n : bytes) : option bytes := Some (b "c").
Definition ex_ext (t : nat) (d : path) (n : bytes) : bytes := b "c".
Definition ex_file (d : path) (n e : bytes) : bool := path_eqb d [b "s"; b "lib"] && beqb n (b "foo") && beqb e (b "c").
Definition ex_src_only (d : path) : bool := sub d [b "s"].
Definition ex_T0 : list entry := [mkentry (mkb 0 [b "o"] None (b "gen")) None true].
Definition ex_root : scope := mkscope ex_P [].
Definition ex_lib : scope := mkscope ex_P [b "lib"].
(* lib/foo from the root, foo from lib, ../gen and ../none from lib, /s/lib/foo. *)
Definition ex_k1 := mkpk 0 (Rel 0 [b "lib"]) OEmpty (b "foo") None ex_root.
Definition ex_k2 := mkpk 0 (Rel 0 []) OEmpty (b "foo") (Some (b "c")) ex_lib.
Definition ex_k3 := mkpk 0 (Rel 1 []) OEmpty (b "gen") None ex_lib.
Definition ex_k4 := mkpk 0 (Rel 1 []) OEmpty (b "none") None ex_lib.
Definition ex_k5 := mkpk 0 (Abs ([b "s"] ++ [b "lib"])) OEmpty (b "foo") None ex_root.
Definition ex_k6 := mkpk 0 (Rel 0 []) (ORel 0 []) (b "foo") None ex_lib.
Definition ex_run : list action := map Start [ex_k1; ex_k2; ex_k3; ex_k4; ex_k5; ex_k6] ++ map Step [0; 1; 2; 3; 4; 5; 1; 0; 0; 1; 3; 3; 3; 4; 5].

Example C79_ex_project : project_ok ex_P ex_src_only ex_ext ex_T0.
Proof.
  split.
  - intros _ x y E. discriminate E.
  - reflexivity.
  - reflexivity.
  - split; [repeat constructor; intros [] | intros t [<-|[]]; left; reflexivity].
Qed.
Lemma ex_no_source : ~ in_source ex_P. Proof. discriminate. Qed.
Example C79_ex_regular : all_regular ex_P ex_kind ex_default ex_file ex_ext ex_T0 ex_run.
Proof.
  assert (SRC : forall pos n, source ex_P 0 pos n (mkb 0 (src_root ex_P ++ pos) (Some (out_root ex_P ++ pos)) n)) by (intros; right; split; [exact ex_no_source | reflexivity]).
  intros k I. unfold ex_run in I. apply in_app_iff in I. destruct I as [I|I]; [|apply in_map_iff in I; destruct I as (? & [=] & _)].
  apply in_map_iff in I. destruct I as (k' & [= <-] & I). destruct I as [<-|[<-|[<-|[<-|[<-|[<-|[]]]]]]]; unfold regular.
  - do 3 eexists. split; [apply (ref_relative ex_P 0 0 [b "lib"] (b "foo") None ex_root [b "lib"]); [split; [reflexivity | exists [], []; auto] | apply SRC]|].
    split; [left; reflexivity|]. split; [reflexivity | intros _ _ pos [=]].
  - do 3 eexists. split; [apply (ref_relative ex_P 0 0 [] (b "foo") (Some (b "c")) ex_lib [b "lib"]); [split; [reflexivity | exists [b "lib"], []; auto] | apply SRC]|].
    split; [right; reflexivity|]. split; [reflexivity | intros _ _ pos [=]].
  - do 3 eexists. split; [apply (ref_relative ex_P 0 1 [] (b "gen") None ex_lib []); [split; [reflexivity | exists [], [b "lib"]; auto] | apply SRC]|].
    split; [left; reflexivity|]. split; [reflexivity | intros _ _ pos [=]].
  - do 3 eexists. split; [apply (ref_relative ex_P 0 1 [] (b "none") None ex_lib []); [split; [reflexivity | exists [], [b "lib"]; auto] | apply SRC]|].
    split; [left; reflexivity|]. split; [reflexivity | intros _ _ pos [=]].
  - do 3 eexists. split; [apply (ref_absolute ex_P 0 [b "lib"] (b "foo") None ex_root); [reflexivity | apply SRC]|].
    split; [left; reflexivity|]. split; [reflexivity | intros _ _ pos [=]].
  - do 3 eexists. split; [apply (ref_out ex_P 0 0 [] 0 [] (b "foo") None ex_lib [b "lib"] [b "lib"]); [split; [reflexivity | exists [b "lib"], []; auto] .. | discriminate]|].
    split; [left; reflexivity|]. split; [reflexivity | intros _ _ pos [=]].
Qed.
(* All the ways to write foo are the same target, gen is the declared one, none is new. *)
Example C79_ex_run : let s := run ex_kind ex_default ex_file ex_src_only ex_T0 ex_run in
  map snd (searches s) = [Done (Target 1); Done (Target 1); Done (Target 0); Done (Target 2); Done (Target 1); Done (Target 1)] /\
  map e_base (targets s) = [mkb 0 [b "o"] None (b "gen"); mkb 0 [b "s"; b "lib"] (Some [b "o"; b "lib"]) (b "foo"); mkb 0 [b "o"] None (b "none")].
Proof. vm_compute. auto. Qed.

(* An absolute directory in the out tree: lib/foo is a source file or, if /o/lib/foo has been
   searched for before, is not. *)
Definition order_matters (kind : nat -> tkind) default_ext file_exists src_only (T0 : list entry) (k k' : prereq) : Prop :=
  exists l l' i i' b b', l <> l' /\ In (Start k) l /\ (forall k0, In (Start k0) l <-> In (Start k0) l') /\ (forall k0, In (Start k0) l -> k0 = k \/ k0 = k') /\
    let s := run kind default_ext file_exists src_only T0 l in let s' := run kind default_ext file_exists src_only T0 l' in
    nth_error (searches s) i = Some (k, Done (Target (length T0))) /\ nth_error (searches s') i' = Some (k, Done (Target (length T0))) /\
    option_map e_base (nth_error (targets s) (length T0)) = Some b /\ option_map e_base (nth_error (targets s') (length T0)) = Some b' /\ b <> b'.
Theorem C79_absolute_refuted : exists k, k_out k = OEmpty /\ k_dir k = Abs [b "o"; b "lib"] /\ s_proj (k_scope k) = ex_P /\
  order_matters ex_kind ex_default ex_file ex_src_only ex_T0 ex_k1 k.
Proof.
  exists (mkpk 0 (Abs [b "o"; b "lib"]) OEmpty (b "foo") None ex_root). repeat (split; [reflexivity|]). set (k := mkpk _ _ _ _ _ _).
  exists (map Start [ex_k1; k] ++ map Step [0; 0; 0; 1; 1; 1]), (map Start [k; ex_k1] ++ map Step [0; 0; 0; 1; 1; 1]), 0, 1. do 2 eexists.
  split; [discriminate|]. split; [left; reflexivity|]. split; [|split].
  - intros k0. cbn. split; intros [E|[E|H]]; auto; repeat destruct H as [H|H]; try discriminate H; destruct H.
  - intros k0 [[= <-]|[[= <-]|H]]; auto. repeat destruct H as [H|H]; try discriminate H; destruct H.
  - vm_compute. repeat split. discriminate.
Qed.
Print Assumptions C79_absolute_refuted.
(* Another project: ../lib/foo from /s/app. *)
Theorem C79_project_refuted : exists k k', s_proj (k_scope k) <> s_proj (k_scope k') /\ k_dir k = Rel 0 [] /\ k_dir k' = Rel 1 [b "lib"] /\ k_out k = OEmpty /\ k_out k' = OEmpty /\
  order_matters ex_kind ex_default ex_file (fun _ => false) [] k k'.
Proof.
  exists (mkpk 0 (Rel 0 []) OEmpty (b "foo") None (mkscope (mkproj [b "o"; b "lib"] [b "s"; b "lib"]) [])), (mkpk 0 (Rel 1 [b "lib"]) OEmpty (b "foo") None (mkscope (mkproj [b "o"; b "app"] [b "s"; b "app"]) [])).
  split; [discriminate|]. repeat (split; [reflexivity|]). set (k := mkpk 0 (Rel 0 []) _ _ _ _). set (k' := mkpk 0 (Rel 1 _) _ _ _ _).
  exists (map Start [k; k'] ++ map Step [0; 0; 0; 1; 1; 1; 1]), (map Start [k'; k] ++ map Step [0; 0; 0; 0; 1; 1; 1]), 0, 1. do 2 eexists.
  split; [discriminate|]. split; [left; reflexivity|]. split; [|split].
  - intros k0. cbn. split; intros [E|[E|H]]; auto; repeat destruct H as [H|H]; try discriminate H; destruct H.
  - intros k0 [[= <-]|[[= <-]|H]]; auto. repeat destruct H as [H|H]; try discriminate H; destruct H.
  - vm_compute. repeat split. discriminate.
Qed.
Print Assumptions C79_project_refuted.
