(* C86: which file a header that is to be generated is. *)
From Verif Require Import Base ImpModel PfxModel PfxSpec PfxProofs PfxProofs2.

(* A prefix is for the nearest include directory that leads to it. *)
Theorem C86_prefix : forall incs p d k, p <> [] -> (In (p, (d, k)) (prefix_map_of incs) <-> best incs p d k).
Proof.
  intros incs p d k NE. rewrite <- in_entries. destruct (prefix_entries incs p NE) as [[-> N]|(d' & k' & -> & B)].
  - split; [intros [] | intros B; apply N; eapply best_led; eauto].
  - split.
    + intros [E|[]]. injection E as <- <-. exact B.
    + intros B'. destruct (best_det _ _ _ _ _ _ B B') as [-> ->]. now left.
Qed.
Theorem C86_prefix_any : forall incs p, p <> [] -> ((exists d k, In (p, (d, k)) (prefix_map_of incs)) <-> led incs p).
Proof.
  intros incs p NE. split.
  - intros (d & k & I). apply C86_prefix in I; [|exact NE]. eapply best_led; eauto.
  - intros L. destruct (prefix_entries incs p NE) as [[_ N]|(d' & k' & _ & B)]; [contradiction|]. exists d', k'. now apply C86_prefix.
Qed.
(* Without a prefix all are kept. *)
Theorem C86_prefixless : forall incs, ordered incs (map snd (filter (fun e => dir_eqb (fst e) []) (prefix_map_of incs))).
Proof. intros incs. apply (prefixless incs). Qed.

Section F.
Context {tt : Type} (exts : list bytes -> bytes -> list tt) (fallback : tt) (have : tt -> list bytes -> bytes -> option decl).
Context (existing : list bytes -> bytes -> bool) (creatable : list bytes -> bool).
Notation find := (find exts fallback have existing creatable).
Notation enter_relative := (enter_relative exts fallback have existing creatable).
Notation enter_absolute := (enter_absolute exts fallback have existing creatable).

(* The target for a file: the first type that is declared; failed that, a new one of the first type. *)
Theorem C86_target : forall d l t, find d l true false = Some t <->
  (exists a c, match exts d l with [] => [fallback] | ts => ts end = a ++ t :: c /\ have t d l = Some Declared /\ forall u, In u a -> have u d l <> Some Declared) \/
  ((forall u, In u (match exts d l with [] => [fallback] | ts => ts end) -> have u d l <> Some Declared) /\
   (exists c, match exts d l with [] => [fallback] | ts => ts end = t :: c) /\ (have t d l <> None \/ existing d l = true \/ creatable d = true)).
Proof. intros. apply find_chosen. Qed.
Theorem C86_target_declared : forall d l t, find d l false false = Some t <->
  exists a c, exts d l = a ++ t :: c /\ have t d l = Some Declared /\ forall u, In u a -> have u d l <> Some Declared.
Proof. intros. apply find_only. Qed.

(* A header with the most qualified prefix that there is is in the directory for it. *)
Theorem C86_qualified : forall incs p s l d k insert dynamic,
  Forall plain (p ++ s ++ [l]) -> p <> [] -> best incs p d k -> (forall q r, p ++ s = q ++ r -> length p < length q -> ~ led incs q) ->
  enter_relative (prefix_map_of incs) (p ++ s ++ [l]) insert dynamic =
  match find (d ++ p ++ s) l insert dynamic with Some t => Some (d ++ p ++ s, t) | None => None end.
Proof. intros. eapply rel_prefix; eauto. Qed.
(* Otherwise it is in the first include directory where it is declared. *)
Theorem C86_unqualified : forall incs h l insert dynamic d' t,
  Forall plain (h ++ [l]) -> (forall q r, h = q ++ r -> q <> [] -> ~ led incs q) ->
  (enter_relative (prefix_map_of incs) (h ++ [l]) insert dynamic = Some (d', t) <->
   exists es l1 d k l2, ordered incs es /\ es = l1 ++ (d, k) :: l2 /\ d' = d ++ h /\ find d' l false false = Some t /\
     forall d0 k0, In (d0, k0) l1 -> find (d0 ++ h) l false false = None).
Proof. intros. now apply rel_prefixless. Qed.
(* In every case it is in an include directory, so the compiler will find it or one in another include directory. *)
Theorem C86_found : forall incs fp insert dynamic d' t, enter_relative (prefix_map_of incs) fp insert dynamic = Some (d', t) ->
  exists x h l, In x incs /\ rnorm [] fp = Some (h ++ [l]) /\ d' = snd x ++ h.
Proof. intros. eapply rel_sound; eauto. Qed.
(* The canonical setup: a target in d/p with d as the first include directory, the header is p/l. *)
Theorem C86_canonical : forall d p rest l, p <> [] -> Forall plain (p ++ [l]) -> creatable (d ++ p) = true ->
  exists t, enter_relative (prefix_map_of ((d ++ p, d) :: rest)) (p ++ [l]) true false = Some (d ++ p, t) /\ find (d ++ p) l true false = Some t.
Proof.
  intros d p rest l NE P C.
  assert (B : best ((d ++ p, d) :: rest) p d 0).
  { exists [], (d ++ p), rest. split; [reflexivity|]. split; [pose proof (leads_under d p []) as L; now rewrite app_nil_r in L|]. split; [intros x j [] | intros; lia]. }
  pose proof (C86_qualified ((d ++ p, d) :: rest) p [] l d 0 true false) as Q. cbn [app] in Q. rewrite app_nil_r in Q. rewrite Q; auto.
  - rewrite find_insert. cbn zeta. rewrite C, orb_true_r. destruct (declared_of _ _ _ _); eauto.
  - intros q r E L. apply (f_equal (@length _)) in E. rewrite app_length in E. lia.
Qed.
(* Paths with . and .. are as those without, in any directory; with .. left there is no such file. *)
Theorem C86_normalized : forall m fp insert dynamic,
  (exists q, q <> [] /\ Forall plain q /\ (forall base, norm (rev base) fp = Some (base ++ q)) /\ enter_relative m fp insert dynamic = enter_relative m q insert dynamic) \/
  (norm [] fp = None \/ norm [] fp = Some []) /\ enter_relative m fp insert dynamic = None.
Proof.
  intros m fp insert dynamic. unfold PfxModel.enter_relative at 1 3. destruct (rnorm [] fp) as [q|] eqn:R.
  - left. exists q. destruct (rnorm_some fp [] q R) as (N & P & B); [constructor|]. split; [exact N|]. split; [exact P|]. split; [intros base; now rewrite <- B|].
    unfold PfxModel.enter_relative. rewrite rnorm_plain by exact P. cbn [rev app]. destruct q; [contradiction | reflexivity].
  - right. split; [now apply rnorm_none in R | reflexivity].
Qed.

(* An existing file: the corresponding one if there is a pair and a declared target, itself otherwise. *)
Theorem C86_absolute : forall find_out ds d l insert dynamic r,
  enter_absolute (srcout find_out ds) d l false insert dynamic = r ->
  (exists k o x t, In (k, o) (srcout find_out ds) /\ d = k ++ x /\ (forall k' o' x', In (k', o') (srcout find_out ds) -> d = k' ++ x' -> length k' <= length k) /\
     find (o ++ x) l false false = Some t /\ r = (Some (o ++ x, t), true)) \/
  (forall k o x, In (k, o) (srcout find_out ds) -> d = k ++ x ->
     (forall k' o' x', In (k', o') (srcout find_out ds) -> d = k' ++ x' -> length k' <= length k) -> find (o ++ x) l false false = None) /\
  r = (match find d l insert dynamic with Some t => Some (d, t) | None => None end, false).
Proof.
  intros find_out ds d l insert dynamic r <-. unfold PfxModel.enter_absolute. set (so := srcout find_out ds). assert (D : NoDup (map fst so)) by apply srcout_keys.
  destruct (sup so d (length d)) as [k|] eqn:S.
  - destruct (sup_some _ _ _ _ (Nat.le_refl _) S) as (X & (x & E) & Z). destruct (entries so k) as [|o r] eqn:W; [contradiction|]. clear X.
    assert (I : In (k, o) so) by (apply in_entries; rewrite W; now left).
    assert (Q : forall k' o' x', In (k', o') so -> d = k' ++ x' -> length k' <= length k).
    { intros k' o' x' I' E'. apply (Z k' x' E'); [rewrite E', app_length; lia|]. intros Y. apply in_entries in I'. rewrite Y in I'. destruct I'. }
    assert (leaf d k = x) as -> by (rewrite E; apply leaf_app).
    destruct (find (o ++ x) l false false) as [t|] eqn:F; [left; now exists k, o, x, t|]. right. split; [|reflexivity].
    intros k' o' x' I' E' Q'. assert (length k = length k') as G by (apply Nat.le_antisymm; [eapply Q'; eauto | eapply Q; eauto]).
    assert (k' = k) as -> by (assert (firstn (length k) d = firstn (length k') d) as V by (now rewrite G); rewrite E in V at 1; rewrite E' in V; rewrite !firstn_app, !Nat.sub_diag, !firstn_all in V; cbn in V; rewrite !app_nil_r in V; congruence).
    assert (x' = x) as -> by (rewrite E in E'; apply app_inv_head in E'; congruence).
    assert (o' = o) as ->; [|exact F]. clear - D I I'. revert I I'. induction so as [|[q w] m IH]; [intros []|]. cbn in D. inversion D as [|? ? N D']; subst.
    intros [J|J] [J'|J']; [congruence| | |now apply IH].
    + assert (q = k) by congruence. subst q. exfalso. apply N. change k with (fst (k, o')). now apply in_map.
    + assert (q = k) by congruence. subst q. exfalso. apply N. change k with (fst (k, o)). now apply in_map.
  - right. split; [|reflexivity]. intros k o x I E _. pose proof (sup_none _ _ _ (Nat.le_refl _) S k x E) as Y. rewrite E, app_length in Y.
    apply in_entries in I. rewrite Y in I by lia. destruct I.
Qed.
(* Cached results are not remapped again. *)
Theorem C86_cached : forall so d l insert dynamic,
  enter_absolute so d l true insert dynamic = (match find d l insert dynamic with Some t => Some (d, t) | None => None end, false).
Proof. reflexivity. Qed.
End F.

(* Targets that other threads may have created do not matter. *)
Theorem C86_no_race : forall tt (exts : list bytes -> bytes -> list tt) fallback existing creatable have have' m fp so d l cache insert,
  (forall t d l, have t d l = Some Declared <-> have' t d l = Some Declared) ->
  (forall t d l, have t d l = Some Dynamic \/ have' t d l = Some Dynamic -> existing d l = true \/ creatable d = true) ->
  enter_relative exts fallback have existing creatable m fp insert false = enter_relative exts fallback have' existing creatable m fp insert false /\
  enter_absolute exts fallback have existing creatable so d l cache insert false = enter_absolute exts fallback have' existing creatable so d l cache insert false.
Proof.
  intros tt exts fallback existing creatable have have' m fp so d l cache insert A B. assert (S : same_declared existing creatable have have') by (split; assumption).
  split; [now apply rel_same | now apply abs_same].
Qed.

(* Options: all include directories inside of the project, in order. *)
Theorem C86_options : forall msvc path_of out_root os m tdir ds, Forall (opt_ok msvc) os ->
  Forall2 (fun s d => exists p, path_of s = Some (true, p) /\ norm [] p = Some d) (concat (map dir_of os)) ds ->
  append_prefixes msvc path_of out_root m tdir (concat (map print os)) =
  Some (fold_left (fun m d => append_prefix m tdir d) (filter (fun d => sub d out_root) ds) m).
Proof.
  intros msvc path_of out_root os m tdir ds V F. rewrite options_read by exact V. revert m. induction F as [|s d l ds (p & P & N) F IH]; intros m; [reflexivity|].
  cbn [use_all filter]. unfold use, inc_dir. rewrite P, N. unfold append_inc. destruct (sub d out_root); apply IH.
Qed.
(* The last one without a directory is left to the compiler. *)
Theorem C86_options_last : forall msvc path_of out_root os m tdir c, Forall (opt_ok msvc) os -> c = "-"%char \/ msvc = true /\ c = "/"%char ->
  append_prefixes msvc path_of out_root m tdir (concat (map print os) ++ [[c; "I"%char]]) = append_prefixes msvc path_of out_root m tdir (concat (map print os)).
Proof. intros msvc path_of out_root os m tdir c V C. now rewrite options_last, options_read. Qed.
Theorem C86_options_fail : forall msvc path_of out_root os m tdir, Forall (opt_ok msvc) os ->
  (append_prefixes msvc path_of out_root m tdir (concat (map print os)) = None <->
   exists s, In s (concat (map dir_of os)) /\ ~ exists p d, path_of s = Some (true, p) /\ norm [] p = Some d).
Proof.
  intros msvc path_of out_root os m tdir V. rewrite options_read by exact V. revert m. induction (concat (map dir_of os)) as [|s l IH]; intros m; cbn [use_all].
  - split; [discriminate | intros (s & [] & _)].
  - unfold use, inc_dir at 1. destruct (path_of s) as [[[|] p]|] eqn:P.
    + destruct (norm [] p) as [d|] eqn:N.
      * rewrite IH. split; [intros (s' & I & X); exists s'; split; [now right | exact X]|]. intros (s' & [<-|I] & X); [|now exists s'].
        exfalso. apply X. now exists p, d.
      * split; [|reflexivity]. intros _. exists s. split; [now left|]. intros (p' & d & P' & N'). congruence.
    + split; [|reflexivity]. intros _. exists s. split; [now left|]. intros (p' & d & P' & N'). congruence.
    + split; [|reflexivity]. intros _. exists s. split; [now left|]. intros (p' & d & P' & N'). congruence.
Qed.

(* Pairs: an include directory in out followed by one in src. *)
Theorem C86_pairs_partial : forall find_out ds k v, In (k, v) (srcout find_out ds) ->
  (forall d1 d2 o s, consecutive ds d1 d2 -> find_out d1 = Some (o, s) -> d1 = o -> under d2 s -> d2 = s) ->
  consecutive ds v k /\ pair_of find_out v k.
Proof.
  intros find_out ds k v I H. destruct (proj2 (srcout_inv find_out ds) k v I) as (o & s & x & C & F & N & E & U & X). split; [exact C|].
  exists o, s, x. repeat split; auto. destruct X as [-> |X]; [|exact X]. rewrite app_nil_r in *. eapply H; eauto.
Qed.
Theorem C86_pairs : forall find_out a c d1 d2, pair_of find_out d1 d2 ->
  (forall d0 o s, find_out d0 = Some (o, s) -> o <> s -> ~ under d1 s) ->
  exists v, In (d2, v) (srcout find_out (a ++ Some d1 :: Some d2 :: c)) /\ (v = d1 \/ consecutive a v d2).
Proof. intros. now apply srcout_pair. Qed.

(* Examples. *)
Definition ex_exts (d : list bytes) (l : bytes) : list nat := [1; 2].
Definition ex_have (ds : list (nat * list bytes * bytes)) (t : nat) (d : list bytes) (l : bytes) : option decl :=
  if existsb (fun x => (fst (fst x) =? t) && dir_eqb (snd (fst x)) d && beqb (snd x) l) ds then Some Declared else None.
Definition ex_rel ds incs fp := enter_relative ex_exts 0 (ex_have ds) (fun _ _ => false) (fun _ => true) (prefix_map_of incs) fp true false.

(* lib/foo/ with -I lib: <foo/config.h> is lib/foo/config.h, by default of the first type, and of the declared one if declared. *)
Example C86_ex_canonical :
  ex_rel [] [([b "lib"; b "foo"], [b "lib"])] [b "foo"; b "config.h"] = Some ([b "lib"; b "foo"], 1) /\
  ex_rel [(2, [b "lib"; b "foo"], b "config.h")] [([b "lib"; b "foo"], [b "lib"])] [b "foo"; b "."; b "x"; b ".."; b "config.h"] = Some ([b "lib"; b "foo"], 2).
Proof. split; reflexivity. Qed.
(* For a target in lib/foo/details/ the prefix foo is one level above; the nearer one for the target in other/foo/ overrides it. *)
Example C86_ex_nearest :
  best [([b "lib"; b "foo"; b "details"], [b "lib"]); ([b "other"; b "foo"], [b "other"])] [b "foo"] [b "other"] 0 /\
  ex_rel [] [([b "lib"; b "foo"; b "details"], [b "lib"]); ([b "other"; b "foo"], [b "other"])] [b "foo"; b "x.h"] = Some ([b "other"; b "foo"], 1) /\
  ex_rel [] [([b "lib"; b "foo"; b "details"], [b "lib"]); ([b "other"; b "foo"], [b "other"])] [b "foo"; b "details"; b "x.h"] = Some ([b "lib"; b "foo"; b "details"], 1).
Proof.
  split; [|split; reflexivity].
  apply C86_prefix; [discriminate|]. vm_compute. tauto.
Qed.
Example C86_ex_prefixless :
  ex_rel [(1, [b "gen"], b "x.h")] [([b "lib"; b "foo"], [b "lib"]); ([b "lib"; b "foo"], [b "gen"])] [b "x.h"] = Some ([b "gen"], 1) /\
  ex_rel [] [([b "lib"; b "foo"], [b "lib"]); ([b "lib"; b "foo"], [b "gen"])] [b "x.h"] = None.
Proof. split; reflexivity. Qed.

(* A declared target may be in an include directory and still not be found: if another include directory is for the prefix. *)
Theorem C86_declared_refuted : exists ds incs d h l, (exists x, In x incs /\ snd x = d) /\ In (1, d ++ h, l) ds /\
  (forall t d' l', In (t, d', l') ds -> (d', l') = (d ++ h, l)) /\ ex_rel ds incs (h ++ [l]) <> Some (d ++ h, 1) /\ ex_rel ds incs (h ++ [l]) <> None.
Proof.
  exists [(1, [b "gen"; b "foo"], b "x.h")], [([b "lib"; b "foo"], [b "lib"]); ([b "lib"; b "foo"], [b "gen"])], [b "gen"], [b "foo"], (b "x.h").
  split; [eexists; split; [right; left; reflexivity | reflexivity]|]. split; [now left|].
  split; [intros t d' l' [E|[]]; injection E as <- <- <-; reflexivity|]. split; vm_compute; discriminate.
Qed.

(* Pairs: with -I out -I src/include a file in src/include/ is taken for one in out/. *)
Definition ex_find_out (d : list bytes) : option (list bytes * list bytes) := if sub d [b "out"] then Some ([b "out"], [b "src"]) else None.
Theorem C86_pairs_refuted : exists ds k v, In (k, v) (srcout ex_find_out ds) /\ consecutive ds v k /\ ~ pair_of ex_find_out v k /\
  enter_absolute ex_exts 0 (ex_have [(1, v, b "config.h")]) (fun _ _ => true) (fun _ => true) (srcout ex_find_out ds) k (b "config.h") false true false = (Some (v, 1), true).
Proof.
  exists [Some [b "out"]; Some [b "src"; b "include"]], [b "src"; b "include"], [b "out"].
  split; [now left|]. split; [now exists [], []|]. split; [|reflexivity].
  intros (o & s & x & F & N & E1 & E2). vm_compute in F. injection F as <- <-. injection E1 as <-. discriminate.
Qed.
Example C86_ex_pairs :
  srcout ex_find_out [Some [b "usr"]; Some [b "out"; b "a"]; Some [b "src"; b "a"]; Some [b "out"]; None; Some [b "src"]] = [([b "src"; b "a"], [b "out"; b "a"])] /\
  pair_of ex_find_out [b "out"; b "a"] [b "src"; b "a"] /\ (forall d0 o s, ex_find_out d0 = Some (o, s) -> o <> s -> ~ under [b "out"; b "a"] s).
Proof.
  split; [reflexivity|]. split; [exists [b "out"], [b "src"], [b "a"]; repeat split; discriminate|].
  intros d0 o s F _ (y & E). unfold ex_find_out in F. destruct (sub d0 [b "out"]); [|discriminate]. injection F as <- <-. discriminate.
Qed.
Definition ex_path (s : bytes) : option (bool * list bytes) := match s with c :: r => Some (ceqb c "/", [r]) | [] => None end.
Example C86_ex_options :
  append_prefixes false ex_path [] [] [b "a"; b "b"] [b "-DX"; b "-I/a"; b "/I/c"; b "-I"; b "/d"; b "-I"] =
  Some [([b "b"], ([b "a"], 0)); ([], ([b "d"], 0)); ([], ([b "a"], 1))] /\
  append_prefixes false ex_path [] [] [b "a"; b "b"] [b "-Ia"] = None.
Proof. split; reflexivity. Qed.

Print Assumptions C86_prefix.
Print Assumptions C86_prefix_any.
Print Assumptions C86_prefixless.
Print Assumptions C86_target.
Print Assumptions C86_target_declared.
Print Assumptions C86_qualified.
Print Assumptions C86_unqualified.
Print Assumptions C86_found.
Print Assumptions C86_canonical.
Print Assumptions C86_normalized.
Print Assumptions C86_absolute.
Print Assumptions C86_cached.
Print Assumptions C86_no_race.
Print Assumptions C86_options.
Print Assumptions C86_options_last.
Print Assumptions C86_options_fail.
Print Assumptions C86_pairs_partial.
Print Assumptions C86_pairs.
Print Assumptions C86_declared_refuted.
Print Assumptions C86_pairs_refuted.
