(* C66: what is installed and what is left after uninstalling. C67: config.install.filter. *)
From Verif Require Import Base InstModel InstSpec InstProofs.

(* Files of targets are in the installation directories, the last one written wins, missing directories are created and nothing else changes. *)
Theorem C66_install chroot filter_dir filter_file ts s :
  sane s -> Forall target_ok ts -> (forall t e, In t ts -> within t e -> filter_dir e = true) -> free chroot filter_file s ts ->
  exists s', install false chroot filter_dir filter_file ts s = Ok s' /\ sane s' /\ forall p, look s' p = expected chroot filter_file s ts p.
Proof. apply install_ok. Qed.
Print Assumptions C66_install.

(* Installing again changes nothing. *)
Theorem C66_again chroot filter_dir filter_file ts s s' :
  sane s -> Forall target_ok ts -> (forall t e, In t ts -> within t e -> filter_dir e = true) -> free chroot filter_file s ts ->
  install false chroot filter_dir filter_file ts s = Ok s' -> exists s'', install false chroot filter_dir filter_file ts s' = Ok s'' /\ forall p, look s'' p = look s' p.
Proof.
  intros W OK FD F E. destruct (install_ok chroot filter_dir filter_file ts s W OK FD F) as (s1 & E1 & W1 & H1). rewrite E in E1. injection E1 as <-. destruct F as [F1 F2 F3].
  destruct (install_ok chroot filter_dir filter_file ts s' W1 OK FD) as (s2 & E2 & _ & H2).
  - constructor; auto.
    + intros p N. specialize (F1 p N). unfold is_file in *. rewrite H1. unfold expected. destruct (last_write _ p) eqn: LW; [apply last_write_in, F3 in LW; congruence |]. destruct (look s p); auto. now rewrite N.
    + intros p c I. unfold is_dir. rewrite H1. unfold expected. destruct (last_write _ p) eqn: LW; auto. now apply last_write_none with (c := c) in LW.
  - exists s2. split; auto. intro p. rewrite H2. unfold expected at 1. rewrite H1. unfold expected. destruct (last_write _ p); auto. destruct (look s p); auto. destruct (needed chroot ts p); auto.
Qed.
Print Assumptions C66_again.

(* Uninstalling removes files of targets, if present, and directories between the first and the last of a target once there is nothing in them. Nothing else changes. *)
Theorem C66_uninstall chroot filter_dir filter_file locked ts s : sane s -> (forall t, In t ts -> ordered t) ->
  exists s', uninstall false chroot filter_dir filter_file locked ts s = Ok s' /\ sane s' /\
    (forall p c, look s p = Some (File c) -> (exists t i, In t ts /\ In i (selected filter_file t) /\ p = item_path chroot t i) /\ look s' p = None \/
                                             (forall t i, In t ts -> In i (selected filter_file t) -> p <> item_path chroot t i) /\ look s' p = Some (File c)) /\
    (forall p, look s p = Some Dir -> look s' p = Some Dir \/ look s' p = None /\ vacant s' p /\ exists t d, In t ts /\ within t d /\ p = chroot ++ d) /\
    (forall p, look s p = None -> look s' p = None).
Proof.
  intros W OR. destruct (uninstall_ok chroot filter_dir filter_file locked ts s W OR) as (s' & E & W' & H & F & _). exists s'. split; auto. split; auto. split; [| split].
  - intros p c L. destruct (H p) as [X | (X & [((c' & _) & t & I & i & IS & ->) | (Y & _)])]; [| left; eauto 6 | congruence].
    right. split; [| congruence]. intros t i I IS ->. specialize (F t _ I (ex_intro _ i (conj IS eq_refl))). unfold is_file in F. rewrite X, L in F. discriminate.
  - intros p L. destruct (H p) as [X | (X & [((c' & Y) & _) | (_ & t & e & I & -> & WI)])]; [left; congruence | congruence |]. right. split; auto. split; [| eauto 6].
    intro x. destruct (look s' ((chroot ++ e) ++ [x])) eqn: Z; auto. apply W' in Z. congruence.
  - intros p L. destruct (H p) as [X | (X & _)]; congruence.
Qed.
Print Assumptions C66_uninstall.

(* No empty directory of a target is left unless it can't be removed. *)
Theorem C66_no_empty chroot filter_dir filter_file locked ts s s' :
  sane s -> (forall t, In t ts -> ordered t) -> rooted ts -> (forall t e, In t ts -> within t e -> filter_dir e = true) ->
  uninstall false chroot filter_dir filter_file locked ts s = Ok s' ->
  forall t d, In t ts -> within t d -> look s' (chroot ++ d) = Some Dir -> vacant s' (chroot ++ d) -> locked (chroot ++ d) = true \/ chroot ++ d = [].
Proof.
  intros W OR RT FD E t d I WI L V. destruct (uninstall_ok chroot filter_dir filter_file locked ts s W OR) as (s1 & E1 & _ & _ & _ & Q). rewrite E in E1. injection E1 as <-.
  destruct (Q RT FD t d I WI L) as [X | X]; tauto.
Qed.
Print Assumptions C66_no_empty.

(* After installing and uninstalling, in any order, what is new is only the parents of the first directory of a target. *)
Theorem C66_round_trip chroot filter_dir filter_file locked ts ts' s :
  sane s -> Forall target_ok ts -> (forall t e, In t ts -> within t e -> filter_dir e = true) -> free chroot filter_file s ts -> same_targets ts ts' -> rooted ts -> (forall p, locked p = false) ->
  exists s1 s2, install false chroot filter_dir filter_file ts s = Ok s1 /\ uninstall false chroot filter_dir filter_file locked ts' s1 = Ok s2 /\
    (forall p c, look s p = Some (File c) -> (forall t i, In t ts -> In i (selected filter_file t) -> p <> item_path chroot t i) -> look s2 p = Some (File c)) /\
    (forall p n, look s2 p = Some n -> look s p = None -> n = Dir /\ exists t x, In t ts /\ leads (p ++ [x]) (chroot ++ first t)).
Proof.
  intros W OK FD F SM RT LK. destruct (install_ok chroot filter_dir filter_file ts s W OK FD F) as (s1 & E1 & W1 & H1).
  assert (OR : forall t, In t ts -> ordered t) by (intros t I; rewrite Forall_forall in OK; apply (OK t I)).
  destruct (C66_uninstall chroot filter_dir filter_file locked ts' s1 W1) as (s2 & E2 & W2 & FL & _ & _); [intros; apply OR; now apply SM |].
  exists s1, s2. split; auto. split; auto. split.
  - intros p c L N. assert (X : look s1 p = Some (File c)).
    { rewrite H1. unfold expected. destruct (last_write _ p) eqn: LW; [| now rewrite L]. exfalso. apply last_write_in, in_flat_map in LW as (t & I & LW). apply in_map_iff in LW as (i & E & IS). injection E as E _. now apply (N t i). }
    destruct (FL p c X) as [((t & i & I & IS & ->) & _) | (_ & Y)]; auto. exfalso. apply (N t i); auto. now apply SM.
  - exact (round_trip chroot filter_dir filter_file locked ts ts' s s1 s2 W OR SM RT FD LK H1 W1 E2).
Qed.
Print Assumptions C66_round_trip.

Theorem C66_dry_run chroot filter_dir filter_file locked ts s : install true chroot filter_dir filter_file ts s = Ok s /\ uninstall true chroot filter_dir filter_file locked ts s = Ok s.
Proof.
  assert (E : forall A (f : A -> fs -> outcome fs) xs, (forall x, f x s = Ok s) -> each f xs s = Ok s) by (intros A f xs H; induction xs as [| x xs IH]; cbn; auto; rewrite H; exact IH).
  assert (I : forall d i, install_item true chroot filter_file d i s = Ok s) by (intros d i; unfold install_item; destruct (filter_file _ _ _); auto).
  assert (U : forall d i, uninstall_item true chroot filter_file d i s = Ok s) by (intros d i; unfold uninstall_item; destruct (filter_file _ _ _); auto; rewrite andb_false_r; auto).
  split; apply E; intro t; [unfold install_target | unfold uninstall_target].
  - rewrite E; [cbn [bind]; rewrite I; cbn [bind]; apply E, I |]. intros (b, d). destruct d; reflexivity.
  - rewrite E by apply U. cbn [bind]. rewrite U. cbn [bind]. apply E. intros (b, d). destruct d; reflexivity.
Qed.
Print Assumptions C66_dry_run.

(* Directories of a target are what install.* variables say: from the absolute one to where the files go. *)
Theorem C66_resolve value subdir d f q : (exists n m, resolve value subdir n d = Ok (f, m) /\ List.last m f = q) <-> means value subdir d f q.
Proof.
  split.
  - intros (n & m & R & <-). now apply resolve_sound in R.
  - intro M. apply resolve_complete in M as (n & M). destruct (M n (le_n _)) as (m & R & L). eauto.
Qed.
Print Assumptions C66_resolve.
Theorem C66_resolve_plain value subdir n d f m : resolve value subdir n d = Ok (f, m) -> plain d -> (forall x d', value x = Some d' -> plain d') -> chain f m.
Proof. intros R. now apply resolve_sound in R. Qed.
Print Assumptions C66_resolve_plain.
Theorem C66_resolve_ends value subdir (rank : comp -> nat) : (forall x y p, value x = Some (Relative y p) -> rank y < rank x) ->
  forall d, exists n, (exists f m, resolve value subdir n d = Ok (f, m)) \/ resolve value subdir n d = Fail.
Proof.
  intros R d. exists (match d with Absolute _ => 0 | Relative x _ => S (rank x) end).
  destruct (resolve_ends value subdir rank R (match d with Absolute _ => 0 | Relative x _ => S (rank x) end) d) as (A & B); [destruct d; auto |].
  destruct (resolve value subdir _ d) as [(f, m) | | |]; try tauto. eauto.
Qed.
Print Assumptions C66_resolve_ends.

(* The first filter that matches decides; a directory that is included leaves it to filters for its subdirectories; without any it is included, or not if negated. *)
Theorem C67_filter negate rs base l v : filter_entry negate rs base l = v <-> outcome_is base l negate rs v.
Proof. apply filter_spec. Qed.
Print Assumptions C67_filter.

(* Examples. Directories: 9 is chroot, /usr is 1, bin is 2, lib is 3, include is 4. *)
Definition yes_d (_ : path) := true.
Definition yes_f (_ : path) (_ : comp) (_ : kind) := true.
Definition exe := mktarget [1] [[1; 2]] (mkitem 10 10 false Regular 100) [].
Definition lib := mktarget [1] [[1; 3]; [1; 3; 7]] (mkitem 11 21 true Regular 101) [mkitem 12 11 true Symlink 102; mkitem 13 13 false Regular 103].
Definition before : fs := [([9], Dir); ([9; 1], Dir); ([9; 1; 3], Dir); ([9; 1; 3; 50], File 5); ([9; 1; 2], Dir); ([9; 1; 2; 10], File 6)].
Definition no (_ : path) := false.
Definition after : fs := match install false [9] yes_d yes_f [exe; lib] before with Ok s => s | _ => [] end.

Lemma sane_check s : forallb (fun e => match fst e with [] => false | p => is_dir s (removelast p) end) s = true -> sane s.
Proof.
  intros F p x n L. destruct (in_dec path_dec (p ++ [x]) (map fst s)) as [I | N]; [| apply look_in in N; [congruence | apply snoc_neq_nil]].
  apply in_map_iff in I as ((q, m) & E & I). cbn in E. rewrite forallb_forall in F. specialize (F _ I). cbn [fst] in F. subst q. destruct (p ++ [x]) eqn: Y; [discriminate |]. rewrite <- Y, removelast_snoc in F. now apply is_dir_spec.
Qed.
Definition free_check chroot ff s ts : bool :=
  forallb (fun e => match snd e with File _ => negb (needed chroot ts (fst e)) | Dir => true end) s &&
  forallb (fun w => negb (is_dir s (fst w)) && negb (needed chroot ts (fst w))) (writes chroot ff ts).
Lemma free_ok chroot ff s ts : free_check chroot ff s ts = true -> free chroot ff s ts.
Proof.
  intro C. apply andb_true_iff in C as (A & B). rewrite forallb_forall in A, B. constructor.
  - intros p N. destruct (is_file s p) eqn: F; auto. apply is_file_spec in F as (c & F). destruct p as [| x p]; [discriminate |]. rewrite look_find in F by discriminate.
    destruct (List.find _ s) as [(q, m) |] eqn: G; [| discriminate]. apply List.find_some in G as (I & G). destruct (path_eqb_spec (fst (q, m)) (x :: p)) as [E |]; [| discriminate]. cbn in *. subst. injection F as ->. specialize (A _ I). cbn in A. rewrite N in A. discriminate.
  - intros p c I. specialize (B _ I). apply andb_true_iff in B as (B & _). now apply negb_true_iff in B.
  - intros p c I. specialize (B _ I). apply andb_true_iff in B as (_ & B). now apply negb_true_iff in B.
Qed.
Definition target_check (t : target) : bool :=
  forallb (fun e => leadsb (fst e) (snd e)) (combine (first t :: more t) (more t)) && forallb (fun i => named i || Nat.eqb (src i) (leaf i)) (main t :: extras t).
Lemma target_checks ts : forallb target_check ts = true -> Forall target_ok ts.
Proof.
  intro C. apply Forall_forall. intros t I. rewrite forallb_forall in C. specialize (C t I). apply andb_true_iff in C as (A & B). split.
  - unfold ordered. clear B. revert A. generalize (first t). induction (more t) as [| d ds IH]; intros f A; [exact Logic.I |]. cbn [combine forallb fst snd] in A. apply andb_true_iff in A as (L & A). split; [now destruct (leadsb_spec f d) | now apply IH].
  - apply Forall_forall. intros i J N. rewrite forallb_forall in B. specialize (B i J). rewrite N in B. now apply Nat.eqb_eq.
Qed.
Lemma targets_ok : Forall target_ok [exe; lib].
Proof. now apply target_checks. Qed.
Lemma rooted_exe_lib : rooted [exe; lib].
Proof. intros t t' d x I I' (A & _) B. apply leads_length in A, B. rewrite app_length in B. destruct I as [<- | [<- | []]], I' as [<- | [<- | []]]; cbn in *; lia. Qed.

Example C66_install_ex : sane before /\ Forall target_ok [exe; lib] /\ free [9] yes_f before [exe; lib] /\
  look after [9; 1; 2; 10] = Some (File 100) /\ look after [9; 1; 3; 7; 12] = Some (File 102) /\ look after [9; 1; 3; 7; 13] = Some (File 103) /\ look after [9; 1; 3; 50] = Some (File 5).
Proof. split; [now apply sane_check |]. split; [apply targets_ok |]. split; [now apply free_ok |]. now vm_compute. Qed.
Example C66_uninstall_ex : sane after /\ (forall t, In t [lib; exe] -> ordered t) /\
  exists s, uninstall false [9] yes_d yes_f no [lib; exe] after = Ok s /\ look s [9; 1; 2] = None /\ look s [9; 1; 3; 7] = None /\ look s [9; 1; 3; 50] = Some (File 5).
Proof.
  split; [now apply sane_check |]. split; [| eexists; now vm_compute]. pose proof targets_ok as T. inversion T as [| ? ? A T']; subst. inversion T' as [| ? ? B _]; subst. intros t [<- | [<- | []]]; [apply B | apply A].
Qed.
Example C66_no_empty_ex : rooted [exe; lib] /\ same_targets [exe; lib] [lib; exe] /\ within lib [1; 3] /\ within exe [1; 2] /\
  exists s, uninstall false [9] yes_d yes_f (fun p => path_eqb p [9; 1; 2]) [exe; lib] after = Ok s /\ look s [9; 1; 2] = Some Dir /\ empty s [9; 1; 2] = true /\ look s [9; 1; 3; 7] = None.
Proof.
  split; [apply rooted_exe_lib |]. split; [intro t; cbn; tauto |]. split; [split; [exists [3] | exists [7]]; auto |]. split; [split; [exists [2] | exists []]; auto |]. eexists. now vm_compute.
Qed.
Example C66_dry_run_ex : exists s, install false [9] yes_d yes_f [exe] before = Ok s /\ s <> before /\ install true [9] yes_d yes_f [exe] before = Ok before.
Proof. eexists. split; [vm_compute; reflexivity |]. split; [discriminate |]. apply (C66_dry_run [9] yes_d yes_f no). Qed.

(* root is 1, exec_root is 2, lib is 3, pkgconfig is 4: root = /usr, exec_root = root, lib = exec_root/lib/ + subdirectory, pkgconfig = lib/pkgconfig/. *)
Definition vars (x : comp) : option dir_path := match x with 1 => Some (Absolute [Some 1]) | 2 => Some (Relative 1 []) | 3 => Some (Relative 2 [Some 3]) | 4 => Some (Relative 3 [Some 4]) | _ => None end.
Definition subs (x : comp) : path := match x with 3 => [7; 8] | _ => [] end.
Example C66_resolve_ex : resolve vars subs 5 (Relative 4 [Some 5]) = Ok ([1], [[1]; [1; 3]; [1; 3; 7; 8]; [1; 3; 7; 8; 4]; [1; 3; 7; 8; 4; 5]]) /\
  (forall x d, vars x = Some d -> plain d) /\ exists rank, forall x y p, vars x = Some (Relative y p) -> rank y < rank x.
Proof.
  split; [reflexivity |]. split.
  - intros x d. destruct x as [| [| [| [| [| x]]]]]; cbn; intro E; try discriminate; injection E as <-; cbn; intuition discriminate.
  - exists (fun x => x). intros x y p. destruct x as [| [| [| [| [| x]]]]]; cbn; intro E; try discriminate; injection E as <- _; lia.
Qed.
(* include/x86/@true include/x86/details/@false include/@false: x86 is 5, details is 6. *)
Definition is (x y : nat) : bool := Nat.eqb x y.
Definition manual : list rule := [mkrule (Directory [is 1; is 4; is 5]) true false; mkrule (Directory [is 1; is 4; is 5; is 6]) false false; mkrule (Directory [is 1; is 4]) false false].
Example C67_filter_ex : filter_entry false manual [1; 4; 5] (Some (30, Regular)) = true /\ filter_entry false manual [1; 4; 5; 6] (Some (30, Regular)) = false /\ filter_entry false manual [1; 4] (Some (30, Regular)) = false /\
  filter_entry false manual [1; 2] (Some (30, Regular)) = true /\ filter_entry true [mkrule (Simple (is 30)) false true] [1; 2] (Some (30, Symlink)) = true /\ filter_entry false [mkrule (Entry [is 1] (is 30)) false true] [1; 2] (Some (30, Regular)) = true.
Proof. now vm_compute. Qed.

(* A file is included but its directory, which has no name to match and there is no filter for it, is not: ! include/@false "*.a"@false where 31 is libfoo.a. There is a file in place of the directory. *)
Definition negated : list rule := [mkrule (Directory [is 1; is 4]) false false; mkrule (Simple (is 31)) false false].
Definition static := mktarget [1] [[1; 3]] (mkitem 31 31 false Regular 7) [].
Theorem C67_negated_refuted : ~ forall negate rs ts s, sane s -> Forall target_ok ts ->
  let ff d x k := filter_entry negate rs d (Some (x, k)) in free [] ff s ts ->
  exists s', install false [] (fun d => filter_entry negate rs d None) ff ts s = Ok s' /\ forall p, look s' p = expected [] ff s ts p.
Proof.
  intro H. destruct (H true negated [static] [([1], Dir)]) as (s' & E & P).
  - now apply sane_check.
  - now apply target_checks.
  - now apply free_ok.
  - vm_compute in E. injection E as <-. specialize (P [1; 3; 31]). vm_compute in P. discriminate.
Qed.
Print Assumptions C67_negated_refuted.
(* A directory is excluded but not its subdirectory: it is created and not removed. *)
Definition header := mktarget [1] [[1; 4]; [1; 4; 5]] (mkitem 30 30 false Regular 8) [].
Theorem C67_left_refuted : ~ forall negate rs ts s s1 s2, sane s -> Forall target_ok ts ->
  let ff d x k := filter_entry negate rs d (Some (x, k)) in let fd d := filter_entry negate rs d None in free [] ff s ts -> rooted ts ->
  install false [] fd ff ts s = Ok s1 -> uninstall false [] fd ff no ts s1 = Ok s2 ->
  forall p n, look s2 p = Some n -> look s p = None -> exists t x, In t ts /\ leads (p ++ [x]) (first t).
Proof.
  intro H. destruct (H false manual [header] [([1], Dir)] [([1; 4; 5; 30], File 8); ([1; 4; 5], Dir); ([1; 4], Dir); ([1], Dir)] [([1; 4], Dir); ([1], Dir)]) with (p := [1; 4]) (n := Dir) as (t & x & [<- | []] & L); auto.
  - now apply sane_check.
  - now apply target_checks.
  - now apply free_ok.
  - intros t t' d x [<- | []] [<- | []] (A & _) B. apply leads_length in A, B. rewrite app_length in B. cbn in *. lia.
  - apply leads_length in L. cbn in L. lia.
Qed.
Print Assumptions C67_left_refuted.
(* A file with the name of an existing directory (install = share/doc for share/doc/) goes inside and stays there. *)
Theorem C66_named_refuted : ~ forall ts s s1 s2, sane s -> Forall target_ok ts -> rooted ts ->
  install false [] yes_d yes_f ts s = Ok s1 -> uninstall false [] yes_d yes_f no ts s1 = Ok s2 ->
  forall p c, look s2 p = Some (File c) -> look s p = None -> False.
Proof.
  intro H. apply (H [mktarget [1] [[1; 2]] (mkitem 3 30 true Regular 8) []] [([1; 2; 3], Dir); ([1; 2], Dir); ([1], Dir)] [([1; 2; 3; 30], File 8); ([1; 2; 3], Dir); ([1; 2], Dir); ([1], Dir)]
    [([1; 2; 3; 30], File 8); ([1; 2; 3], Dir); ([1; 2], Dir); ([1], Dir)]) with (p := [1; 2; 3; 30]) (c := 8); auto.
  - now apply sane_check.
  - now apply target_checks.
  - intros t t' d x [<- | []] [<- | []] (A & _) B. apply leads_length in A, B. rewrite app_length in B. cbn in *. lia.
Qed.
Print Assumptions C66_named_refuted.
(* An absolute directory inside that of another target: what is left depends on the order. *)
Definition outer := mktarget [1] [[1; 3]] (mkitem 31 31 false Regular 7) [].
Definition inner := mktarget [1; 3; 8] [] (mkitem 32 32 false Regular 9) [].
Theorem C66_order_refuted : ~ forall ts ts' s s1 s2 s2', sane s -> Forall target_ok ts -> free [] yes_f s ts -> same_targets ts ts' ->
  install false [] yes_d yes_f ts s = Ok s1 -> uninstall false [] yes_d yes_f no ts s1 = Ok s2 -> uninstall false [] yes_d yes_f no ts' s1 = Ok s2' -> forall p, look s2 p = look s2' p.
Proof.
  intro H. set (s := [([1], Dir); ([1; 50], File 4)]). assert (E : exists s1 s2 s2', install false [] yes_d yes_f [outer; inner] s = Ok s1 /\ uninstall false [] yes_d yes_f no [outer; inner] s1 = Ok s2 /\
    uninstall false [] yes_d yes_f no [inner; outer] s1 = Ok s2' /\ look s2 [1; 3] <> look s2' [1; 3]) by (do 3 eexists; repeat split; try (vm_compute; reflexivity); vm_compute; discriminate).
  destruct E as (s1 & s2 & s2' & A & B & C & D). apply D. apply (H [outer; inner] [inner; outer] s s1 s2 s2'); auto.
  - now apply sane_check.
  - now apply target_checks.
  - now apply free_ok.
  - intro t. cbn. tauto.
Qed.
Print Assumptions C66_order_refuted.
(* install.x = root/../x with config.install.chroot: if there is nothing to uninstall, an assertion fails. *)
Theorem C66_parent_refuted : exists t s, resolve (fun x => match x with 1 => Some (Absolute [Some 1]) | _ => None end) (fun _ => []) 1 (Relative 1 [None; Some 2]) = Ok (first t, more t) /\
  sane s /\ uninstall false [9] yes_d yes_f no [t] s = Assert.
Proof. exists (mktarget [1] [[2]] (mkitem 31 31 false Regular 7) []), []. split; [reflexivity |]. split; [now apply sane_check | reflexivity]. Qed.
Print Assumptions C66_parent_refuted.
(* A cycle of install.* variables. *)
Theorem C66_cycle_refuted : exists value, forall n, resolve value (fun _ => []) n (Relative 1 []) = Endless.
Proof.
  exists (fun x => match x with 1 => Some (Relative 2 []) | 2 => Some (Relative 1 []) | _ => None end). intro n.
  assert (X : resolve (fun x => match x with 1 => Some (Relative 2 []) | 2 => Some (Relative 1 []) | _ => None end) (fun _ => []) n (Relative 1 []) = Endless /\
    resolve (fun x => match x with 1 => Some (Relative 2 []) | 2 => Some (Relative 1 []) | _ => None end) (fun _ => []) n (Relative 2 []) = Endless).
  { induction n as [| n (A & B)]; [split; reflexivity |]. cbn. rewrite A, B. split; reflexivity. }
  apply X.
Qed.
Print Assumptions C66_cycle_refuted.
