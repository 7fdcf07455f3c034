(* C81: a target on the command line is in the innermost enclosing project, its out and src directories correspond, and its buildfile is
   the nearest one. Model: ProjModel.v. Specification: ProjSpec.v. *)
From Verif Require Import Base ProjModel ProjSpec ProjProofs ProjProofs2.
From Coq Require Import Lia.

Section P.
Context (F : fs).

(* The root scopes already bootstrapped do not include this one. *)
Definition fresh (k : known) (d : dir) : Prop := lookup k d = None.

(* Without src_base, the project is the innermost of enclosing source and output root directories. If it is a source one, then it may
   be forwarded. If it is an output one, then src_root is what it is configured with. If there is none, then the directory of the
   target is a simple project. *)
Theorem C81_project fuel n k t l : t_src t = None -> locate F fuel n k t = Located l ->
  (exists r, innermost (project_dir F) (f_home F) (t_out t) r /\
     ((src_dir F r /\ l_src_root l = r /\
       (l_forwarded l = false /\ l_out_root l = r \/
        l_forwarded l = true /\ l_out_root l <> r /\ exists a, f_outroot F a r = Some (l_out_root l))) \/
      (~ src_dir F r /\ l_out_root l = r /\ l_forwarded l = false /\
       (fresh k r -> exists a, f_srcroot F a r = Some (l_src_root l))))) \/
  (none (project_dir F) (f_home F) (t_out t) /\
   l_out_root l = t_out t /\ l_src_root l = t_out t /\ l_out_base l = t_out t /\ l_src_base l = t_out t /\ l_forwarded l = false).
Proof.
  intros T H. pose proof (locate_inv _ _ _ _ _ _ H) as (r & s & a & R & B & FI).
  destruct (locate_ok _ _ _ _ _ _ H) as (r' & x & R' & B' & HX & HO & HF & HS & _ & (y & Y1 & Y2) & _).
  rewrite R in R'. injection R' as <-.
  pose proof R as R0. unfold find_roots in R. rewrite T in R.
  destruct (find_out_root F (t_out t) None) as [[[p []]|] a0] eqn:O; pose proof (find_out_root_spec F _ _ _ O) as S; cbn in S.
  - left. exists p. destruct S as (S1 & S2 & _). split; [exact S1|]. left. split; [exact S2|].
    destruct (exists_ (f_outroot F) p a0) as [v a1] eqn:V. apply exists_none in V as [V _].
    destruct (path_eqb p _) eqn:Q.
    + apply path_eqb_eq in Q. injection R as <-. cbn in *. pose proof (bootstrap_src_root _ _ _ _ _ B' _ eq_refl) as E.
      split; [congruence|]. left. split; [exact HF|]. congruence.
    + apply path_eqb_neq in Q. destruct (leaf (t_out t) p); [|discriminate]. injection R as <-. cbn in *.
      pose proof (bootstrap_src_root _ _ _ _ _ B' _ eq_refl) as E. split; [congruence|]. right. split; [exact HF|].
      destruct v as [v|]; [|congruence]. split; [congruence|]. rewrite HO. exact V.
  - left. exists p. destruct S as (S1 & S2 & _). split; [exact S1|]. right. split; [exact S2|].
    injection R as <-. cbn in *. split; [exact HO|]. split; [exact HF|]. intros K.
    exact (bootstrap_configured _ _ _ _ _ B' K eq_refl).
  - right. split; [apply S|].
    assert (r = mkroots (t_out t) (Some (t_out t)) (t_out t) (Some (t_out t)) false (r_altn r)) as E.
    { destruct (find_buildfile _ _ _ _ _ _) as [[] ?]; try discriminate; injection R as <-; reflexivity. }
    rewrite E in *. cbn in HX, HO, HF. pose proof (bootstrap_src_root _ _ _ _ _ B' _ eq_refl) as E'. cbn in E'.
    assert (W : l_out_base l = t_out t /\ l_src_base l = t_out t).
    { clear R R0. replace s with (t_out t) in FI by congruence.
      unfold finish in FI. cbn [r_out r_src r_out_base r_src_base r_fwd] in FI.
      rewrite (proj2 (leaf_some (t_out t) (t_out t) []) eq_refl) in FI. destruct (existsb _ _); [discriminate|].
      destruct (find_buildfile _ _ _ _ _ _) as [[] ?]; try discriminate; try (injection FI as <-; split; reflexivity).
      destruct (t_is_dir t && _ && _); [injection FI as <-; split; reflexivity|]. rewrite path_eqb_refl in FI. discriminate. }
    destruct W. repeat split; auto.
Qed.

(* With src_base, the project is the innermost of source root directories enclosing it, and out_root is such that the target is at the
   same place in it. The output directory is not inside of the source one. *)
Theorem C81_specified fuel n k t l sb : t_src t = Some sb -> locate F fuel n k t = Located l ->
  l_forwarded l = false /\ (t_out t = sb \/ ~ inside (t_out t) sb) /\
  ((exists x, innermost (src_dir F) (f_home F) sb (l_src_root l) /\ sb = x ++ l_src_root l /\ t_out t = x ++ l_out_root l) \/
   (none (src_dir F) (f_home F) sb /\ l_src_root l = sb /\ l_out_root l = t_out t)).
Proof.
  intros T H. destruct (locate_ok _ _ _ _ _ _ H) as (r & x & R & B & HX & HO & HF & _).
  unfold find_roots in R. rewrite T in R. destruct (negb (f_dir F sb)); [discriminate|].
  destruct (negb (path_eqb (t_out t) sb) && sub (t_out t) sb) eqn:N; [discriminate|].
  assert (N' : t_out t = sb \/ ~ inside (t_out t) sb).
  { destruct (path_eqb (t_out t) sb) eqn:P; [left; now apply path_eqb_eq|]. right. intros Hi. apply sub_inside in Hi.
    rewrite Hi in N. discriminate. }
  destruct (find_src_root F sb None) as [[sr|] a0] eqn:O; pose proof (find_src_root_spec F _ _ _ O) as S; cbn in S.
  - destruct (leaf sb sr) as [l0|] eqn:L; [|discriminate]. destruct (without (t_out t) l0) as [o|] eqn:W; [|discriminate].
    apply leaf_some in L. apply without_some in W. injection R as <-. cbn in *.
    pose proof (bootstrap_src_root _ _ _ _ _ B _ eq_refl) as E. rewrite <- E, HO. split; [exact HF|]. split; [exact N'|].
    left. exists l0. destruct S. auto.
  - injection R as <-. cbn in *. pose proof (bootstrap_src_root _ _ _ _ _ B _ eq_refl) as E. rewrite <- E, HO.
    split; [exact HF|]. split; [exact N'|]. right. destruct S. auto.
Qed.

(* The out and src directories of the target are at the same place in their roots. *)
Theorem C81_bases fuel n k t l : locate F fuel n k t = Located l ->
  exists y, l_out_base l = y ++ l_out_root l /\ l_src_base l = y ++ l_src_root l.
Proof. intros H. destruct (locate_ok _ _ _ _ _ _ H) as (r & x & _ & _ & _ & _ & _ & _ & _ & Y & _). exact Y. Qed.

(* The directory of the target in its project, x: what is below src_base, if specified, below the source root directory, if forwarded,
   and below out_root otherwise. *)
Definition place (t : spec) (l : location) (x : dir) : Prop :=
  match t_src t with
  | Some sb => sb = x ++ l_src_root l /\ t_out t = x ++ l_out_root l
  | None => t_out t = x ++ (if l_forwarded l then l_src_root l else l_out_root l)
  end.

Lemma place_ok fuel n k t l : locate F fuel n k t = Located l ->
  exists x, place t l x /\
  (forall q, In q (f_subs F (l_out_root l) (l_src_root l)) -> ~ inside (x ++ l_out_root l) (q ++ l_out_root l)) /\
  (t_src t = None -> none (project_dir F) (f_home F) (t_out t) \/ f_dir F (x ++ l_src_root l) = true) /\
  bf_ok F n t (x ++ l_src_root l) l.
Proof.
  intros H. pose proof (C81_specified fuel n k t l) as SP.
  destruct (locate_ok _ _ _ _ _ _ H) as (r & x & R & B & HX & HO & HF & HS & HQ & _ & HD & HB). exists x.
  split; [|split; [exact HQ|split; [|exact HB]]].
  - unfold place. unfold find_roots in R. destruct (t_src t) as [sb|] eqn:T.
    + destruct (negb (f_dir F sb)); [discriminate|]. destruct (negb _ && _); [discriminate|].
      destruct (find_src_root F sb None) as [[sr|] a0].
      * destruct (leaf sb sr) as [l0|]; [|discriminate]. destruct (without (t_out t) l0) as [o|]; [|discriminate].
        injection R as <-. cbn in *. rewrite HO. auto.
      * injection R as <-. cbn in *. rewrite HO. auto.
    + destruct (find_out_root F (t_out t) None) as [[[p []]|] a0] eqn:O; pose proof (find_out_root_spec F _ _ _ O) as S; cbn in S.
      * destruct (exists_ (f_outroot F) p a0) as [v a1]. destruct (path_eqb p _) eqn:Q.
        -- injection R as <-. cbn in *. rewrite HF, HO. exact HX.
        -- destruct (leaf (t_out t) p) as [l0|] eqn:L; [|discriminate]. apply leaf_some in L. injection R as <-. cbn in *.
           apply app_inv_tail in HX. subst x. rewrite HF, L. f_equal. exact (bootstrap_src_root _ _ _ _ _ B _ eq_refl).
      * injection R as <-. cbn in *. rewrite HF, HO. exact HX.
      * destruct (find_buildfile _ _ _ _ _ _) as [[] ?]; try discriminate; injection R as <-; cbn in *; rewrite HF, HO; exact HX.
  - intros T. unfold find_roots in R. rewrite T in R.
    destruct (find_out_root F (t_out t) None) as [[[p []]|] a0] eqn:O; pose proof (find_out_root_spec F _ _ _ O) as S; cbn in S.
    + right. apply HD. destruct (exists_ (f_outroot F) p a0) as [v a1]. destruct (path_eqb p _); [injection R as <-; reflexivity|].
      destruct (leaf (t_out t) p); [|discriminate]. injection R as <-. reflexivity.
    + right. apply HD. injection R as <-. reflexivity.
    + left. apply S.
Qed.

Lemma place_unique t l x x' : place t l x -> place t l x' -> x = x'.
Proof.
  unfold place. destruct (t_src t) as [sb|].
  - intros [E _] [E' _]. rewrite E in E'. now apply app_inv_tail in E'.
  - intros E E'. rewrite E in E'. now apply app_inv_tail in E'.
Qed.

(* Every target located has a place, it is not in a subproject, and, unless specified or a simple project, its source directory exists. *)
Theorem C81_place fuel n k t l : locate F fuel n k t = Located l ->
  exists x, place t l x /\
  (forall q, In q (f_subs F (l_out_root l) (l_src_root l)) -> ~ inside (x ++ l_out_root l) (q ++ l_out_root l)) /\
  (t_src t = None -> none (project_dir F) (f_home F) (t_out t) \/ f_dir F (x ++ l_src_root l) = true).
Proof. intros H. destruct (place_ok _ _ _ _ _ H) as (x & A & B & C & _). eauto. Qed.

(* A buildfile is the nearest one with this name, from the directory of the target up to src_root, and the directories of the target
   become those of the buildfile. *)
Theorem C81_nearest fuel n k t l x c f : locate F fuel n k t = Located l -> simple_name n (l_altn l) c -> place t l x ->
  l_buildfile l = BFile f ->
  f = c :: l_src_base l /\ f_file F f = true /\ inside (x ++ l_src_root l) (l_src_base l) /\ inside (l_src_base l) (l_src_root l) /\
  (forall m, inside (x ++ l_src_root l) m -> inside m (l_src_base l) -> m <> l_src_base l -> f_file F (c :: m) = false).
Proof.
  intros H S P E. destruct (place_ok _ _ _ _ _ H) as (x' & P' & _ & _ & HB). rewrite <- (place_unique _ _ _ _ P P') in HB.
  destruct (C81_bases _ _ _ _ _ H) as (y & _ & Y). destruct HB as [_ HB]. specialize (HB c S). rewrite E in HB.
  destruct HB as (A & B & C & D & _). repeat split; auto. now exists y.
Qed.

(* The buildfile is implied for a directory only, and only if there is none in it and it is plausible. Then outer ones are not searched
   for. *)
Theorem C81_implied fuel n k t l x c : locate F fuel n k t = Located l -> simple_name n (l_altn l) c -> place t l x ->
  (l_buildfile l = BImplied <->
   t_is_dir t = true /\ f_dir F (x ++ l_src_root l) = true /\ f_implied F (x ++ l_src_root l) = true /\
   f_file F (c :: x ++ l_src_root l) = false) /\
  (l_buildfile l = BImplied -> l_src_base l = x ++ l_src_root l).
Proof.
  intros H S P. destruct (place_ok _ _ _ _ _ H) as (x' & P' & _ & _ & HB). rewrite <- (place_unique _ _ _ _ P P') in HB.
  destruct HB as [_ HB]. specialize (HB c S). destruct (l_buildfile l) as [| |f].
  - destruct HB as (A & B & C & D & G). split; [split; [|reflexivity] | auto]. intros _. repeat split; assumption.
  - contradiction.
  - destruct HB as (A & B & C & D & G). split; [|discriminate]. split; [discriminate|]. intros (I1 & I2 & I3 & I4).
    exfalso. subst f. destruct (list_eq_dec (list_eq_dec Ascii.ascii_dec) (l_src_base l) (x ++ l_src_root l)) as [Q|Q].
    + rewrite Q in B. congruence.
    + apply (G Q). auto.
Qed.

(* `-` is the standard input, for the directory of the target. *)
Theorem C81_stdin fuel k t l x : locate F fuel Stdin k t = Located l -> place t l x ->
  l_buildfile l = BStdin /\ l_src_base l = x ++ l_src_root l.
Proof.
  intros H P. destruct (place_ok _ _ _ _ _ H) as (x' & P' & _ & _ & HB). rewrite <- (place_unique _ _ _ _ P P') in HB.
  now apply HB.
Qed.

(* Whatever the targets and their order, there is one src_root and one naming scheme for an out_root. *)
Lemma locate_all_known fuel n k ts l v : In (Located l) (locate_all F fuel n k ts) -> lookup k (l_out_root l) = Some v ->
  v = (l_src_root l, l_altn l).
Proof.
  revert k. induction ts as [|t ts IH]; intros k; cbn [locate_all In]; [contradiction|]. intros [E|E] K.
  - destruct (locate_ok _ _ _ _ _ _ E) as (r & x & _ & B & _ & HO & _). rewrite HO in K. exact (bootstrap_known _ _ _ _ _ _ B K).
  - destruct (locate F fuel n k t) as [l'| |] eqn:L; [|contradiction|contradiction].
    destruct (path_eqb (l_out_root l') (l_out_root l)) eqn:Q.
    + apply IH in E as E'; [exact E'|]. cbn. rewrite Q. rewrite <- K. symmetry.
      apply path_eqb_eq in Q. destruct (locate_ok _ _ _ _ _ _ L) as (r & x & _ & B & _ & HO & _).
      rewrite <- Q in K. rewrite HO in K. rewrite (bootstrap_known _ _ _ _ _ _ B K) in K. rewrite <- HO, Q in K. congruence.
    + apply IH in E; [exact E|]. cbn. now rewrite Q.
Qed.
Theorem C81_one_src fuel n k ts l l' :
  In (Located l) (locate_all F fuel n k ts) -> In (Located l') (locate_all F fuel n k ts) -> l_out_root l = l_out_root l' ->
  l_src_root l = l_src_root l' /\ l_altn l = l_altn l'.
Proof.
  revert k. induction ts as [|t ts IH]; intros k; cbn [locate_all In]; [contradiction|].
  assert (W : forall l l', locate F fuel n k t = Located l -> l_out_root l = l_out_root l' ->
     In (Located l') (locate_all F fuel n ((l_out_root l, (l_src_root l, l_altn l)) :: k) ts) ->
     l_src_root l = l_src_root l' /\ l_altn l = l_altn l').
  { intros l1 l2 _ E I. apply locate_all_known with (v := (l_src_root l1, l_altn l1)) in I.
    - injection I as -> ->. auto.
    - cbn. rewrite E, path_eqb_refl. reflexivity. }
  intros [E|E] [E'|E'] Q.
  - rewrite E in E'. injection E' as ->. auto.
  - rewrite E in E'. exact (W _ _ E Q E').
  - rewrite E' in E. destruct (W _ _ E' (eq_sym Q) E). auto.
  - destruct (locate F fuel n k t) as [l0| |]; [|contradiction|contradiction]. eapply IH; eauto.
Qed.

(* With a simple name of buildfile, it is always decided. *)
Lemma simple_ends sd root altn n : simple n -> inside sd root -> (sd = root \/ exists a, altn = Some a) ->
  exists N o, fst o <> OutOfFuel /\ forall fuel, N <= fuel -> find_buildfile F fuel sd root altn n = o.
Proof.
  intros SN I A. destruct n as [| |n].
  - destruct A as [<- | [a ->]].
    + exists 1. cbn. destruct altn as [a|].
      * destruct (f_file F (buildfile_name a ++ sd)) eqn:Q.
        -- exists (Found (buildfile_name a ++ sd), Some a). split; [discriminate|]. intros [|fuel] L; [lia|]. cbn in *. now rewrite Q.
        -- exists (NotFound, Some a). split; [discriminate|]. intros [|fuel] L; [lia|]. cbn in *. now rewrite Q, path_eqb_refl.
      * destruct (f_file F (buildfile_name true ++ sd)) eqn:Q; [|destruct (f_file F (buildfile_name false ++ sd)) eqn:Q'].
        -- exists (Found (buildfile_name true ++ sd), Some true). split; [discriminate|]. intros [|fuel] L; [lia|]. cbn in *. now rewrite Q.
        -- exists (Found (buildfile_name false ++ sd), Some false). split; [discriminate|]. intros [|fuel] L; [lia|]. cbn in *. now rewrite Q, Q'.
        -- exists (NotFound, None). split; [discriminate|]. intros [|fuel] L; [lia|]. cbn in *. now rewrite Q, Q', path_eqb_refl.
    + exists (S (length sd)). destruct (find_buildfile F (S (length sd)) sd root (Some a) Default) as [r a'] eqn:E. exists (r, a').
      assert (r <> OutOfFuel).
      { intros ->. apply (simple_loop F _ _ _ _ _ (hd [] (buildfile_name a))) in E; [lia|left; split; reflexivity|exact I]. }
      split; [assumption|]. intros fuel L. exact (find_buildfile_fuel _ _ _ _ _ _ _ _ E H _ L).
  - exists 0, (FoundStdin, altn). split; [discriminate|]. reflexivity.
  - cbn in SN. destruct n as [|c [|]]; try discriminate. exists (S (length sd)).
    destruct (find_buildfile F (S (length sd)) sd root altn (Named [c])) as [r a'] eqn:E. exists (r, a').
    assert (r <> OutOfFuel).
    { intros ->. cbn [find_buildfile] in E. eapply (find_loop_simple F) in E; [|cbn; exact I|reflexivity].
      destruct E as [_ E]. cbn in E. destruct (length root); lia. }
    split; [assumption|]. intros fuel L. exact (find_buildfile_fuel _ _ _ _ _ _ _ _ E H _ L).
Qed.

Theorem C81_ends n k t : simple n -> exists N o, o <> Diverges /\ forall fuel, N <= fuel -> locate F fuel n k t = o.
Proof.
  intros S.
  assert (exists N q, q <> RDiverges /\ forall fuel, N <= fuel -> find_roots F fuel n t = q) as (N & q & Q & HN).
  { unfold find_roots. destruct (t_src t) as [sb|].
    - exists 0. eexists. split; [|reflexivity]. destruct (negb _); [discriminate|]. destruct (negb _ && _); [discriminate|].
      destruct (find_src_root F sb None) as [[sr|] a]; [|discriminate]. destruct (leaf sb sr); [|discriminate].
      destruct (without _ _); discriminate.
    - destruct (find_out_root F (t_out t) None) as [[[p []]|] a].
      + exists 0. eexists. split; [|reflexivity]. destruct (exists_ _ p a). destruct (path_eqb _ _); [discriminate|].
        destruct (leaf _ _); discriminate.
      + exists 0. eexists. split; [|reflexivity]. discriminate.
      + destruct (simple_ends (t_out t) (t_out t) a n S (inside_refl _) (or_introl eq_refl)) as (N & [f a'] & O & HN).
        exists N. eexists. split; [|intros fuel L; rewrite (HN _ L); reflexivity]. cbn in O. destruct f; congruence. }
  destruct q as [r| |]; [| | congruence].
  - destruct (bootstrap F k r) as [[s a]|] eqn:B.
    + destruct (find_roots_ok _ _ _ _ _ (HN N (le_n _))) as (x & HX & HS).
      destruct (simple_ends (match r_src_base r with Some s => s | None => x ++ s end) (match r_src_base r with Some s => s | None => x ++ s end)
        (Some a) n S (inside_refl _) (or_introl eq_refl)) as (N1 & [f1 a1] & O1 & H1).
      destruct (path_eqb (match r_src_base r with Some s => s | None => x ++ s end) s) eqn:P.
      * exists (max N N1). eexists. split; [|intros fuel L; unfold locate; rewrite HN by lia; rewrite B; unfold finish;
          rewrite HX, (proj2 (leaf_some _ _ _) eq_refl); cbv zeta; rewrite P, H1 by lia; reflexivity].
        destruct (match r_src_base r with Some _ => false | None => _ end); [discriminate|]. destruct (existsb _ _); [discriminate|].
        cbn in O1. destruct f1; try discriminate; [|congruence]. destruct (_ && _ && _); discriminate.
      * assert (P' : inside (tl (match r_src_base r with Some s => s | None => x ++ s end)) s).
        { apply path_eqb_neq in P. assert (E : match r_src_base r with Some s => s | None => x ++ s end = x ++ s).
          { destruct (r_src_base r) as [sb|]; [|reflexivity]. destruct (HS _ eq_refl) as (s' & E & ->).
            now rewrite (bootstrap_src_root _ _ _ _ _ B _ E). }
          rewrite E in *. destruct x as [|w x]; [cbn in P; congruence|]. now exists x. }
        destruct (simple_ends _ s (Some a) n S P' (or_intror (ex_intro _ a eq_refl))) as (N2 & [f2 a2] & O2 & H2).
        exists (max N (max N1 N2)). eexists. split; [|intros fuel L; unfold locate; rewrite HN by lia; rewrite B; unfold finish;
          rewrite HX, (proj2 (leaf_some _ _ _) eq_refl); cbv zeta; rewrite P, H1, H2 by lia; reflexivity].
        destruct (match r_src_base r with Some _ => false | None => _ end); [discriminate|]. destruct (existsb _ _); [discriminate|].
        cbn in O1, O2. destruct f1; try discriminate; [|congruence]. destruct (_ && _ && _); [discriminate|].
        destruct f2; try discriminate; [|congruence]. destruct (leaf _ _); discriminate.
    + exists N, Fails. split; [discriminate|]. intros fuel L. unfold locate. now rewrite HN, B.
  - exists N, Fails. split; [discriminate|]. intros fuel L. unfold locate. now rewrite HN.
Qed.

(* But not with a directory in the name: if the file is not there, it is looked for in the same directory again and again. *)
Lemma find_loop_again fuel sd root altn c e p : f_file F (c :: e :: sd) = false -> e :: sd <> root -> p = None \/ p = Some (e :: sd) ->
  find_loop F fuel sd root altn (Some [c; e]) p = (OutOfFuel, altn).
Proof.
  intros N R. revert p. induction fuel as [|fuel IH]; intros p P; cbn [find_loop]; [reflexivity|].
  replace (match p with None => sd | Some p => tl p end) with sd by (destruct P; subst p; reflexivity).
  cbn -[path_eqb]. rewrite N. replace (path_eqb (e :: sd) root) with false by (symmetry; now apply path_eqb_neq). apply IH. now right.
Qed.
Theorem C81_directory_diverges fuel n k t l c e x : locate F fuel n k t = Located l -> place t l x ->
  (t_src t = None -> ~ none (project_dir F) (f_home F) (t_out t)) -> f_file F ([c; e] ++ x ++ l_src_root l) = false ->
  forall fuel', locate F fuel' (Named [c; e]) k t = Diverges.
Proof.
  intros H P NN NX fuel'.
  destruct (place_ok _ _ _ _ _ H) as (x2 & P2 & HQ & HD & _). rewrite (place_unique _ _ _ _ P2 P) in *.
  pose proof (locate_inv _ _ _ _ _ _ H) as (r & s & a & R & B & FI).
  destruct (locate_ok _ _ _ _ _ _ H) as (r' & x' & R' & B' & HX & HO & HF & HS & HQ' & _ & HD' & _).
  rewrite R in R'. injection R' as <-. rewrite B in B'. injection B' as Hs Ha.
  assert (R2 : find_roots F fuel' (Named [c; e]) t = Roots r).
  { unfold find_roots in R |- *. destruct (t_src t) as [sb|] eqn:T; [exact R|].
    destruct (find_out_root F (t_out t) None) as [[[p []]|] a0] eqn:O; [exact R|exact R|].
    pose proof (find_out_root_spec F _ _ _ O) as [S _]. destruct (NN eq_refl S). }
  assert (x' = x) as ->.
  { destruct (t_src t) as [sb|] eqn:T.
    - unfold find_roots in R. rewrite T in R. unfold place in P. rewrite T in P. destruct P as [_ P].
      assert (r_out_base r = t_out t) as E.
      { destruct (negb (f_dir F sb)); [discriminate|]. destruct (negb _ && _); [discriminate|].
        destruct (find_src_root F sb None) as [[sr|] a0]; [|injection R as <-; reflexivity].
        destruct (leaf sb sr) as [l0|]; [|discriminate]. destruct (without (t_out t) l0) as [o|]; [|discriminate].
        injection R as <-. reflexivity. }
      rewrite HO, <- E, HX in P. now apply app_inv_tail in P.
    - unfold place in P. rewrite T in P. unfold find_roots in R. rewrite T in R.
      destruct (find_out_root F (t_out t) None) as [[[p []]|] a0] eqn:O.
      + destruct (exists_ (f_outroot F) p a0) as [v a1]. destruct (path_eqb p _) eqn:Q.
        * injection R as <-. cbn in *. rewrite HF, HO in P. rewrite HX in P. now apply app_inv_tail in P.
        * destruct (leaf (t_out t) p) as [l0|] eqn:L; [|discriminate]. apply leaf_some in L. injection R as <-. cbn in *.
          apply app_inv_tail in HX. subst x'. rewrite HF in P. rewrite L in P.
          rewrite <- Hs in P. rewrite <- (bootstrap_src_root _ _ _ _ _ B _ eq_refl) in P. now apply app_inv_tail in P.
      + injection R as <-. cbn in *. rewrite HF, HO in P. rewrite HX in P. now apply app_inv_tail in P.
      + pose proof (find_out_root_spec F _ _ _ O) as [S _]. destruct (NN eq_refl S). }
  unfold locate. rewrite R2, B. unfold finish. rewrite HX, (proj2 (leaf_some _ _ _) eq_refl).
  replace (match r_src_base r with Some s0 => s0 | None => x ++ s end) with (x ++ s).
  2: { destruct (r_src_base r) as [sb|]; [|reflexivity]. rewrite Hs. symmetry. now apply HS. }
  replace (match r_src_base r with Some _ => false | None => negb (f_dir F (x ++ s)) end) with false.
  2: { destruct (r_src_base r) as [sb|] eqn:SB; [reflexivity|]. rewrite Hs, (HD' eq_refl). reflexivity. }
  replace (existsb _ _) with false.
  2: { symmetry. apply Bool.not_true_iff_false. intros E. apply existsb_exists in E as (q & I & E). apply sub_inside in E.
       rewrite Hs, <- HO in *. exact (HQ q I E). }
  rewrite Hs. cbn [find_buildfile]. rewrite find_loop_again; [reflexivity | exact NX | | now left].
  intros E. apply (f_equal (@length bytes)) in E. cbn in E. lia.
Qed.

(* What is in place is found: a target in a source directory, with a buildfile there. *)
Theorem C81_in_source n k t r x fuel c :
  simple_name n (f_boot F true r) c -> t_src t = None -> fresh k r ->
  innermost (project_dir F) (f_home F) (t_out t) r -> src_dir F r -> f_outroot F (f_boot F true r) r = None ->
  t_out t = x ++ r -> f_dir F (x ++ r) = true ->
  (forall q, In q (f_subs F r r) -> ~ inside (x ++ r) (q ++ r)) -> f_file F (c :: x ++ r) = true ->
  locate F (S fuel) n k t = Located (mkloc r r (x ++ r) (x ++ r) false (f_boot F true r) (BFile (c :: x ++ r))).
Proof.
  intros SN T K IN SD FW TO FD HQ FF.
  assert (R : find_roots F (S fuel) n t = Roots (mkroots r (Some r) (x ++ r) None false (Some (f_boot F true r)))).
  { unfold find_roots. rewrite T. destruct (find_out_root F (t_out t) None) as [o a0] eqn:O.
    pose proof (find_out_root_spec F _ _ _ O) as S. destruct o as [[p []]|]; cbn in S.
    - destruct S as (S1 & S2 & ->). rewrite (innermost_unique _ _ _ _ _ S1 IN) in *. cbn. rewrite FW, path_eqb_refl, TO. reflexivity.
    - destruct S as (S1 & S2 & ->). rewrite (innermost_unique _ _ _ _ _ S1 IN) in *. contradiction.
    - destruct S as [S _]. destruct IN as (IN & PR & _). destruct (S _ IN PR). }
  assert (B : bootstrap F k (mkroots r (Some r) (x ++ r) None false (Some (f_boot F true r))) = Some (r, f_boot F true r)).
  { unfold bootstrap. cbn [r_out r_src r_altn]. rewrite K. reflexivity. }
  unfold locate. rewrite R, B. unfold finish. cbn [r_out r_src r_out_base r_src_base r_fwd].
  rewrite (proj2 (leaf_some _ _ _) eq_refl), FD. cbn [negb].
  replace (existsb _ _) with false.
  2: { symmetry. apply Bool.not_true_iff_false. intros E. apply existsb_exists in E as (q & I & E). apply sub_inside in E. exact (HQ q I E). }
  destruct SN as [[-> SN] | ->]; cbn.
  - injection SN as SN. rewrite <- SN. cbn. now rewrite FF.
  - now rewrite FF.
Qed.

(* And one in an output directory, of a configured project. *)
Theorem C81_in_output n k t r s x fuel c :
  let a := is_some (f_srcroot F true r) in
  simple_name n a c -> t_src t = None -> fresh k r ->
  innermost (project_dir F) (f_home F) (t_out t) r -> ~ src_dir F r -> f_srcroot F a r = Some s ->
  t_out t = x ++ r -> f_dir F (x ++ s) = true ->
  (forall q, In q (f_subs F r s) -> ~ inside (x ++ r) (q ++ r)) -> f_file F (c :: x ++ s) = true ->
  locate F (S fuel) n k t = Located (mkloc r s (x ++ r) (x ++ s) false a (BFile (c :: x ++ s))).
Proof.
  intros a SN T K IN SD SR TO FD HQ FF.
  assert (R : find_roots F (S fuel) n t = Roots (mkroots r None (x ++ r) None false (Some a))).
  { unfold find_roots. rewrite T. destruct (find_out_root F (t_out t) None) as [o a0] eqn:O.
    pose proof (find_out_root_spec F _ _ _ O) as S. destruct o as [[p []]|]; cbn in S.
    - destruct S as (S1 & S2 & ->). rewrite (innermost_unique _ _ _ _ _ S1 IN) in *. contradiction.
    - destruct S as (S1 & S2 & ->). rewrite (innermost_unique _ _ _ _ _ S1 IN) in *. fold a. rewrite TO. reflexivity.
    - destruct S as [S _]. destruct IN as (IN & PR & _). destruct (S _ IN PR). }
  assert (B : bootstrap F k (mkroots r None (x ++ r) None false (Some a)) = Some (s, a)).
  { unfold bootstrap. cbn [r_out r_src r_altn]. rewrite K. cbn. rewrite SR. reflexivity. }
  unfold locate. rewrite R, B. unfold finish. cbn [r_out r_src r_out_base r_src_base r_fwd].
  rewrite (proj2 (leaf_some _ _ _) eq_refl), FD. cbn [negb].
  replace (existsb _ _) with false.
  2: { symmetry. apply Bool.not_true_iff_false. intros E. apply existsb_exists in E as (q & I & E). apply sub_inside in E. exact (HQ q I E). }
  destruct SN as [[-> SN] | ->]; cbn.
  - injection SN as SN. rewrite <- SN. cbn. now rewrite FF.
  - now rewrite FF.
Qed.
End P.

(* A project in /p with a subdirectory d, its output directory /o, and the subproject s disfigured. *)
Definition ex_fs : fs :=
  {| f_home := [b "h"];
     f_boot a d := negb a && (path_eqb d [b "p"] || path_eqb d [b "f"]);
     f_bootdir _ _ := false;
     f_srcroot a d := if negb a && path_eqb d [b "o"] then Some [b "p"] else None;
     f_outroot a d := if negb a && path_eqb d [b "f"] then Some [b "g"] else None;
     f_dir _ := true;
     f_file f := existsb (path_eqb f) [[b "buildfile"; b "p"]; [b "buildfile"; b "d"; b "p"]; [b "buildfile"; b "f"]; [b "buildfile"; b "q"]];
     f_implied d := path_eqb d [b "i"; b "p"];
     f_subs _ s := if path_eqb s [b "p"] then [[b "s"]] else [] |}.

Example ex_out : locate ex_fs 5 Default [] (mkspec [b "d"; b "o"] None true) =
  Located (mkloc [b "o"] [b "p"] [b "d"; b "o"] [b "d"; b "p"] false false (BFile [b "buildfile"; b "d"; b "p"])).
Proof. vm_compute. reflexivity. Qed.
Example ex_outer : locate ex_fs 5 Default [] (mkspec [b "y"; b "x"; b "d"; b "p"] None true) =
  Located (mkloc [b "p"] [b "p"] [b "d"; b "p"] [b "d"; b "p"] false false (BFile [b "buildfile"; b "d"; b "p"])).
Proof. vm_compute. reflexivity. Qed.
Example ex_implied : locate ex_fs 5 Default [] (mkspec [b "i"; b "o"] None true) =
  Located (mkloc [b "o"] [b "p"] [b "i"; b "o"] [b "i"; b "p"] false false BImplied).
Proof. vm_compute. reflexivity. Qed.
Example ex_not_dir : locate ex_fs 5 Default [] (mkspec [b "i"; b "o"] None false) =
  Located (mkloc [b "o"] [b "p"] [b "o"] [b "p"] false false (BFile [b "buildfile"; b "p"])).
Proof. vm_compute. reflexivity. Qed.
Example ex_fwd : locate ex_fs 5 Default [] (mkspec [b "z"; b "f"] None false) =
  Located (mkloc [b "g"] [b "f"] [b "g"] [b "f"] true false (BFile [b "buildfile"; b "f"])).
Proof. vm_compute. reflexivity. Qed.
Example ex_src : locate ex_fs 5 Default [] (mkspec [b "d"; b "n"] (Some [b "d"; b "p"]) false) =
  Located (mkloc [b "n"] [b "p"] [b "d"; b "n"] [b "d"; b "p"] false false (BFile [b "buildfile"; b "d"; b "p"])).
Proof. vm_compute. reflexivity. Qed.
Example ex_simple : locate ex_fs 5 Default [] (mkspec [b "q"] None true) =
  Located (mkloc [b "q"] [b "q"] [b "q"] [b "q"] false false (BFile [b "buildfile"; b "q"])).
Proof. vm_compute. reflexivity. Qed.
Example ex_subproject : locate ex_fs 5 Default [] (mkspec [b "t"; b "s"; b "o"] None true) = Fails.
Proof. vm_compute. reflexivity. Qed.
(* Different src_root for the same out_root. *)
Example ex_mismatch : locate_all ex_fs 5 Default [] [mkspec [b "o"] None true; mkspec [b "o"] (Some [b "f"]) true] =
  [Located (mkloc [b "o"] [b "p"] [b "o"] [b "p"] false false (BFile [b "buildfile"; b "p"])); Fails].
Proof. vm_compute. reflexivity. Qed.
Example ex_place : place (mkspec [b "d"; b "o"] None true)
  (mkloc [b "o"] [b "p"] [b "d"; b "o"] [b "d"; b "p"] false false (BFile [b "buildfile"; b "d"; b "p"])) [b "d"].
Proof. reflexivity. Qed.
Example ex_innermost : innermost (project_dir ex_fs) (f_home ex_fs) [b "d"; b "o"] [b "o"] /\ ~ src_dir ex_fs [b "o"].
Proof.
  destruct (find_out_root ex_fs [b "d"; b "o"] None) as [o a] eqn:E. pose proof (find_out_root_spec _ _ _ _ E) as S.
  vm_compute in E. injection E as <- <-. destruct S as (S1 & S2 & _). split; assumption.
Qed.

(* It is not always decided: a name with a directory. *)
Theorem C81_ends_refuted : exists F n k t, (forall fuel, locate F fuel n k t = Diverges) /\
  exists fuel l, locate F fuel Default k t = Located l.
Proof.
  exists ex_fs, (Named [b "x"; b "sub"]), [], (mkspec [b "d"; b "o"] None true). split.
  - intros fuel. eapply (C81_directory_diverges ex_fs _ _ _ _ _ _ _ [b "d"] ex_out).
    + reflexivity.
    + intros _ N. destruct ex_innermost as [(R & P & _) _]. exact (N _ R P).
    + reflexivity.
  - exists 5. eexists. exact ex_out.
Qed.

Print Assumptions C81_project.
Print Assumptions C81_specified.
Print Assumptions C81_bases.
Print Assumptions C81_place.
Print Assumptions C81_nearest.
Print Assumptions C81_implied.
Print Assumptions C81_stdin.
Print Assumptions C81_one_src.
Print Assumptions C81_ends.
Print Assumptions C81_directory_diverges.
Print Assumptions C81_in_source.
Print Assumptions C81_in_output.
Print Assumptions C81_ends_refuted.
