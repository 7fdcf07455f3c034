(* Proofs about locating projects and buildfiles: the steps of main (). *)
From Verif Require Import Base ProjModel ProjSpec ProjProofs.
From Coq Require Import Lia.

Section P.
Context (F : fs).

Lemma find_roots_ok fuel n t r : find_roots F fuel n t = Roots r ->
  exists x, r_out_base r = x ++ r_out r /\ forall sb, r_src_base r = Some sb -> exists s, r_src r = Some s /\ sb = x ++ s.
Proof.
  unfold find_roots. destruct (t_src t) as [sb|].
  - destruct (negb (f_dir F sb)); [discriminate|]. destruct (negb _ && _); [discriminate|].
    destruct (find_src_root F sb None) as [[sr|] a].
    + destruct (leaf sb sr) as [l|] eqn:L; [|discriminate]. destruct (without (t_out t) l) as [o|] eqn:W; [|discriminate].
      apply leaf_some in L. apply without_some in W. intros E. injection E as <-. cbn. exists l. split; [exact W|].
      intros s E. injection E as <-. eauto.
    + intros E. injection E as <-. exists []. split; [reflexivity|]. intros s E. injection E as <-. now exists sb.
  - destruct (find_out_root F (t_out t) None) as [[[p []]|] a] eqn:O; pose proof (find_out_root_spec F _ _ _ O) as H; cbn in H.
    + destruct (exists_ (f_outroot F) p a) as [v a']. destruct (path_eqb p _) eqn:Q.
      * apply path_eqb_eq in Q. intros E. injection E as <-. cbn. rewrite <- Q. destruct H as ((((l & H) & _) & _) & _).
        exists l. split; [exact H | discriminate].
      * destruct (leaf (t_out t) p) as [l|]; [|discriminate]. intros E. injection E as <-. cbn. exists l. split; [reflexivity | discriminate].
    + intros E. injection E as <-. cbn. destruct H as ((((l & H) & _) & _) & _). exists l. split; [exact H | discriminate].
    + destruct (find_buildfile _ _ _ _ _ _) as [[f| | |] a']; try discriminate; intros E; injection E as <-; cbn; exists [];
        (split; [reflexivity|]); intros s E; injection E as <-; now exists (t_out t).
Qed.

Lemma bootstrap_src_root k r s a : bootstrap F k r = Some (s, a) -> forall s', r_src r = Some s' -> s' = s.
Proof.
  unfold bootstrap. intros H s' E. rewrite E in H. destruct (lookup k (r_out r)) as [[ks ka]|].
  - destruct (path_eqb s' ks) eqn:Q; cbn in H; [|discriminate]. apply path_eqb_eq in Q. subst ks.
    destruct (r_altn r) as [a'|]; [destruct (Bool.eqb a' ka); [|discriminate]|]; now injection H as <- <-.
  - destruct (exists_ (f_srcroot F) _ _) as [v a1]. destruct (exists_ _ _ a1) as [v2 a2]. destruct (exists_ _ _ a2) as [v3 a3].
    now injection H as <- <-.
Qed.
Lemma bootstrap_known k r s a v : bootstrap F k r = Some (s, a) -> lookup k (r_out r) = Some v -> v = (s, a).
Proof.
  unfold bootstrap. intros H E. rewrite E in H. destruct v as [ks ka]. destruct (match r_src r with Some _ => _ | None => _ end); [discriminate|].
  destruct (r_altn r) as [a'|]; [destruct (Bool.eqb a' ka); [|discriminate]|]; now injection H as <- <-.
Qed.
Lemma bootstrap_configured k r s a : bootstrap F k r = Some (s, a) -> lookup k (r_out r) = None -> r_src r = None ->
  exists a', f_srcroot F a' (r_out r) = Some s.
Proof.
  unfold bootstrap. intros H E R. rewrite E, R in H. destruct (exists_ (f_srcroot F) _ _) as [v a1] eqn:X.
  apply exists_none in X as [X _]. destruct v as [v|]; [|discriminate].
  destruct (exists_ _ _ a1) as [v2 a2]. destruct (exists_ _ _ a2) as [v3 a3]. injection H as <- <-. exact X.
Qed.
Lemma bootstrap_altn k r s a a' : bootstrap F k r = Some (s, a) -> r_altn r = Some a' -> a = a'.
Proof.
  unfold bootstrap. intros H E. rewrite E in H. destruct (lookup k (r_out r)) as [[ks ka]|].
  - destruct (match r_src r with Some _ => _ | None => _ end); [discriminate|].
    destruct (Bool.eqb a' ka) eqn:Q; [|discriminate]. apply Bool.eqb_prop in Q. injection H as <- <-. congruence.
  - cbn in H. destruct (match r_src r with Some s => _ | None => _ end); [|discriminate]. injection H as <- <-. reflexivity.
Qed.

Lemma find_loop_stdin fuel sd root altn n p a : find_loop F fuel sd root altn n p <> (FoundStdin, a).
Proof.
  revert altn p. induction fuel as [|fuel IH]; intros altn p; cbn [find_loop]; [discriminate|].
  destruct (probe F _ altn n) as [[f e] a']. destruct e; [discriminate|]. destruct (path_eqb _ _); [discriminate | apply IH].
Qed.

Definition bf_ok (n : bname) (t : spec) (sb : dir) (l : location) : Prop :=
  (n = Stdin -> l_buildfile l = BStdin /\ l_src_base l = sb) /\
  forall c, simple_name n (l_altn l) c ->
  match l_buildfile l with
  | BFile f => f = c :: l_src_base l /\ f_file F f = true /\ inside sb (l_src_base l) /\
      (forall m, inside sb m -> inside m (l_src_base l) -> m <> l_src_base l -> f_file F (c :: m) = false) /\
      (l_src_base l <> sb -> ~ (t_is_dir t = true /\ f_dir F sb = true /\ f_implied F sb = true))
  | BImplied => l_src_base l = sb /\ f_file F (c :: sb) = false /\ t_is_dir t = true /\ f_dir F sb = true /\ f_implied F sb = true
  | BStdin => False
  end.

Lemma simple_loop fuel sd root a n c r a' : simple_name n a c -> inside sd root ->
  find_buildfile F fuel sd root (Some a) n = (r, a') ->
  match r with
  | Found f => exists m, f = c :: m /\ inside sd m /\ inside m root /\ f_file F f = true /\
               (forall m', inside sd m' -> inside m' m -> m' <> m -> f_file F (c :: m') = false)
  | FoundStdin => False
  | NotFound => forall m, inside sd m -> inside m root -> f_file F (c :: m) = false
  | OutOfFuel => fuel <= length sd - length root
  end.
Proof.
  intros S I E. destruct S as [[-> S]| ->]; cbn in E; eapply find_loop_simple in E; cbn; eauto; now destruct E as [_ E].
Qed.

Lemma finish_ok fuel n t r s a l x :
  r_out_base r = x ++ r_out r -> (forall sb, r_src_base r = Some sb -> sb = x ++ s) -> finish F fuel n t r s a = Located l ->
  l_out_root l = r_out r /\ l_src_root l = s /\ l_forwarded l = r_fwd r /\ l_altn l = a /\
  (forall q, In q (f_subs F (r_out r) s) -> ~ inside (x ++ r_out r) (q ++ r_out r)) /\
  (exists y, l_out_base l = y ++ r_out r /\ l_src_base l = y ++ s) /\
  (r_src_base r = None -> f_dir F (x ++ s) = true) /\
  bf_ok n t (x ++ s) l.
Proof.
  intros Hx Hs. unfold finish. rewrite Hx. rewrite (proj2 (leaf_some _ _ _) eq_refl).
  assert (exists sb, match r_src_base r with Some s0 => s0 | None => x ++ s end = sb /\ sb = x ++ s) as (sb & -> & ->).
  { destruct (r_src_base r) as [sb|]; eauto. }
  destruct (match r_src_base r with Some _ => false | None => _ end) eqn:D; [discriminate|].
  assert (HD : r_src_base r = None -> f_dir F (x ++ s) = true).
  { intros E. rewrite E in D. now apply Bool.negb_false_iff in D. }
  destruct (existsb _ _) eqn:EX; [discriminate|].
  assert (HQ : forall q, In q (f_subs F (r_out r) s) -> ~ inside (x ++ r_out r) (q ++ r_out r)).
  { intros q I Hi. apply sub_inside in Hi. enough (existsb (fun s0 => sub (x ++ r_out r) (s0 ++ r_out r)) (f_subs F (r_out r) s) = true) by congruence.
    apply existsb_exists. eauto. }
  assert (Hin : inside (x ++ s) s) by now exists x.
  assert (done : forall bf, l = mkloc (r_out r) s (x ++ r_out r) (x ++ s) (r_fwd r) a bf -> bf_ok n t (x ++ s) l -> 
    l_out_root l = r_out r /\ l_src_root l = s /\ l_forwarded l = r_fwd r /\ l_altn l = a /\
  (forall q, In q (f_subs F (r_out r) s) -> ~ inside (x ++ r_out r) (q ++ r_out r)) /\
  (exists y, l_out_base l = y ++ r_out r /\ l_src_base l = y ++ s) /\
  (r_src_base r = None -> f_dir F (x ++ s) = true) /\
  bf_ok n t (x ++ s) l).
  { intros bf -> B. cbn. do 4 (split; [reflexivity|]). split; [exact HQ|]. split; [eauto|]. auto. }
  destruct (find_buildfile F fuel (x ++ s) (x ++ s) (Some a) n) as [q a'] eqn:FB. destruct q as [f| | |].
  - intros E. injection E as <-. eapply done; [reflexivity|]. split.
    + intros ->. cbn in FB. discriminate.
    + cbn. intros c S. eapply simple_loop in FB; [|exact S|apply inside_refl]. destruct FB as (m & -> & A & B & C & G).
      rewrite (inside_antisym _ _ A B) in *. repeat split; auto. apply inside_refl.
  - intros E. injection E as <-. eapply done; [reflexivity|]. split; [auto|].
    cbn. intros c S. eapply simple_loop in FB; [exact FB|exact S|apply inside_refl].
  - assert (NS : n <> Stdin) by (intros ->; discriminate).
    destruct (t_is_dir t && f_dir F (x ++ s) && f_implied F (x ++ s)) eqn:I.
    + apply andb_prop in I as [I I3]. apply andb_prop in I as [I1 I2].
      intros E. injection E as <-. eapply done; [reflexivity|]. split; [intros ->; congruence|].
      cbn. intros c S. eapply simple_loop in FB; [|exact S|apply inside_refl].
      repeat split; auto. apply FB; apply inside_refl.
    + destruct (path_eqb (x ++ s) s) eqn:P; [discriminate|]. apply path_eqb_neq in P.
      destruct (find_buildfile F fuel (tl (x ++ s)) s (Some a) n) as [q a''] eqn:FB2. destruct q as [f| | |]; try discriminate.
      * destruct (leaf (tl f) s) as [y|] eqn:L; [|discriminate]. apply leaf_some in L. intros E. injection E as <-. cbn.
        do 4 (split; [reflexivity|]). split; [exact HQ|]. split; [exists y; auto|]. split; [exact HD|].
        split; [intros ->; congruence|]. cbn. intros c S. 
        eapply simple_loop in FB; [|exact S|apply inside_refl].
        destruct x as [|w x]; [cbn in P; congruence|]. cbn [app tl] in FB2.
        eapply simple_loop in FB2; [|exact S|now exists x]. destruct FB2 as (m & -> & A & B & C & G). cbn [tl] in *.
        repeat split; auto.
        -- apply (inside_trans _ (x ++ s)); [now exists [w] | exact A].
        -- intros m' A' B' C'. apply inside_cons in A' as [-> | A']; [|auto]. apply FB; apply inside_refl.
        -- intros _ (I1 & I2 & I3). rewrite I1, I3 in I. cbn in *. rewrite I2 in I. discriminate.
      * destruct n; [|congruence|]; cbn in FB2; now apply find_loop_stdin in FB2.
  - discriminate.
Qed.

Lemma locate_inv fuel n k t l : locate F fuel n k t = Located l -> exists r s a,
  find_roots F fuel n t = Roots r /\ bootstrap F k r = Some (s, a) /\ finish F fuel n t r s a = Located l.
Proof.
  unfold locate. destruct (find_roots F fuel n t) as [r| |] eqn:R; try discriminate.
  destruct (bootstrap F k r) as [[s a]|] eqn:B; [|discriminate]. eauto 10.
Qed.

Lemma locate_ok fuel n k t l : locate F fuel n k t = Located l -> exists r x,
  find_roots F fuel n t = Roots r /\ bootstrap F k r = Some (l_src_root l, l_altn l) /\ r_out_base r = x ++ r_out r /\
  l_out_root l = r_out r /\ l_forwarded l = r_fwd r /\ (forall sb, r_src_base r = Some sb -> sb = x ++ l_src_root l) /\
  (forall q, In q (f_subs F (l_out_root l) (l_src_root l)) -> ~ inside (x ++ l_out_root l) (q ++ l_out_root l)) /\
  (exists y, l_out_base l = y ++ l_out_root l /\ l_src_base l = y ++ l_src_root l) /\
  (r_src_base r = None -> f_dir F (x ++ l_src_root l) = true) /\
  bf_ok n t (x ++ l_src_root l) l.
Proof.
  intros H. apply locate_inv in H as (r & s & a & R & B & H). destruct (find_roots_ok _ _ _ _ R) as (x & Hx & Hs).
  assert (Hs' : forall sb, r_src_base r = Some sb -> sb = x ++ s).
  { intros sb E. apply Hs in E as (s' & E & ->). now rewrite (bootstrap_src_root _ _ _ _ B _ E). }
  destruct (finish_ok fuel n t r s a l x Hx Hs' H) as (H1 & H2 & H3 & H4 & H5 & H6 & H7 & H8).
  exists r, x. rewrite H1, H2, H4. repeat (split; [assumption || reflexivity|]). exact H8.
Qed.
End P.
