(* Proofs about scripts and their cleanups. *)
From Verif Require Import Base ImpModel ImpProofs UndoModel UndoSpec UndoProofs.

Lemma fop_app {A} (R : A -> A -> Prop) l m : ForallOrdPairs R (l ++ m) <-> ForallOrdPairs R l /\ ForallOrdPairs R m /\ forall x y, In x l -> In y m -> R x y.
Proof.
  induction l as [|a l IH]; cbn.
  - split; [intros H; split; [constructor|]; split; [exact H | contradiction] | tauto].
  - split.
    + intros H. inversion H as [|? ? F G]; subst. apply IH in G as (G1 & G2 & G3). rewrite Forall_forall in F. split; [constructor; [|exact G1]|].
      * apply Forall_forall. intros x I. apply F, in_or_app. now left.
      * split; [exact G2|]. intros x y [<-|I] J; [apply F, in_or_app; now right | auto].
    + intros (H & G2 & G3). inversion H as [|? ? F G]; subst. constructor.
      * rewrite Forall_forall in *. intros x I. apply in_app_or in I as [I|I]; auto.
      * apply IH. split; [exact G|]. split; [exact G2|]. auto.
Qed.
Lemma fop_filter {A} (R : A -> A -> Prop) P l : ForallOrdPairs R l -> ForallOrdPairs R (filter P l).
Proof.
  induction 1 as [|a l F G IH]; cbn; [constructor|]. destruct (P a); [|exact IH]. constructor; [|exact IH]. rewrite Forall_forall in *.
  intros x I. apply filter_In in I as [I _]. auto.
Qed.
Lemma fop_map {A B} (f : A -> B) (R : A -> A -> Prop) (Q : B -> B -> Prop) l :
  (forall x y, In x l -> In y l -> R x y -> Q (f x) (f y)) -> ForallOrdPairs R l -> ForallOrdPairs Q (map f l).
Proof.
  intros H F. induction F as [|a l F G IH]; cbn; [constructor|]. rewrite Forall_forall in F. constructor.
  - apply Forall_forall. intros y I. apply in_map_iff in I as (x & <- & I). apply H; [now left | now right | auto].
  - apply IH. intros x y I J. apply H; now right.
Qed.

Lemma moved_in from to s : moved from to (from ++ s) = to ++ s.
Proof. unfold moved. rewrite (proj2 (sub_within (from ++ s) from)) by now exists s. rewrite skipn_app, skipn_all, Nat.sub_diag. reflexivity. Qed.
Lemma moved_out from to p : ~ within p from -> moved from to p = p.
Proof. intros N. apply sub_not in N. unfold moved. now rewrite N. Qed.

Lemma look_moved f from to : (forall s, look f (to ++ s) = None) -> let g := map (fun e => (moved from to (fst e), snd e)) f in
  (forall s, look g (to ++ s) = look f (from ++ s)) /\
  forall p, ~ within p to -> look g p = if sub p from then None else look f p.
Proof.
  intros N g. assert (NI : forall q k, In (q, k) f -> ~ within q to).
  { intros q k I (s & ->). apply in_look in I. now apply I. }
  clear N. subst g. induction f as [|[q j] f IH]; cbn [map look fst snd].
  - split; [reflexivity|]. intros p _. now destruct (sub p from).
  - destruct IH as [A B]; [intros x k I; apply (NI x k); now right|]. assert (NQ : ~ within q to) by (apply (NI q j); now left).
    destruct (sub q from) eqn:W.
    + apply sub_within in W as (t & ->). rewrite moved_in. split.
      * intros s. destruct (dir_eqb (to ++ t) (to ++ s)) eqn:E.
        -- apply dir_eqb_eq, app_inv_head in E. subst. now rewrite dir_eqb_refl.
        -- assert (E' : dir_eqb (from ++ t) (from ++ s) = false); [|now rewrite E']. apply dir_eqb_neq. apply dir_eqb_neq in E. intros Q. apply E.
           apply app_inv_head in Q. congruence.
      * intros p P. assert (E : dir_eqb (to ++ t) p = false) by (apply dir_eqb_neq; intros <-; apply P; now exists t). rewrite E, (B p P).
        destruct (sub p from) eqn:S; [reflexivity|]. assert (E' : dir_eqb (from ++ t) p = false); [|now rewrite E'].
        apply dir_eqb_neq. intros <-. apply sub_not in S. apply S. now exists t.
    + apply sub_not in W. rewrite (moved_out _ _ _ W). split.
      * intros s. assert (E : dir_eqb q (to ++ s) = false) by (apply dir_eqb_neq; intros ->; apply NQ; now exists s).
        assert (E' : dir_eqb q (from ++ s) = false) by (apply dir_eqb_neq; intros ->; apply W; now exists s). rewrite E, E'. apply A.
      * intros p P. rewrite (B p P). destruct (dir_eqb q p) eqn:E; [|reflexivity]. apply dir_eqb_eq in E. subst p. apply sub_not in W. now rewrite W.
Qed.

Section Env.
Context (pm : list bytes -> list bytes -> bool) (cwd wdir : list bytes) (sandbox : option (list bytes)) (f0 : fs).
Notation exec := (exec wdir sandbox true).
Notation exec_all := (exec_all wdir sandbox true).
Notation clean_all := (clean_all pm cwd wdir).
Notation allowed := (allowed sandbox).
Notation benign := (benign sandbox f0).

Definition before (a c : cleanup) : Prop := ~ within (c_path a) (c_path c).
Record Inv (e : env) : Prop := mkInv {
  i_tree : tree (e_fs e);
  i_keep : forall p k, look f0 p = Some k -> look (e_fs e) p = Some k;
  i_reg : forall p k, (exists c, In c (e_cs e) /\ c_path c = p /\ c_dir c = k) <-> look (e_fs e) p = Some k /\ look f0 p = None;
  i_plain : forall c, In c (e_cs e) -> c_type c = Always /\ is_pattern (c_path c) = false;
  i_ord : ForallOrdPairs before (e_cs e) }.

Hypothesis T0 : tree f0.

Lemma allowed_in p : allowed p -> in_sandbox sandbox p = true.
Proof. intros [_ A]. unfold in_sandbox. destruct sandbox as [s|]; [|reflexivity]. now apply sub_within, A. Qed.

Lemma tree_nil f : tree f -> look f [] = None.
Proof. now intros [T _]. Qed.
Lemma tree_isdir f p : isdir f p = true -> p = [] \/ look f p = Some true.
Proof. destruct p as [|x p]; [now left|]. cbn [isdir]. destruct (look f (x :: p)) as [[|]|]; try discriminate. now right. Qed.
Lemma tree_none f p s : tree f -> p <> [] -> look f p = None -> look f (p ++ s) = None.
Proof.
  intros T P L. destruct s as [|x s]; [now rewrite app_nil_r|]. destruct (look f (p ++ x :: s)) as [k|] eqn:E; [|reflexivity].
  apply (tree_up f p (x :: s) k T P) in E; [congruence | discriminate].
Qed.

Lemma inv_add e p dir : Inv e -> look (e_fs e) p = None -> p <> [] -> isdir (e_fs e) (removelast p) = true -> allowed p ->
  Inv (mkenv ((p, dir) :: e_fs e) (register sandbox (e_cs e) (mkcleanup Always p dir) true)).
Proof.
  intros I L P D A. assert (F0 : look f0 p = None). { destruct (look f0 p) as [k|] eqn:E; [|reflexivity]. apply (i_keep e I) in E. congruence. }
  assert (NR : forall c, In c (e_cs e) -> ~ within (c_path c) p).
  { intros c C (s & E). assert (X : look (e_fs e) (c_path c) = Some (c_dir c)) by (apply (i_reg e I); exists c; auto).
    rewrite E, (tree_none _ p s (i_tree e I) P L) in X. discriminate. }
  unfold register. cbn [c_path]. rewrite (allowed_in p A). cbn [negb].
  destruct (existsb (fun x => dir_eqb (c_path x) p) (e_cs e)) eqn:X.
  { apply existsb_exists in X as (c & C & E). apply dir_eqb_eq in E. exfalso. apply (NR c C). rewrite E. apply within_refl. }
  split; cbn [e_fs e_cs].
  - split; cbn [look].
    + destruct (dir_eqb p []) eqn:E; [apply dir_eqb_eq in E; congruence | apply tree_nil, I].
    + intros q n k H. destruct (dir_eqb p (q ++ [n])) eqn:E.
      * apply dir_eqb_eq in E. subst p. rewrite removelast_last in D. apply tree_isdir in D as [->|D]; [now left|]. right.
        destruct (dir_eqb (q ++ [n]) q) eqn:Q; [|exact D]. apply dir_eqb_eq in Q. rewrite Q in L. congruence.
      * destruct (proj2 (i_tree e I) _ _ _ H) as [->|H']; [now left|]. right. destruct (dir_eqb p q) eqn:Q; [|exact H']. apply dir_eqb_eq in Q. congruence.
  - intros q k H. apply (i_keep e I) in H. cbn [look]. destruct (dir_eqb p q) eqn:Q; [|exact H]. apply dir_eqb_eq in Q. congruence.
  - intros q k. cbn [look]. split.
    + intros (c & C & <- & <-). apply in_app_or in C as [C|[<-|[]]].
      * assert (H : look (e_fs e) (c_path c) = Some (c_dir c) /\ look f0 (c_path c) = None) by (apply (i_reg e I); exists c; auto).
        destruct (dir_eqb p (c_path c)) eqn:Q; [|exact H]. apply dir_eqb_eq in Q. exfalso. apply (NR c C). rewrite Q. apply within_refl.
      * cbn. rewrite dir_eqb_refl. auto.
    + destruct (dir_eqb p q) eqn:Q.
      * apply dir_eqb_eq in Q. subst q. intros [E _]. injection E as <-. exists (mkcleanup Always p dir). split; [apply in_or_app; right; now left | auto].
      * intros H. apply (i_reg e I) in H as (c & C & H). exists c. split; [apply in_or_app; now left | exact H].
  - intros c C. apply in_app_or in C as [C|[<-|[]]]; [now apply (i_plain e I)|]. split; [reflexivity | apply A].
  - apply fop_app. split; [apply (i_ord e I)|]. split; [repeat constructor|]. intros x y X1 [<-|[]]. unfold before. cbn. auto.
Qed.

Lemma inv_move e from to f : Inv e -> look f0 from = None -> allowed from -> allowed to -> look (e_fs e) to = None -> rename (e_fs e) from to = Some f ->
  Inv (mkenv f (filter (fun c => negb (sub (c_path c) from)) (e_cs e) ++
    map (fun c => mkcleanup (c_type c) (moved from to (c_path c)) (c_dir c)) (filter (fun c => sub (c_path c) from) (e_cs e)))).
Proof.
  intros I F0 AF AT L R. unfold rename in R. destruct (look (e_fs e) from) as [k0|] eqn:LF; [|discriminate].
  assert (TN : to <> []) by (intros ->; discriminate). assert (FN : from <> []) by (intros ->; rewrite (tree_nil _ (i_tree e I)) in LF; discriminate).
  assert (R' : (if sub to from || negb (isdir (e_fs e) (removelast to)) then None else
    match look (e_fs e) to with None => Some (map (fun e => (moved from to (fst e), snd e)) (rm (e_fs e) to)) | Some false => if k0 then None else Some (map (fun e => (moved from to (fst e), snd e)) (rm (e_fs e) to)) | Some true => if k0 && negb (has_entries (e_fs e) to) then Some (map (fun e => (moved from to (fst e), snd e)) (rm (e_fs e) to)) else None end) = Some f)
    by (destruct to; [congruence | exact R]). clear R. rewrite L in R'.
  destruct (sub to from || negb (isdir (e_fs e) (removelast to))) eqn:G; [discriminate|]. apply orb_false_iff in G as [G1 G2]. apply sub_not in G1. apply negb_false_iff in G2.
  injection R' as R'.
  assert (NT : forall s, look (e_fs e) (to ++ s) = None) by (intros s; apply tree_none; [apply I | exact TN | exact L]).
  assert (NT' : forall s, look (rm (e_fs e) to) (to ++ s) = None).
  { intros s. rewrite look_rm, NT. now destruct (dir_eqb (to ++ s) to). }
  destruct (look_moved (rm (e_fs e) to) from to NT') as [A B]. cbn zeta in A, B. rewrite R' in A, B. clear R' NT'.
  assert (NFT : ~ within from to). { intros (s & E). rewrite E, NT in LF. discriminate. }
  assert (A' : forall s, look f (to ++ s) = look (e_fs e) (from ++ s)).
  { intros s. rewrite A, look_rm. destruct (dir_eqb (from ++ s) to) eqn:Q; [|reflexivity]. apply dir_eqb_eq in Q. exfalso. apply G1. exists s. auto. }
  assert (B' : forall p, ~ within p to -> look f p = if sub p from then None else look (e_fs e) p).
  { intros p P. rewrite (B p P), look_rm. destruct (dir_eqb p to) eqn:Q; [|reflexivity]. apply dir_eqb_eq in Q. subst p. destruct (P (within_refl to)). }
  clear A B.
  assert (DISJ : forall p, within p to -> ~ within p from).
  { intros p (s & ->) (t & E). apply app_eq_app in E as (l & [[E1 E2]|[E1 E2]]); [apply G1; now exists l | apply NFT; now exists l]. }
  assert (N0F : forall s, look f0 (from ++ s) = None) by (intros s; now apply tree_none).
  assert (N0T : forall s, look f0 (to ++ s) = None).
  { intros s. destruct (look f0 (to ++ s)) eqn:Q; [|reflexivity]. apply (i_keep e I) in Q. rewrite NT in Q. discriminate. }
  split; cbn [e_fs e_cs].
  - split.
    + rewrite B'; [|intros (s & Q); destruct to; [congruence | discriminate]]. rewrite (tree_nil _ (i_tree e I)). now destruct (sub [] from).
    + intros p n k H. destruct (sub (p ++ [n]) to) eqn:W.
      * apply sub_within in W as (s & W). destruct s as [|x s] using rev_ind.
        -- rewrite app_nil_r in W. subst to. rewrite removelast_last in G2. apply tree_isdir in G2 as [->|G2]; [now left|]. right.
           assert (NW : ~ within p (p ++ [n])). { intros (s & Q). apply (f_equal (@length _)) in Q. rewrite !app_length in Q. cbn in Q. lia. }
           rewrite (B' p NW). destruct (sub p from) eqn:Q; [|exact G2]. apply sub_within in Q as (s & ->). exfalso. apply G1. exists (s ++ [n]). now rewrite app_assoc.
        -- rewrite app_assoc in W. apply app_inj_tail in W as [-> ->]. rewrite <- app_assoc in H. rewrite A' in H. rewrite app_assoc in H.
           right. rewrite A'. destruct (proj2 (i_tree e I) _ _ _ H) as [Q|Q]; [|exact Q]. destruct from; [congruence | discriminate].
      * apply sub_not in W. rewrite (B' _ W) in H. destruct (sub (p ++ [n]) from) eqn:S; [discriminate|]. apply sub_not in S.
        destruct (proj2 (i_tree e I) _ _ _ H) as [->|Q]; [now left|]. right.
        assert (NW : ~ within p to). { intros (s & ->). apply W. exists (s ++ [n]). now rewrite app_assoc. }
        rewrite (B' p NW). destruct (sub p from) eqn:S'; [|exact Q]. apply sub_within in S' as (s & ->). exfalso. apply S. exists (s ++ [n]). now rewrite app_assoc.
  - intros p k H. assert (NW : ~ within p to) by (intros (s & ->); rewrite N0T in H; discriminate). rewrite (B' p NW).
    destruct (sub p from) eqn:S; [|now apply (i_keep e I)]. apply sub_within in S as (s & ->). rewrite N0F in H. discriminate.
  - intros p k. split.
    + intros (c & C & <- & <-). apply in_app_or in C as [C|C].
      * apply filter_In in C as [C W]. apply negb_true_iff, sub_not in W.
        assert (H : look (e_fs e) (c_path c) = Some (c_dir c) /\ look f0 (c_path c) = None) by (apply (i_reg e I); exists c; auto).
        assert (NW : ~ within (c_path c) to) by (intros (s & Q); rewrite Q, NT in H; destruct H; discriminate).
        rewrite (B' _ NW). apply sub_not in W. now rewrite W.
      * apply in_map_iff in C as (c' & <- & C). apply filter_In in C as [C W]. apply sub_within in W as (s & W). cbn. rewrite W, moved_in, A', N0T.
        assert (H : look (e_fs e) (c_path c') = Some (c_dir c') /\ look f0 (c_path c') = None) by (apply (i_reg e I); exists c'; auto). rewrite W in H. tauto.
    + intros [H H0]. destruct (sub p to) eqn:W.
      * apply sub_within in W as (s & ->). rewrite A' in H. assert (X : look (e_fs e) (from ++ s) = Some k /\ look f0 (from ++ s) = None) by auto.
        apply (i_reg e I) in X as (c & C & P & D). exists (mkcleanup (c_type c) (moved from to (c_path c)) (c_dir c)). cbn. split; [|now rewrite P, moved_in].
        apply in_or_app. right. apply in_map_iff. exists c. split; [reflexivity|]. apply filter_In. split; [exact C|]. apply sub_within. exists s. exact P.
      * apply sub_not in W. rewrite (B' p W) in H. destruct (sub p from) eqn:S; [discriminate|]. assert (X : look (e_fs e) p = Some k /\ look f0 p = None) by auto.
        apply (i_reg e I) in X as (c & C & P & D). exists c. split; [|auto]. apply in_or_app. left. apply filter_In. split; [exact C|]. now rewrite P, S.
  - intros c C. apply in_app_or in C as [C|C].
    + apply filter_In in C as [C _]. now apply (i_plain e I).
    + apply in_map_iff in C as (c' & <- & C). apply filter_In in C as [C W]. apply sub_within in W as (s & W). destruct (i_plain e I c' C) as [P1 P2].
      cbn. split; [exact P1|]. rewrite W, moved_in. rewrite W, pattern_app in P2. apply orb_false_iff in P2 as [_ P2]. rewrite pattern_app, P2, (proj1 AT). reflexivity.
  - apply fop_app. split; [apply fop_filter, I|]. split.
    + apply (fop_map _ before); [|apply fop_filter, I]. intros x y X Y. apply filter_In in X as [_ X], Y as [_ Y]. apply sub_within in X as (s & X), Y as (t & Y).
      unfold before. cbn. rewrite X, Y, !moved_in. intros N (u & Q). apply N. exists u. rewrite <- app_assoc in *. apply app_inv_head in Q. congruence.
    + intros x y X Y. apply filter_In in X as [X _]. apply in_map_iff in Y as (c' & <- & C). apply filter_In in C as [C W]. apply sub_within in W as (s & W).
      unfold before. cbn. rewrite W, moved_in. intros (u & Q).
      assert (H : look (e_fs e) (c_path x) = Some (c_dir x)) by (apply (i_reg e I); exists x; auto). rewrite Q, <- app_assoc, NT in H. discriminate.
Qed.

(* A file over a file. *)
Lemma inv_over e from to f : Inv e -> look f0 from = None -> look (e_fs e) from = Some false -> look (e_fs e) to <> None -> rename (e_fs e) from to = Some f ->
  Inv (mkenv f (filter (fun c => negb (sub (c_path c) from)) (e_cs e) ++ [])).
Proof.
  intros I F0 LF L R. rewrite app_nil_r. unfold rename in R. rewrite LF in R.
  assert (TN : to <> []) by (intros ->; discriminate). assert (FN : from <> []) by (intros ->; rewrite (tree_nil _ (i_tree e I)) in LF; discriminate).
  assert (R' : (if sub to from || negb (isdir (e_fs e) (removelast to)) then None else
    match look (e_fs e) to with None => Some (map (fun e => (moved from to (fst e), snd e)) (rm (e_fs e) to)) | Some false => Some (map (fun e => (moved from to (fst e), snd e)) (rm (e_fs e) to)) | Some true => None end) = Some f)
    by (destruct to; [congruence | exact R]). clear R.
  destruct (sub to from || negb (isdir (e_fs e) (removelast to))) eqn:G; [discriminate|]. apply orb_false_iff in G as [G1 _]. apply sub_not in G1.
  destruct (look (e_fs e) to) as [[|]|] eqn:LT; [discriminate| |congruence]. injection R' as R'.
  assert (NT : forall s, s <> [] -> look (e_fs e) (to ++ s) = None) by (intros s S; now apply tree_file; [apply I|..]).
  assert (NFr : forall s, s <> [] -> look (e_fs e) (from ++ s) = None) by (intros s S; now apply tree_file; [apply I|..]).
  assert (NT' : forall s, look (rm (e_fs e) to) (to ++ s) = None).
  { intros s. rewrite look_rm. destruct (dir_eqb (to ++ s) to) eqn:Q; [reflexivity|]. apply NT. intros ->. rewrite app_nil_r, dir_eqb_refl in Q. discriminate. }
  destruct (look_moved (rm (e_fs e) to) from to NT') as [A B]. cbn zeta in A, B. rewrite R' in A, B. clear R' NT'.
  assert (LK : forall p, look f p = if dir_eqb p from then None else look (e_fs e) p).
  { intros p. destruct (sub p to) eqn:W.
    - apply sub_within in W as (s & ->). rewrite A, look_rm. destruct (dir_eqb (from ++ s) to) eqn:Q; [apply dir_eqb_eq in Q; exfalso; apply G1; exists s; auto|].
      destruct s as [|x s].
      + rewrite !app_nil_r in *. rewrite LF. destruct (dir_eqb to from) eqn:Q'; [apply dir_eqb_eq in Q'; exfalso; apply G1; rewrite Q'; apply within_refl | auto].
      + rewrite NFr by discriminate. rewrite NT by discriminate. now destruct (dir_eqb (to ++ x :: s) from).
    - apply sub_not in W. rewrite (B p W), look_rm. destruct (dir_eqb p to) eqn:Q; [apply dir_eqb_eq in Q; subst; destruct (W (within_refl to))|].
      destruct (sub p from) eqn:S.
      + apply sub_within in S as (s & ->). destruct s as [|x s]; [now rewrite app_nil_r, dir_eqb_refl|]. rewrite NFr by discriminate. now destruct (dir_eqb (from ++ x :: s) from).
      + destruct (dir_eqb p from) eqn:Q'; [|reflexivity]. apply dir_eqb_eq in Q'. subst p. apply sub_not in S. destruct (S (within_refl from)). }
  assert (RG : forall c, In c (e_cs e) -> sub (c_path c) from = dir_eqb (c_path c) from).
  { intros c C. assert (H : look (e_fs e) (c_path c) = Some (c_dir c)) by (apply (i_reg e I); exists c; auto).
    destruct (sub (c_path c) from) eqn:S.
    - apply sub_within in S as (s & S). rewrite S in *. destruct s as [|x s]; [now rewrite app_nil_r, dir_eqb_refl|]. rewrite NFr in H by discriminate. discriminate.
    - symmetry. apply dir_eqb_neq. intros Q. apply sub_not in S. apply S. rewrite Q. apply within_refl. }
  split; cbn [e_fs e_cs].
  - eapply (tree_removes_one (e_fs e) f from); [apply I| |exact NFr]. intros p. rewrite LK. destruct (dir_eqb p from) eqn:Q; [right; split; [reflexivity | now apply dir_eqb_eq] | now left].
  - intros p k H. rewrite LK. destruct (dir_eqb p from) eqn:Q; [apply dir_eqb_eq in Q; congruence | now apply (i_keep e I)].
  - intros p k. rewrite LK. split.
    + intros (c & C & <- & <-). apply filter_In in C as [C W]. rewrite (RG c C) in W. apply negb_true_iff in W. rewrite W. apply (i_reg e I). exists c. auto.
    + destruct (dir_eqb p from) eqn:Q; [intros [? _]; discriminate|]. intros H. apply (i_reg e I) in H as (c & C & P & D). exists c. split; [|auto].
      apply filter_In. split; [exact C|]. now rewrite (RG c C), P, Q.
  - intros c C. apply filter_In in C as [C _]. now apply (i_plain e I).
  - apply fop_filter, I.
Qed.

Lemma inv_exec e s e' : Inv e -> benign (e_fs e) s -> exec e s = Some e' -> Inv e'.
Proof.
  intros I B. destruct s as [p dir nc|p app|from to nc force|p force|t p dir]; cbn [UndoSpec.benign] in B; try contradiction; cbn [UndoModel.exec].
  - destruct B as [-> A]. cbn [negb andb]. destruct (look (e_fs e) p) as [k|] eqn:L.
    + destruct (dir || k); [discriminate|]. intros E. injection E as <-. exact I.
    + destruct p as [|x p]; [discriminate|]. set (q := x :: p) in *. destruct (isdir (e_fs e) (removelast q)) eqn:D; [|discriminate]. cbn [negb]. intros E. injection E as <-.
      apply inv_add; auto. discriminate.
  - destruct B as (A & F & N). cbn [negb]. rewrite orb_false_r. destruct (look (e_fs e) p) as [[|]|] eqn:L; [discriminate| |].
    + intros E. assert (RG : (if app then e_cs e else register sandbox (e_cs e) (mkcleanup Always p false) true) = e_cs e).
      { destruct app; [reflexivity|]. unfold register. cbn [c_path]. rewrite (allowed_in p A). cbn [negb].
        destruct (existsb (fun x => dir_eqb (c_path x) p) (e_cs e)) eqn:X; [reflexivity|]. exfalso.
        assert (Y : existsb (fun x => dir_eqb (c_path x) p) (e_cs e) = true); [|congruence]. apply existsb_exists.
        destruct (proj2 (i_reg e I p false)) as (c & C & P & _); [auto|]. exists c. split; [exact C | now apply dir_eqb_eq]. }
      rewrite RG in E. injection E as <-. destruct e. exact I.
    + destruct app; [destruct (N eq_refl eq_refl)|]. destruct p as [|x p]; [discriminate|]. set (q := x :: p) in *.
      destruct (isdir (e_fs e) (removelast q)) eqn:D; [|discriminate]. cbn [negb]. intros E. injection E as <-. apply inv_add; auto. discriminate.
  - destruct B as (-> & AF & AT & F & K). destruct (negb (in_sandbox sandbox from) && negb force || sub wdir from || sub wdir to); [discriminate|].
    destruct (rename (e_fs e) from to) as [f|] eqn:R; [|discriminate]. cbn [negb andb]. intros E. destruct (look (e_fs e) to) as [k|] eqn:L.
    + injection E as <-. eapply inv_over; eauto; [destruct K; congruence | congruence].
    + rewrite (allowed_in to AT) in E. injection E as <-. apply inv_move; auto.
Qed.

Fixpoint benign_all (e : env) (ss : list step) : Prop :=
  match ss with [] => True | s :: ss => benign (e_fs e) s /\ forall e', exec e s = Some e' -> benign_all e' ss end.
Lemma inv_all ss : forall e e', Inv e -> benign_all e ss -> exec_all e ss = Some e' -> Inv e'.
Proof.
  induction ss as [|s ss IH]; intros e e' I B; cbn [UndoModel.exec_all].
  - intros E. injection E as <-. exact I.
  - destruct B as [B1 B2]. destruct (exec e s) as [e1|] eqn:E; [|discriminate]. intros H. eapply IH; [|apply B2; reflexivity|exact H]. eapply inv_exec; eauto.
Qed.

Hypothesis CW : cwd = [] \/ look f0 cwd <> None.

Lemma clean_inv cs : forall f, Inv (mkenv f cs) -> exists g, clean_all f (rev cs) = Some g /\ same g f0.
Proof.
  induction cs as [|c cs IH] using rev_ind; intros f I.
  - exists f. split; [reflexivity|]. intros p. destruct (look f0 p) as [k|] eqn:E; [now apply (i_keep _ I)|].
    destruct (look f p) as [k|] eqn:L; [|reflexivity]. destruct (proj2 (i_reg _ I p k)) as (c & [] & _). auto.
  - rewrite rev_app_distr. cbn [rev app UndoModel.clean_all]. destruct (i_plain _ I c) as [TY PL]; [apply in_or_app; right; now left|].
    rewrite (clean1_plain pm cwd wdir f c PL) by congruence.
    assert (RG : look f (c_path c) = Some (c_dir c) /\ look f0 (c_path c) = None).
    { apply (i_reg _ I). exists c. split; [apply in_or_app; right; now left | auto]. }
    destruct RG as [L L0]. pose proof (i_ord _ I) as O. cbn [e_cs] in O. apply fop_app in O as (O1 & _ & O2).
    assert (PN : c_path c <> []) by (intros Q; pose proof (tree_nil _ (i_tree _ I)) as TNL; cbn in TNL; rewrite Q, TNL in L; discriminate).
    assert (NC : forall s, s <> [] -> look f (c_path c ++ s) = None).
    { intros s S. destruct (look f (c_path c ++ s)) as [k|] eqn:Q; [|reflexivity]. exfalso.
      assert (Q0 : look f0 (c_path c ++ s) = None) by now apply tree_none.
      destruct (proj2 (i_reg _ I (c_path c ++ s) k)) as (x & X & P & _); [auto|]. cbn [e_cs] in X. apply in_app_or in X as [X|[<-|[]]].
      - apply (O2 x c X (or_introl eq_refl)). now exists s.
      - apply S. apply (app_inv_head (c_path c)). rewrite app_nil_r. now symmetry. }
    assert (ST : exists g, (if c_dir c then rmdir cwd f (c_path c) else rmfile f (c_path c)) = Ok g /\ forall p, look g p = if dir_eqb p (c_path c) then None else look f p).
    { destruct (c_dir c).
      - unfold rmdir. assert (W : sub cwd (c_path c) = false).
        { apply sub_not. intros (s & Q). destruct CW as [->|CW']; [destruct (c_path c); [congruence | discriminate]|]. apply CW'. rewrite Q. now apply tree_none. }
        rewrite W, L. assert (H : has_entries f (c_path c) = false).
        { destruct (has_entries f (c_path c)) eqn:H; [|reflexivity]. apply has_entries_iff in H as (s & S & H). now destruct (H (NC s S)). }
        rewrite H. exists (rm f (c_path c)). split; [reflexivity|]. intros p. apply look_rm.
      - unfold rmfile. rewrite L. exists (rm f (c_path c)). split; [reflexivity|]. intros p. apply look_rm. }
    destruct ST as (g & E & LG). rewrite E. apply IH. split; cbn [e_fs e_cs].
    + eapply (tree_removes_one f g (c_path c)); [apply I| |exact NC]. intros p. rewrite LG. destruct (dir_eqb p (c_path c)) eqn:Q; [right; split; [reflexivity | now apply dir_eqb_eq] | now left].
    + intros p k H. rewrite LG. destruct (dir_eqb p (c_path c)) eqn:Q; [apply dir_eqb_eq in Q; congruence | now apply (i_keep _ I)].
    + intros p k. rewrite LG. split.
      * intros (x & X & <- & <-). assert (N : dir_eqb (c_path x) (c_path c) = false).
        { apply dir_eqb_neq. intros Q. apply (O2 x c X (or_introl eq_refl)). rewrite Q. apply within_refl. }
        rewrite N. apply (i_reg _ I). exists x. split; [apply in_or_app; now left | auto].
      * destruct (dir_eqb p (c_path c)) eqn:Q; [intros [? _]; discriminate|]. intros H. apply (i_reg _ I) in H as (x & X & P & D). cbn [e_cs] in X.
        apply in_app_or in X as [X|[<-|[]]]; [exists x; auto|]. subst p. rewrite dir_eqb_refl in Q. discriminate.
    + intros x X. apply (i_plain _ I). apply in_or_app. now left.
    + exact O1.
Qed.
End Env.

(* Removal leaves no entry without a directory. *)
Section Tree.
Context (pm : list bytes -> list bytes -> bool) (cwd wdir : list bytes).
Lemma tree_rmfile f p g : tree f -> rmfile f p = Ok g -> tree g.
Proof.
  intros T E. apply rmfile_removes in E as (L & _ & R). eapply tree_removes_one; [exact T | exact R|]. intros s S. apply tree_file; auto.
  intros ->. rewrite (tree_nil _ T) in L. discriminate.
Qed.
Lemma tree_rmdir f p g : tree f -> rmdir cwd f p = Ok g -> tree g.
Proof. intros T E. apply rmdir_removes in E as (_ & _ & R & N & _). eapply tree_removes_one; eauto. Qed.
Lemma tree_rmdir_r f p self g : tree f -> rmdir_r cwd f p self = Ok g -> tree g.
Proof.
  intros T E. apply rmdir_r_removes in E as (L & S & N & R). split; [eapply gone_stays; [exact R | now apply tree_nil]|].
  intros q n k H. destruct (R (q ++ [n])) as [Q|[Q _]]; [|congruence]. rewrite Q in H. destruct (proj2 T _ _ _ H) as [->|H']; [now left|]. right.
  destruct (R q) as [Q'|[_ (s & Q')]]; [congruence|]. exfalso. rewrite <- Q in H. rewrite Q', <- app_assoc, N in H; [discriminate | now destruct s].
Qed.
Lemma tree_rm_found rec dir f p g : tree f -> rm_found cwd wdir rec dir f p = Some g -> tree g.
Proof.
  unfold rm_found. intros T. destruct dir; [destruct rec|].
  - destruct (rmdir_r cwd f p (negb (dir_eqb p wdir))) eqn:E; try discriminate; intros Q; injection Q as <-; [eapply tree_rmdir_r; eauto | exact T].
  - destruct (rmdir cwd f p) eqn:E; try discriminate; intros Q; injection Q as <-; [eapply tree_rmdir; eauto | exact T].
  - destruct (rmfile f p) eqn:E; try discriminate; intros Q; injection Q as <-; [eapply tree_rmfile; eauto | exact T].
Qed.
Lemma tree_rm_all rec dir ps : forall f g, tree f -> rm_all cwd wdir rec dir f ps = Some g -> tree g.
Proof.
  induction ps as [|p ps IH]; intros f g T; cbn [rm_all]; [intros E; injection E as <-; exact T|].
  destruct (rm_found cwd wdir rec dir f p) as [h|] eqn:E; [|discriminate]. apply IH. eapply tree_rm_found; eauto.
Qed.
Lemma tree_clean1 f c g : tree f -> clean1 pm cwd wdir f c = Some g -> tree g.
Proof.
  intros T H. assert (K : exists maybe : bool, c_type c = Never /\ g = f \/
    (let recursive := negb (c_dir c) && beqb (last (c_path c) []) (b "***") in
     let p := if recursive then removelast (c_path c) else c_path c in
     let dir := recursive || c_dir c in
     if is_pattern p then
      let l := found pm f p dir in
      match rm_all cwd wdir recursive dir f l with
      | None => None
      | Some f => match l with _ :: _ => Some f | [] => if maybe then Some f else None end
      end
    else if dir then
      match (if recursive then rmdir_r cwd f p (negb (dir_eqb p wdir)) else rmdir cwd f p) with
      | Ok f => Some f
      | NotExist => if maybe then Some f else None
      | _ => None
      end
    else
      match rmfile f p with
      | Ok f => Some f
      | NotExist => if maybe then Some f else None
      | _ => None
      end) = Some g).
  { unfold clean1 in H. destruct (c_type c); [exists false; now right | exists true; now right | exists true; left; split; congruence]. }
  clear H. destruct K as (maybe & [[_ ->]|H]); [exact T|]. cbn zeta in H.
  set (rec := negb (c_dir c) && beqb (last (c_path c) []) (b "***")) in *. set (p := if rec then removelast (c_path c) else c_path c) in *.
  destruct (is_pattern p).
  - destruct (rm_all cwd wdir rec (rec || c_dir c) f (found pm f p (rec || c_dir c))) as [h|] eqn:E; [|discriminate].
    assert (h = g) by (destruct (found pm f p (rec || c_dir c)); [destruct maybe|]; congruence). subst h. eapply tree_rm_all; eauto.
  - destruct (rec || c_dir c).
    + destruct rec.
      * destruct (rmdir_r cwd f p (negb (dir_eqb p wdir))) as [h| | |] eqn:E; try discriminate; [injection H as <-; eapply tree_rmdir_r; eauto|].
        destruct maybe; [injection H as <-; exact T | discriminate].
      * destruct (rmdir cwd f p) as [h| | |] eqn:E; try discriminate; [injection H as <-; eapply tree_rmdir; eauto|].
        destruct maybe; [injection H as <-; exact T | discriminate].
    + destruct (rmfile f p) as [h| | |] eqn:E; try discriminate; [injection H as <-; eapply tree_rmfile; eauto|].
      destruct maybe; [injection H as <-; exact T | discriminate].
Qed.
Lemma tree_clean f sp cs g : tree f -> clean pm cwd wdir f sp cs = Some g -> tree g.
Proof.
  intros T. unfold clean. destruct (clean_special f sp) as [h|] eqn:E; [|discriminate].
  assert (TH : tree h).
  { clear cs g. revert f T E. induction sp as [|p sp IH]; intros f T; cbn [clean_special]; [intros Q; injection Q as <-; exact T|].
    destruct (rmfile f p) as [f1| | |] eqn:E; try discriminate. apply IH. eapply tree_rmfile; eauto. }
  clear E T. generalize (rev cs). clear cs. intros cs. revert h TH. induction cs as [|c cs IH]; intros h TH; cbn [clean_all]; [intros Q; injection Q as <-; exact TH|].
  destruct (clean1 pm cwd wdir h c) as [h1|] eqn:E; [|discriminate]. apply IH. eapply tree_clean1; eauto.
Qed.
End Tree.
