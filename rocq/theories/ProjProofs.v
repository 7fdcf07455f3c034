(* Proofs about locating projects and buildfiles. *)
From Verif Require Import Base ProjModel ProjSpec.
From Coq Require Import Lia.

Lemma path_eqb_eq p q : path_eqb p q = true <-> p = q.
Proof.
  revert q. induction p as [|x p IH]; intros [|y q]; cbn; split; try discriminate; try reflexivity.
  - rewrite Bool.andb_true_iff, beqb_eq, IH. intros [-> ->]. reflexivity.
  - intros E. injection E as -> ->. rewrite Bool.andb_true_iff, beqb_eq, IH. split; reflexivity.
Qed.
Lemma path_eqb_refl p : path_eqb p p = true. Proof. now apply path_eqb_eq. Qed.
Lemma path_eqb_neq p q : path_eqb p q = false <-> p <> q.
Proof.
  destruct (path_eqb p q) eqn:E; [apply path_eqb_eq in E | ]; split; try discriminate; try congruence.
  intros _ H. apply path_eqb_eq in H. congruence.
Qed.

Lemma leaf_some d r l : leaf d r = Some l <-> d = l ++ r.
Proof.
  unfold leaf. split.
  - destruct (_ <=? _) eqn:L; cbn; [|discriminate]. destruct (path_eqb _ r) eqn:E; [|discriminate].
    apply path_eqb_eq in E. intros H. injection H as <-. rewrite <- E at 2. now rewrite firstn_skipn.
  - intros ->. rewrite app_length. replace (length r <=? length l + length r) with true by (symmetry; apply Nat.leb_le; lia).
    replace (length l + length r - length r) with (length l + 0) by lia. rewrite skipn_app, firstn_app.
    replace (length l + 0 - length l) with 0 by lia. rewrite skipn_all2 by lia. cbn. rewrite path_eqb_refl.
    rewrite firstn_all2 by lia. now rewrite app_nil_r.
Qed.
Lemma sub_inside d r : sub d r = true <-> inside d r.
Proof.
  unfold sub, inside. destruct (leaf d r) as [l|] eqn:E; split; try discriminate; try reflexivity.
  - intros _. exists l. now apply leaf_some.
  - intros [l ->]. assert (leaf (l ++ r) r = Some l) by now apply leaf_some. congruence.
Qed.
Lemma without_some d l r : without d l = Some r <-> d = l ++ r.
Proof.
  unfold without. split.
  - destruct (path_eqb _ l) eqn:E; [|discriminate]. apply path_eqb_eq in E. intros H. injection H as <-.
    rewrite <- E at 1. now rewrite firstn_skipn.
  - intros ->. rewrite firstn_app, firstn_all2, Nat.sub_diag, app_nil_r by lia. rewrite path_eqb_refl.
    rewrite skipn_app, skipn_all2, Nat.sub_diag by lia. reflexivity.
Qed.

Lemma inside_refl d : inside d d. Proof. now exists []. Qed.
Lemma inside_trans a c d : inside a c -> inside c d -> inside a d.
Proof. intros [l ->] [m ->]. exists (l ++ m). now rewrite app_assoc. Qed.
Lemma inside_len a c : inside a c -> length c <= length a. Proof. intros [l ->]. rewrite app_length. lia. Qed.
Lemma inside_cons c p r : inside (c :: p) r <-> r = c :: p \/ inside p r.
Proof.
  split.
  - intros [[|x l] E]; cbn in E; [now left|]. injection E as <- ->. right. now exists l.
  - intros [-> | [l ->]]; [apply inside_refl|]. now exists (c :: l).
Qed.
Lemma inside_same d r s : inside d r -> inside d s -> length s <= length r -> inside r s.
Proof.
  induction d as [|c p IH]; intros [l E] [m E'] L.
  - symmetry in E. apply app_eq_nil in E as [-> ->]. cbn in L. destruct s; [apply inside_refl | cbn in L; lia].
  - destruct l as [|y l]; cbn in E; [subst r; now exists m|]. injection E as <- ->.
    destruct m as [|z m]; cbn in E'; [subst s; cbn in L; rewrite app_length in L; lia|].
    injection E' as <- E'. apply IH; [now exists l | now exists m | exact L].
Qed.

Section P.
Context (F : fs).

Lemma reachable_cons c p r home : c :: p <> home -> (reachable home (c :: p) r <-> r = c :: p \/ reachable home p r).
Proof.
  intros H. split.
  - intros (I & N & A). apply inside_cons in I as [-> | I]; [now left|]. right. split; [exact I|]. split; [exact N|].
    intros m Hm. apply A. apply inside_cons. now right.
  - intros [-> | (I & N & A)].
    + split; [apply inside_refl|]. split; [discriminate|]. intros m Hm Hn.
      enough (m = c :: p) by congruence. pose proof (inside_len _ _ Hm). pose proof (inside_len _ _ Hn).
      destruct Hm as [[|x l] Hm]; [now rewrite Hm|]. rewrite Hm in H1. cbn in H1. rewrite app_length in H1. lia.
    + split; [apply inside_cons; now right|]. split; [exact N|]. intros m Hm Hn. apply inside_cons in Hm as [-> | Hm]; auto.
Qed.
Lemma reachable_home c p r : ~ reachable (c :: p) (c :: p) r.
Proof. intros (I & _ & A). apply (A (c :: p)); [apply inside_refl | exact I | reflexivity]. Qed.
Lemma reachable_root home r : ~ reachable home [] r.
Proof. intros ([l E] & N & _). symmetry in E. apply app_eq_nil in E as [_ ->]. congruence. Qed.

Lemma innermost_here (P : dir -> Prop) c p home : c :: p <> home -> P (c :: p) -> innermost P home (c :: p) (c :: p).
Proof.
  intros H HP. split; [apply reachable_cons; auto|]. split; [exact HP|]. intros m (I & _) _. exact I.
Qed.
Lemma innermost_up (P : dir -> Prop) c p home r :
  c :: p <> home -> ~ P (c :: p) -> innermost P home p r -> innermost P home (c :: p) r.
Proof.
  intros H HP (R & Pr & A). split; [apply reachable_cons; auto|]. split; [exact Pr|]. intros m Hm Pm.
  apply reachable_cons in Hm as [-> | Hm]; [contradiction | auto | exact H].
Qed.
Lemma none_up (P : dir -> Prop) c p home : c :: p <> home -> ~ P (c :: p) -> none P home p -> none P home (c :: p).
Proof. intros H HP N m Hm Pm. apply reachable_cons in Hm as [-> | Hm]; [contradiction | exact (N m Hm Pm) | exact H]. Qed.

Lemma is_src_root_none d s a : is_src_root F d None = (s, a) ->
  (s = true /\ src_dir F d /\ a = Some (f_boot F true d)) \/ (s = false /\ ~ src_dir F d /\ a = None).
Proof.
  unfold is_src_root, exists_, flag, src_dir. destruct (f_boot F true d) eqn:T; [|destruct (f_boot F false d) eqn:U]; intros E;
    injection E as <- <-; [left | left | right]; (split; [reflexivity|split; [|reflexivity]]).
  - now exists true.
  - now exists false.
  - intros [[] H]; congruence.
Qed.
Definition is_some {A} (x : option A) : bool := match x with Some _ => true | None => false end.
Lemma is_out_root_none d s a : is_out_root F d None = (s, a) ->
  (s = true /\ out_dir F d /\ a = Some (is_some (f_srcroot F true d))) \/ (s = false /\ ~ out_dir F d /\ a = None).
Proof.
  unfold is_out_root, exists_, out_dir. destruct (f_srcroot F true d) eqn:T; [|destruct (f_srcroot F false d) eqn:U]; intros E;
    injection E as <- <-; [left | left | right]; (split; [reflexivity|split; [|reflexivity]]).
  - eauto.
  - eauto.
  - intros [[] [v H]]; congruence.
Qed.

Lemma find_src_root_spec d o a : find_src_root F d None = (o, a) ->
  match o with
  | Some r => innermost (src_dir F) (f_home F) d r /\ a = Some (f_boot F true r)
  | None => none (src_dir F) (f_home F) d /\ a = None
  end.
Proof.
  revert o a. induction d as [|c p IH]; intros o a; cbn [find_src_root].
  - intros E. injection E as <- <-. split; [intros m Hm; now apply reachable_root in Hm | reflexivity].
  - destruct (path_eqb (c :: p) (f_home F)) eqn:H.
    + apply path_eqb_eq in H. intros E. injection E as <- <-. rewrite <- H. split; [|reflexivity].
      intros m Hm. now apply reachable_home in Hm.
    + apply path_eqb_neq in H. destruct (is_src_root F (c :: p) None) as [s a'] eqn:S.
      apply is_src_root_none in S as [(-> & S & ->) | (-> & S & ->)].
      * intros E. injection E as <- <-. split; [now apply innermost_here | reflexivity].
      * intros E. apply IH in E. destruct o as [r|]; destruct E as [E ->]; (split; [|reflexivity]);
          [now apply innermost_up | now apply none_up].
Qed.

Lemma find_out_root_spec d o a : find_out_root F d None = (o, a) ->
  match o with
  | Some (r, true) => innermost (project_dir F) (f_home F) d r /\ src_dir F r /\ a = Some (f_boot F true r)
  | Some (r, false) => innermost (project_dir F) (f_home F) d r /\ ~ src_dir F r /\ a = Some (is_some (f_srcroot F true r))
  | None => none (project_dir F) (f_home F) d /\ a = None
  end.
Proof.
  revert o a. induction d as [|c p IH]; intros o a; cbn [find_out_root].
  - intros E. injection E as <- <-. split; [intros m Hm; now apply reachable_root in Hm | reflexivity].
  - destruct (path_eqb (c :: p) (f_home F)) eqn:H.
    + apply path_eqb_eq in H. intros E. injection E as <- <-. rewrite <- H. split; [|reflexivity].
      intros m Hm. now apply reachable_home in Hm.
    + apply path_eqb_neq in H. destruct (is_src_root F (c :: p) None) as [s a'] eqn:S.
      apply is_src_root_none in S as [(-> & S & ->) | (-> & S & ->)].
      * intros E. injection E as <- <-. split; [|split; [exact S|reflexivity]]. apply innermost_here; [exact H | now left].
      * destruct (is_out_root F (c :: p) None) as [o' a'] eqn:O. apply is_out_root_none in O as [(-> & O & ->) | (-> & O & ->)].
        -- intros E. injection E as <- <-. split; [|split; [exact S|reflexivity]]. apply innermost_here; [exact H | now right].
        -- assert (~ project_dir F (c :: p)) by (intros [?|?]; contradiction).
           intros E. apply IH in E. destruct o as [[r []]|].
           ++ destruct E as (E & ? & ->). split; [now apply innermost_up | auto].
           ++ destruct E as (E & ? & ->). split; [now apply innermost_up | auto].
           ++ destruct E as (E & ->). split; [now apply none_up | auto].
Qed.

(* The innermost directory is unique. *)
Lemma inside_antisym a c : inside a c -> inside c a -> a = c.
Proof.
  intros [l ->] H. apply inside_len in H. rewrite app_length in H. destruct l; [reflexivity | cbn in H; lia].
Qed.
Lemma innermost_unique P home d r s : innermost P home d r -> innermost P home d s -> r = s.
Proof. intros (R & Pr & A) (R' & Pr' & A'). apply inside_antisym; auto. Qed.

Lemma exists_none {A} (f : bool -> dir -> option A) d altn x altn' : exists_ f d altn = (x, altn') ->
  match x with Some v => exists a, f a d = Some v | None => True end /\ (forall a, altn = Some a -> altn' = Some a).
Proof.
  unfold exists_. destruct altn as [a|].
  - intros E. injection E as <- <-. split; [destruct (f a d) eqn:G; [eauto | exact I] | auto].
  - destruct (f true d) eqn:T; [|destruct (f false d) eqn:U]; intros E; injection E as <- <-; split; eauto; discriminate.
Qed.

(* The search of a buildfile with a simple name: the first found. *)
Lemma find_loop_simple fuel sd root altn n c p r altn' :
  inside (match p with None => sd | Some p => tl p end) root ->
  (match n with Some n => n = [c] | None => exists a, altn = Some a /\ [c] = buildfile_name a end) ->
  find_loop F fuel sd root altn n p = (r, altn') ->
  altn' = altn /\
  let d := match p with None => sd | Some p => tl p end in
  match r with
  | Found f => exists m, f = c :: m /\ inside d m /\ inside m root /\ f_file F f = true /\
               (forall m', inside d m' -> inside m' m -> m' <> m -> f_file F (c :: m') = false)
  | FoundStdin => False
  | NotFound => forall m, inside d m -> inside m root -> f_file F (c :: m) = false
  | OutOfFuel => fuel <= length d - length root
  end.
Proof.
  revert p. induction fuel as [|fuel IH]; intros p Hi Hn; cbn [find_loop].
  - intros E. injection E as <- <-. split; [reflexivity|]. cbn. lia.
  - set (d := match p with None => sd | Some p => tl p end) in *.
    assert (exists e, probe F d altn n = (c :: d, e, altn) /\ e = f_file F (c :: d)) as (e & -> & ->).
    { unfold probe. destruct n as [n|]; [subst n; cbn; eauto|]. destruct Hn as (a & -> & <-). cbn. eauto. }
    destruct (f_file F (c :: d)) eqn:Fi.
    + intros E. injection E as <- <-. split; [reflexivity|]. cbn. exists d. split; [reflexivity|].
      split; [apply inside_refl|]. split; [exact Hi|]. split; [exact Fi|]. intros m' H1 H2 H3. destruct H3. now apply inside_antisym.
    + cbn [tl]. destruct (path_eqb d root) eqn:R.
      * apply path_eqb_eq in R. intros E. injection E as <- <-. split; [reflexivity|]. cbn. intros m H1 H2.
        rewrite <- R in H2. rewrite <- (inside_antisym _ _ H1 H2). exact Fi.
      * apply path_eqb_neq in R. destruct d as [|x d'] eqn:D.
        { destruct Hi as [l E]. symmetry in E. apply app_eq_nil in E as [_ ->]. congruence. }
        intros E. apply IH in E; [|cbn|exact Hn].
        2: { apply inside_cons in Hi as [Hi|Hi]; [congruence | exact Hi]. }
        destruct E as [-> E]. split; [reflexivity|]. cbn in E |- *. destruct r as [f| | |].
        -- destruct E as (m & -> & H1 & H2 & H3 & H4). exists m. split; [reflexivity|]. split; [apply inside_cons; now right|].
           split; [exact H2|]. split; [exact H3|]. intros m' A B C. apply inside_cons in A as [-> | A]; auto.
        -- exact E.
        -- intros m A B. apply inside_cons in A as [-> | A]; auto.
        -- assert (length root <= length d').
           { apply inside_cons in Hi as [Hi|Hi]; [congruence | now apply inside_len]. }
           destruct (length root); lia.
Qed.

(* More fuel does not matter. *)
Lemma find_loop_fuel fuel sd root altn n p r altn' :
  find_loop F fuel sd root altn n p = (r, altn') -> r <> OutOfFuel -> forall fuel', fuel <= fuel' ->
  find_loop F fuel' sd root altn n p = (r, altn').
Proof.
  revert altn p. induction fuel as [|fuel IH]; intros altn p; cbn [find_loop].
  - intros E. injection E as <- <-. congruence.
  - intros E N [|fuel'] L; [lia|]. cbn [find_loop].
    destruct (probe F _ altn n) as [[f e] altn''].
    destruct e; [exact E|]. destruct (path_eqb (tl f) root); [exact E|]. apply IH; [exact E | exact N | lia].
Qed.
Lemma find_buildfile_fuel fuel sd root altn n r altn' :
  find_buildfile F fuel sd root altn n = (r, altn') -> r <> OutOfFuel -> forall fuel', fuel <= fuel' ->
  find_buildfile F fuel' sd root altn n = (r, altn').
Proof. destruct n; cbn; auto; apply find_loop_fuel. Qed.
End P.
