From Verif Require Import Base LibModel LibSpec.
From Coq Require Import Permutation.

Lemma args_eqb_eq x y : args_eqb x y = true <-> x = y.
Proof. unfold args_eqb. destruct (list_eq_dec Nat.eq_dec x y); split; congruence. Qed.
Lemma tag_eqb_eq x y : tag_eqb x y = true <-> x = y.
Proof.
  destruct x, y; cbn; rewrite ?Nat.eqb_eq, ?args_eqb_eq; split; intro H; try discriminate; congruence.
Qed.
Lemma tag_eqb_refl x : tag_eqb x x = true.
Proof. now apply tag_eqb_eq. Qed.
Lemma tag_eqb_neq x y : tag_eqb x y = false <-> x <> y.
Proof. rewrite <- tag_eqb_eq. destruct tag_eqb; split; congruence. Qed.
Lemma tag_dec (x y : tag) : {x = y} + {x <> y}.
Proof. destruct (tag_eqb x y) eqn: E; [left; now apply tag_eqb_eq | right; now apply tag_eqb_neq]. Qed.

(* Blocks *)
Notation tags := (map (@fst tag (list arg))).
Notation cat bs := (concat (map (@snd tag (list arg)) bs)).

Inductive touched (bs : list block) (t : tag) (ys : list arg) : list block -> Prop :=
| touched_new : (tracked t = true -> ~ In t (tags bs)) -> touched bs t ys (bs ++ [(t, ys)])
| touched_move b1 zs b2 : tracked t = true -> bs = b1 ++ (t, zs) :: b2 -> touched bs t ys (b1 ++ b2 ++ [(t, zs)]).

Definition placed (base : list arg) (bs : list block) (e : entry) : Prop :=
  tracked (what e) = true /\
  exists b1 xs b2, bs = b1 ++ (what e, xs) :: b2 /\ end_ e = At (begin e + length xs) /\
    (xs <> [] -> begin e = length base + length (cat b1)).
Record rep (base : list arg) (s : state) (bs : list block) : Prop := {
  rep_args : args s = base ++ cat bs;
  rep_once : NoDup (filter tracked (tags bs));
  rep_unique : NoDup (map what (entries s));
  rep_has : forall t, tracked t = true -> In t (tags bs) -> In t (map what (entries s));
  rep_placed : Forall (placed base bs) (entries s) }.

Lemma find_entry_some es t e : find_entry es t = Some e -> In e es /\ what e = t.
Proof. intro H. apply find_some in H as (I & E). apply tag_eqb_eq in E. auto. Qed.
Lemma find_entry_none es t : find_entry es t = None -> ~ In t (map what es).
Proof.
  intros H I. apply in_map_iff in I as (e & E & I). pose proof (find_none _ _ H e I) as F. cbn in F. rewrite E, tag_eqb_refl in F. discriminate.
Qed.

Lemma NoDup_once {A} (l : list A) x a c d e : NoDup l -> l = a ++ x :: c -> l = d ++ x :: e -> a = d /\ c = e.
Proof.
  revert a d. induction l as [| y l IH]; intros a d N E1 E2; [destruct a; discriminate |].
  inversion N; subst. destruct a as [| a1 a], d as [| d1 d]; cbn in *; injection E1 as -> ->; injection E2.
  - auto.
  - intros -> <-. exfalso. apply H1. rewrite in_app_iff. cbn. auto.
  - intros <- <-. exfalso. apply H1. rewrite in_app_iff. cbn. auto.
  - intros E -> . destruct (IH a d H2 eq_refl E) as (-> & ->). auto.
Qed.
Lemma filter_split {A} (f : A -> bool) l x a c : l = a ++ x :: c -> f x = true -> filter f l = filter f a ++ x :: filter f c.
Proof. intros -> F. rewrite filter_app. cbn. now rewrite F. Qed.
Lemma tags_split bs t xs b1 b2 : bs = b1 ++ (t, xs) :: b2 -> tags bs = tags b1 ++ t :: tags b2.
Proof. intros ->. rewrite map_app. auto. Qed.
Lemma once_notin bs t xs b1 b2 : NoDup (filter tracked (tags bs)) -> bs = b1 ++ (t, xs) :: b2 -> tracked t = true -> ~ In t (tags b1) /\ ~ In t (tags b2).
Proof.
  intros N E T. rewrite (filter_split tracked _ _ _ _ (tags_split _ _ _ _ _ E) T) in N. apply NoDup_remove_2 in N.
  rewrite in_app_iff, !filter_In in N. tauto.
Qed.
Lemma once_split bs t : NoDup (filter tracked (tags bs)) -> tracked t = true ->
  forall a xs c d ys e, bs = a ++ (t, xs) :: c -> bs = d ++ (t, ys) :: e -> a = d /\ xs = ys /\ c = e.
Proof.
  intros N T a xs c d ys e E1. subst bs. destruct (once_notin _ _ _ _ _ N eq_refl T) as (N1 & N2). clear N. revert d.
  induction a as [| x a IH]; intros d E2; cbn in *.
  - destruct d as [| y d]; cbn in E2; [injection E2 as -> ->; auto |].
    injection E2 as <- ->. exfalso. apply N2. rewrite map_app, in_app_iff. cbn. auto.
  - destruct d as [| y d]; cbn in E2.
    + injection E2 as -> <-. exfalso. apply N1. cbn. auto.
    + injection E2 as <- E2. destruct (IH ltac:(cbn in N1; tauto) d E2) as (-> & -> & ->). auto.
Qed.

Lemma cat_app (a c : list block) : cat (a ++ c) = cat a ++ cat c.
Proof. now rewrite map_app, concat_app. Qed.

Lemma hoist_rep base s bs e t b1 xs b2 : rep base s bs -> In e (entries s) -> what e = t -> bs = b1 ++ (t, xs) :: b2 ->
  exists s', hoist s e = Ok s' /\ rep base s' (b1 ++ b2 ++ [(t, xs)]) /\ hashed s' = hashed s /\ Permutation (args s) (args s').
Proof.
  intros R I E B. destruct R as [RA RO RU RH RP]. pose proof RP as RP0. rewrite Forall_forall in RP0.
  pose proof (RP0 e I) as (T & c1 & ys & c2 & B' & EN & BG). rewrite E in *.
  destruct (once_split _ _ RO T _ _ _ _ _ _ B B') as (<- & <- & <-). clear B'.
  assert (ON : NoDup (filter tracked (tags (b1 ++ b2 ++ [(t, xs)])))).
  { eapply Permutation_NoDup; [| exact RO]. rewrite B, !map_app, !filter_app. cbn [map filter fst]. rewrite T.
    apply Permutation_app_head. apply Permutation_cons_append. }
  assert (HT : forall u, In u (tags (b1 ++ b2 ++ [(t, xs)])) -> In u (tags bs)).
  { intros u U. rewrite B. rewrite !map_app, !in_app_iff in *. cbn in *. intuition auto. }
  unfold hoist. rewrite EN. destruct (begin e =? begin e + length xs) eqn: Z.
  - apply Nat.eqb_eq in Z. assert (xs = []) as -> by (destruct xs; [auto | cbn in Z; lia]).
    exists s. split; [auto |]. split; [| split; [auto |]].
    2: { apply Permutation_refl. }
    constructor; auto.
    + rewrite RA, B, !cat_app. cbn. now rewrite app_nil_r.
    + apply Forall_forall. intros e1 I1. destruct (RP0 e1 I1) as (T1 & d1 & ys & d2 & B1 & E1 & G1). split; auto.
      destruct (tag_dec (what e1) t) as [W | W].
      * rewrite W in *. destruct (once_split _ _ RO T _ _ _ _ _ _ B B1) as (<- & <- & <-).
        exists (b1 ++ b2), [], []. rewrite <- app_assoc. cbn. split; [auto |]. split; [auto |]. congruence.
      * assert (IN : In (what e1, ys) (b1 ++ b2)).
        { assert (IN : In (what e1, ys) bs) by (rewrite B1, in_app_iff; cbn; auto). rewrite B, in_app_iff in IN. rewrite in_app_iff. cbn in IN.
          destruct IN as [| [IN |]]; auto. congruence. }
        apply in_app_iff in IN as [IN | IN]; apply in_split in IN as (f1 & f2 & ->).
        -- exists f1, ys, (f2 ++ b2 ++ [(t, [])]). rewrite <- app_assoc. split; [auto |]. split; [auto |]. intro Y. rewrite (G1 Y).
           assert (S1 : bs = f1 ++ (what e1, ys) :: f2 ++ (t, []) :: b2) by (rewrite B, <- app_assoc; auto).
           destruct (once_split _ _ RO T1 _ _ _ _ _ _ B1 S1) as (-> & _). auto.
        -- exists (b1 ++ f1), ys, (f2 ++ [(t, [])]). rewrite <- !app_assoc. split; [auto |]. split; [auto |]. intro Y. rewrite (G1 Y).
           assert (S1 : bs = (b1 ++ (t, []) :: f1) ++ (what e1, ys) :: f2) by (rewrite B, <- app_assoc; auto).
           destruct (once_split _ _ RO T1 _ _ _ _ _ _ B1 S1) as (-> & _). rewrite !cat_app. cbn. auto.
  - apply Nat.eqb_neq in Z. assert (NX : xs <> []) by (intros ->; cbn in Z; lia). specialize (BG NX).
    assert (LX : 0 < length xs) by (destruct xs; cbn; [congruence | lia]).
    assert (RA' : args s = (base ++ cat b1) ++ xs ++ cat b2).
    { rewrite RA, B, cat_app. cbn. now rewrite <- app_assoc. }
    assert (LB : begin e = length (base ++ cat b1)) by (rewrite app_length; lia).
    replace (begin e <? begin e + length xs) with true by (symmetry; apply Nat.ltb_lt; lia).
    replace (begin e + length xs <=? length (args s)) with true by (symmetry; apply Nat.leb_le; rewrite RA', !app_length in *; lia).
    cbn [andb].
    assert (F1 : firstn (begin e) (args s) = base ++ cat b1) by (rewrite RA', LB; apply firstn_app_l || (rewrite firstn_app, firstn_all, Nat.sub_diag; cbn; now rewrite app_nil_r)).
    assert (F2 : firstn (begin e + length xs) (args s) = (base ++ cat b1) ++ xs).
    { rewrite RA', LB, app_assoc. rewrite <- app_length. rewrite firstn_app, firstn_all, Nat.sub_diag. cbn. now rewrite app_nil_r. }
    assert (F3 : skipn (begin e + length xs) (args s) = cat b2).
    { rewrite RA', LB, app_assoc, <- app_length. rewrite skipn_app, skipn_all, Nat.sub_diag. auto. }
    assert (F4 : skipn (begin e) ((base ++ cat b1) ++ xs) = xs).
    { rewrite LB, skipn_app, skipn_all, Nat.sub_diag. auto. }
    rewrite F1, F2, F3, F4.
    assert (SZ : length ((base ++ cat b1) ++ cat b2 ++ xs) = length base + length (cat b1) + length (cat b2) + length xs) by (rewrite !app_length; lia).
    eexists. split; [reflexivity |]. split; [| split; [reflexivity |]].
    2: { cbn [args]. rewrite RA'. apply Permutation_app_head, Permutation_app_comm. }
    constructor; cbn [args entries].
    + rewrite !cat_app. cbn. rewrite app_nil_r, <- app_assoc. auto.
    + auto.
    + rewrite !map_map. erewrite map_ext; [exact RU |]. intro a. cbn. destruct (begin e + length xs <=? begin a); destruct (tag_eqb _ _); auto.
    + intros u U V. apply HT in V. apply RH in V; auto. rewrite !map_map. erewrite map_ext; [exact V |].
      intro a. cbn. destruct (begin e + length xs <=? begin a); destruct (tag_eqb _ _); auto.
    + apply Forall_forall. intros e2 I2. apply in_map_iff in I2 as (e1' & <- & I2). apply in_map_iff in I2 as (e1 & <- & I1).
      destruct (RP0 e1 I1) as (T1 & d1 & ys & d2 & B1 & E1 & G1).
      set (sh := if begin e + length xs <=? begin e1 then mkentry (what e1) (begin e1 - (begin e + length xs - begin e)) (match end_ e1 with At m => At (m - (begin e + length xs - begin e)) | _ => Wrapped end) else e1).
      assert (W1 : what sh = what e1) by (unfold sh; destruct (_ <=? _); auto).
      rewrite W1. destruct (tag_eqb (what e1) (what e)) eqn: W.
      * apply tag_eqb_eq in W. rewrite W, E in *. split; [auto |]. exists (b1 ++ b2), xs, []. cbn [what begin end_]. rewrite <- app_assoc. split; [auto |].
        split; [f_equal; rewrite SZ; lia |]. intros _. rewrite SZ, cat_app, app_length. lia.
      * apply tag_eqb_neq in W. rewrite E in W. unfold placed. rewrite W1. split; [auto |].
        assert (IN : In (what e1, ys) (b1 ++ b2)).
        { assert (IN : In (what e1, ys) bs) by (rewrite B1, in_app_iff; cbn; auto). rewrite B, in_app_iff in IN. rewrite in_app_iff. cbn in IN.
          destruct IN as [| [IN |]]; auto. congruence. }
        assert (EN2 : end_ sh = At (begin sh + length ys)).
        { unfold sh. destruct (begin e + length xs <=? begin e1) eqn: LE; [| auto]. apply Nat.leb_le in LE. cbn. rewrite E1. f_equal. lia. }
        apply in_app_iff in IN as [IN | IN]; apply in_split in IN as (f1 & f2 & ->).
        -- exists f1, ys, (f2 ++ b2 ++ [(t, xs)]). rewrite <- app_assoc. split; [auto |]. split; [auto |]. intro Y.
           assert (S1 : bs = f1 ++ (what e1, ys) :: f2 ++ (t, xs) :: b2) by (rewrite B, <- app_assoc; auto).
           destruct (once_split _ _ RO T1 _ _ _ _ _ _ B1 S1) as (-> & _). specialize (G1 Y).
           rewrite !cat_app, !app_length in LB. cbn in LB. unfold sh. destruct (begin e + length xs <=? begin e1) eqn: LE; [apply Nat.leb_le in LE; lia | auto].
        -- exists (b1 ++ f1), ys, (f2 ++ [(t, xs)]). rewrite <- !app_assoc. split; [auto |]. split; [auto |]. intro Y.
           assert (S1 : bs = (b1 ++ (t, xs) :: f1) ++ (what e1, ys) :: f2) by (rewrite B, <- app_assoc; auto).
           destruct (once_split _ _ RO T1 _ _ _ _ _ _ B1 S1) as (-> & _). specialize (G1 Y).
           rewrite cat_app, app_length in *. cbn in G1. rewrite app_length in G1. unfold sh. destruct (begin e + length xs <=? begin e1) eqn: LE; [cbn; lia | apply Nat.leb_gt in LE; lia].
Qed.

Lemma placed_app base bs c e : placed base bs e -> placed base (bs ++ c) e.
Proof.
  intros (T & b1 & xs & b2 & -> & H). split; auto. exists b1, xs, (b2 ++ c). rewrite <- app_assoc. auto.
Qed.
Lemma rep_entry base s bs t : rep base s bs -> In t (map what (entries s)) -> tracked t = true /\ In t (tags bs).
Proof.
  intros R I. apply in_map_iff in I as (e & <- & I). pose proof (rep_placed _ _ _ R) as P. rewrite Forall_forall in P.
  destruct (P e I) as (T & b1 & xs & b2 & -> & _). split; auto. rewrite map_app, in_app_iff. cbn. auto.
Qed.
Lemma rep_push base s bs t ys : tracked t = false -> rep base s bs -> rep base (push s ys) (bs ++ [(t, ys)]).
Proof.
  intros T [RA RO RU RH RP]. constructor; cbn.
  - rewrite RA, cat_app. cbn. now rewrite app_nil_r, app_assoc.
  - rewrite map_app, filter_app. cbn. now rewrite T, app_nil_r.
  - auto.
  - intros u U. rewrite map_app, in_app_iff. cbn. intros [| [-> | []]]; auto. congruence.
  - eapply Forall_impl; [| exact RP]. intro. apply placed_app.
Qed.
(* A new entry: opened, with something already pushed, and closed. *)
Lemma rep_new base s bs t ys zs h : tracked t = true -> rep base s bs -> ~ In t (tags bs) ->
  rep base (mkstate ((args s ++ ys) ++ zs) (set_end (entries s ++ [mkentry t (length (args s)) Open]) t (length ((args s ++ ys) ++ zs))) h) (bs ++ [(t, ys ++ zs)]).
Proof.
  intros T R N. assert (N' : ~ In t (map what (entries s))) by (intro I; apply N; eapply rep_entry; eauto).
  destruct R as [RA RO RU RH RP].
  assert (S : set_end (entries s ++ [mkentry t (length (args s)) Open]) t (length ((args s ++ ys) ++ zs)) = entries s ++ [mkentry t (length (args s)) (At (length ((args s ++ ys) ++ zs)))]).
  { unfold set_end. rewrite map_app. cbn. rewrite tag_eqb_refl. f_equal. rewrite <- (map_id (entries s)) at 2. apply map_ext_in. intros e I.
    destruct (tag_eqb (what e) t) eqn: E; auto. apply tag_eqb_eq in E as <-. exfalso. apply N', in_map, I. }
  rewrite S. constructor; cbn.
  - rewrite RA, cat_app. cbn. now rewrite app_nil_r, !app_assoc.
  - rewrite map_app, filter_app. cbn. rewrite T. apply NoDup_Add with (a := t) (l := filter tracked (tags bs)).
    + rewrite <- (app_nil_r (filter tracked (tags bs))) at 1. apply Add_app.
    + split; [auto |]. rewrite filter_In. tauto.
  - rewrite map_app. cbn. apply NoDup_Add with (a := t) (l := map what (entries s)).
    + rewrite <- (app_nil_r (map what (entries s))) at 1. apply Add_app.
    + auto.
  - intros u U. rewrite !map_app, !in_app_iff. cbn. intros [| [-> | []]]; auto.
  - apply Forall_app. split.
    + eapply Forall_impl; [| exact RP]. intro. apply placed_app.
    + repeat constructor; auto. exists bs, (ys ++ zs), []. cbn. split; [auto |]. split; [f_equal; rewrite !app_length; lia |].
      intros _. rewrite RA, app_length. auto.
Qed.

Lemma find_new es t n : ~ In t (map what es) -> find_entry es t = None /\ find_entry (es ++ [mkentry t n Open]) t = Some (mkentry t n Open).
Proof.
  unfold find_entry. induction es as [| e es IH]; cbn; intro N.
  - now rewrite tag_eqb_refl.
  - destruct (tag_eqb (what e) t) eqn: E; [apply tag_eqb_eq in E; tauto |]. apply IH. tauto.
Qed.
Lemma find_old es t : In t (map what es) -> exists e, find_entry es t = Some e /\ In e es /\ what e = t.
Proof.
  intro I. destruct (find_entry es t) as [e |] eqn: F.
  - exists e. split; auto. now apply find_entry_some.
  - exfalso. eapply find_entry_none; eauto.
Qed.
Lemma rep_closed base s bs e : rep base s bs -> In e (entries s) -> exists n, end_ e = At n.
Proof. intros R I. pose proof (rep_placed _ _ _ R) as P. rewrite Forall_forall in P. destruct (P e I) as (_ & _ & xs & _ & _ & -> & _). eauto. Qed.
Lemma in_tags_split bs t : In t (tags bs) -> exists b1 xs b2, bs = b1 ++ (t, xs) :: b2.
Proof. intro I. apply in_map_iff in I as ((u & xs) & <- & I). apply in_split in I as (b1 & b2 & ->). eauto. Qed.

(* The lib callback *)
Lemma on_lib_rep base s bs t xs : rep base s bs -> Permutation (args s) (hashed s) ->
  exists s', on_lib s t xs false = Ok (s', true) /\ Permutation (args s') (hashed s') /\ exists bs', rep base s' bs' /\ touched bs t xs bs'.
Proof.
  intros R P. unfold on_lib. destruct (tracked t) eqn: T.
  - destruct (in_dec tag_dec t (tags bs)) as [I | N].
    + destruct (find_old (entries s) t (rep_has _ _ _ R t T I)) as (e & F & IE & WE).
      unfold append. rewrite F, F. destruct (rep_closed _ _ _ _ R IE) as (n & EN). rewrite EN.
      destruct (in_tags_split _ _ I) as (b1 & zs & b2 & B).
      destruct (hoist_rep _ _ _ _ _ _ _ _ R IE WE B) as (s' & HO & R' & HH & HP). rewrite HO. cbn.
      exists s'. split; [auto |]. split; [rewrite HH, <- HP; auto |]. eexists. split; [exact R' |]. now constructor.
    + assert (N' : ~ In t (map what (entries s))) by (intro I; apply N; eapply rep_entry; eauto).
      destruct (find_new (entries s) t (length (args s)) N') as (F1 & F2). unfold append. rewrite F1. cbn [entries]. rewrite F2. cbn [end_].
      eexists. split; [reflexivity |]. split; [now apply Permutation_app_tail |]. exists (bs ++ [(t, xs)]). split; [| now constructor].
      pose proof (rep_new base s bs t [] xs (hashed s ++ xs) T R N) as H. rewrite app_nil_r in H. exact H.
  - eexists. split; [reflexivity |]. split; [now apply Permutation_app_tail |]. exists (bs ++ [(t, xs)]). split; [now apply rep_push |].
    constructor. congruence.
Qed.
Lemma lib_step G base s bs l w xs : rep base s bs -> Permutation (args s) (hashed s) -> (w = true -> exports (G l) = false) ->
  exists s' go, on_lib (if exports (G l) then on_opt s l (options (G l)) else s) (lib_tag l w) xs (binless (G l)) = Ok (s', go) /\
    Permutation (args s') (hashed s') /\
    if go then exists bs', rep base s' bs' /\ touched bs (lib_tag l w) ((if exports (G l) then options (G l) else []) ++ xs) bs'
    else s' = s /\ w = false /\ binless (G l) = true /\ In (Library l) (tags bs).
Proof.
  intros R P W. destruct w; cbn [lib_tag].
  - rewrite (W eq_refl). exists (push s xs), true. split; [reflexivity |]. split; [now apply Permutation_app_tail |].
    exists (bs ++ [(Whole l, xs)]). split; [now apply rep_push |]. constructor. discriminate.
  - destruct (in_dec tag_dec (Library l) (tags bs)) as [I | N].
    + destruct (find_old (entries s) (Library l) (rep_has _ _ _ R (Library l) eq_refl I)) as (e & F & IE & WE).
      destruct (rep_closed _ _ _ _ R IE) as (n & EN).
      assert (O : (if exports (G l) then on_opt s l (options (G l)) else s) = s).
      { destruct (exports (G l)); auto. unfold on_opt, append. rewrite F, F, EN. auto. }
      rewrite O. unfold on_lib, append. cbn [tracked]. rewrite F, F, EN. destruct (binless (G l)) eqn: BL.
      * exists s, false. auto 8.
      * destruct (in_tags_split _ _ I) as (b1 & zs & b2 & B).
        destruct (hoist_rep _ _ _ _ _ _ _ _ R IE WE B) as (s' & HO & R' & HH & HP). rewrite HO. cbn.
        exists s', true. split; [auto |]. split; [rewrite HH, <- HP; auto |]. eexists. split; [exact R' |]. now constructor.
    + assert (N' : ~ In (Library l) (map what (entries s))) by (intro I; apply N; eapply rep_entry; eauto).
      destruct (find_new (entries s) (Library l) (length (args s)) N') as (F1 & F2).
      destruct (exports (G l)).
      * unfold on_opt, append. rewrite F1. cbn [entries]. rewrite F2. cbn [end_]. unfold on_lib, append. cbn [tracked push entries args]. rewrite F2. cbn [entries push]. rewrite F2. cbn [end_].
        eexists _, true. split; [reflexivity |]. split; [now apply Permutation_app_tail, Permutation_app_tail |].
        eexists. split; [exact (rep_new base s bs (Library l) (options (G l)) xs _ eq_refl R N) |]. now constructor.
      * unfold on_lib, append. cbn [tracked]. rewrite F1. cbn [entries]. rewrite F2. cbn [end_].
        eexists _, true. split; [reflexivity |]. split; [now apply Permutation_app_tail |]. exists (bs ++ [(Library l, xs)]). split; [| now constructor].
        pose proof (rep_new base s bs (Library l) [] xs (hashed s ++ xs) eq_refl R N) as H. rewrite app_nil_r in H. exact H.
Qed.

(* What follows what *)
Definition follows (bs : list block) (t u : tag) : Prop := forall b1 xs b2, bs = b1 ++ (t, xs) :: b2 -> In u (tags b2).
Lemma app_cons_split {A} (a c d : list A) x e : a ++ c = d ++ x :: e ->
  (exists k, a = d ++ x :: k /\ e = k ++ c) \/ (exists k, c = k ++ x :: e /\ d = a ++ k).
Proof.
  revert d. induction a as [| y a IH]; intros d E; cbn in E.
  - right. exists d. auto.
  - destruct d as [| z d]; cbn in E; injection E as -> E.
    + left. exists a. auto.
    + destruct (IH d E) as [(k & -> & ->) | (k & -> & ->)]; [left | right]; exists k; auto.
Qed.
Lemma touched_follows bs c ys bs' t u : touched bs c ys bs' -> c <> t -> follows bs t u -> follows bs' t u.
Proof.
  intros H N F. destruct H as [_ | b1 zs b2 _ B]; intros d1 xs d2 E.
  - apply app_cons_split in E as [(k & E & ->) | (k & E & ->)].
    + apply F in E. rewrite map_app, in_app_iff. auto.
    + destruct k as [| x [| y k]]; cbn in E; try discriminate. congruence.
  - rewrite app_assoc in E. apply app_cons_split in E as [(k & E & ->) | (k & E & ->)].
    2: { destruct k as [| x [| y k]]; cbn in E; try discriminate. congruence. }
    rewrite map_app, in_app_iff. cbn. apply app_cons_split in E as [(j & -> & ->) | (j & -> & ->)].
    + rewrite <- app_assoc in B. apply F in B. rewrite map_app, in_app_iff in B. rewrite map_app, in_app_iff. cbn in B. tauto.
    + assert (B' : bs = (b1 ++ (c, zs) :: j) ++ (t, xs) :: k) by (rewrite B, <- app_assoc; reflexivity).
      apply F in B'. auto.
Qed.
Lemma touched_last bs c ys bs' t : touched bs c ys bs' -> c <> t -> follows bs' t c.
Proof.
  intros H N d1 xs d2 E. assert (exists a zs, bs' = a ++ [(c, zs)]) as (a & zs & ->).
  { destruct H; [eauto |]. rewrite app_assoc. eauto. }
  apply app_cons_split in E as [(k & _ & ->) | (k & E & _)].
  - rewrite map_app, in_app_iff. cbn. auto.
  - destruct k as [| x [| y k]]; cbn in E; try discriminate. congruence.
Qed.
Lemma touched_tags bs c ys bs' u : touched bs c ys bs' -> In u (tags bs') <-> u = c \/ In u (tags bs).
Proof.
  intro H. destruct H as [_ | b1 zs b2 _ ->]; rewrite !map_app, !in_app_iff; cbn; intuition auto.
Qed.
Lemma proper_incl G ts ts' x : incl ts ts' -> proper G ts x -> proper G ts' x.
Proof.
  intro I. assert (C : forall l, contained G ts l -> contained G ts' l) by (intros l (U & y & w & H & R & J); split; [auto |]; exists y, w; auto).
  unfold proper. destruct (fst x); auto; intros [| (H & E)]; auto.
Qed.
Lemma touched_proper G ts bs c ys bs' : touched bs c ys bs' -> Forall (proper G ts) bs -> proper G ts (c, ys) -> Forall (proper G ts) bs'.
Proof.
  intros H F P. destruct H as [_ | b1 zs b2 _ ->]; rewrite !Forall_app in *.
  - auto.
  - destruct F as (F1 & F2). inversion F2; subst. auto.
Qed.

Section Graph.
Context (G : nat -> library).

Record sound (prog : list tag) (bs : list block) : Prop := {
  sound_prog : incl prog (tags bs);
  sound_proper : Forall (proper G (tags bs)) bs;
  sound_use : forall t l d, In t (tags bs) -> library_of t = Some l -> ~ In t prog -> In d (uses G l) ->
    In (dep_tag d) (tags bs) /\ (~ nothing G (dep_tag d) -> follows bs t (dep_tag d));
  sound_acyclic : forall t l, In t (tags bs) -> library_of t = Some l -> ~ In t prog -> acyclic G l }.
Definition evolves (prog : list tag) (bs bs' : list block) : Prop :=
  (forall t, In t (tags bs) -> In t (tags bs')) /\ (forall t u, In t prog -> follows bs t u -> follows bs' t u).
(* Is there, after everything in progress *)
Definition there (prog : list tag) (bs : list block) (t : tag) : Prop :=
  In t (tags bs) /\ (~ nothing G t -> forall c, In c prog -> follows bs c t).

Lemma evolves_refl prog bs : evolves prog bs bs.
Proof. split; auto. Qed.
Lemma evolves_trans prog x y z : evolves prog x y -> evolves prog y z -> evolves prog x z.
Proof. intros (A & B) (C & D). split; auto. Qed.
Lemma evolves_sub p1 p2 x y : incl p2 p1 -> evolves p1 x y -> evolves p2 x y.
Proof. intros I (A & B). split; auto. Qed.
Lemma evolves_touched prog bs c ys bs' : ~ In c prog -> touched bs c ys bs' -> evolves prog bs bs'.
Proof.
  intros N T. split.
  - intros t I. rewrite (touched_tags _ _ _ _ _ T). auto.
  - intros t u I. apply (touched_follows _ _ _ _ _ _ T). congruence.
Qed.
Lemma there_evolves prog bs bs' t : evolves prog bs bs' -> there prog bs t -> there prog bs' t.
Proof. intros (A & B) (I & F). split; auto. Qed.
Lemma there_touched prog bs c ys bs' : ~ In c prog -> touched bs c ys bs' -> there prog bs' c.
Proof.
  intros N T. split.
  - rewrite (touched_tags _ _ _ _ _ T). auto.
  - intros _ t I. apply (touched_last _ _ _ _ _ T). congruence.
Qed.
Lemma there_sub p1 p2 bs t : incl p2 p1 -> there p1 bs t -> there p2 bs t.
Proof. intros I (A & B). split; auto. Qed.
Lemma sound_touched prog bs c ys bs' : sound prog bs -> touched bs c ys bs' -> proper G (tags bs) (c, ys) -> sound (c :: prog) bs'.
Proof.
  intros [Q P U A] T PR. assert (I0 : incl (tags bs) (tags bs')) by (intros u I; apply (touched_tags _ _ _ _ _ T); auto). constructor.
  - intros u [<- | I]; [apply (touched_tags _ _ _ _ _ T) |]; auto.
  - eapply touched_proper; [eauto | | eapply proper_incl; eauto]. eapply Forall_impl; [| exact P]. intro. now apply proper_incl.
  - intros t l d I L N D. apply (touched_tags _ _ _ _ _ T) in I. rewrite (touched_tags _ _ _ _ _ T). cbn in N. destruct I as [-> | I]; [tauto |].
    destruct (U t l d I L ltac:(tauto) D) as (X & Y). split; auto. intro Z. apply (touched_follows _ _ _ _ _ _ T); auto.
  - intros t l I L N. rewrite (touched_tags _ _ _ _ _ T) in I. cbn in N. destruct I as [-> | I]; [tauto |]. eauto.
Qed.
Lemma sound_leave prog bs t : sound (t :: prog) bs ->
  (forall l d, library_of t = Some l -> In d (uses G l) -> there [t] bs (dep_tag d)) ->
  (forall l, library_of t = Some l -> acyclic G l) -> sound prog bs.
Proof.
  intros [Q P U A] D C. constructor; auto.
  - intros u I. apply Q. cbn. auto.
  - intros u l d I L N E. destruct (tag_dec t u) as [-> | NE].
    + destruct (D l d L E) as (X & Y). split; auto. intro Z. apply Y; cbn; auto.
    + apply (U u l d); auto. cbn. intros [| ]; auto.
  - intros u l I L N. destruct (tag_dec t u) as [-> | NE]; [eauto |]. apply (A u l); auto. cbn. intros [|]; auto.
Qed.

Definition prog_of (chain : list (nat * bool)) : list tag := map (fun c => lib_tag (fst c) (snd c)) chain.
Lemma prog_in chain l w : In (lib_tag l w) (prog_of chain) -> in_chain l chain = true.
Proof.
  intro I. apply in_map_iff in I as ((x & v) & E & I). unfold in_chain. apply existsb_exists. exists (x, v). split; auto. cbn in *.
  apply Nat.eqb_eq. destruct w, v; cbn in E; congruence.
Qed.
Lemma library_lib_tag l w : library_of (lib_tag l w) = Some l.
Proof. now destruct w. Qed.

(* What has been seen by proc_intf () *)
Definition seen (prog : list tag) (bs : list block) (l : nat) : Prop := acyclic G l /\ there prog bs (lib_tag l (default_whole (G l))).
Definition extends (prog : list tag) (bs : list block) (dd dd' : option (list nat)) : Prop :=
  match dd with
  | None => dd' = None
  | Some d => exists new, dd' = Some (d ++ new) /\ Forall (seen prog bs) new
  end.
Definition used_by (ds : list dep) (bs bs' : list block) : Prop :=
  forall u, In u (tags bs') -> In u (tags bs) \/ exists d, In d ds /\ used G d u.

Definition visited (base : list arg) (prog : list tag) (dd : option (list nat)) (bs : list block) (l : nat) (w : bool) (r : outcome (state * option (list nat))) : Prop :=
  match r with
  | Ok (s', dd') => Permutation (args s') (hashed s') /\ exists bs', rep base s' bs' /\ sound prog bs' /\ evolves prog bs bs' /\ there prog bs' (lib_tag l w) /\
      acyclic G l /\ extends prog bs' dd dd' /\ used_by [Use l w] bs bs'
  | Cycle x => reaches G x x
  | Undefined => False
  | Exhausted => True
  end.
Definition visits (base : list arg) (chain : list (nat * bool)) (f : option (list nat) -> nat -> bool -> state -> outcome (state * option (list nat))) : Prop :=
  forall dd l w s bs, rep base s bs -> Permutation (args s) (hashed s) -> sound (prog_of chain) bs -> (w = true -> exports (G l) = false) ->
    (forall c, In c chain -> reaches G (fst c) l) ->
    visited base (prog_of chain) dd bs l w (f dd l w s).

Definition as_used (dd : option (list nat)) (ds : list dep) : list dep :=
  match dd with
  | None => ds
  | Some _ => map (fun d => match d with Use t _ => Use t (default_whole (G t)) | Simple ns => Simple ns end) ds
  end.
Definition looped (base : list arg) (prog : list tag) (dd : option (list nat)) (bs : list block) (ds : list dep) (r : outcome (state * option (list nat))) : Prop :=
  match r with
  | Ok (s', dd') => Permutation (args s') (hashed s') /\ exists bs', rep base s' bs' /\ sound prog bs' /\ evolves prog bs bs' /\
      Forall (fun d => there prog bs' (dep_tag d)) (as_used dd ds) /\
      (forall t w, In (Use t w) ds -> acyclic G t) /\ extends prog bs' dd dd' /\ used_by (as_used dd ds) bs bs'
  | Cycle x => reaches G x x
  | Undefined => False
  | Exhausted => True
  end.

Lemma seen_evolves prog bs bs' l : evolves prog bs bs' -> seen prog bs l -> seen prog bs' l.
Proof. intros E (A & T). split; auto. eapply there_evolves; eauto. Qed.
Lemma name_tag_no_library ns : library_of (name_tag ns) = None.
Proof. unfold name_tag. destruct (_ <=? _); auto. Qed.
Lemma reaches_trans x y z : reaches G x y -> depends G y z -> reaches G x z.
Proof. induction 1; intro D; [eapply reach_s; [eassumption | now constructor] | eapply reach_s; eauto]. Qed.

Lemma skipn_app_le {A} n (a c : list A) : n <= length a -> skipn n (a ++ c) = skipn n a ++ c.
Proof. intro L. rewrite skipn_app. replace (n - length a) with 0 by lia. auto. Qed.

Lemma loop_ok base chain f start ds : visits base chain f ->
  forall dd s bs, rep base s bs -> Permutation (args s) (hashed s) -> sound (prog_of chain) bs ->
    (forall t, In (Use t true) (as_used dd ds) -> exports (G t) = false) ->
    (forall t w c, In (Use t w) ds -> In c chain -> reaches G (fst c) t) ->
    (forall d, dd = Some d -> start <= length d /\ Forall (seen (prog_of chain) bs) (skipn start d)) ->
    looped base (prog_of chain) dd bs ds (loop G f start ds dd s).
Proof.
  intro V. induction ds as [| [t w | ns] ds IH]; intros dd s bs R P S X C Q.
  - cbn. split; [auto |]. exists bs. split; [auto |]. split; [auto |]. split; [apply evolves_refl |]. split; [destruct dd; constructor |].
    split; [tauto |]. split; [destruct dd; cbn; auto; exists []; rewrite app_nil_r; auto |]. intros u U. auto.
  - assert (C' : forall c, In c chain -> reaches G (fst c) t) by (intros c I; apply (C t w c); cbn; auto).
    destruct dd as [d |]; cbn [loop].
    + destruct (existsb (Nat.eqb t) (skipn start d)) eqn: EX.
      * (* seen *)
        apply existsb_exists in EX as (t' & I & E). apply Nat.eqb_eq in E as <-.
        destruct (Q d eq_refl) as (LE & F). rewrite Forall_forall in F. destruct (F t I) as (AC & TH).
        assert (L : looped base (prog_of chain) (Some d) bs ds (loop G f start ds (Some d) s)).
        { apply IH; auto. { intros u U. apply X. cbn. auto. } intros u v c U. apply (C u v c). cbn. auto. }
        unfold looped in *. destruct (loop G f start ds (Some d) s) as [(s' & dd') | | |]; auto.
        destruct L as (P' & bs' & R' & S' & EV & FA & AA & EXT & US). split; [auto |]. exists bs'. split; [auto |]. split; [auto |]. split; [auto |].
        split; [cbn; constructor; [cbn; eapply there_evolves; eauto | auto] |].
        split; [intros u v [E | U]; [injection E as -> ->; auto | eauto] |]. split; [auto |].
        intros u U. destruct (US u U) as [| (e & E & E')]; auto. right. exists e. cbn. auto.
      * specialize (V (Some (d ++ [t])) t (default_whole (G t)) s bs R P S ltac:(intro W; apply X; cbn; rewrite W; auto) C').
        unfold visited in V. destruct (f (Some (d ++ [t])) t (default_whole (G t)) s) as [(s1 & dd1) | | |]; cbn [bind]; auto.
        destruct V as (P1 & bs1 & R1 & S1 & EV1 & TH1 & AC1 & (new & -> & SN) & US1). cbn [fst snd].
        assert (SN' : Forall (seen (prog_of chain) bs1) (t :: new)) by (constructor; auto; split; auto).
        assert (L : looped base (prog_of chain) (Some ((d ++ [t]) ++ new)) bs1 ds (loop G f start ds (Some ((d ++ [t]) ++ new)) s1)).
        { apply IH; auto. { intros u U. apply X. cbn. auto. } { intros u v c U. apply (C u v c). cbn. auto. }
          intros d0 E. injection E as <-. destruct (Q d eq_refl) as (LE & F). rewrite <- app_assoc. cbn [app]. split; [rewrite app_length; lia |].
          rewrite skipn_app_le by auto. apply Forall_app. split; auto. eapply Forall_impl; [| exact F]. intro. now apply seen_evolves. }
        unfold looped in *. destruct (loop G f start ds (Some ((d ++ [t]) ++ new)) s1) as [(s' & dd') | | |]; auto.
        destruct L as (P' & bs' & R' & S' & EV & FA & AA & (new' & -> & SN2) & US). split; [auto |]. exists bs'. split; [auto |]. split; [auto |].
        split; [eapply evolves_trans; eauto |].
        split; [cbn; constructor; [cbn; eapply there_evolves; eauto | auto] |].
        split; [intros u v [E | U]; [injection E as -> ->; auto | eauto] |].
        split. { exists ((t :: new) ++ new'). split; [f_equal; now rewrite <- !app_assoc |]. apply Forall_app. split; auto. eapply Forall_impl; [| exact SN']. intro. now apply seen_evolves. }
        intros u U. destruct (US u U) as [U1 | (e & E & E')].
        -- destruct (US1 u U1) as [| (e & E & E')]; auto. right. exists e. cbn in *. intuition auto.
        -- right. exists e. cbn in *. auto.
    + specialize (V None t w s bs R P S ltac:(intros ->; apply X; cbn; auto) C').
      unfold visited in V. destruct (f None t w s) as [(s1 & dd1) | | |]; cbn [bind]; auto.
      destruct V as (P1 & bs1 & R1 & S1 & EV1 & TH1 & AC1 & EX1 & US1). cbn in EX1. subst dd1. cbn [fst snd].
      assert (L : looped base (prog_of chain) None bs1 ds (loop G f start ds None s1)).
      { apply IH; auto. { intros u U. apply X. cbn. auto. } { intros u v c U. apply (C u v c). cbn. auto. } discriminate. }
      unfold looped in *. destruct (loop G f start ds None s1) as [(s' & dd') | | |]; auto.
      destruct L as (P' & bs' & R' & S' & EV & FA & AA & EXT & US). split; [auto |]. exists bs'. split; [auto |]. split; [auto |].
      split; [eapply evolves_trans; eauto |].
      split; [cbn; constructor; [cbn; eapply there_evolves; eauto | auto] |].
      split; [intros u v [E | U]; [injection E as -> ->; auto | eauto] |]. split; [auto |].
      intros u U. destruct (US u U) as [U1 | (e & E & E')].
      * destruct (US1 u U1) as [| (e & E & E')]; auto. right. exists e. cbn in *. intuition auto.
      * right. exists e. cbn in *. auto.
  - cbn [loop]. destruct (on_lib_rep base s bs (name_tag ns) ns R P) as (s1 & -> & P1 & bs1 & R1 & T1). cbn [bind fst snd].
    assert (N : ~ In (name_tag ns) (prog_of chain)).
    { intro I. apply in_map_iff in I as (c & E & _). pose proof (name_tag_no_library ns) as H. rewrite <- E, library_lib_tag in H. discriminate. }
    assert (PR : proper G (tags bs) (name_tag ns, ns)) by (unfold name_tag; destruct (_ <=? _); cbn; auto).
    assert (S1 : sound (prog_of chain) bs1).
    { apply (sound_leave _ _ (name_tag ns)); [eapply sound_touched; eauto | |]; rewrite name_tag_no_library; discriminate. }
    pose proof (evolves_touched _ _ _ _ _ N T1) as EV1. pose proof (there_touched _ _ _ _ _ N T1) as TH1.
    assert (L : looped base (prog_of chain) dd bs1 ds (loop G f start ds dd s1)).
    { apply IH; auto. { intros u U. apply X. destruct dd; cbn; auto. } { intros u v c U. apply (C u v c). cbn. auto. }
      intros d E. destruct (Q d E) as (LE & F). split; auto. eapply Forall_impl; [| exact F]. intro. now apply seen_evolves. }
    assert (AU : as_used dd (Simple ns :: ds) = Simple ns :: as_used dd ds) by (destruct dd; auto).
    unfold looped in *. destruct (loop G f start ds dd s1) as [(s' & dd') | | |]; auto.
    destruct L as (P' & bs' & R' & S' & EV & FA & AA & EXT & US). split; [auto |]. exists bs'. split; [auto |]. split; [auto |].
    split; [eapply evolves_trans; eauto |]. rewrite AU.
    split; [constructor; [cbn; eapply there_evolves; eauto | auto] |].
    split; [intros u v [E | U]; [discriminate | eauto] |]. split; [auto |].
    intros u U. destruct (US u U) as [U1 | (e & E & E')].
    + apply (touched_tags _ _ _ _ _ T1) in U1 as [-> | U1]; auto. right. exists (Simple ns). split; [cbn; auto |]. apply (used_itself G (Simple ns)).
    + right. exists e. cbn in *. auto.
Qed.

Definition all_plain : Prop := forall l d, In d (uses G l) -> forall t, d = Use t true -> exports (G t) = false.

(* What happens below a library *)
Definition below (base : list arg) (prog : list tag) (dd : option (list nat)) (bs : list block) (l : nat) (r : outcome (state * option (list nat))) : Prop :=
  match r with
  | Ok (s', dd') => Permutation (args s') (hashed s') /\ exists bs', rep base s' bs' /\ sound prog bs' /\ evolves prog bs bs' /\
      Forall (fun d => there prog bs' (dep_tag d)) (uses G l) /\ acyclic G l /\ extends prog bs' dd dd' /\ used_by (uses G l) bs bs'
  | Cycle x => reaches G x x
  | Undefined => False
  | Exhausted => True
  end.
Lemma below_ok base chain f l dd s bs : all_plain -> visits base chain f -> rep base s bs -> Permutation (args s) (hashed s) -> sound (prog_of chain) bs ->
  (forall c, In c chain -> fst c = l \/ reaches G (fst c) l) ->
  below base (prog_of chain) dd bs l (visit_deps G f dd l s).
Proof.
  intros AP V R P S C. unfold visit_deps.
  assert (C' : forall t w c, In (Use t w) (deps (G l)) -> In c chain -> reaches G (fst c) t).
  { intros t w c I J. assert (D : depends G l t) by (exists w; auto). destruct (C c J) as [-> | RE]; [now constructor | eapply reaches_trans; eauto]. }
  assert (AC : (forall t w, In (Use t w) (deps (G l)) -> acyclic G t) -> acyclic G l).
  { intro H. constructor. intros y (w & D). eapply H; eauto. }
  destruct (static (G l)) eqn: ST.
  - assert (U : uses G l = deps (G l)) by (unfold uses; now rewrite ST).
    assert (L : looped base (prog_of chain) None bs (deps (G l)) (loop G f 0 (deps (G l)) None s)).
    { apply loop_ok; auto. { intros t I. cbn in I. rewrite <- U in I. eapply AP; eauto. } discriminate. }
    unfold looped, below in *. destruct (loop G f 0 (deps (G l)) None s) as [(s' & dd') | | |]; cbn [bind fst snd]; auto.
    destruct L as (P' & bs' & R' & S' & EV & FA & AA & EXT & US). split; [auto |]. exists bs'. rewrite U. cbn [as_used] in *.
    split; [auto |]. split; [auto |]. split; [auto |]. split; [auto |]. split; [eauto |]. split; [| auto].
    destruct dd; cbn; auto. exists []. rewrite app_nil_r. auto.
  - assert (U : forall d, uses G l = as_used (Some d) (deps (G l))) by (intro; unfold uses; now rewrite ST).
    destruct dd as [d |].
    + assert (L : looped base (prog_of chain) (Some d) bs (deps (G l)) (loop G f (length d) (deps (G l)) (Some d) s)).
      { apply loop_ok; auto. { intros t I. rewrite <- U in I. eapply AP; eauto. } intros d0 E. injection E as <-. rewrite skipn_all. auto. }
      unfold looped, below in *. destruct (loop G f (length d) (deps (G l)) (Some d) s) as [(s' & dd') | | |]; auto.
      rewrite <- U in L. destruct L as (P' & bs' & R' & S' & EV & FA & AA & EXT & US). split; [auto |]. exists bs'.
      split; [auto |]. split; [auto |]. split; [auto |]. split; [auto |]. split; [eauto |]. auto.
    + assert (L : looped base (prog_of chain) (Some []) bs (deps (G l)) (loop G f 0 (deps (G l)) (Some []) s)).
      { apply loop_ok; auto. { intros t I. rewrite <- U in I. eapply AP; eauto. } intros d0 E. injection E as <-. cbn. auto. }
      unfold looped, below in *. destruct (loop G f 0 (deps (G l)) (Some []) s) as [(s' & dd') | | |]; cbn [bind fst snd]; auto.
      rewrite <- U in L. destruct L as (P' & bs' & R' & S' & EV & FA & AA & EXT & US). split; [auto |]. exists bs'.
      split; [auto |]. split; [auto |]. split; [auto |]. split; [auto |]. split; [eauto |]. split; [reflexivity | auto].
Qed.

Lemma extends_sub p1 p2 bs dd dd' : incl p2 p1 -> extends p1 bs dd dd' -> extends p2 bs dd dd'.
Proof.
  intro I. destruct dd; cbn; auto. intros (new & -> & F). exists new. split; auto. eapply Forall_impl; [| exact F]. intros x (A & T). split; auto. eapply there_sub; eauto.
Qed.

Lemma visit_ok base (AP : all_plain) : forall fuel chain, visits base chain (visit G fuel chain).
Proof.
  induction fuel as [| fuel IH]; intros chain dd l w s bs R P S W C; [exact I |].
  cbn [visit]. destruct (in_chain l chain) eqn: CH.
  { unfold in_chain in CH. apply existsb_exists in CH as (c & I & E). apply Nat.eqb_eq in E. cbn. rewrite <- E at 1. auto. }
  assert (N : ~ In (lib_tag l w) (prog_of chain)) by (intro I; apply prog_in in I; congruence).
  destruct (lib_step G base s bs l w (linked G chain l) R P W) as (s1 & go & -> & P1 & H1). cbn [bind fst snd]. destruct go.
  - destruct H1 as (bs1 & R1 & T1).
    assert (CO : linked G chain l = elements (G l) \/ (contained G (tags bs) l /\ linked G chain l = [])).
    { unfold linked. destruct (utility (G l)) eqn: UT; cbn [andb]; auto. destruct (forallb _ chain) eqn: FA; cbn [negb]; auto. right. split; [| auto].
      split; [auto |]. assert (EX : exists c, In c chain /\ utility (G (fst c)) = false).
      { clear - FA. induction chain as [| c chain IH]; cbn in FA; [discriminate |]. destruct (utility (G (fst c))) eqn: E; [| exists c; cbn; auto].
        destruct (IH FA) as (d & I & D). exists d. cbn. auto. }
      destruct EX as (c & IC & UC). exists (fst c), (snd c). split; [auto |]. split; [auto |]. apply (sound_prog _ _ S). unfold prog_of. apply in_map_iff. exists c. auto. }
    assert (PR : proper G (tags bs) (lib_tag l w, (if exports (G l) then options (G l) else []) ++ linked G chain l)).
    { unfold proper. destruct w; cbn [lib_tag fst snd].
      - rewrite (W eq_refl). cbn. auto.
      - destruct CO as [-> | (CO & ->)]; [auto |]. rewrite app_nil_r. auto. }
    assert (S1 : sound (prog_of ((l, w) :: chain)) bs1) by (eapply sound_touched; eauto).
    assert (EV1 : evolves (prog_of chain) bs bs1) by (eapply evolves_touched; eauto).
    assert (TH1 : there (prog_of chain) bs1 (lib_tag l w)) by (eapply there_touched; eauto).
    assert (B : below base (prog_of ((l, w) :: chain)) dd bs1 l (visit_deps G (visit G fuel ((l, w) :: chain)) dd l s1)).
    { apply below_ok; auto. intros c [<- | I]; auto. }
    assert (SUB : incl (prog_of chain) (prog_of ((l, w) :: chain))) by (intros x I; cbn; auto).
    unfold below, visited in *. destruct (visit_deps G (visit G fuel ((l, w) :: chain)) dd l s1) as [(s' & dd') | | |]; auto.
    destruct B as (P' & bs' & R' & S' & EV & FA & AC & EXT & US). pose proof (evolves_sub _ _ _ _ SUB EV) as EV'.
    split; [auto |]. exists bs'. split; [auto |]. split; [| split; [| split; [| split; [auto | split]]]].
    + apply (sound_leave _ _ (lib_tag l w)); auto; rewrite library_lib_tag.
      * intros x d E I. injection E as <-. rewrite Forall_forall in FA. eapply there_sub; [| exact (FA d I)]. intros y [<- | []]. cbn. auto.
      * intros x E. injection E as <-. auto.
    + eapply evolves_trans; eauto.
    + eapply there_evolves; eauto.
    + eapply extends_sub; eauto.
    + intros u U. destruct (US u U) as [U1 | (d & D & D')].
      * apply (touched_tags _ _ _ _ _ T1) in U1 as [-> | U1]; auto. right. exists (Use l w). split; [cbn; auto |]. apply (used_itself G (Use l w)).
      * right. exists (Use l w). split; [cbn; auto |]. eapply used_further; eauto.
  - destruct H1 as (-> & -> & BL & I). split; [auto |]. exists bs. split; [auto |]. split; [auto |]. split; [apply evolves_refl |].
    cbn [lib_tag] in *. assert (AC : acyclic G l) by (eapply (sound_acyclic _ _ S); eauto; reflexivity).
    split. { split; auto. intro NN. exfalso. apply NN. exists l. auto. }
    split; [auto |]. split.
    { destruct dd; cbn; auto. exists []. rewrite app_nil_r. auto. }
    intros u U. auto.
Qed.

(* The whole command line *)
Definition sofar (ps : list prerequisite) (s : state) : Prop :=
  exists base bs pre ls, ps = pre ++ ls /\ Forall is_lib ls /\ rep base s bs /\ sound [] bs /\
    (forall u, In u (tags bs) -> exists p, In p ls /\ needed G p u) /\
    (forall l w self, In (Lib l w self) ls -> (if self then In (lib_tag l w) (tags bs) else forall d, In d (uses G l) -> In (dep_tag d) (tags bs))) /\
    ((pre = [] /\ base = []) \/ exists ps0 x xs0, pre = ps0 ++ [Object x] /\ base = xs0 ++ [x] /\ line G ps0 xs0).

Lemma used_in bs d t : sound [] bs -> used G d t -> In (dep_tag d) (tags bs) -> In t (tags bs).
Proof.
  intros S U. induction U as [d | l w d t I U IH]; intro J; auto.
  apply IH. cbn in J. destruct (sound_use _ _ S _ l d J (library_lib_tag l w) ltac:(auto) I) as (X & _). auto.
Qed.
Lemma sofar_line ps s : sofar ps s -> line G ps (args s).
Proof.
  intros (base & bs & pre & ls & -> & IL & R & S & U & A & PRE).
  assert (AR : arranged G ls bs).
  { constructor.
    - apply (rep_once _ _ _ R).
    - intro t. split; [apply U |]. intros (p & I & N). destruct N as [l w t N | l w d t D N].
      + eapply used_in; eauto. apply (A l w true I).
      + eapply used_in; eauto. apply (A l w false I); auto.
    - apply (sound_proper _ _ S).
    - intros t l d xs b1 b2 E L D N. assert (I : In t (tags bs)) by (rewrite E, map_app, in_app_iff; cbn; auto).
      destruct (sound_use _ _ S t l d I L ltac:(auto) D) as (_ & F). eapply F; eauto. }
  rewrite (rep_args _ _ _ R). destruct PRE as [(-> & ->) | (ps0 & x & xs0 & -> & -> & L)].
  - constructor; auto.
  - rewrite <- !app_assoc. cbn. constructor; auto.
Qed.
Lemma rep_start base h : rep base (mkstate base [] h) [].
Proof. constructor; cbn; auto; try constructor. now rewrite app_nil_r. Qed.
Lemma sound_start : sound [] [].
Proof. constructor; cbn; auto; try tauto. intros x []. Qed.
Lemma sofar_object ps s x h : sofar ps s -> sofar (ps ++ [Object x]) (mkstate (args s ++ [x]) [] h).
Proof.
  intro H. apply sofar_line in H. exists (args s ++ [x]), [], (ps ++ [Object x]), []. rewrite app_nil_r.
  split; [auto |]. split; [constructor |]. split; [apply rep_start |]. split; [apply sound_start |]. split; [cbn; tauto |]. split; [cbn; tauto |].
  right. eauto 8.
Qed.

Lemma link_ok fuel : forall ps done s, all_plain -> (forall l w self, In (Lib l w self) ps -> w = true \/ self = false -> exports (G l) = false) ->
  sofar done s -> Permutation (args s) (hashed s) ->
  match link G fuel ps s with
  | Ok s' => sofar (done ++ ps) s' /\ Permutation (args s') (hashed s') /\ (forall l w self, In (Lib l w self) ps -> acyclic G l)
  | Cycle x => reaches G x x
  | Undefined => False
  | Exhausted => True
  end.
Proof.
  induction ps as [| [x | l w self] ps IH]; intros done s AP X S P.
  - cbn. rewrite app_nil_r. tauto.
  - cbn [link]. specialize (IH (done ++ [Object x]) (mkstate (args s ++ [x]) [] (hashed s ++ [x])) AP).
    rewrite <- app_assoc in IH. cbn [app] in IH.
    assert (Q : match link G fuel ps (mkstate (args s ++ [x]) [] (hashed s ++ [x])) with
      | Ok s' => sofar (done ++ Object x :: ps) s' /\ Permutation (args s') (hashed s') /\ (forall l w self, In (Lib l w self) ps -> acyclic G l)
      | Cycle x => reaches G x x | Undefined => False | Exhausted => True end).
    { apply IH. { intros l w self I. apply (X l w self). cbn. auto. } { now apply sofar_object. } cbn. now apply Permutation_app_tail. }
    destruct (link G fuel ps _); auto. destruct Q as (Q1 & Q2 & Q3). split; [auto |]. split; [auto |]. intros l w self [E | I]; [discriminate | eauto].
  - cbn [link]. destruct S as (base & bs & pre & ls & -> & IL & R & S & U & A & PRE).
    assert (N : match (if self then visit G fuel [] None l w s else visit_without G fuel l s) with
      | Ok (s', _) => Permutation (args s') (hashed s') /\ sofar ((pre ++ ls) ++ [Lib l w self]) s' /\ acyclic G l
      | Cycle x => reaches G x x | Undefined => False | Exhausted => True end).
    { destruct self.
      - pose proof (visit_ok base AP fuel [] None l w s bs R P S ltac:(intro W; apply (X l w true); cbn; auto) ltac:(cbn; tauto)) as V.
        unfold visited in V. destruct (visit G fuel [] None l w s) as [(s' & dd') | | |]; auto.
        destruct V as (P' & bs' & R' & S' & (EV & _) & (TH & _) & AC & _ & US). split; [auto |]. split; [| auto].
        exists base, bs', pre, (ls ++ [Lib l w true]). rewrite <- app_assoc.
        split; [auto |]. split; [apply Forall_app; split; [auto | repeat constructor] |]. split; [auto |]. split; [auto |]. split; [| split; [| auto]].
        + intros u I. destruct (US u I) as [I' | (d & [<- | []] & D)].
          * destruct (U u I') as (p & IP & NP). exists p. rewrite in_app_iff. auto.
          * exists (Lib l w true). rewrite in_app_iff. cbn. split; [auto |]. now constructor.
        + intros l0 w0 self0 I. apply in_app_iff in I as [I | [E | []]].
          * specialize (A l0 w0 self0 I). destruct self0; auto.
          * injection E as -> -> <-. auto.
      - assert (O : exports (G l) = false) by (apply (X l w false); cbn; auto).
        unfold visit_without. rewrite O.
        pose proof (below_ok base [] (visit G fuel []) l None s bs AP (visit_ok base AP fuel []) R P S ltac:(cbn; tauto)) as V.
        unfold below in V. destruct (visit_deps G (visit G fuel []) None l s) as [(s' & dd') | | |]; auto.
        destruct V as (P' & bs' & R' & S' & (EV & _) & FA & AC & _ & US). split; [auto |]. split; [| auto].
        exists base, bs', pre, (ls ++ [Lib l w false]). rewrite <- app_assoc.
        split; [auto |]. split; [apply Forall_app; split; [auto | repeat constructor] |]. split; [auto |]. split; [auto |]. split; [| split; [| auto]].
        + intros u I. destruct (US u I) as [I' | (d & D & D')].
          * destruct (U u I') as (p & IP & NP). exists p. rewrite in_app_iff. auto.
          * exists (Lib l w false). rewrite in_app_iff. cbn. split; [auto |]. econstructor; eauto.
        + intros l0 w0 self0 I. apply in_app_iff in I as [I | [E | []]].
          * specialize (A l0 w0 self0 I). destruct self0; auto.
          * injection E as -> -> <-. rewrite Forall_forall in FA. intros d D. apply (FA d D). }
    destruct (if self then visit G fuel [] None l w s else visit_without G fuel l s) as [(s' & dd') | | |]; cbn [bind fst]; auto.
    destruct N as (P' & S' & AC).
    specialize (IH ((pre ++ ls) ++ [Lib l w self]) s' AP ltac:(intros l0 w0 self0 I; apply (X l0 w0 self0); cbn; auto) S' P').
    replace (((pre ++ ls) ++ [Lib l w self]) ++ ps) with ((pre ++ ls) ++ Lib l w self :: ps) in IH by now rewrite <- (app_assoc (pre ++ ls)).
    destruct (link G fuel ps s'); auto. destruct IH as (Q1 & Q2 & Q3). split; [auto |]. split; [auto |].
    intros l0 w0 self0 [E | I]; [injection E as <- _ _; auto | eauto].
Qed.
Lemma sofar_start : sofar [] initial.
Proof.
  exists [], [], [], []. split; [auto |]. split; [constructor |]. split; [apply rep_start |]. split; [apply sound_start |]. split; [cbn; tauto |]. split; [cbn; tauto |]. auto.
Qed.
Lemma linked_ok fuel ps : plain G ps ->
  match link G fuel ps initial with
  | Ok s' => line G ps (args s') /\ Permutation (args s') (hashed s') /\ (forall l w self, In (Lib l w self) ps -> acyclic G l)
  | Cycle x => reaches G x x
  | Undefined => False
  | Exhausted => True
  end.
Proof.
  intros (AP & X). pose proof (link_ok fuel ps [] initial AP X sofar_start (Permutation_refl _)) as H. cbn [app] in H.
  destruct (link G fuel ps initial); auto. destruct H as (S & P & A). split; [now apply sofar_line | auto].
Qed.
End Graph.

(* Indirectly *)
Lemma hollow_used G d u : consistent G -> used G d u -> hollow G (dep_tag d) -> hollow G u.
Proof.
  intros C U. induction U as [d | l w d t I U IH]; intro H; auto. apply IH. destruct H as (x & E & B). cbn in E. rewrite library_lib_tag in E. injection E as <-. eapply C; eauto.
Qed.
Lemma arranged_after G ps bs : consistent G -> arranged G ps bs -> all_after G bs.
Proof.
  intros C A t l d u xs b1 b2 E L D U. revert t l xs b1 b2 E L D. induction U as [d | x w d u D' U IH]; intros t l xs b1 b2 E L D H.
  - eapply (order _ _ _ A); eauto. intros (y & EY & BY). apply H. rewrite EY. exists y. auto.
  - assert (N : ~ nothing G (dep_tag (Use x w))).
    { intros (y & EY & BY). apply H. cbn in EY. destruct w; [discriminate |]. injection EY as ->. eapply hollow_used; [auto | exact U |]. eapply C; eauto. }
    pose proof (order _ _ _ A _ _ _ _ _ _ E L D N) as I. apply in_tags_split in I as (c1 & ys & c2 & ->).
    assert (E' : bs = (b1 ++ (t, xs) :: c1) ++ (dep_tag (Use x w), ys) :: c2) by (rewrite E, <- app_assoc; reflexivity).
    specialize (IH _ x _ _ _ E' (library_lib_tag x w) D' H). rewrite map_app, in_app_iff. cbn. auto.
Qed.

(* Hash *)
Lemma hoist_perm s e s' : hoist s e = Ok s' -> Permutation (args s) (args s') /\ hashed s' = hashed s.
Proof.
  unfold hoist. destruct (end_ e) as [| n |]; try discriminate. destruct (begin e =? n); [intro E; injection E as <-; auto |].
  destruct (begin e <? n) eqn: A; [| discriminate]. destruct (n <=? length (args s)) eqn: B; [| discriminate]. cbn [andb]. intro E. injection E as <-. cbn. split; auto.
  apply Nat.ltb_lt in A. apply Nat.leb_le in B.
  rewrite <- (firstn_skipn n (args s)) at 1. rewrite <- (firstn_skipn (begin e) (firstn n (args s))) at 1.
  rewrite firstn_firstn. replace (Nat.min (begin e) n) with (begin e) by lia. rewrite <- app_assoc. apply Permutation_app_head, Permutation_app_comm.
Qed.
Definition same (s : state) : Prop := Permutation (args s) (hashed s).
Lemma push_same s xs : same s -> same (push s xs).
Proof. intro P. now apply Permutation_app_tail. Qed.
Lemma append_same s t : same s -> same (append s t).
Proof. unfold append. destruct find_entry; auto. Qed.
Lemma on_lib_same s t xs bl s' g : same s -> on_lib s t xs bl = Ok (s', g) -> same s'.
Proof.
  intros S. unfold on_lib. destruct (tracked t); [| intro E; injection E as <- <-; now apply push_same].
  destruct (find_entry _ _) as [e |]; [| discriminate].
  assert (H : (if bl then Ok (append s t, false) else bind (hoist (append s t) e) (fun s => Ok (s, true))) = Ok (s', g) -> same s').
  { destruct bl; [intro E; injection E as <- <-; now apply append_same |]. destruct (hoist (append s t) e) as [s1 | | |] eqn: H; try discriminate. cbn. intro E. injection E as <- <-.
    apply hoist_perm in H as (P & E). apply (append_same _ t) in S. unfold same in *. rewrite E, <- P. auto. }
  destruct (end_ e); auto. intro E. injection E as <- <-. apply (push_same _ xs), append_same, S.
Qed.
Lemma on_opt_same s l xs : same s -> same (on_opt s l xs).
Proof. intro S. unfold on_opt. apply (append_same _ (Library l)) in S. destruct find_entry as [e |]; auto. destruct (end_ e); auto. now apply push_same. Qed.
Definition keeps (f : option (list nat) -> nat -> bool -> state -> outcome (state * option (list nat))) : Prop :=
  forall dd l w s s' dd', same s -> f dd l w s = Ok (s', dd') -> same s'.
Lemma loop_same G f start ds : keeps f -> forall dd s s' dd', same s -> loop G f start ds dd s = Ok (s', dd') -> same s'.
Proof.
  intro K. induction ds as [| [t w | ns] ds IH]; intros dd s s' dd' S E; cbn [loop] in E.
  - injection E as <- <-. auto.
  - destruct dd as [d |].
    + destruct existsb; [eauto |]. destruct (f _ _ _ _) as [(s1 & d1) | | |] eqn: F; try discriminate. cbn in E. eauto.
    + destruct (f _ _ _ _) as [(s1 & d1) | | |] eqn: F; try discriminate. cbn in E. eauto.
  - destruct (on_lib _ _ _ _) as [(s1 & g) | | |] eqn: F; try discriminate. cbn in E. eapply IH; [| eauto]. eapply on_lib_same; eauto.
Qed.
Lemma visit_deps_same G f : keeps f -> forall dd l s s' dd', same s -> visit_deps G f dd l s = Ok (s', dd') -> same s'.
Proof.
  intros K dd l s s' dd' S. unfold visit_deps. destruct static; [| destruct dd].
  - destruct loop as [(s1 & d1) | | |] eqn: F; try discriminate. cbn. intro E. injection E as <- <-. eapply loop_same; eauto.
  - intro F. eapply loop_same; eauto.
  - destruct loop as [(s1 & d1) | | |] eqn: F; try discriminate. cbn. intro E. injection E as <- <-. eapply loop_same; eauto.
Qed.
Lemma visit_same G fuel : forall chain, keeps (visit G fuel chain).
Proof.
  induction fuel as [| fuel IH]; intros chain dd l w s s' dd' S E; [discriminate |]. cbn [visit] in E. destruct in_chain; [discriminate |].
  assert (S1 : same (if exports (G l) then on_opt s l (options (G l)) else s)) by (destruct exports; auto using on_opt_same).
  destruct on_lib as [(s1 & g) | | |] eqn: F; try discriminate. cbn [bind fst snd] in E. apply on_lib_same in F; auto.
  destruct g; [eapply visit_deps_same; [apply (IH ((l, w) :: chain)) | exact F | exact E] | injection E as <- <-; auto].
Qed.
Lemma link_same G fuel : forall ps s s', same s -> link G fuel ps s = Ok s' -> same s'.
Proof.
  induction ps as [| [x | l w self] ps IH]; intros s s' S E; cbn [link] in E.
  - injection E as <-. auto.
  - eapply IH; [| eauto]. unfold same. cbn. now apply Permutation_app_tail.
  - destruct self.
    + destruct visit as [(s1 & d1) | | |] eqn: F; try discriminate. cbn in E. eapply IH; [| eauto]. eapply visit_same; eauto.
    + destruct visit_without as [(s1 & d1) | | |] eqn: F; try discriminate. cbn in E. eapply IH; [| eauto]. eapply visit_deps_same; [apply visit_same | | exact F].
      destruct exports; auto using on_opt_same.
Qed.

(* Termination *)
Definition finishes (n : nat) (f : option (list nat) -> nat -> bool -> state -> outcome (state * option (list nat))) : Prop :=
  forall dd l w s, l < n -> f dd l w s <> Exhausted.
Lemma on_lib_finishes s t xs bl : on_lib s t xs bl <> Exhausted.
Proof.
  assert (H : forall s e, hoist s e <> Exhausted).
  { intros s0 e. unfold hoist. destruct (end_ e); try discriminate. destruct (_ =? _); [discriminate |]. destruct (_ && _); discriminate. }
  unfold on_lib. destruct tracked; [| discriminate]. destruct find_entry as [e |]; [| discriminate]. destruct (end_ e); try discriminate;
  (destruct bl; [discriminate |]; specialize (H (append s t) e); destruct hoist; cbn; congruence).
Qed.
Lemma loop_finishes G n f start ds : finishes n f -> (forall t w, In (Use t w) ds -> t < n) -> forall dd s, loop G f start ds dd s <> Exhausted.
Proof.
  intros F. induction ds as [| [t w | ns] ds IH]; intros H dd s; cbn [loop]; [discriminate | |].
  - assert (L : t < n) by (apply (H t w); cbn; auto). assert (IH' := IH ltac:(intros; eapply H; cbn; eauto)). destruct dd as [d |].
    + destruct existsb; [auto |]. specialize (F (Some (d ++ [t])) t (default_whole (G t)) s L). destruct (f _ _ _ _); cbn; try apply IH'; congruence.
    + specialize (F None t w s L). destruct (f _ _ _ _); cbn; try apply IH'; congruence.
  - pose proof (on_lib_finishes s (name_tag ns) ns false). destruct on_lib; cbn; try congruence; apply IH; intros; eapply H; cbn; eauto.
Qed.
Lemma visit_deps_finishes G n f l dd s : finite G n -> finishes n f -> l < n -> visit_deps G f dd l s <> Exhausted.
Proof.
  intros FI F L. unfold visit_deps.
  assert (H : forall start dd s, loop G f start (deps (G l)) dd s <> Exhausted) by (intros; eapply loop_finishes; eauto).
  destruct static; [| destruct dd]; auto.
  - specialize (H 0 None s). destruct loop; cbn; congruence.
  - specialize (H 0 (Some []) s). destruct loop; cbn; congruence.
Qed.
Lemma visit_finishes G n (FI : finite G n) : forall fuel chain, NoDup (map fst chain) -> (forall c, In c chain -> fst c < n) -> n < fuel + length chain -> finishes n (visit G fuel chain).
Proof.
  induction fuel as [| fuel IH]; intros chain N B LE dd l w s L.
  - exfalso. assert (H : length (map (@fst nat bool) chain) <= length (seq 0 n)).
    { apply NoDup_incl_length; auto. intros x I. apply in_map_iff in I as (c & <- & I). apply in_seq. specialize (B c I). lia. }
    rewrite map_length, seq_length in H. lia.
  - cbn [visit]. destruct (in_chain l chain) eqn: C; [discriminate |].
    pose proof (on_lib_finishes (if exports (G l) then on_opt s l (options (G l)) else s) (lib_tag l w) (linked G chain l) (binless (G l))) as O.
    destruct on_lib as [(s1 & g) | | |]; cbn [bind fst snd]; try congruence. destruct g; [| discriminate].
    apply (visit_deps_finishes G n); auto. apply IH.
    + cbn. constructor; auto. intro I. apply in_map_iff in I as (c & E & I). assert (in_chain l chain = true) by (apply existsb_exists; exists c; rewrite E, Nat.eqb_refl; auto). congruence.
    + intros c [<- | I]; auto.
    + cbn. lia.
Qed.
Lemma link_finishes G n fuel : finite G n -> n < fuel -> forall ps s, (forall l w self, In (Lib l w self) ps -> l < n) -> link G fuel ps s <> Exhausted.
Proof.
  intros FI LE. assert (V : finishes n (visit G fuel [])) by (apply visit_finishes; cbn; [auto | constructor | tauto | lia]).
  induction ps as [| [x | l w self] ps IH]; intros s B; cbn [link]; [discriminate | |].
  - apply IH. intros; eapply B; cbn; eauto.
  - assert (L : l < n) by (apply (B l w self); cbn; auto). assert (IH' := fun s => IH s ltac:(intros; eapply B; cbn; eauto)). destruct self.
    + specialize (V None l w s L). destruct visit; cbn; try apply IH'; congruence.
    + unfold visit_without. pose proof (visit_deps_finishes G n (visit G fuel []) l None (if exports (G l) then on_opt s l (options (G l)) else s) FI V L) as H.
      destruct visit_deps; cbn; try apply IH'; congruence.
Qed.
