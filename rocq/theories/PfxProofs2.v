(* Proofs about finding targets for headers, options and pairs of include directories. *)
From Verif Require Import Base ImpModel PfxModel PfxSpec PfxProofs.

Section F.
Context {tt : Type} (exts : list bytes -> bytes -> list tt) (fallback : tt).
Context (existing : list bytes -> bytes -> bool) (creatable : list bytes -> bool).
Notation find have := (find exts fallback have existing creatable).

Lemma declared_some (have : tt -> list bytes -> bytes -> option decl) d l ts t : declared_of have d l ts = Some t <->
  exists a c, ts = a ++ t :: c /\ have t d l = Some Declared /\ forall u, In u a -> have u d l <> Some Declared.
Proof.
  induction ts as [|x ts IH]; cbn [declared_of]; [split; [discriminate | intros (a & c & E & _); now destruct a]|].
  assert (X : have x d l = Some Declared \/ have x d l <> Some Declared) by (destruct (have x d l) as [[|]|]; auto; right; discriminate).
  destruct X as [X|X].
  - rewrite X. split.
    + intros E. injection E as <-. exists [], ts. repeat split; auto.
    + intros (a & c & E & H & A). destruct a as [|y a]; [now injection E as <- <-|]. injection E as <- ->. exfalso. apply (A x); [now left | exact X].
  - assert (match have x d l with Some Declared => Some x | _ => declared_of have d l ts end = declared_of have d l ts) as -> by (destruct (have x d l) as [[|]|]; auto; contradiction).
    rewrite IH. split.
    + intros (a & c & -> & H & A). exists (x :: a), c. repeat split; auto. intros u [<-|I]; auto.
    + intros (a & c & E & H & A). destruct a as [|y a]; [injection E as <- <-; contradiction|]. injection E as <- ->. exists a, c. repeat split; auto. intros u I. apply A. now right.
Qed.
Lemma declared_none (have : tt -> list bytes -> bytes -> option decl) d l ts : declared_of have d l ts = None <-> forall u, In u ts -> have u d l <> Some Declared.
Proof.
  induction ts as [|x ts IH]; cbn [declared_of]; [split; [intros _ u [] | reflexivity]|].
  destruct (have x d l) as [[|]|] eqn:X.
  1,3: rewrite IH; split; [intros A u [<-|I]; [congruence | now apply A] | intros A u I; apply A; now right].
  split; [discriminate | intros A; exfalso; apply (A x); [now left | exact X]].
Qed.

Lemma find_only have d l t : find have d l false false = Some t <->
  exists a c, exts d l = a ++ t :: c /\ have t d l = Some Declared /\ forall u, In u a -> have u d l <> Some Declared.
Proof.
  unfold PfxModel.find. cbn [orb negb andb]. destruct (exts d l) as [|t0 ts] eqn:E.
  - split; [discriminate | intros (a & c & X & _); now destruct a].
  - rewrite <- declared_some. destruct (declared_of have d l (t0 :: ts)); split; auto; discriminate.
Qed.
Lemma find_insert have d l : find have d l true false =
  let ts := match exts d l with [] => [fallback] | ts => ts end in
  let t0 := match exts d l with [] => fallback | t :: _ => t end in
  match declared_of have d l ts with
  | Some t => Some t
  | None => if match have t0 d l with Some _ => true | None => false end || existing d l || creatable d then Some t0 else None
  end.
Proof.
  unfold PfxModel.find. cbn [orb negb andb].
  destruct (exts d l) as [|t0 [|t1 ts]] eqn:E; cbn [length Nat.ltb Nat.leb declared_of].
  - destruct (have fallback d l) as [[|]|]; reflexivity.
  - destruct (have t0 d l) as [[|]|]; reflexivity.
  - destruct (have t0 d l) as [[|]|]; try reflexivity; destruct (have t1 d l) as [[|]|]; try reflexivity; destruct (declared_of have d l ts); reflexivity.
Qed.
Lemma find_chosen have d l t : find have d l true false = Some t <->
  (exists a c, match exts d l with [] => [fallback] | ts => ts end = a ++ t :: c /\ have t d l = Some Declared /\ forall u, In u a -> have u d l <> Some Declared) \/
  ((forall u, In u (match exts d l with [] => [fallback] | ts => ts end) -> have u d l <> Some Declared) /\
   (exists c, match exts d l with [] => [fallback] | ts => ts end = t :: c) /\ (have t d l <> None \/ existing d l = true \/ creatable d = true)).
Proof.
  rewrite find_insert. cbn zeta. set (ts := match exts d l with [] => [fallback] | ts => ts end).
  assert (T : exists c, ts = match exts d l with [] => fallback | t :: _ => t end :: c) by (unfold ts; destruct (exts d l); eauto).
  destruct T as (c & T). set (t0 := match exts d l with [] => fallback | t :: _ => t end) in *. clearbody ts t0.
  destruct (declared_of have d l ts) as [x|] eqn:D.
  - pose proof D as D'. apply declared_some in D' as (a & c' & E & H & A). split.
    + intros X. injection X as <-. left. now exists a, c'.
    + intros [X|(N & _)]; [apply declared_some in X; congruence|]. exfalso. apply (N x); [rewrite E; apply in_elt | exact H].
  - pose proof (proj1 (declared_none _ _ _ _) D) as D'. clear D. rename D' into D. split.
    + destruct (match have t0 d l with Some _ => true | None => false end || existing d l || creatable d) eqn:C; [|discriminate].
      intros X. injection X as <-. right. split; [exact D|]. split; [now exists c|].
      apply orb_true_iff in C as [C|C]; [apply orb_true_iff in C as [C|C]|]; auto. left. destruct (have t0 d l); congruence.
    + intros [(a & c' & E & H & A)|(_ & (c' & E) & W)]; [exfalso; apply (D t); [rewrite E; apply in_elt | exact H]|].
      rewrite T in E. injection E as -> _. destruct W as [W|[W|W]].
      * destruct (have t d l); [reflexivity | contradiction].
      * rewrite W, orb_true_r. reflexivity.
      * rewrite W, !orb_true_r. reflexivity.
Qed.

(* Dynamic targets do not matter. *)
Definition same_declared (have have' : tt -> list bytes -> bytes -> option decl) : Prop :=
  (forall t d l, have t d l = Some Declared <-> have' t d l = Some Declared) /\
  forall t d l, have t d l = Some Dynamic \/ have' t d l = Some Dynamic -> existing d l = true \/ creatable d = true.
Lemma declared_same have have' d l ts : same_declared have have' -> declared_of have d l ts = declared_of have' d l ts.
Proof.
  intros [S _]. induction ts as [|t ts IH]; [reflexivity|]. cbn [declared_of]. specialize (S t d l).
  destruct (have t d l) as [[|]|], (have' t d l) as [[|]|]; auto; destruct S as [S S']; try (specialize (S eq_refl); discriminate); try (specialize (S' eq_refl); discriminate).
Qed.
Lemma find_same have have' d l insert : same_declared have have' -> find have d l insert false = find have' d l insert false.
Proof.
  intros S. destruct insert.
  - rewrite !find_insert. cbn zeta. rewrite (declared_same _ _ _ _ _ S). destruct (declared_of have' d l _) eqn:D; [reflexivity|].
    set (t0 := match exts d l with [] => fallback | t :: _ => t end). destruct S as [S W].
    destruct (existing d l || creatable d) eqn:C; [now rewrite <- !orb_assoc, C, !orb_true_r|].
    assert (N : ~ (existing d l = true \/ creatable d = true)) by (apply orb_false_iff in C as [-> ->]; intros [|]; discriminate).
    assert (I : In t0 (match exts d l with [] => [fallback] | ts => ts end)) by (unfold t0; destruct (exts d l); now left).
    apply (proj1 (declared_none _ _ _ _) D) in I. assert (I' : have t0 d l <> Some Declared) by (intros X; apply S in X; contradiction).
    assert (have t0 d l = None) as -> by (destruct (have t0 d l) as [[|]|] eqn:X; auto; [exfalso; apply N, (W t0); auto | contradiction]).
    assert (have' t0 d l = None) as -> by (destruct (have' t0 d l) as [[|]|] eqn:X; auto; [exfalso; apply N, (W t0); auto | contradiction]). reflexivity.
  - unfold PfxModel.find. cbn [orb negb andb]. destruct (exts d l); [reflexivity|]. now rewrite (declared_same _ _ _ _ _ S).
Qed.

(* A header that does not exist. *)
Lemma try_in have p es d l i dy d' t : try exts fallback have existing creatable p es d l i dy = Some (d', t) -> exists pd k, In (pd, k) es /\ d' = pd ++ d.
Proof.
  induction es as [|[pd k] es IH]; cbn [try]; [discriminate|]. destruct (match p with [] => _ | _ => _ end).
  - intros E. exists pd, k. split; [now left | congruence].
  - intros E. destruct (IH E) as (pd' & k' & I & ->). exists pd', k'. split; [now right | reflexivity].
Qed.
Lemma try_first have es d l i dy d' t : try exts fallback have existing creatable [] es d l i dy = Some (d', t) <->
  exists l1 pd k l2, es = l1 ++ (pd, k) :: l2 /\ d' = pd ++ d /\ find have d' l false false = Some t /\
    forall pd' k', In (pd', k') l1 -> find have (pd' ++ d) l false false = None.
Proof.
  induction es as [|[pd k] es IH]; cbn [try].
  - split; [discriminate | intros (l1 & pd & k & l2 & E & _); now destruct l1].
  - destruct (find have (pd ++ d) l false false) as [x|] eqn:F.
    + split.
      * intros E. assert (d' = pd ++ d /\ t = x) as [-> ->] by (split; congruence). exists [], pd, k, es. repeat split; auto. intros pd' k' [].
      * intros (l1 & pd1 & k1 & l2 & E & -> & G & A). destruct l1 as [|[pd2 k2] l1].
        -- cbn in E. assert (pd1 = pd) by congruence. subst pd1. congruence.
        -- cbn in E. assert (pd2 = pd) by congruence. subst pd2. rewrite (A pd k2) in F by now left. discriminate.
    + rewrite IH. split.
      * intros (l1 & pd1 & k1 & l2 & -> & -> & G & A). exists ((pd, k) :: l1), pd1, k1, l2. repeat split; auto.
        intros pd' k' [E|I]; [assert (pd' = pd) by congruence; subst pd'; exact F | now apply (A pd' k')].
      * intros (l1 & pd1 & k1 & l2 & E & -> & G & A). destruct l1 as [|[pd2 k2] l1].
        -- cbn in E. assert (pd1 = pd) by congruence. subst pd1. congruence.
        -- cbn in E. injection E as -> -> ->. exists l1, pd1, k1, l2. repeat split; auto. intros pd' k' I. apply (A pd' k'). now right.
Qed.
Lemma rnorm_plain fp acc : Forall plain fp -> rnorm acc fp = match rev acc ++ fp with [] => None | l => Some l end.
Proof.
  revert acc. induction fp as [|n fp IH]; intros acc P; cbn [rnorm].
  - rewrite app_nil_r. destruct acc as [|x acc]; [reflexivity|]. destruct (rev (x :: acc)) eqn:E; [|reflexivity].
    apply (f_equal (@length _)) in E. rewrite rev_length in E. discriminate.
  - inversion P as [|n' fp' [N1 N2] P']; subst. destruct (beqb n (b ".")) eqn:E1; [apply beqb_eq in E1; contradiction|].
    destruct (beqb n (b "..")) eqn:E2; [apply beqb_eq in E2; contradiction|]. rewrite IH by exact P'. cbn [rev]. now rewrite <- app_assoc.
Qed.
Lemma rnorm_some fp acc q : rnorm acc fp = Some q -> Forall plain acc -> q <> [] /\ Forall plain q /\ forall base, norm (acc ++ rev base) fp = Some (base ++ q).
Proof.
  revert acc. induction fp as [|n fp IH]; intros acc R P; cbn [rnorm norm] in *.
  - destruct acc as [|x acc]; [discriminate|]. assert (q = rev (x :: acc)) as -> by congruence. split; [intros E; apply (f_equal (@length _)) in E; rewrite rev_length in E; discriminate|].
    split; [now apply Forall_rev|]. intros base. now rewrite rev_app_distr, rev_involutive.
  - destruct (beqb n (b ".")) eqn:E1; [now apply IH|]. destruct (beqb n (b "..")) eqn:E2.
    + destruct acc as [|x acc]; [discriminate|]. inversion P; subst. now apply IH.
    + apply (IH (n :: acc) R). constructor; [|exact P]. split; intros ->; [rewrite beqb_refl in E1 | rewrite beqb_refl in E2]; discriminate.
Qed.
Lemma rnorm_none fp acc : rnorm acc fp = None -> norm acc fp = None \/ norm acc fp = Some [].
Proof.
  revert acc. induction fp as [|n fp IH]; intros acc R; cbn [rnorm norm] in *.
  - destruct acc; [now right | discriminate].
  - destruct (beqb n (b ".")); [now apply IH|]. destruct (beqb n (b "..")); [destruct acc; [now left | now apply IH] | now apply IH].
Qed.
Lemma enter_plain have m h l i dy : Forall plain (h ++ [l]) ->
  enter_relative exts fallback have existing creatable m (h ++ [l]) i dy =
  match sup m h (length h) with None => None | Some p => try exts fallback have existing creatable p (entries m p) h l i dy end.
Proof.
  intros P. unfold enter_relative. rewrite rnorm_plain by exact P. cbn [rev app]. destruct (h ++ [l]) as [|x r] eqn:E; [now destruct h|].
  rewrite <- E, removelast_last, last_last. reflexivity.
Qed.

Lemma rel_prefix have incs p s l d k i dy : Forall plain (p ++ s ++ [l]) -> p <> [] -> best incs p d k ->
  (forall q r, p ++ s = q ++ r -> length p < length q -> ~ led incs q) ->
  enter_relative exts fallback have existing creatable (prefix_map_of incs) (p ++ s ++ [l]) i dy =
  match find have (d ++ p ++ s) l i dy with Some t => Some (d ++ p ++ s, t) | None => None end.
Proof.
  intros P NE B N. rewrite app_assoc. rewrite enter_plain by (now rewrite <- app_assoc).
  assert (E : entries (prefix_map_of incs) p = [(d, k)]).
  { destruct (prefix_entries incs p NE) as [[_ X]|(d' & k' & -> & B')]; [apply best_led in B; contradiction|]. destruct (best_det _ _ _ _ _ _ B B') as [-> ->]. reflexivity. }
  rewrite sup_is.
  - rewrite E. cbn [try]. destruct p; [contradiction|]. destruct (find have _ l i dy); reflexivity.
  - rewrite E. discriminate.
  - intros q r Q L. assert (q <> []) as Z by (destruct q; [cbn in L; lia | discriminate]).
    destruct (prefix_entries incs q Z) as [[X _]|(d' & k' & _ & B')]; [exact X|]. exfalso. apply (N q r Q L). eapply best_led; eauto.
Qed.
Lemma rel_prefixless have incs h l i dy d' t : Forall plain (h ++ [l]) -> (forall q r, h = q ++ r -> q <> [] -> ~ led incs q) ->
  (enter_relative exts fallback have existing creatable (prefix_map_of incs) (h ++ [l]) i dy = Some (d', t) <->
   exists es l1 d k l2, ordered incs es /\ es = l1 ++ (d, k) :: l2 /\ d' = d ++ h /\ find have d' l false false = Some t /\
     forall d0 k0, In (d0, k0) l1 -> find have (d0 ++ h) l false false = None).
Proof.
  intros P N. rewrite enter_plain by exact P.
  assert (Z : forall q r, h = q ++ r -> q <> [] -> entries (prefix_map_of incs) q = []).
  { intros q r Q NE. destruct (prefix_entries incs q NE) as [[X _]|(d & k & _ & B)]; [exact X|]. exfalso. apply (N q r Q NE). eapply best_led; eauto. }
  assert (U : forall es, ordered incs es -> es = entries (prefix_map_of incs) []).
  { intros es O. pose proof (prefixless incs) as O'. destruct O as (S & ks & F & E), O' as (S' & ks' & F' & E').
    assert (ks = ks') as <-.
    { clear - F F'. revert ks' F'. induction F as [|x k incs ks L F IH]; intros ks' F'; inversion F'; subst; [reflexivity|]. f_equal; [eapply leads_det; eauto | auto]. }
    assert (V : forall k, filter (fun e => snd e =? k) es = filter (fun e => snd e =? k) (entries (prefix_map_of incs) [])) by (intros k; now rewrite E, E').
    clear - S S' V. revert S' V. generalize (entries (prefix_map_of incs) []). induction S as [|e es A S IH]; intros es' S' V.
    - destruct es' as [|e' es']; [reflexivity|]. specialize (V (snd e')). cbn [filter] in V. rewrite Nat.eqb_refl in V. discriminate.
    - inversion S' as [|e' es'' A' S'' X]; subst.
      + specialize (V (snd e)). cbn [filter] in V. rewrite Nat.eqb_refl in V. discriminate.
      + assert (K : snd e = snd e').
        { apply Nat.le_antisymm.
          - assert (I : In e' (filter (fun x => snd x =? snd e') (e :: es))) by (rewrite V; apply filter_In; split; [now left | apply Nat.eqb_refl]).
            apply filter_In in I as [[<-|I] _]; [reflexivity | now apply A].
          - assert (I : In e (filter (fun x => snd x =? snd e) (e' :: es''))) by (rewrite <- V; apply filter_In; split; [now left | apply Nat.eqb_refl]).
            apply filter_In in I as [[<-|I] _]; [reflexivity | now apply A']. }
        assert (e = e') as <- by (specialize (V (snd e)); cbn [filter] in V; rewrite <- K, Nat.eqb_refl in V; congruence).
        f_equal. apply IH; [exact S''|]. intros k. specialize (V k). cbn [filter] in V. destruct (snd e =? k); congruence. }
  assert (M : match sup (prefix_map_of incs) h (length h) with None => None | Some p => try exts fallback have existing creatable p (entries (prefix_map_of incs) p) h l i dy end =
    try exts fallback have existing creatable [] (entries (prefix_map_of incs) []) h l i dy).
  { destruct (sup (prefix_map_of incs) h (length h)) as [p|] eqn:E.
    - destruct (sup_some _ _ _ _ (Nat.le_refl _) E) as (X & (s & Q) & _). destruct p as [|n p]; [reflexivity|]. exfalso. apply X, (Z _ s Q). discriminate.
    - assert (entries (prefix_map_of incs) [] = []) as -> by (apply (sup_none _ _ _ (Nat.le_refl _) E [] h); [reflexivity | cbn; lia]). reflexivity. }
  rewrite M, try_first. split.
  - intros (l1 & d & k & l2 & E & D & F & A). exists (l1 ++ (d, k) :: l2), l1, d, k, l2. split; [rewrite <- E; apply prefixless|]. repeat split; auto.
  - intros (es & l1 & d & k & l2 & O & E & D & F & A). exists l1, d, k, l2. split; [rewrite <- E; symmetry; now apply U|]. repeat split; auto.
Qed.
Lemma rel_sound have incs fp i dy d' t : enter_relative exts fallback have existing creatable (prefix_map_of incs) fp i dy = Some (d', t) ->
  exists x h l, In x incs /\ rnorm [] fp = Some (h ++ [l]) /\ d' = snd x ++ h.
Proof.
  unfold enter_relative. destruct (rnorm [] fp) as [f|] eqn:R; [|discriminate]. destruct (sup _ _ _) as [p|] eqn:S; [|discriminate].
  intros E. apply try_in in E as (pd & k & I & ->).
  assert (f <> []) as NE.
  { intros ->. clear - R. assert (forall acc, rnorm acc fp <> Some []) as X; [|now apply (X [])].
    clear R. induction fp as [|n fp IH]; intros acc; cbn [rnorm].
    - destruct acc as [|x acc]; [discriminate|]. intros E. injection E as E. apply (f_equal (@length _)) in E. rewrite app_length in E. cbn in E. lia.
    - destruct (beqb n (b ".")); [apply IH|]. destruct (beqb n (b "..")); [|apply IH]. destruct acc; [discriminate | apply IH]. }
  assert (X : exists x, In x incs /\ snd x = pd).
  { destruct p as [|n p].
    - destruct (prefixless incs) as (_ & ks & F & E). assert (J : In (pd, k) (filter (fun e => snd e =? k) (entries (prefix_map_of incs) []))) by (apply filter_In; split; [exact I | apply Nat.eqb_refl]).
      rewrite E in J. apply filter_In in J as [J _]. apply in_combine_l in J. apply in_map_iff in J as (x & <- & J). now exists x.
    - destruct (prefix_entries incs (n :: p) ltac:(discriminate)) as [[X _]|(d & k' & X & (a & t' & c & -> & _))].
      + rewrite X in I. destruct I.
      + rewrite X in I. destruct I as [I|[]]. exists (t', d). split; [apply in_elt | cbn; congruence]. }
  destruct X as (x & X & <-). exists x, (removelast f), (last f []). split; [exact X|]. split; [now rewrite <- app_removelast_last|]. reflexivity.
Qed.
Lemma rel_same have have' m fp i : same_declared have have' ->
  enter_relative exts fallback have existing creatable m fp i false = enter_relative exts fallback have' existing creatable m fp i false.
Proof.
  intros S. unfold enter_relative. destruct (rnorm [] fp) as [f|]; [|reflexivity]. destruct (sup m (removelast f) (length (removelast f))) as [p|]; [|reflexivity].
  induction (entries m p) as [|[pd k] es IH]; [reflexivity|]. cbn [try]. rewrite (find_same _ _ _ _ false S), (find_same _ _ _ _ i S), IH. reflexivity.
Qed.
Lemma abs_same have have' so d l c i : same_declared have have' ->
  enter_absolute exts fallback have existing creatable so d l c i false = enter_absolute exts fallback have' existing creatable so d l c i false.
Proof.
  intros S. unfold enter_absolute. rewrite (find_same _ _ d l i S). destruct c; [reflexivity|]. destruct (sup so d (length d)) as [k|]; [|reflexivity].
  destruct (entries so k) as [|o r]; [reflexivity|]. now rewrite (find_same _ _ _ _ false S).
Qed.
End F.

(* Options. *)
Section O.
Context (msvc : bool) (path_of : bytes -> option (bool * list bytes)) (out_root : list bytes).
Definition use (m : pmap) (tdir : list bytes) (s : bytes) : option pmap :=
  match inc_dir path_of s with Some d => Some (append_inc out_root m tdir d) | None => None end.
Fixpoint use_all (m : pmap) (tdir : list bytes) (l : list bytes) : option pmap :=
  match l with [] => Some m | s :: l => match use m tdir s with Some m => use_all m tdir l | None => None end end.
Lemma is_inc_iff o : is_inc msvc o = true <-> exists c r, o = c :: "I"%char :: r /\ (c = "-"%char \/ msvc = true /\ c = "/"%char).
Proof.
  unfold is_inc. destruct o as [|c1 [|c2 r]]; try (split; [discriminate | intros (c & r' & E & _); discriminate]).
  rewrite andb_true_iff, orb_true_iff, andb_true_iff, !ceqb_eq. split.
  - intros [C ->]. exists c1, r. auto.
  - intros (c & r' & E & C). injection E as -> -> ->. auto.
Qed.
Lemma options_read os m tdir : Forall (opt_ok msvc) os ->
  append_prefixes msvc path_of out_root m tdir (concat (map print os)) = use_all m tdir (concat (map dir_of os)).
Proof.
  revert m. induction os as [|o os IH]; intros m V; [reflexivity|]. inversion V as [|? ? O V']; subst. destruct o as [o|c s|c s]; cbn [map concat print dir_of app].
  - cbn [append_prefixes]. cbn [opt_ok] in O. rewrite <- is_inc_iff in O. destruct (is_inc msvc o); [now contradiction O|]. now apply IH.
  - cbn [append_prefixes]. destruct O as [NE C]. assert (is_inc msvc (c :: "I"%char :: s) = true) as -> by (apply is_inc_iff; eauto). cbn [negb].
    assert (length (c :: "I"%char :: s) =? 2 = false) as -> by (destruct s; [contradiction | reflexivity]). cbn [skipn use_all]. unfold use.
    destruct (inc_dir path_of s); [|reflexivity]. now apply IH.
  - cbn [append_prefixes]. assert (is_inc msvc [c; "I"%char] = true) as -> by (apply is_inc_iff; eauto). cbn [negb length Nat.eqb use_all]. unfold use.
    destruct (inc_dir path_of s); [|reflexivity]. now apply IH.
Qed.
Lemma options_last os m tdir c : Forall (opt_ok msvc) os -> c = "-"%char \/ msvc = true /\ c = "/"%char ->
  append_prefixes msvc path_of out_root m tdir (concat (map print os) ++ [[c; "I"%char]]) = use_all m tdir (concat (map dir_of os)).
Proof.
  intros V CC. revert m. induction os as [|o os IH]; intros m; cbn [map concat app].
  - cbn [append_prefixes]. assert (is_inc msvc [c; "I"%char] = true) as -> by (apply is_inc_iff; eauto). reflexivity.
  - inversion V as [|? ? O V']; subst. specialize (IH V'). destruct o as [o|c' s|c' s]; cbn [print dir_of app].
    + cbn [append_prefixes]. cbn [opt_ok] in O. rewrite <- is_inc_iff in O. destruct (is_inc msvc o); [now contradiction O|]. now apply IH.
    + cbn [append_prefixes]. destruct O as [NE C]. assert (is_inc msvc (c' :: "I"%char :: s) = true) as -> by (apply is_inc_iff; eauto). cbn [negb].
      assert (length (c' :: "I"%char :: s) =? 2 = false) as -> by (destruct s; [contradiction | reflexivity]). cbn [skipn use_all]. unfold use.
      destruct (inc_dir path_of s); [|reflexivity]. now apply IH.
    + cbn [append_prefixes]. assert (is_inc msvc [c'; "I"%char] = true) as -> by (apply is_inc_iff; eauto). cbn [negb length Nat.eqb use_all]. unfold use.
      destruct (inc_dir path_of s); [|reflexivity]. now apply IH.
Qed.
End O.

(* Pairs of include directories. *)
Section S.
Context (find_out : list bytes -> option (list bytes * list bytes)).
Notation next := (next find_out).
Lemma candidate_some d o s x : candidate find_out d = Some ((o, s), x) <-> find_out d = Some (o, s) /\ o <> s /\ d = o ++ x.
Proof.
  unfold candidate. destruct (find_out d) as [[o' s']|] eqn:F; [|split; [discriminate | intros (E & _); discriminate]].
  destruct (negb (dir_eqb o' s') && sub d o') eqn:C.
  - apply andb_true_iff in C as [C U]. apply negb_true_iff, dir_eqb_no in C. apply sub_under in U as (y & ->). rewrite leaf_app. split.
    + intros E. injection E as -> -> ->. auto.
    + intros (E & _ & D). injection E as -> ->. apply app_inv_head in D. now subst y.
  - split; [discriminate|]. intros (E & N & D). injection E as -> ->. apply andb_false_iff in C as [C|C].
    + apply negb_false_iff, dir_eqb_iff in C. contradiction.
    + assert (sub d o = true) by (apply sub_under; now exists x). congruence.
Qed.
Definition last_of (ds : list (option (list bytes))) (d : list bytes) : Prop := exists a, ds = a ++ [Some d].
Lemma emplace_in m k v e : In e (emplace m k v) -> In e m \/ e = (k, v).
Proof. unfold emplace. destruct (existsb _ m); [now left|]. intros I. apply in_app_or in I as [I|[<-|[]]]; auto. Qed.
Lemma srcout_inv ds : 
  (forall o s x, fst (fold_left next ds (None, [])) = Some ((o, s), x) -> exists d, last_of ds d /\ find_out d = Some (o, s) /\ o <> s /\ d = o ++ x) /\
  (forall k v, In (k, v) (snd (fold_left next ds (None, []))) -> exists o s x, consecutive ds v k /\ find_out v = Some (o, s) /\ o <> s /\ v = o ++ x /\
    under k s /\ (x = [] \/ k = s ++ x)).
Proof.
  induction ds as [|d ds [IP IM]] using rev_ind; [split; [discriminate | intros k v []]|].
  rewrite fold_left_app. cbn [fold_left]. destruct (fold_left next ds (None, [])) as [prev m]. cbn [fst snd] in IP, IM.
  assert (OLD : forall k v, In (k, v) m -> exists o s x, consecutive (ds ++ [d]) v k /\ find_out v = Some (o, s) /\ o <> s /\ v = o ++ x /\ under k s /\ (x = [] \/ k = s ++ x)).
  { intros k v I. destruct (IM k v I) as (o & s & x & (a & c & ->) & R). exists o, s, x. split; [|exact R]. exists a, (c ++ [d]). now rewrite <- app_assoc. }
  destruct d as [d|]; cbn [PfxModel.next fst snd]; [|split; [discriminate | exact OLD]].
  assert (CAND : forall o s x, candidate find_out d = Some ((o, s), x) -> exists d', last_of (ds ++ [Some d]) d' /\ find_out d' = Some (o, s) /\ o <> s /\ d' = o ++ x).
  { intros o s x C. apply candidate_some in C. exists d. split; [now exists ds | exact C]. }
  destruct prev as [[[o s] x]|]; [|split; [exact CAND | exact OLD]].
  destruct (sub d s && (dir_eqb x [] || dir_eqb (leaf d s) x)) eqn:T; [|split; [exact CAND | exact OLD]].
  cbn [fst snd]. split; [discriminate|]. intros k v I. apply emplace_in in I as [I|I]; [now apply OLD|].
  assert (k = d /\ v = o ++ x) as [-> ->] by (split; congruence). destruct (IP o s x eq_refl) as (d1 & (a & ->) & F & N & ->).
  apply andb_true_iff in T as [U T]. apply sub_under in U. exists o, s, x. split; [exists a, []; now rewrite <- app_assoc|]. repeat split; auto.
  destruct U as (y & ->). rewrite leaf_app in T. apply orb_true_iff in T as [T|T]; apply dir_eqb_iff in T; [now left | right; now subst].
Qed.
Lemma srcout_keys ds : NoDup (map fst (srcout find_out ds)).
Proof.
  unfold srcout. induction ds as [|d ds IH] using rev_ind; [constructor|]. rewrite fold_left_app. cbn [fold_left].
  destruct (fold_left next ds (None, [])) as [prev m]. cbn [fst snd] in IH. assert (E : forall k v, NoDup (map fst (emplace m k v))).
  { intros k v. unfold emplace. destruct (existsb _ m) eqn:X; [exact IH|]. rewrite map_app. cbn [map fst].
    assert (N : ~ In k (map fst m)).
    { intros I. apply in_map_iff in I as ([q w] & <- & I). assert (existsb (fun e => dir_eqb (fst e) q) m = true); [|cbn in *; congruence].
      apply existsb_exists. exists (q, w). split; [exact I | apply dir_eqb_refl]. }
    clear - IH N. induction (map fst m) as [|y l J]; cbn; [constructor; [intros [] | constructor]|]. inversion IH; subst. constructor.
    - intros I. apply in_app_or in I as [I|[-> | []]]; [contradiction | apply N; now left].
    - apply J; [assumption | intros I; apply N; now right]. }
  destruct d as [d|]; [|exact IH]. cbn [PfxModel.next]. destruct prev as [[[o s] x]|]; [|exact IH]. destruct (sub d s && _); [apply E | exact IH].
Qed.
Lemma emplace_keep m k v q w : In (q, w) m -> In (q, w) (emplace m k v).
Proof. intros I. unfold emplace. destruct (existsb _ m); [exact I | apply in_or_app; now left]. Qed.
Lemma srcout_more st ds k v : In (k, v) (snd st) -> In (k, v) (snd (fold_left next ds st)).
Proof.
  revert st. induction ds as [|d ds IH]; intros [prev m] I; [exact I|]. cbn [fold_left]. apply IH. cbn [PfxModel.next].
  destruct d as [d|]; [|exact I]. destruct prev as [[[o s] x]|]; [|exact I]. destruct (sub d s && _); [now apply emplace_keep | exact I].
Qed.
Lemma emplace_has m k v : exists w, In (k, w) (emplace m k v).
Proof.
  unfold emplace. destruct (existsb (fun e => dir_eqb (fst e) k) m) eqn:X.
  - apply existsb_exists in X as ([q w] & I & E). cbn in E. apply dir_eqb_iff in E. subst q. now exists w.
  - exists v. apply in_or_app. right. now left.
Qed.
(* A pair is entered, unless the first of them ends another one. *)
Lemma srcout_pair a c d1 d2 : pair_of find_out d1 d2 ->
  (forall d0 o s, find_out d0 = Some (o, s) -> o <> s -> ~ under d1 s) ->
  exists v, In (d2, v) (srcout find_out (a ++ Some d1 :: Some d2 :: c)) /\ (v = d1 \/ consecutive a v d2).
Proof.
  intros (o & s & x & F & N & -> & ->) X. unfold srcout. rewrite fold_left_app. cbn [fold_left].
  destruct (srcout_inv a) as [IP IM]. destruct (fold_left next a (None, [])) as [prev m]. cbn [fst snd] in IP, IM.
  assert (E : next (prev, m) (Some (o ++ x)) = (Some ((o, s), x), m)).
  { cbn [PfxModel.next]. assert (candidate find_out (o ++ x) = Some ((o, s), x)) as C by (apply candidate_some; auto). rewrite C.
    destruct prev as [[[o' s'] x']|]; [|reflexivity]. destruct (IP o' s' x' eq_refl) as (d & _ & F' & N' & _).
    assert (sub (o ++ x) s' = false) as ->; [|reflexivity]. destruct (sub (o ++ x) s') eqn:U; [|reflexivity]. apply sub_under in U. exfalso. eapply X; eauto. }
  rewrite E. cbn [PfxModel.next]. assert (sub (s ++ x) s = true) as -> by (apply sub_under; now exists x). rewrite leaf_app, dir_eqb_refl, orb_true_r. cbn [andb].
  unfold emplace. destruct (existsb (fun e => dir_eqb (fst e) (s ++ x)) m) eqn:Y.
  - apply existsb_exists in Y as ([q w] & I & Q). cbn in Q. apply dir_eqb_iff in Q. subst q. exists w. split; [now apply srcout_more|].
    right. destruct (IM _ _ I) as (o' & s' & x' & C & _). exact C.
  - exists (o ++ x). split; [apply srcout_more; cbn; apply in_or_app; right; now left | now left].
Qed.
End S.
