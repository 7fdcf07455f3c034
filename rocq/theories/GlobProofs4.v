(* The loop and the result. *)
From Coq Require Import Sorting.Sorted.
From Verif Require Import Base SplitModel SplitSpec SplitProofs SplitProofs2 SplitProofs3 GlobModel GlobSpec GlobProofs GlobProofs2 GlobProofs3.

Lemma starts_iff s : starts_dot s = true <-> exists r, s = "."%char :: r.
Proof. destruct s as [|c s]; cbn; [split; [discriminate|intros [? ?]; discriminate]|]. rewrite is_dot_eq. split; [intros ->; eexists; reflexivity|intros [r [= -> _]]; reflexivity]. Qed.
Lemma hidden_leaf m : starts_dot (leaf m) = true <-> exists s, no_slash s /\ (called ("."%char :: s) m \/ called ("."%char :: s ++ ["/"%char]) m).
Proof.
  rewrite starts_iff. split.
  - intros [r E]. destruct (leaf_form m) as [d [Hd [Hn Hm]]]. rewrite E in *. exists r. split; [intros K; apply Hn; right; exact K|]. destruct Hm as [-> | ->]; [left|right]; exists d; auto.
  - intros [s [Hs [[d [Hd ->]] | [d [Hd ->]]]]]; exists s.
    + apply leaf_file; [exact Hd| |discriminate]. intros [K | K]; [discriminate|exact (Hs K)].
    + apply (leaf_dir d ("."%char :: s) Hd). intros [K | K]; [discriminate|exact (Hs K)].
Qed.
Lemma ignored_iff bi m p : ignored bi m p = true <-> hidden bi m p.
Proof.
  unfold ignored, hidden. rewrite orb_true_iff, !andb_true_iff, negb_true_iff, hidden_leaf, last_slash. unfold starts_with_dot. rewrite <- (starts_iff p). destruct (starts_dot p); intuition congruence.
Qed.
Lemma kept_iff bi he e h : kept bi he e h = true <-> visible bi he e h.
Proof.
  unfold kept, visible. rewrite !andb_true_iff, forallb_forall, negb_true_iff.
  assert (forall m p, ignored bi m p = false <-> ~ hidden bi m p) as K by (intros m p; rewrite <- ignored_iff; destruct (ignored bi m p); intuition congruence).
  rewrite K. split.
  - intros [[H1 H2] H3]. split; [intros m p Hi; apply K; apply negb_true_iff; exact (H1 (m, p) Hi)|]. split; [exact H2|]. intros ->. apply negb_true_iff in H3. exact H3.
  - intros [H1 [H2 H3]]. split; [split; [intros [m p] Hi; cbn; apply negb_true_iff; apply K; exact (H1 m p Hi)|exact H2]|]. destruct e as [[|c x]|]; [|reflexivity|reflexivity]. rewrite (H3 eq_refl). reflexivity.
Qed.
Lemma picks_filter {A} (P : A -> Prop) p l : (forall x, p x = true <-> P x) -> picks P l (filter p l).
Proof. intros H. induction l as [|x l IH]; [constructor|]. cbn. destruct (p x) eqn:E; constructor; [apply H; exact E|exact IH|rewrite <- H; congruence|exact IH]. Qed.
Lemma picks_incl {A} (P : A -> Prop) l m : picks P l m -> forall x, In x m -> In x l.
Proof. induction 1; intros y; cbn; [tauto| |auto]. intros [<- | K]; auto. Qed.
Lemma nodup_filter_map {A B} (f : A -> B) p l : NoDup (map f l) -> NoDup (map f (filter p l)).
Proof.
  induction l as [|x l IH]; [auto|]. cbn. intros H. inversion H as [|? ? H1 H2]. subst. destruct (p x); [|auto]. cbn. constructor; [|auto]. intros K. apply H1. apply in_map_iff in K. destruct K as [y [<- K]].
  apply in_map. apply filter_In in K. apply K.
Qed.

Section Whole.
Context (search : bytes -> list hit) (recursions : bytes -> nat) (is_pattern : bytes -> bool) (matches : bytes -> bytes -> bool)
        (buildignore : bytes -> bool) (has_ext : bytes -> bool).
Context (k : kind) (default : bytes -> option bytes) (all : list item).
Context (Hc : consistent k default) (Hp : plain_special is_pattern k all)
        (Hu : forall p, recursions p <= 1 -> NoDup (map found (search p))).

Definition given (dir : bool) (n : entry) : Prop := exists s v h v',
  In (s, v) all /\ v <> [] /\ amend k v = Amended v' (ext n) (amended n) /\ In h (search (with_ext v' (ext n))) /\ path n = found h /\ last_is is_sep v' = dir /\
  match ext n with Some (c :: x) => is_pattern (c :: x) = false | _ => True end.

Notation items := (items search recursions is_pattern matches buildignore has_ext).
Notation include_pattern := (include_pattern search recursions buildignore has_ext).

Lemma special_in s v : In (s, v) all -> special_ok k v.
Proof. intros H. unfold special_ok, plain_special in *. destruct k; try exact I. intros u E. exact (proj2 Hp s v u H E). Qed.

Lemma include_step acts r p e a : tracked acts (map path r) -> exists hs, picks (visible buildignore has_ext e) (search p) hs /\
  tracked (acts ++ [Add (map found hs)]) (map path (include_pattern r p e a)).
Proof.
  intros T. exists (filter (kept buildignore has_ext e) (search p)). split; [apply picks_filter; intros h; apply kept_iff|].
  set (hs := filter (kept buildignore has_ext e) (search p)). unfold GlobModel.include_pattern. fold hs.
  assert (map path (map (fun h => mkentry (found h) e a) hs) = map found hs) as E by (rewrite map_map; reflexivity).
  destruct (match r with [] => recursions p <=? 1 | _ => false end) eqn:U.
  - destruct r as [|n r]; [|discriminate]. apply Nat.leb_le in U. cbn [app]. rewrite E. change (map found hs) with ([] ++ map found hs) at 2.
    pose proof (nodup_filter_map found (kept buildignore has_ext e) (search p) (Hu p U)) as N. apply lists_add; [exact T|intros x; cbn; tauto|exact N|apply nodup_first; exact N].
  - destruct (fold_include (map (fun h => mkentry (found h) e a) hs) r (proj1 (proj2 (proj1 T)))) as [new [E1 [E2 [E3 E4]]]]. rewrite E1. rewrite E in E3, E4.
    apply lists_add; assumption.
Qed.
Lemma include_given r p e a n : In n (include_pattern r p e a) -> In n r \/ exists h, In h (search p) /\ n = mkentry (found h) e a.
Proof.
  unfold GlobModel.include_pattern. intros H. assert (In n r \/ In n (map (fun h => mkentry (found h) e a) (filter (kept buildignore has_ext e) (search p)))) as K.
  { destruct (match r with [] => recursions p <=? 1 | _ => false end); [apply in_app_or; exact H|]. apply fold_incl. exact H. }
  destruct K as [K | K]; [auto|]. right. apply in_map_iff in K. destruct K as [h [<- K]]. apply filter_In in K. exists h. split; [apply K|reflexivity].
Qed.
Lemma exclude_step acts r p : tracked acts (map path r) ->
  tracked (acts ++ [Remove (fun x => if is_pattern p then matches x p = true else x = p)]) (map path (if is_pattern p then exclude_pattern matches r p else exclude_match r p)).
Proof.
  intros T. destruct (is_pattern p).
  - rewrite filter_path. apply (lists_remove acts (map path r) _ (fun x => matches x p)); [exact T|tauto].
  - rewrite (exclude_path r p (proj1 (proj2 (proj1 T)))). apply (lists_remove acts (map path r) _ (fun x => beqb p x)); [exact T|]. intros x. rewrite beqb_true. split; congruence.
Qed.

Definition bad_ext (e : option bytes) : bool := match e with Some (c :: x) => is_pattern (c :: x) | _ => false end.
Lemma items_more is : forall d r acts, tracked acts (map path r) -> Forall (given d) r -> incl is all ->
  match items k (Some d) is r with
  | None => False
  | Some None => exists s v, In (s, v) is /\ (malformed k default is_pattern v \/ ~ (dir_pattern k v <-> d = true))
  | Some (Some (d', r')) => d' = d /\ Forall (given d) r' /\ (exists acts', all_ask search is_pattern matches buildignore has_ext k default false is acts' /\ tracked (acts ++ acts') (map path r')) /\
      forall s v, In (s, v) is -> ~ malformed k default is_pattern v /\ (dir_pattern k v <-> d = true)
  end.
Proof.
  induction is as [|[s v] is IH]; intros d r acts T G Hi.
  - cbn. split; [reflexivity|]. split; [exact G|]. split; [exists []; split; [constructor|rewrite app_nil_r; exact T]|intros s v []].
  - cbn [GlobModel.items]. destruct v as [|c v0]; [exists s, []; split; [left; reflexivity|]; left; left; reflexivity|]. set (v := c :: v0) in *.
    assert (In (s, v) all) as Hin by (apply Hi; left; reflexivity).
    pose proof (amend_spec k default Hc v ltac:(discriminate) (special_in s v Hin)) as A. destruct (amend k v) as [| |v' e a] eqn:Ea; [|contradiction|].
    { exists s, v. split; [left; reflexivity|]. left. right. left. exact A. }
    destruct A as [A1 [A2 [A3 A4]]]. destruct (Bool.eqb (last_is is_sep v') d) eqn:Ed; cbn [negb].
    2:{ exists s, v. split; [left; reflexivity|]. right. rewrite <- A3. apply eqb_false_iff in Ed. destruct (last_is is_sep v'), d; intuition congruence. }
    apply eqb_prop in Ed. fold (bad_ext e). destruct (bad_ext e) eqn:B.
    { exists s, v. split; [left; reflexivity|]. left. right. right. unfold bad_ext in B. destruct e as [[|y x]|]; try discriminate. exists (with_ext v' (Some (y :: x))), (y :: x). split; [exact A1|]. split; [discriminate|exact B]. }
    set (p := with_ext v' e) in *. rewrite orb_false_r.
    set (r1 := if s then include_pattern r p e a else if is_pattern p then exclude_pattern matches r p else exclude_match r p).
    assert (exists act, asks search is_pattern matches buildignore has_ext k default s v act /\ tracked (acts ++ [act]) (map path r1)) as [act [H1 H2]].
    { destruct s.
      - destruct (include_step acts r p e a T) as [hs [K1 K2]]. exists (Add (map found hs)). split; [|exact K2]. exists p, e. split; [exact A1|]. exists hs. auto.
      - eexists. split; [|exact (exclude_step acts r p T)]. exists p, e. split; [exact A1|reflexivity]. }
    assert (Forall (given d) r1) as G1.
    { rewrite Forall_forall in *. intros n Hn. subst r1. destruct s.
      - apply include_given in Hn. destruct Hn as [Hn | [h [Hh ->]]]; [auto|]. exists true, v, h, v'. cbn. split; [exact Hin|]. split; [discriminate|]. split; [exact Ea|]. split; [exact Hh|]. split; [reflexivity|]. split; [exact Ed|].
        unfold bad_ext in B. destruct e as [[|]|]; auto.
      - apply G. destruct (is_pattern p); [unfold exclude_pattern in Hn; apply filter_In in Hn; apply Hn|exact (exclude_incl r p n Hn)]. }
    specialize (IH d r1 (acts ++ [act]) H2 G1 ltac:(intros z Hz; apply Hi; right; exact Hz)).
    destruct (items k (Some d) is r1) as [[[d' r']|]|] eqn:Ei; [| |exact IH].
    + destruct IH as [-> [I1 [[acts' [I2 I3]] I4]]]. split; [reflexivity|]. split; [exact I1|]. split.
      * exists (act :: acts'). split; [constructor; assumption|]. rewrite <- app_assoc in I3. exact I3.
      * intros s' v'' [K | K]; [|exact (I4 s' v'' K)]. injection K as <- <-. split; [|rewrite <- A3, Ed; tauto].
        intros [K | [K | [p' [x [K1 [K2 K3]]]]]]; [discriminate|exact (K _ _ A1)|]. destruct (A2 _ _ K1) as [_ <-]. unfold bad_ext in B. destruct x; [contradiction|congruence].
    + destruct IH as [s' [v'' [K1 K2]]]. exists s', v''. split; [right; exact K1|exact K2].
Qed.
Lemma items_all : all <> [] ->
  match items k None all [] with
  | None => False
  | Some None => invalid k default is_pattern all
  | Some (Some (d, r)) => Forall (given d) r /\ (exists acts, all_ask search is_pattern matches buildignore has_ext k default true all acts /\ lists acts (map path r)) /\
      ~ invalid k default is_pattern all /\ forall s v, In (s, v) all -> dir_pattern k v <-> d = true
  end.
Proof.
  intros Hne. destruct all as [|[s v] is] eqn:Eall; [contradiction|]. cbn [GlobModel.items]. rewrite <- Eall in *.
  destruct v as [|c v0]; [left; exists s, []; split; [rewrite Eall; left; reflexivity|left; reflexivity]|]. set (v := c :: v0) in *.
  assert (In (s, v) all) as Hin by (rewrite Eall; left; reflexivity).
  pose proof (amend_spec k default Hc v ltac:(discriminate) (special_in s v Hin)) as A. destruct (amend k v) as [| |v' e a] eqn:Ea; [|contradiction|].
  { left. exists s, v. split; [exact Hin|]. right. left. exact A. }
  destruct A as [A1 [A2 [A3 A4]]]. fold (bad_ext e). destruct (bad_ext e) eqn:B.
  { left. exists s, v. split; [exact Hin|]. right. right. unfold bad_ext in B. destruct e as [[|y x]|]; try discriminate. exists (with_ext v' (Some (y :: x))), (y :: x). split; [exact A1|]. split; [discriminate|exact B]. }
  set (p := with_ext v' e) in *. rewrite orb_true_r. set (d := last_is is_sep v') in *.
  destruct (include_step [] [] p e a lists_nil) as [hs [K1 K2]]. set (r1 := include_pattern [] p e a) in *.
  assert (Forall (given d) r1) as G1.
  { apply Forall_forall. intros n Hn. apply include_given in Hn. destruct Hn as [[] | [h [Hh ->]]]. exists s, v, h, v'. cbn. split; [exact Hin|]. split; [discriminate|]. split; [exact Ea|]. split; [exact Hh|]. split; [reflexivity|].
    split; [reflexivity|]. unfold bad_ext in B. destruct e as [[|]|]; auto. }
  pose proof (items_more is d r1 _ K2 G1 ltac:(intros z Hz; rewrite Eall; right; exact Hz)) as IH.
  destruct (items k (Some d) is r1) as [[[d' r']|]|] eqn:Ei; [| |exact IH].
  - destruct IH as [-> [I1 [[acts' [I2 I3]] I4]]]. split; [exact I1|].
    assert (~ malformed k default is_pattern v) as M.
    { intros [K | [K | [p' [x [M1 [M2 M3]]]]]]; [discriminate|exact (K _ _ A1)|]. destruct (A2 _ _ M1) as [_ <-]. unfold bad_ext in B. destruct x; [contradiction|congruence]. }
    split; [|split].
    + exists (Add (map found hs) :: acts'). split; [|exact (proj1 I3)]. rewrite Eall. constructor; [|exact I2]. exists p, e. split; [exact A1|]. cbn. exists hs. auto.
    + intros [[s0 [w [J1 J2]]] | [s1 [v1 [rest [s0 [w [J1 [J2 J3]]]]]]]].
      * rewrite Eall in J1. destruct J1 as [J1 | J1]; [injection J1 as <- <-; contradiction|]. exact (proj1 (I4 _ _ J1) J2).
      * rewrite Eall in J1. injection J1 as <- <- <-. apply J3. rewrite <- A3. symmetry. apply (I4 _ _ J2).
    + intros s0 w J. rewrite Eall in J. destruct J as [J | J]; [injection J as <- <-; symmetry; exact A3|]. apply (I4 _ _ J).
  - destruct IH as [s0 [w [J1 [J2 | J2]]]].
    + left. exists s0, w. split; [rewrite Eall; right; exact J1|exact J2].
    + right. exists s, v, is, s0, w. split; [exact Eall|]. split; [exact J1|]. rewrite <- A3. intros K. apply J2. symmetry. exact K.
Qed.

Context (Hs : sound_search search is_pattern) (Hn : nameable_files search k default all).
Lemma finish_one d n : given d n -> exists x, finish d n = Some x /\ denotes k default d x (path n).
Proof.
  intros [s [v [h [v' [Hin [Hv [Ea [Hh [Ep [Ed Hx]]]]]]]]]].
  pose proof (amend_spec k default Hc v Hv (special_in s v Hin)) as A. rewrite Ea in A. destruct A as [A1 [A2 [A3 A4]]]. rewrite Ed in *. destruct (Hs _ _ Hh) as [S1 [S2 [S3 S4]]].
  unfold finish, denotes. destruct d.
  - destruct A4 as [A4 A5]. rewrite A4 in *. cbn [with_ext] in *. assert (ends_with_slash (found h)) as [u Hu1] by (apply S1, last_slash; exact Ed).
    destruct (proj1 A3 eq_refl) as [-> | [-> _]].
    + destruct (amended n).
      * eexists. split; [reflexivity|]. rewrite Ep, Hu1, removelast_last. destruct (last_is is_sep u) eqn:L; [|reflexivity]. exfalso. apply last_slash in L. destruct L as [z ->]. apply (S2 z). rewrite Hu1, <- app_assoc. reflexivity.
      * eexists. split; [reflexivity|]. rewrite Ep. rewrite (proj2 (last_slash (found h)) (ex_intro _ u Hu1)). reflexivity.
    + destruct (amended n); [discriminate (A5 eq_refl)|]. eexists. split; [reflexivity|reflexivity].
  - set (w := match ext n with Some (c :: x) => firstn (length (path n) - length (c :: x) - 1) (path n) | _ => path n end).
    assert (match ext n with Some x => no_slash x | None => True end) as Hsl.
    { destruct (amended n).
      - destruct (ext n) as [x|]; [|exact I]. apply A4. reflexivity.
      - destruct A4 as [A4 _]. apply split_facts in A4. destruct (ext n); [|exact I]. apply A4. }
    assert (found h = file_with w (ext n)) as Hw.
    { subst w. rewrite Ep. destruct (ext n) as [[|c x]|] eqn:Ex; [reflexivity| |reflexivity]. destruct (S4 v' (c :: x) eq_refl Hsl Hx) as [w Hw]. rewrite Hw. cbn [file_with]. f_equal.
      rewrite app_length. cbn [length]. replace (length w + S (S (length x)) - S (length x) - 1) with (length w) by lia. symmetry. apply firstn_len. }
    assert (~ ends_with_slash (with_ext v' (ext n))) as Hns.
    { destruct (ext n) as [[|c x]|]; cbn; [apply last_slash_no; exact Ed| |apply last_slash_no; exact Ed].
      change (DOT :: c :: x) with ([DOT] ++ c :: x). rewrite app_assoc. apply noslash_end; [discriminate|exact Hsl]. }
    destruct (Hn s v _ _ h w Hin A1 Hns Hh Hw) as [N1 N2]. rewrite Ep, Hw. destruct (amended n) eqn:Ea2.
    + destruct A4 as [B1 [B2 [B3 B4]]]. destruct (ext n) as [x|] eqn:Ex; [|contradiction].
      assert (Some x = default w) as Hd.
      { rewrite B2. clear B3 B4 Hw Hns Hsl Hx. unfold consistent in Hc. destruct k as [| |y|name y]; [rewrite !Hc; reflexivity| |rewrite !(proj1 Hc); reflexivity|].
        - cbn in Ea. destruct (last_is is_sep v); discriminate.
        - destruct Hc as [C1 [C2 _]]. specialize (N2 _ B1). assert (~ called name v') as L by (intros K; rewrite (C1 _ K) in B2; discriminate).
          rewrite (C2 _ L), (C2 _ (N2 L)). reflexivity. }
      destruct (name_default default w (Some x) N1 Hd) as [z [v1 [e1 [Z1 [Z2 Z3]]]]]. exists z. split; [exact Z1|]. exists v1, e1. auto.
    + destruct A4 as [B1 [B2 B3]]. destruct (name_given default w (ext n) N1) as [z [v1 [e1 [Z1 [Z2 Z3]]]]].
      { destruct (split_facts _ _ _ B1) as [_ F]. destruct (ext n) as [x|] eqn:Ex; [exact F|]. specialize (B2 eq_refl). clear N1 N2 Hns Hsl.
        unfold consistent in Hc. destruct k as [| |y|name y]; [rewrite Hc; reflexivity| |rewrite (proj1 Hc) in *; rewrite B2; reflexivity|].
        - discriminate (proj2 A3 (or_introl eq_refl)).
        - specialize (B3 eq_refl). subst v'. cbn [with_ext file_with] in *. assert (w = name) as -> by (rewrite <- Hw; apply S3; exact (proj1 Hp)). rewrite B2. reflexivity. }
      exists z. split; [exact Z1|]. exists v1, e1. auto.
Qed.
Lemma finish_list d r : Forall (given d) r -> exists ns, finish_all d r = Some ns /\ Forall2 (denotes k default d) ns (map path r).
Proof.
  induction r as [|n r IH]; intros H; [exists []; split; [reflexivity|constructor]|]. inversion H as [|? ? H1 H2]. subst. destruct (finish_one d n H1) as [x [E1 E2]]. destruct (IH H2) as [ns [E3 E4]].
  exists (x :: ns). cbn. rewrite E1, E3. split; [reflexivity|]. constructor; assumption.
Qed.
End Whole.
