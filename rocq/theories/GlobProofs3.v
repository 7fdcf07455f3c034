(* The whole. *)
From Coq Require Import Sorting.Sorted.
From Verif Require Import Base SplitModel SplitSpec SplitProofs SplitProofs2 SplitProofs3 GlobModel GlobSpec GlobProofs GlobProofs2.

Lemma last_slash v : last_is is_sep v = true <-> ends_with_slash v.
Proof.
  unfold last_is, ends_with_slash. split.
  - destruct (rev v) as [|c r] eqn:E; [discriminate|]. intros H. apply is_sep_eq in H. subst c. exists (rev r). rewrite <- (rev_involutive v), E. reflexivity.
  - intros [u ->]. rewrite rev_app_distr. reflexivity.
Qed.
Lemma last_slash_no v : last_is is_sep v = false <-> ~ ends_with_slash v.
Proof. rewrite <- last_slash. destruct (last_is is_sep v); intuition congruence. Qed.
Lemma until_app s t : no_slash s -> match t with [] => True | c :: _ => is_sep c = true end -> until_sep (s ++ t) = s.
Proof.
  induction s as [|c s IH]; intros H Ht; cbn.
  - destruct t as [|c t]; [reflexivity|]. cbn. rewrite Ht. reflexivity.
  - destruct (is_sep c) eqn:E; [apply is_sep_eq in E; subst; contradiction H; left; reflexivity|]. rewrite IH; [reflexivity|intros K; apply H; right; exact K|exact Ht].
Qed.
Lemma until_form s : exists t, s = until_sep s ++ t /\ no_slash (until_sep s) /\ match t with [] => True | c :: _ => is_sep c = true end.
Proof.
  induction s as [|c s [t [E1 [E2 E3]]]]; [exists []; split; [reflexivity|]; split; [intros []|exact I]|]. cbn. destruct (is_sep c) eqn:E.
  - exists (c :: s). split; [reflexivity|]. split; [intros []|exact E].
  - exists t. split; [cbn; f_equal; exact E1|]. split; [|exact E3]. intros [K | K]; [subst; discriminate|exact (E2 K)].
Qed.
Lemma noslash_rev l : no_slash l -> no_slash (rev l).
Proof. unfold no_slash. rewrite <- in_rev. auto. Qed.
Lemma leaf_dir d l : directory_part d -> no_slash l -> leaf (d ++ l ++ ["/"%char]) = l.
Proof. intros Hd Hl. unfold leaf. rewrite !rev_app_distr. cbn [rev app]. change (is_sep "/"%char) with true. cbv iota. rewrite until_app; [apply rev_involutive|apply noslash_rev; exact Hl|exact (dir_stop d Hd)]. Qed.
Lemma leaf_file d l : directory_part d -> no_slash l -> l <> [] -> leaf (d ++ l) = l.
Proof.
  intros Hd Hl Hn. unfold leaf. rewrite rev_app_distr. pose proof (noslash_rev l Hl) as R. destruct (rev l) as [|c r] eqn:E; [apply (f_equal (@rev ascii)) in E; rewrite rev_involutive in E; contradiction|].
  cbn [app]. destruct (is_sep c) eqn:S; [apply is_sep_eq in S; subst; contradiction R; left; reflexivity|].
  change (c :: r ++ rev d) with ((c :: r) ++ rev d). rewrite until_app; [rewrite <- E; apply rev_involutive|exact R|exact (dir_stop d Hd)].
Qed.
Lemma leaf_form m : exists d, directory_part d /\ no_slash (leaf m) /\ (m = d ++ leaf m \/ m = d ++ leaf m ++ ["/"%char]).
Proof.
  unfold leaf. destruct (rev m) as [|c r] eqn:E.
  - exists []. apply (f_equal (@rev ascii)) in E. rewrite rev_involutive in E. subst m. split; [left; reflexivity|]. split; [intros []|left; reflexivity].
  - assert (m = rev (c :: r)) as -> by (rewrite <- E; symmetry; apply rev_involutive). clear E. destruct (is_sep c) eqn:S.
    + destruct (until_form r) as [t [E1 [E2 E3]]]. exists (rev t). split; [apply rev_stop; exact E3|]. split; [apply noslash_rev; exact E2|]. right. apply is_sep_eq in S. subst c. cbn [rev].
      rewrite E1 at 1. rewrite rev_app_distr, <- app_assoc. reflexivity.
    + destruct (until_form (c :: r)) as [t [E1 [E2 E3]]]. exists (rev t). split; [apply rev_stop; exact E3|]. split; [apply noslash_rev; exact E2|]. left. rewrite E1 at 1. apply rev_app_distr.
Qed.
Lemma called_iff name v : no_slash name -> name <> [] -> ~ ends_with_slash v -> called name v <-> leaf v = name.
Proof.
  intros H1 H2 H3. split.
  - intros [d [Hd ->]]. apply leaf_file; assumption.
  - intros <-. destruct (leaf_form v) as [d [Hd [_ [E | E]]]]; [exists d; auto|]. exfalso. apply H3. exists (d ++ leaf v). rewrite <- app_assoc. exact E.
Qed.
Lemma called_dec name v : no_slash name -> name <> [] -> ~ ends_with_slash v -> called name v \/ ~ called name v.
Proof. intros H1 H2 H3. rewrite (called_iff name v H1 H2 H3). destruct (list_eq_dec ascii_dec (leaf v) name); auto. Qed.
Lemma noslash_end d l : l <> [] -> no_slash l -> ~ ends_with_slash (d ++ l).
Proof.
  intros H1 H2 [u K]. destruct (exists_last H1) as [l0 [c ->]]. rewrite app_assoc in K. apply app_inj_tail in K. destruct K as [_ ->]. apply H2. rewrite in_app_iff. right. left. reflexivity.
Qed.

(* What is split is not a directory. *)
Lemma split_facts s v e : split_name s = Split v e -> ~ ends_with_slash v /\ match e with Some x => no_slash x /\ ~ starts_with_dot x | None => True end.
Proof.
  intros H. pose proof (split_form s) as F. rewrite H in F. destruct F as [d [l [-> [Hd [Hl [Hod He]]]]]]. split; [apply noslash_end; [intros ->; apply Hod; constructor|exact Hl]|]. destruct e; tauto.
Qed.

(* Names. *)
Lemma name_given (default : bytes -> option bytes) w e : nameable w e ->
  match e with Some x => no_slash x /\ ~ starts_with_dot x | None => file_with w (default w) = w end ->
  exists s v e', combine_name w e false = Some s /\ split_name s = Split v e' /\ file_with w e = file_with v (or_else e' (default v)).
Proof.
  intros [d [l [-> [Hd [Hl [Hod Hn]]]]]] He. destruct e as [x|].
  - destruct (combine_split d l (Some x) false Hd) as [s [C1 C2]].
    { split; [exact Hl|]. split; [exact Hod|]. split; [apply He|]. split; [apply He|]. intros K. specialize (Hn K). destruct x; [split; [reflexivity|exact Hn]|contradiction]. }
    exists s, (d ++ l), (Some x). auto.
  - destruct (last_is is_dot l) eqn:E.
    + apply last_is_iff in E. destruct (combine_split d l (Some []) false Hd) as [s [C1 C2]].
      { split; [exact Hl|]. split; [exact Hod|]. split; [intros []|]. split; [intros [? ?]; discriminate|]. intros K. split; [reflexivity|]. exact (Hn E). }
      exists s, (d ++ l), (Some []). rewrite (combine_trailing d l false Hd Hl Hod E). auto.
    + assert (~ ends_with_dot l) as E' by (rewrite <- last_is_iff; congruence). destruct (lone_dec l) as [L|L].
      * destruct (combine_dotted d l Hd Hl L E') as [s [x [y [C1 [C2 [C3 C4]]]]]]. exists s, (d ++ x), (Some y). split; [exact C1|]. split; [exact C4|]. cbn. destruct y as [|c y]; [contradiction|]. rewrite C2, app_assoc. reflexivity.
      * destruct (combine_split d l None false Hd) as [s [C1 C2]]. { split; [exact Hl|]. split; [exact Hod|]. auto. }
        exists s, (d ++ l), None. split; [exact C1|]. split; [exact C2|]. symmetry. exact He.
Qed.
Lemma name_default (default : bytes -> option bytes) w e : nameable w e -> e = default w ->
  exists s v e', combine_name w None true = Some s /\ split_name s = Split v e' /\ file_with w e = file_with v (or_else e' (default v)).
Proof.
  intros [d [l [-> [Hd [Hl [Hod Hn]]]]]] He. destruct (last_is is_dot l) eqn:E.
  - apply last_is_iff in E. specialize (Hn E). destruct (combine_split d l (Some []) false Hd) as [s [C1 C2]].
    { split; [exact Hl|]. split; [exact Hod|]. split; [intros []|]. split; [intros [? ?]; discriminate|]. intros K. split; [reflexivity|]. destruct e as [[|]|]; [exact Hn|contradiction|exact Hn]. }
    exists s, (d ++ l), (Some []). rewrite (combine_trailing d l true Hd Hl Hod E). split; [exact C1|]. split; [exact C2|]. destruct e as [[|]|]; [reflexivity|contradiction|reflexivity].
  - assert (~ ends_with_dot l) as E' by (rewrite <- last_is_iff; congruence).
    destruct (combine_split d l None true Hd) as [s [C1 C2]]. { split; [exact Hl|]. split; [exact Hod|]. split; [exact E'|discriminate]. }
    exists s, (d ++ l), None. split; [exact C1|]. split; [exact C2|]. rewrite He. reflexivity.
Qed.

(* The amendment. *)
Section Amend.
Context (k : kind) (default : bytes -> option bytes) (Hc : consistent k default).
Definition special_ok (v : bytes) : Prop := match k with Special name _ => forall u, split_name v = Split u None -> called name u -> u = name | _ => True end.
Lemma amend_spec v : v <> [] -> special_ok v ->
  match amend k v with
  | Broken => False
  | Bad => forall p e, ~ addresses k default v p e
  | Amended v' e a =>
      addresses k default v (with_ext v' e) e /\ (forall p e', addresses k default v p e' -> p = with_ext v' e /\ e' = e) /\
      (last_is is_sep v' = true <-> dir_pattern k v) /\
      (if last_is is_sep v' then e = None /\ (a = true -> k = Dirs)
       else if a then split_name v = Split v' None /\ e = default v' /\ e <> None /\ (forall x, e = Some x -> no_slash x)
       else split_name v = Split v' e /\ (e = None -> default v' = None) /\ match k with Special name _ => e = None -> v' = name | _ => True end)
  end.
Proof.
  intros Hv Hs. assert (split_name v <> Asserted) as HA. { intros K. pose proof (split_form v) as F. rewrite K in F. contradiction. }
  unfold special_ok in Hs. destruct k as [| |x|name x]; cbn [consistent] in Hc; cbn [amend].
  - destruct (last_is is_sep v) eqn:L.
    + apply last_slash in L. rewrite (proj2 (last_slash v) L). split; [left; auto|]. split.
      * intros p e' [[_ [-> ->]] | [K _]]; [auto|contradiction].
      * split; [split; [intros _; right; auto|reflexivity]|]. split; [reflexivity|discriminate].
    + apply last_slash_no in L. destruct (split_name v) as [| |v' e] eqn:E; [|contradiction|].
      * intros p e [[K _] | [_ [u [K _]]]]; [contradiction|congruence].
      * destruct (split_facts _ _ _ E) as [S1 S2]. rewrite (proj2 (last_slash_no v') S1). split; [right; split; [exact L|]; exists v'; auto|]. split.
        -- intros p e' [[K _] | [_ [u [K ->]]]]; [contradiction|]. rewrite E in K. injection K as <- <-. auto.
        -- split; [split; [discriminate|intros [K | [_ K]]; [discriminate|contradiction]]|]. split; [reflexivity|]. auto.
  - destruct (last_is is_sep v) eqn:L.
    + rewrite L. apply last_slash in L. split; [split; [reflexivity|]; left; auto|]. split.
      * intros p e' [-> [[_ ->] | [K _]]]; [auto|contradiction].
      * split; [split; [intros _; left; reflexivity|reflexivity]|]. split; [reflexivity|discriminate].
    + assert (last_is is_sep (v ++ ["/"%char]) = true) as L2 by (unfold last_is; rewrite rev_app_distr; reflexivity). rewrite L2. apply last_slash_no in L.
      split; [split; [reflexivity|]; right; auto|]. split.
      * intros p e' [-> [[K _] | [_ ->]]]; [contradiction|auto].
      * split; [split; [intros _; left; reflexivity|reflexivity]|]. auto.
  - destruct Hc as [Hd Hx]. destruct (split_name v) as [| |v' e] eqn:E; [|contradiction|].
    + intros p e [u [e0 [K _]]]. congruence.
    + destruct (split_facts _ _ _ E) as [S1 S2].
      assert (forall e1, e1 = or_else e x -> addresses (Ext x) default v (with_ext v' e1) e1 /\ forall p e', addresses (Ext x) default v p e' -> p = with_ext v' e1 /\ e' = e1) as HK.
      { intros e1 ->. split; [exists v', e; split; [exact E|]; rewrite Hd; auto|]. intros p e' [u [e0 [K [-> ->]]]]. rewrite E in K. injection K as <- <-. rewrite Hd. auto. }
      assert ((last_is is_sep v' = true <-> dir_pattern (Ext x) v)) as HD. { rewrite last_slash. split; [intros K; contradiction|]. intros [K | [K _]]; discriminate. }
      destruct e as [y|]; [|destruct x as [x|]]; (split; [apply HK; reflexivity|]); (split; [apply HK; reflexivity|]); (split; [exact HD|]); rewrite (proj2 (last_slash_no v') S1).
      * split; [reflexivity|]. split; [discriminate|exact I].
      * split; [reflexivity|]. split; [symmetry; apply Hd|]. split; [discriminate|]. intros y [= <-]. apply Hx. reflexivity.
      * split; [reflexivity|]. auto.
  - destruct Hc as [Hd1 [Hd2 [Hx [Hn Hnn]]]]. destruct (split_name v) as [| |v' e] eqn:E; [|contradiction|].
    + intros p e [u [e0 [K _]]]. congruence.
    + destruct (split_facts _ _ _ E) as [S1 S2]. set (dd := if beqb v' name then None else Some x).
      assert (e = None -> default v' = dd) as Hdd.
      { intros ->. subst dd. destruct (beqb v' name) eqn:B.
        - apply beqb_true in B. subst v'. apply Hd1. exists []. split; [left; reflexivity|reflexivity].
        - apply Hd2. intros K. rewrite (Hs v' eq_refl K) in B. rewrite (proj2 (beqb_true name name) eq_refl) in B. discriminate. }
      assert (forall e1, e1 = or_else e dd -> addresses (Special name x) default v (with_ext v' e1) e1 /\ forall p e', addresses (Special name x) default v p e' -> p = with_ext v' e1 /\ e' = e1) as HK.
      { intros e1 ->. assert (or_else e (default v') = or_else e dd) as Q by (destruct e; [reflexivity|]; cbn; apply Hdd; reflexivity).
        split; [exists v', e; split; [exact E|]; rewrite Q; auto|]. intros p e' [u [e0 [K [-> ->]]]]. rewrite E in K. injection K as <- <-. rewrite Q. auto. }
      assert ((last_is is_sep v' = true <-> dir_pattern (Special name x) v)) as HD. { rewrite last_slash. split; [intros K; contradiction|]. intros [K | [K _]]; discriminate. }
      destruct e as [y|]; [|specialize (Hdd eq_refl); destruct (beqb v' name) eqn:B]; (split; [apply HK; reflexivity|]); (split; [apply HK; reflexivity|]); (split; [exact HD|]); rewrite (proj2 (last_slash_no v') S1).
      * split; [reflexivity|]. split; [discriminate|discriminate].
      * split; [reflexivity|]. split; [intros _; exact Hdd|]. intros _. apply beqb_true. exact B.
      * split; [reflexivity|]. split; [symmetry; exact Hdd|]. split; [discriminate|]. intros y [= <-]. exact Hx.
Qed.
End Amend.
