(* C88: a pattern rule matches if every name matches the pattern for it. *)
From Verif Require Import Base ImpModel RxModel RxSpec RxProofs RxProofs2.

(* The expression is between the first character and the last one that is the same. *)
Theorem C88_delimited v t fl : split v = Some (t, fl) <-> delimited v t fl.
Proof. apply split_iff. Qed.
Print Assumptions C88_delimited.

Lemma patterns_of_eq es l : patterns_of es l -> patterns es = l.
Proof.
  unfold patterns. induction 1 as [|v ty es l H IH|x es l N H IH]; cbn; [reflexivity|now rewrite IH|]. destruct (e_kind x) as [v| |]; [now destruct (N v)| |]; exact IH.
Qed.

(* A rule is made if and only if all patterns are delimited, all or none ignore case, and they are valid together. *)
Theorem C88_make ts ps tl pl r : patterns_of ts tl -> patterns_of ps pl -> make ts ps = Some r <->
  exists tfs ic a n, Forall2 (fun v tf => delimited v (fst tf) (snd tf)) (map fst (tl ++ pl)) tfs /\
    Forall (fun tf => In "i"%char (snd tf) <-> ic = true) tfs /\ (tfs = [] -> ic = false) /\ parse 0 (join (map fst tfs)) = Some (a, n) /\ r = mkrule (join (map fst tfs)) a ic ts ps.
Proof. intros T P. rewrite <- (patterns_of_eq _ _ T), <- (patterns_of_eq _ _ P). apply make_iff. Qed.
Print Assumptions C88_make.

(* Which is so if each is valid and has no alternatives other than in groups. *)
Theorem C88_valid ts ps tl pl tfs (ic : bool) : patterns_of ts tl -> patterns_of ps pl -> tl <> [] ->
  Forall2 (fun v tf => delimited v (fst tf) (snd tf)) (map fst (tl ++ pl)) tfs ->
  Forall (fun tf => In "i"%char (snd tf) <-> ic = true) tfs -> simple 0 (map fst tfs) ->
  exists r, make ts ps = Some r /\ r_icase r = ic /\ r_targets r = ts /\ r_prereqs r = ps.
Proof.
  intros T P0 N F A S. rewrite <- (patterns_of_eq _ _ T) in *. rewrite <- (patterns_of_eq _ _ P0) in *. destruct (simple_seqs _ _ S) as (ss & Q).
  assert (NE : tfs <> []). { intros ->. destruct (patterns ts); [contradiction|]. inversion F. }
  destruct (parse_join _ _ _ Q) as (n & P); [intros E; now apply map_eq_nil in E|].
  eexists. split; [apply make_iff; exists tfs, ic, [jre ss], n; repeat split; auto; contradiction | repeat split].
Qed.
Print Assumptions C88_valid.

(* Names of targets to match. *)
Theorem C88_name is_dir ext_explicit k (f : bool) w : effective_name is_dir ext_explicit k f = w <-> name_of is_dir ext_explicit k (f = true) w.
Proof. apply effective_iff. Qed.
Print Assumptions C88_name.

(* It matches if and only if there is the first member or prerequisite of the type for each pattern and every name matches its own pattern. *)
Theorem C88_match_partial is_a is_dir ext_explicit ts ps r t v0 ty0 rest pl tfs e :
  make ts ps = Some r -> patterns_of ts ((v0, ty0) :: rest) -> patterns_of ps pl ->
  Forall2 (fun v tf => delimited v (fst tf) (snd tf)) (map fst ((v0, ty0) :: rest ++ pl)) tfs ->
  simple 0 (map fst tfs) \/ length tfs = 1 ->
  slash_free (t_key t) -> Forall slash_free (t_members t) -> Forall (fun p => slash_free (fst p)) (t_prereqs t) ->
  matches is_a is_dir ext_explicit r t e <->
  exists ks ws, chosen is_a t (map snd rest) (map snd pl) ks /\
    Forall2 (fun kf w => name_of is_dir ext_explicit (fst kf) (In "e"%char (snd kf)) w) (combine ks (map snd tfs)) ws /\
    each (r_icase r) 0 (map fst tfs) (fun _ => []) ws e.
Proof. intros M T P F. apply patterns_of_eq in T. apply patterns_of_eq in P. subst pl. apply (match_iff is_a is_dir ext_explicit ts ps r t v0 ty0); auto. now rewrite T. Qed.
Print Assumptions C88_match_partial.

(* Members and prerequisites that are added. *)
Theorem C88_members replace e dir es l : Forall (fun n => n <> b "." /\ n <> b "..") dir -> (members replace e dir es = Some l <-> adds replace e dir es l).
Proof. intros H. now apply members_iff. Qed.
Print Assumptions C88_members.
Theorem C88_prerequisites replace search_subst search_plain in_root e clean fsdir es l : prerequisites replace search_subst search_plain in_root e clean fsdir es = Some l <->
  exists c, needs replace search_subst search_plain e es c /\ l = filter (fun p => negb (match fsdir with Some d => d =? p | None => false end || clean && negb (in_root p))) c.
Proof. apply prerequisites_iff. Qed.
Print Assumptions C88_prerequisites.

(* exe{~'/T/'}: cxx{~'/P/'} *)
Definition ex_t (v : string) := [mkel (Pattern (b v)) 0].
Definition ex_p (v : string) := [mkel (Pattern (b v)) 1].
Definition ex_k (ty : nat) (n : string) := mkkey ty [] (b n) None.
Definition ex_no (_ : nat) := false.
Definition ex_target (n : string) (ps : list key) := mktarget (ex_k 0 n) [] (map (fun k => (k, true)) ps).
Definition ex_each (ic : bool) (ts ws : list bytes) := exists e, each ic 0 ts (fun _ => []) ws e.

Lemma lit_head ic c rs e w e' : ms ic (Lit c :: rs) e w e' -> exists x v, w = x :: v /\ same ic x c = true /\ ms ic rs e v e'.
Proof. intros H. inversion H as [|? ? ? ? ? ? ? H1 H2]; subst. inversion H1; subst. cbn. eauto. Qed.
Lemma ms_end ic e w e' : ms ic [] e w e' -> w = [].
Proof. intros H. now inversion H. Qed.
Lemma ms_one ic r e w e' : ms ic [r] e w e' -> m1 ic r e w e'.
Proof. intros H. inversion H as [|? ? ? u ? v ? G1 G2]; subst. inversion G2; subst. now rewrite app_nil_r. Qed.
Ltac lits H := repeat (apply lit_head in H; let x := fresh in let v := fresh in let E := fresh in let S := fresh in destruct H as (x & v & E & S & H); try discriminate E; injection E as <- <-; try discriminate S).
Lemma plus_any ic (f : ascii -> bool) w : forall e, w <> [] -> (forall c, In c w -> f c = true) -> m1 ic (Rep true true (Cls f)) e w e.
Proof.
  induction w as [|c w IH]; intros e N A; [contradiction|]. assert (C : m1 ic (Cls f) e [c] e).
  { apply m_cls with (y := c); [apply A; now left|]. unfold same. replace (ceqb c c) with true by (symmetry; now apply ceqb_eq). reflexivity. }
  destruct w as [|d w]; [now apply m_once|]. change (c :: d :: w) with ([c] ++ d :: w). eapply m_more; [exact C|]. apply IH; [discriminate|]. intros x X. apply A. now right.
Qed.

(* Alternatives that are not in a group span names: foo|bar with (.+) does not match foo with x, and .+|foo with b matches x with a. *)
Theorem C88_alternatives_refuted :
  (exists r, make (ex_t "/foo|bar/") (ex_p "/(.+)/") = Some r /\
     ex_each false [b "foo|bar"; b "(.+)"] [b "foo"; b "x"] /\
     forall e, ~ matches Nat.eqb ex_no ex_no r (ex_target "foo" [ex_k 1 "x"]) e) /\
  (exists r, make (ex_t "/.+|foo/") (ex_p "/b/") = Some r /\
     ~ ex_each false [b ".+|foo"; b "b"] [b "x"; b "a"] /\
     exists e, matches Nat.eqb ex_no ex_no r (ex_target "x" [ex_k 1 "a"]) e).
Proof.
  split.
  - eexists. split; [reflexivity|]. split.
    + eexists. eapply each_cons; [reflexivity | |].
      * eapply ma_in; [left; reflexivity|]. change (b "foo") with (["f"%char] ++ ["o"%char] ++ ["o"%char] ++ []).
        eapply ms_cons; [now constructor|]. eapply ms_cons; [now constructor|]. eapply ms_cons; [now constructor|]. constructor.
      * eapply each_cons; [reflexivity | | constructor]. eapply ma_in; [left; reflexivity|]. change (b "x") with (b "x" ++ []). eapply ms_cons; [|constructor].
        apply m_grp. eapply ma_in; [left; reflexivity|]. change (b "x") with (b "x" ++ []). eapply ms_cons; [|constructor]. apply plus_any; [discriminate|]. intros c [<-|[]]. reflexivity.
    + intros e (s & Hs & H). vm_compute in Hs. injection Hs as <-. inversion H as [q ? ? ? ? I M]; subst. destruct I as [<-|[<-|[]]].
      * lits M. apply ms_end in M. discriminate.
      * lits M.
  - eexists. split; [reflexivity|]. split.
    + intros (e & H). inversion H as [|? ? ? a n' ? ? ? e1 ? P1 M1 H1]; subst. inversion H1 as [|? ? ? a2 n2 ? ? ? e2 ? P2 M2 H2]; subst. vm_compute in P1. injection P1 as <- <-. vm_compute in P2. injection P2 as <- <-.
      inversion M2 as [q ? ? ? ? I M]; subst. destruct I as [<-|[]]. lits M.
    + eexists. eexists. split; [reflexivity|]. eapply ma_in; [left; reflexivity|].
      match goal with |- ms _ _ _ ?w _ => replace w with (b "x/a" ++ []) by reflexivity end.
      eapply ms_cons; [|constructor]. apply plus_any; [discriminate|]. intros c Hc. cbn in Hc. repeat (destruct Hc as [<-|Hc]; [reflexivity|]). contradiction.
Qed.
Print Assumptions C88_alternatives_refuted.

(* Patterns that are not valid are if they are together. *)
Theorem C88_invalid_refuted : parse 0 (b "(a") = None /\ parse 0 (b "b)") = None /\ exists r, make (ex_t "/(a/") (ex_p "/b)/") = Some r.
Proof. split; [reflexivity|]. split; [reflexivity|]. eexists. reflexivity. Qed.
Print Assumptions C88_invalid_refuted.

(* Only the first prerequisite of the type is tried: foo with bar and foo is not matched by (.+) with \1. *)
Theorem C88_other_prerequisites_refuted : exists r, make (ex_t "/(.+)/") (ex_p "/\1/") = Some r /\
  (exists e, matches Nat.eqb ex_no ex_no r (ex_target "foo" [ex_k 1 "foo"; ex_k 1 "bar"]) e) /\
  forall e, ~ matches Nat.eqb ex_no ex_no r (ex_target "foo" [ex_k 1 "bar"; ex_k 1 "foo"]) e.
Proof.
  assert (Sm : simple 0 [b "(.+)"; b "\1"]) by (eapply simple_cons; [reflexivity|]; eapply simple_cons; [reflexivity | constructor]).
  assert (F : Forall2 (fun v (tf : bytes * bytes) => delimited v (fst tf) (snd tf)) [b "/(.+)/"; b "/\1/"] [(b "(.+)", []); (b "\1", [])]).
  { constructor; [exists "/"%char; split; [reflexivity | intros []]|]. constructor; [exists "/"%char; split; [reflexivity | intros []] | constructor]. }
  assert (SF : forall ty n, ~ In SL (b n) -> slash_free (ex_k ty n)) by (intros ty n H; repeat split; auto; intros []).
  eexists. split; [reflexivity|]. split.
  - eexists. eexists. split; [reflexivity|]. eapply ma_in; [left; reflexivity|]. match goal with |- ms _ _ _ ?w _ => replace w with (b "foo" ++ b "/" ++ b "foo" ++ []) by reflexivity end.
    eapply ms_cons; [|eapply ms_cons; [now constructor|]; eapply ms_cons; [|constructor]].
    + apply m_grp. eapply ma_in; [left; reflexivity|]. change (b "foo") with (b "foo" ++ []). eapply ms_cons; [|constructor]. apply plus_any; [discriminate|].
      intros c Hc. cbn in Hc. repeat (destruct Hc as [<-|Hc]; [reflexivity|]). contradiction.
    + apply m_ref; [reflexivity|]. intros i. cbn [set Nat.eqb]. unfold same. replace (ceqb _ _) with true by (symmetry; now apply ceqb_eq). reflexivity.
  - intros e H.
    assert (L : forall n, In n [b "foo"; b "bar"] -> ~ In SL n) by (intros n [<-|[<-|[]]] H'; cbn in H'; intuition discriminate).
    assert (S2 : Forall (fun p => slash_free (fst p)) (t_prereqs (ex_target "foo" [ex_k 1 "bar"; ex_k 1 "foo"]))).
    { constructor; [apply SF, L; now right; left|]. constructor; [apply SF, L; now left | constructor]. }
    assert (S1 : slash_free (t_key (ex_target "foo" [ex_k 1 "bar"; ex_k 1 "foo"]))) by (apply SF, L; now left).
    apply (proj1 (match_iff Nat.eqb ex_no ex_no (ex_t "/(.+)/") (ex_p "/\1/") _ (ex_target "foo" [ex_k 1 "bar"; ex_k 1 "foo"]) (b "/(.+)/") 0 [] [(b "(.+)", []); (b "\1", [])] e eq_refl eq_refl F (or_introl Sm) S1 (Forall_nil _) S2)) in H.
    destruct H as (ks & ws & (ms0 & ps0 & -> & A & B) & N & E). cbn in A. inversion A; subst. cbn in B. inversion B as [|? k ? ps1 B1 B2]; subst. inversion B2; subst.
    assert (k = ex_k 1 "bar").
    { destruct B1 as (l1 & l2 & E1 & E2 & E3). destruct l1 as [|z l1]; [injection E1 as <- _; reflexivity|]. injection E1 as <- E1. inversion E3 as [|? ? X _]; subst. exfalso. apply X. split; reflexivity. }
    subst k. cbn in N. inversion N as [|? w1 ? ws1 N1 N2]; subst. inversion N2 as [|? w2 ? ws2 N3 N4]; subst. inversion N4; subst.
    assert (w1 = b "foo") by (symmetry; apply (effective_iff ex_no ex_no (ex_k 0 "foo") false); eapply name_of_ext; [|exact N1]; split; [intros [] | discriminate]).
    assert (w2 = b "bar") by (symmetry; apply (effective_iff ex_no ex_no (ex_k 1 "bar") false); eapply name_of_ext; [|exact N3]; split; [intros [] | discriminate]). subst w1 w2.
    cbn [map fst] in E. inversion E as [|? ? ? a n' ? ? ? e1 ? P1 M1 H1]; subst. inversion H1 as [|? ? ? a2 n2 ? ? ? e2 ? P2 M2 H2]; subst. vm_compute in P1. injection P1 as <- <-. vm_compute in P2. injection P2 as <- <-.
    inversion M1 as [q ? ? ? ? I1 MM]; subst. destruct I1 as [<-|[]]. apply ms_one in MM.
    inversion MM as [| | |? ? ? ? e' G3| | | |]; subst.
    inversion M2 as [q ? ? ? ? I2 MM2]; subst. destruct I2 as [<-|[]]. apply ms_one in MM2.
    inversion MM2 as [| |? ? ? RL RS| | | | |]; subst. specialize (RS 0). vm_compute in RS. discriminate.
Qed.
Print Assumptions C88_other_prerequisites_refuted.

(* exe{~'/(.+)/'}: cxx{~'/\1-main\.cxx/e'} *)
Example C88_match_nonvacuous : exists r e, make (ex_t "/(.+)/i") (ex_p "/\1-main\.cxx/ie") = Some r /\ simple 0 [b "(.+)"; b "\1-main\.cxx"] /\
  matches Nat.eqb ex_no ex_no r (mktarget (ex_k 0 "foo") [] [(ex_k 1 "bar", false); (ex_k 2 "foo", true); (mkkey 1 [] (b "Foo-Main") (Some (b "cxx")), true)]) e /\ e 1 = b "foo".
Proof.
  eexists. exists (set (fun _ => []) 1 (b "foo")). split; [reflexivity|]. split; [eapply simple_cons; [reflexivity|]; eapply simple_cons; [reflexivity | constructor]|]. split; [|reflexivity].
  eexists. split; [reflexivity|]. eapply ma_in; [left; reflexivity|].
  match goal with |- ms _ _ _ ?w _ => replace w with (b "foo" ++ b "/" ++ b "Foo" ++ b "-" ++ b "M" ++ b "a" ++ b "i" ++ b "n" ++ b "." ++ b "c" ++ b "x" ++ b "x" ++ []) by reflexivity end.
  eapply ms_cons.
  - apply m_grp. eapply ma_in; [left; reflexivity|]. change (b "foo") with (b "foo" ++ []). eapply ms_cons; [|constructor]. apply plus_any; [discriminate|].
    intros c Hc. cbn in Hc. repeat (destruct Hc as [<-|Hc]; [reflexivity|]). contradiction.
  - eapply ms_cons; [now constructor|]. eapply ms_cons.
    + apply m_ref; [reflexivity|]. intros [|[|[|[|i]]]]; reflexivity.
    + repeat (eapply ms_cons; [now constructor|]). constructor.
Qed.
Example C88_other_nonvacuous :
  members (fun e f => e 1 ++ f) (set (fun _ => []) 1 (b "foo")) [b "out"; b "d"] [mkel (Pattern (b "/(.+)/")) 0; mkel (Subst [b ".."; b "gen"] (b "/.h/")) 2] = Some [(2, [b "out"; b "gen"], b "foo.h")] /\
  members (fun e f => []) (fun _ => []) [] [mkel (Subst [] (b "/.h/")) 2] = None /\
  prerequisites (fun e f => e 1 ++ f) (fun ty d n => length n) (fun ty n => n) (fun p => negb (p =? 9)) (set (fun _ => []) 1 (b "foo")) true (Some 7)
    [mkel (Plain 7) 3; mkel (Pattern (b "/a/")) 1; mkel (Subst [] (b "/.h/")) 2; mkel (Plain 9) 1; mkel (Plain 4) 1] = Some [5; 4] /\
  make (ex_t "/a/i") (ex_p "/b/") = None /\ make (ex_t "/a[/") (ex_p "/b/") = None /\
  effective_name ex_no ex_no (mkkey 1 [] (b "foo") (Some (b "cxx"))) false = b "foo" /\ effective_name (Nat.eqb 1) ex_no (mkkey 1 (b "d") [] None) false = b "d" /\
  effective_name ex_no (Nat.eqb 1) (mkkey 1 [] (b "foo") (Some (b "1"))) false = b "foo.1".
Proof. repeat split; reflexivity. Qed.
