(* What is hashed determines the tokens. *)
From Coq Require Import Nnat Lia.
From Verif Require Import Base CcModel CcSpec CcProofs CcProofs2 CcProofs5.
Local Open Scope N_scope.

Lemma le_length k : forall n, length (le k n) = k.
Proof. induction k as [|k IH]; intros n; cbn [le length]; [reflexivity|]. rewrite IH. reflexivity. Qed.
Lemma le_inj k : forall n m, n < 256 ^ N.of_nat k -> m < 256 ^ N.of_nat k -> le k n = le k m -> n = m.
Proof.
  induction k as [|k IH]; intros n m Hn Hm E.
  - cbn in Hn, Hm. lia.
  - rewrite Nat2N.inj_succ, N.pow_succ_r' in Hn, Hm. cbn [le] in E. injection E as E1 E2.
    apply (f_equal N_of_ascii) in E1. rewrite !N_ascii_embedding in E1 by (apply N.mod_lt; discriminate).
    apply IH in E2; [|apply N.div_lt_upper_bound; [discriminate|exact Hn]|apply N.div_lt_upper_bound; [discriminate|exact Hm]].
    rewrite (N.div_mod n 256), (N.div_mod m 256), E1, E2 by discriminate. reflexivity.
Qed.
Lemma le_zero k : le k 0 = repeat NUL k.
Proof. induction k as [|k IH]; [reflexivity|]. cbn [le repeat]. change (0 / 256) with 0. rewrite IH. reflexivity. Qed.
Lemma le_split j : forall k n, le (j + k) n = le j n ++ le k (n / 256 ^ N.of_nat j).
Proof.
  induction j as [|j IH]; intros k n.
  - cbn. rewrite N.div_1_r. reflexivity.
  - cbn [Nat.add le app]. rewrite IH, N.div_div by (try discriminate; apply N.pow_nonzero; discriminate).
    rewrite Nat2N.inj_succ, N.pow_succ_r'. reflexivity.
Qed.
Lemma le_small l : l < 2 ^ 32 -> exists a c d e, le 8 l = [a; c; d; e; NUL; NUL; NUL; NUL].
Proof.
  intros H. change 8%nat with (4 + 4)%nat. rewrite le_split. change (256 ^ N.of_nat 4) with (2 ^ 32). rewrite N.div_small by exact H. rewrite le_zero.
  cbn [le app repeat]. eexists _, _, _, _. reflexivity.
Qed.
Lemma le_big : le 8 (u64 - 1) = repeat "255"%char 8.
Proof. vm_compute. reflexivity. Qed.

Definition enc (r : N * bytes) : bytes := le 8 (fst r) ++ snd r.
Definition encs (r : list (N * bytes)) : bytes := concat (map enc r).
Definition okr (r : N * bytes) : Prop := line_fits (fst r) /\ snd r <> [] /\ texty (snd r).
Lemma no_cut u r1 r2 : u ++ encs r1 = encs r2 -> u <> [] -> texty u -> (forall r, In r r1 -> okr r) -> (forall r, In r r2 -> okr r) -> False.
Proof.
  intros E Nu Tu O1 O2. destruct r2 as [|[l2 s2] r2]; [cbn in E; apply app_eq_nil in E; destruct E; contradiction|].
  destruct (O2 _ (or_introl eq_refl)) as (L2 & N2 & T2). cbn [fst snd] in *. unfold encs in E. cbn [map concat] in E. unfold enc at 2 in E. cbn [fst snd] in E.
  destruct s2 as [|t s2]; [contradiction|]. destruct (T2 t (or_introl eq_refl)) as [T0 _].
  destruct L2 as [L2| ->].
  2:{ rewrite le_big in E. destruct u as [|x u]; [contradiction|]. injection E as -> E. destruct (Tu _ (or_introl eq_refl)) as [_ H]. apply H. reflexivity. }
  destruct (le_small _ L2) as (a & c & d & e & El). rewrite El in E.
  assert (H1 : forall (k : bytes), concat (map enc r1) = k -> (1 <= length k)%nat ->
    exists l1 s1 z, k = le 8 l1 ++ z /\ line_fits l1 /\ s1 <> [] /\ z = s1 ++ concat (map enc (tl r1))).
  { intros k <- Hk. destruct r1 as [|[l1 s1] r1]; [cbn in Hk; lia|]. destruct (O1 _ (or_introl eq_refl)) as (L1 & N1 & _). cbn [fst snd] in *.
    exists l1, s1, (s1 ++ concat (map enc r1)). cbn [map concat]. unfold enc at 1. cbn [fst snd]. rewrite <- app_assoc. repeat split; auto. }
  (* Where the next record starts. *)
  assert (H3 : forall k z, concat (map enc r1) = k ++ t :: z -> (4 <= length k <= 7)%nat -> In NUL k -> False).
  { intros k z Ek Hk Ik. destruct (H1 _ Ek) as (l1 & s1 & z1 & E1 & L1 & _); [rewrite app_length; lia|].
    assert (Ht : nth (length k) (k ++ t :: z) "x"%char = t) by (rewrite app_nth2, Nat.sub_diag by lia; reflexivity).
    rewrite E1 in Ht. rewrite app_nth1 in Ht by (rewrite le_length; lia).
    destruct L1 as [L1| ->].
    - destruct (le_small _ L1) as (a1 & c1 & d1 & e1 & El1). rewrite El1 in Ht.
      apply T0. rewrite <- Ht. assert (Hn : (length k = 4 \/ length k = 5 \/ length k = 6 \/ length k = 7)%nat) by lia. destruct Hn as [-> |[-> |[-> | ->]]]; reflexivity.
    - rewrite le_big in E1. apply (In_nth _ _ "x"%char) in Ik. destruct Ik as (j & Hj & Ej).
      assert (Q : nth j (k ++ t :: z) "x"%char = NUL) by (rewrite app_nth1 by exact Hj; exact Ej). rewrite E1, app_nth1 in Q by (rewrite repeat_length; lia).
      assert (Hn : (j < 8)%nat) by lia. rewrite (nth_indep _ "x"%char "255"%char) in Q by (rewrite repeat_length; lia). rewrite nth_repeat in Q. discriminate Q. }
  destruct u as [|u0 u]; [contradiction|]. cbn [app] in E. injection E as -> E.
  destruct u as [|u1 u]; [apply (H3 [c; d; e; NUL; NUL; NUL; NUL] _ E); [cbn; lia|cbn; auto 9]|]. cbn [app] in E. injection E as -> E.
  destruct u as [|u2 u]; [apply (H3 [d; e; NUL; NUL; NUL; NUL] _ E); [cbn; lia|cbn; auto 9]|]. cbn [app] in E. injection E as -> E.
  destruct u as [|u3 u]; [apply (H3 [e; NUL; NUL; NUL; NUL] _ E); [cbn; lia|cbn; auto 9]|]. cbn [app] in E. injection E as -> E.
  destruct u as [|u4 u]; [apply (H3 [NUL; NUL; NUL; NUL] _ E); [cbn; lia|cbn; auto 9]|]. cbn [app] in E. injection E as -> E.
  destruct (Tu NUL) as [H _]; [cbn; auto 9|]. apply H. reflexivity.
Qed.
Lemma line_fits_u64 l : line_fits l -> l < 256 ^ N.of_nat 8.
Proof. unfold line_fits, u64. intros [H| ->]; [|reflexivity]. eapply N.lt_trans; [exact H|reflexivity]. Qed.
Lemma encs_inj : forall r1 r2, (forall r, In r r1 -> okr r) -> (forall r, In r r2 -> okr r) -> encs r1 = encs r2 -> r1 = r2.
Proof.
  induction r1 as [|[l1 s1] r1 IH]; intros r2 O1 O2 E.
  - destruct r2 as [|[l2 s2] r2]; [reflexivity|]. apply (f_equal (@length _)) in E. cbn [encs map concat] in E. unfold enc in E. cbn [fst snd] in E.
    rewrite !app_length, le_length in E. cbn in E. lia.
  - destruct r2 as [|[l2 s2] r2].
    { apply (f_equal (@length _)) in E. cbn [encs map concat] in E. unfold enc in E. cbn [fst snd] in E. rewrite !app_length, le_length in E. cbn in E. lia. }
    destruct (O1 _ (or_introl eq_refl)) as (L1 & N1 & T1). destruct (O2 _ (or_introl eq_refl)) as (L2 & N2 & T2). cbn [fst snd] in *.
    unfold encs in E. cbn [map concat] in E. unfold enc at 1 3 in E. cbn [fst snd] in E. rewrite <- !app_assoc in E.
    assert (El : le 8 l1 = le 8 l2 /\ s1 ++ encs r1 = s2 ++ encs r2).
    { assert (F := f_equal (firstn 8) E). assert (G := f_equal (skipn 8) E).
      rewrite !firstn_app, !le_length, !Nat.sub_diag, !firstn_O, !app_nil_r, !firstn_all2 in F by (rewrite le_length; lia).
      rewrite !skipn_app, !le_length, !Nat.sub_diag, !skipn_O, !skipn_all2 in G by (rewrite le_length; lia). split; [exact F|exact G]. }
    destruct El as [El Es]. apply le_inj in El; [|apply line_fits_u64; assumption|apply line_fits_u64; assumption]. subst l2.
    assert (O1' : forall r, In r r1 -> okr r) by (intros r Hr; apply O1; right; exact Hr). assert (O2' : forall r, In r r2 -> okr r) by (intros r Hr; apply O2; right; exact Hr).
    apply app_eq_app in Es. destruct Es as (u & [[-> Eu]|[-> Eu]]).
    + destruct u as [|x u].
      * cbn [app] in Eu. rewrite app_nil_r. f_equal. apply IH; auto.
      * exfalso. apply (no_cut (x :: u) r1 r2); [symmetry; exact Eu|discriminate| |assumption|assumption]. intros y Hy. apply T1. apply in_or_app. right. exact Hy.
    + destruct u as [|x u].
      * cbn [app] in Eu. rewrite app_nil_r. f_equal. apply IH; auto.
      * exfalso. apply (no_cut (x :: u) r2 r1); [symmetry; exact Eu|discriminate| |assumption|assumption]. intros y Hy. apply T2. apply in_or_app. right. exact Hy.
Qed.

Lemma records_bytes h : bytes_of h = fst (records h) ++ encs (snd (records h)).
Proof.
  induction h as [|i h IH]; [reflexivity|]. unfold bytes_of in *. cbn [map concat]. rewrite IH. cbn [records]. destruct i as [l s|s]; destruct (records h) as [k r]; cbn [fst snd item_bytes].
  - cbn [app]. unfold encs. cbn [map concat]. unfold enc at 2. cbn [fst snd]. rewrite <- !app_assoc. reflexivity.
  - rewrite app_assoc. reflexivity.
Qed.

(* The items of a source. *)
Definition oki (i : item) : Prop := match i with Text _ s => s <> [] /\ texty s | File s => texty s end.
Lemma spliced_in text s : spliced text s -> forall c, In c text -> In c s.
Proof. induction 1; intros d D; [destruct D|]. apply in_or_app. right. destruct D as [-> |D]; [left; reflexivity|right; auto]. Qed.
Lemma file_body_in body name : file_body body name -> forall c, In c name -> In c body.
Proof. induction 1; intros d D; [destruct D|destruct D as [-> |D]; [left; reflexivity|right; auto]|destruct D as [-> |D]; [right; left; reflexivity|right; right; auto]]. Qed.
Lemma strip_in s c : In c (strip s) -> In c s.
Proof. induction s as [|d s IH]; cbn [strip]; [auto|]. destruct (ceqb d "/"); [intros H; right; auto|auto]. Qed.
Lemma to_path_in s c : In c (fst (to_path s)) -> In c s \/ c = "/"%char.
Proof.
  unfold to_path. destruct (rev s) as [|d s'] eqn:E; [auto|]. destruct (ceqb d "/"); [|auto]. cbn [fst].
  destruct (strip s') as [|e s''] eqn:St; [intros [<-|[]]; auto|]. intros H. left. apply in_rev in H. rewrite <- St in H. apply strip_in in H.
  apply in_rev. rewrite E. right. exact H.
Qed.
Lemma reads_items pp m p S h ts : reads pp m p S h ts -> texty S -> forall i, In i h -> oki i.
Proof.
  assert (Sub : forall a c, texty (a ++ c) -> texty a /\ texty c) by (intros a c H; split; intros d D; apply H, in_or_app; auto).
  assert (Sub1 : forall a c, texty (a :: c) -> texty c) by (intros a c H d D; apply H; right; exact D).
  induction 1; intros T i Hi; try (apply Sub in T; destruct T as [T1 T2]); eauto.
  - destruct Hi.
  - destruct Hi as [<-|Hi]; [|auto]. cbn. split; [intros ->; eapply is_token_nil; eassumption|]. intros c Hc. apply T1. eapply spliced_in; eassumption.
  - destruct Hi as [<-|Hi]; [|auto]. cbn. intros c Hc. assert (Hn : In c name \/ c = "/"%char).
    { match goal with H : set_pfile _ _ = _ |- _ => revert H; unfold set_pfile end. destruct (beqb (fst (pfile p)) name); intros Q; injection Q as <- <-; [destruct Hc|].
      destruct (special name); cbn [snd fst] in Hc; [auto|]. destruct (snd (to_path name)); [destruct Hc|]. apply to_path_in. exact Hc. }
    destruct Hn as [Hn| ->]; [|split; discriminate]. apply T1. apply (spliced_in _ _ H1). right. apply (in_or_app body). left. apply (file_body_in _ _ H). exact Hn.
Qed.
Lemma records_ok h : (forall i, In i h -> oki i) -> fits h -> texty (fst (records h)) /\ forall r, In r (snd (records h)) -> okr r.
Proof.
  induction h as [|i h IH]; intros O F; [split; intros ? []|].
  destruct IH as [IH1 IH2]; [intros j Hj; apply O; right; exact Hj|intros l s Hl; apply (F l s); right; exact Hl|].
  cbn [records]. destruct (records h) as [k r]. cbn [fst snd] in *. pose proof (O i (or_introl eq_refl)) as Oi.
  destruct i as [l s|s]; cbn [fst snd oki] in *.
  - split; [intros ? []|]. destruct Oi as [N T]. intros q [<-|Hq]; [|auto]. split; [apply (F l s); left; reflexivity|]. cbn [fst snd].
    split; [destruct s; [contradiction|discriminate]|]. intros c Hc. apply in_app_or in Hc. destruct Hc; auto.
  - split; [|exact IH2]. intros c Hc. apply in_app_or in Hc. destruct Hc; auto.
Qed.
(* A file name is only after a token. *)
Lemma reads_file pp m p S h ts : reads pp m p S h ts -> m = Plain \/ m = Tail -> fst (records h) = [].
Proof.
  induction 1; intros M; auto; try (destruct M; discriminate).
  - apply IHreads. destruct m; destruct M as [M|M]; try discriminate M; injection H as <-; auto.
  - cbn [records]. destruct (records h). reflexivity.
  - subst. destruct M as [-> | ->]; destruct H as [H|H]; discriminate H.
Qed.
Theorem same_records pp n1 n2 s1 s2 i1 i2 ts1 ts2 :
  reads pp Plain (begin n1) s1 i1 ts1 -> reads pp Plain (begin n2) s2 i2 ts2 -> texty s1 -> texty s2 -> fits i1 -> fits i2 ->
  bytes_of i1 = bytes_of i2 -> snd (records i1) = snd (records i2).
Proof.
  intros R1 R2 T1 T2 F1 F2 E. rewrite !records_bytes in E. rewrite (reads_file _ _ _ _ _ _ R1), (reads_file _ _ _ _ _ _ R2) in E by auto. cbn [app] in E.
  apply encs_inj; [apply records_ok; [eapply reads_items; eassumption|assumption]|apply records_ok; [eapply reads_items; eassumption|assumption]|exact E].
Qed.

(* The kind of a token is known from its text. *)
Definition quote (c : ascii) : bool := ceqb c SQ || ceqb c DQ.
Definition classify (s : bytes) : ttype :=
  match s with
  | [] => Eos
  | c :: s' =>
      if existsb (beqb s) punctuators then Punctuation
      else if digit c || (ceqb c "." && negb (beqb s' [])) then Number
      else match List.find quote s with
           | Some q => if ceqb q SQ then Character else Str
           | None =>
               if ident c then Identifier
               else if beqb s (b "::") then Scope
               else if ceqb c "." then Dot
               else if ceqb c ";" then Semi
               else if ceqb c ":" then Colon
               else if ceqb c "<" then Less
               else if ceqb c ">" then Greater
               else if ceqb c "{" then LBrace
               else if ceqb c "}" then RBrace
               else Other
           end
  end.
Lemma not_punctuator c s : existsb (beqb (c :: s)) punctuators = true -> In c (b "#()[],?~\.=!*/%^<>+-&|").
Proof.
  intros H. apply existsb_exists in H. destruct H as (x & I & E). apply beqb_eq in E. subst x. cbn in I |- *.
  repeat (destruct I as [I|I]; [injection I as <- _; auto 40|]). destruct I.
Qed.
Lemma ident_not_punctuator c s : ident c = true -> existsb (beqb (c :: s)) punctuators = false.
Proof.
  intros H. destruct (existsb _ _) eqn:E; [|reflexivity]. apply not_punctuator in E. cbn in E. exfalso.
  repeat (destruct E as [<-|E]; [discriminate H|]). destruct E.
Qed.
Lemma all_no_quote s : all ident s -> List.find quote s = None.
Proof.
  induction s as [|c s IH]; intros A; [reflexivity|]. cbn [List.find]. assert (I : ident c = true) by (apply A; left; reflexivity).
  destruct (quote c) eqn:Q; [|apply IH; intros d D; apply A; right; exact D].
  unfold quote in Q. apply orb_true_iff in Q. destruct Q as [Q|Q]; apply ceqb_eq in Q; subst c; discriminate I.
Qed.
Lemma is_token_classify t s : is_token t s -> classify s = t.
Proof.
  intros H. destruct H as [| | | | | | | |s I|c s I D A|c s D Nr|c s D Nr|e s f En Q Sf|e s f En Q Sf|e d s f En Ok Mi Sf|c I Ns Nn Bl]; try reflexivity.
  - assert (E : existsb (beqb s) punctuators = true) by (apply existsb_exists; exists s; split; [exact I|apply beqb_refl]).
    destruct s as [|c s]; [discriminate E|]. cbn [classify]. rewrite E. reflexivity.
  - cbn [classify]. rewrite (ident_not_punctuator c s I), D, (all_no_quote (c :: s)); [|intros y [<-|Hy]; auto].
    rewrite I. destruct (ceqb c ".") eqn:Ed; [apply ceqb_eq in Ed; subst c; discriminate I|reflexivity].
  - cbn [classify]. rewrite (ident_not_punctuator c s), D; [reflexivity|]. unfold ident. rewrite D. reflexivity.
  - cbn [classify]. destruct (existsb _ _) eqn:E; [|rewrite orb_true_intro by (right; reflexivity); reflexivity].
    exfalso. apply existsb_exists in E. destruct E as (x & I & E). apply beqb_eq in E. subst x. cbn in I.
    repeat (destruct I as [I|I]; [first [discriminate I|injection I as <- _; discriminate D]|]). destruct I.
  - unfold encoding in En. cbn in En. repeat (destruct En as [<-|En]; [reflexivity|]). destruct En.
  - unfold encoding in En. cbn in En. repeat (destruct En as [<-|En]; [reflexivity|]). destruct En.
  - unfold encoding in En. cbn in En. repeat (destruct En as [<-|En]; [reflexivity|]). destruct En.
  - destruct c as [[] [] [] [] [] [] [] []]; first [reflexivity|discriminate I|exfalso; apply Ns; cbn; auto 40].
Qed.

(* A source without directives. *)
Definition lined (x : ttype * bytes * N) : item := let '(t, s, l) := x in Text l s.
Definition valued (x : ttype * bytes * N) : ttype * bytes * N := let '(t, s, l) := x in (t, match t with Identifier => s | _ => [] end, l).
Lemma count_adv s : forall p, plog p = None -> plog (adv s p) = None /\ pline (adv s p) = pline p + N.of_nat (count_occ ascii_dec s NL).
Proof.
  induction s as [|c s IH]; intros p H; [split; [exact H|cbn; lia]|]. unfold adv in *. cbn [fold_left].
  assert (H1 : plog (adv1 p c) = None) by (unfold adv1; destruct (ceqb c NL); cbn; [rewrite H; reflexivity|exact H]).
  destruct (IH _ H1) as [IH1 IH2]. split; [exact IH1|]. rewrite IH2. unfold adv1. cbn [count_occ].
  destruct (ascii_dec c NL) as [->|N]; [cbn [ceqb]; unfold ceqb; rewrite Ascii.eqb_refl; cbn [pline]; lia|]. apply ceqb_neq in N. rewrite N. reflexivity.
Qed.
Lemma reads_plain pp m p S h ts : reads pp m p S h ts -> m = Plain -> ~ In "#"%char S -> plog p = None ->
  exists l, h = map lined l /\ ts = map valued l /\ (forall t s n, In (t, s, n) l -> is_token t s /\ n <= pline p + N.of_nat (count_occ ascii_dec S NL)).
Proof.
  assert (Sub : forall a c, ~ In "#"%char (a ++ c) -> ~ In "#"%char a /\ ~ In "#"%char c) by (intros a c H; split; intros D; apply H, in_or_app; auto).
  assert (Later : forall p a c (l : list (ttype * bytes * N)), plog p = None -> (forall t s n, In (t, s, n) l -> is_token t s /\ n <= pline (adv a p) + N.of_nat (count_occ ascii_dec c NL)) ->
    forall t s n, In (t, s, n) l -> is_token t s /\ n <= pline p + N.of_nat (count_occ ascii_dec (a ++ c) NL)).
  { intros q a c l Pl H t s n I. destruct (H _ _ _ I) as [H1 H2]. split; [exact H1|]. rewrite count_occ_app. destruct (count_adv a q Pl) as [_ E]. rewrite E in H2. lia. }
  induction 1; intros M Ns Pl; try discriminate M.
  - exists []. repeat split; intros; contradiction.
  - apply Sub in Ns. destruct IHreads as (l & -> & -> & Hl); [exact M|tauto|apply count_adv; exact Pl|]. exists l. split; [reflexivity|]. split; [reflexivity|]. apply Later; assumption.
  - destruct IHreads as (l & -> & -> & Hl); [exact M|intros D; apply Ns; right; exact D|exact Pl|]. exists l. split; [reflexivity|]. split; [reflexivity|].
    intros t s n I. destruct (Hl _ _ _ I) as [H1 H2]. split; [exact H1|]. cbn [count_occ]. destruct (ascii_dec c NL); lia.
  - subst m. injection H as <-. destruct IHreads as (l & -> & -> & Hl); [reflexivity|intros D; apply Ns; right; exact D|cbn; rewrite Pl; reflexivity|]. exists l. split; [reflexivity|]. split; [reflexivity|].
    apply (Later p [NL] src); [exact Pl|exact Hl].
  - apply Sub in Ns. destruct IHreads as (l & -> & -> & Hl); [exact M|tauto|apply count_adv; exact Pl|]. exists l. split; [reflexivity|]. split; [reflexivity|]. apply Later; assumption.
  - subst m. apply Sub in Ns. destruct Ns as [Ns1 Ns2].
    assert (m' = Plain).
    { cbn [next_part] in H0. destruct (beqb text (b "#")) eqn:E; [|congruence]. apply beqb_eq in E. subst text. exfalso. apply Ns1. apply (spliced_in _ _ H1). left. reflexivity. }
    subst m'. destruct IHreads as (l' & -> & -> & Hl); [reflexivity|exact Ns2|apply count_adv; exact Pl|]. exists ((t, text, l) :: l'). split; [reflexivity|]. split; [reflexivity|].
    intros t1 s1 n1 [I|I]; [|revert t1 s1 n1 I; apply Later; assumption]. injection I as <- <- <-. split; [exact H|].
    destruct H3 as (sp & sp' & src' & _ & _ & E & ->). unfold cur. destruct (count_adv (sp ++ sp') p Pl) as [-> ->]. rewrite E, !count_occ_app.
    change (hd NUL text :: sp' ++ src') with ([hd NUL text] ++ sp' ++ src'). rewrite !count_occ_app. lia.
  - subst m. destruct H as [H|H]; discriminate H.
Qed.
Lemma count_length s : (count_occ ascii_dec s NL <= length s)%nat.
Proof. induction s as [|c s IH]; cbn; [lia|]. destruct (ascii_dec c NL); lia. Qed.
Theorem same_tokens pp n1 n2 s1 s2 ts1 ts2 h :
  lex pp n1 s1 = Some (ts1, h) -> lex pp n2 s2 = Some (ts2, h) -> texty s1 -> texty s2 -> ~ In "#"%char s1 -> ~ In "#"%char s2 ->
  N.of_nat (length s1) + 1 < 2 ^ 32 -> N.of_nat (length s2) + 1 < 2 ^ 32 ->
  map seen ts1 = map seen ts2 /\ exists items, reads pp Plain (begin n1) s1 items (map seen ts1) /\ reads pp Plain (begin n2) s2 items (map seen ts1).
Proof.
  intros L1 L2 T1 T2 N1 N2 Z1 Z2. destruct (lex_reads _ _ _ _ _ L1) as (i1 & R1 & E1). destruct (lex_reads _ _ _ _ _ L2) as (i2 & R2 & E2).
  destruct (reads_plain _ _ _ _ _ _ R1 eq_refl N1 eq_refl) as (l1 & H1 & V1 & K1). destruct (reads_plain _ _ _ _ _ _ R2 eq_refl N2 eq_refl) as (l2 & H2 & V2 & K2).
  assert (Fit : forall i (l : list (ttype * bytes * N)) s, i = map lined l -> (forall t x n, In (t, x, n) l -> is_token t x /\ n <= 1 + N.of_nat (count_occ ascii_dec s NL)) -> N.of_nat (length s) + 1 < 2 ^ 32 -> fits i).
  { intros i l s -> K Z n x I. apply in_map_iff in I. destruct I as ([[t y] m] & E & I). injection E as <- <-. left. destruct (K _ _ _ I) as [_ B]. pose proof (count_length s). lia. }
  assert (E : snd (records i1) = snd (records i2)).
  { apply (same_records _ _ _ _ _ _ _ _ _ R1 R2 T1 T2); [eapply (Fit _ _ s1); eassumption|eapply (Fit _ _ s2); eassumption|congruence]. }
  assert (Rec : forall l : list (ttype * bytes * N), records (map lined l) = ([], map (fun x => let '(t, s, n) := x in (n, s)) l)).
  { clear. induction l as [|[[t s] n] l IH]; [reflexivity|]. cbn [map lined records]. rewrite IH, app_nil_r. reflexivity. }
  rewrite H1, H2, !Rec in E. cbn [snd] in E.
  assert (Same : l1 = l2).
  { clear - E K1 K2. revert l2 E K2. induction l1 as [|[[t1 x1] m1] l1 IH]; intros [|[[t2 x2] m2] l2] E K2; try discriminate E; [reflexivity|].
    cbn [map] in E. injection E as -> -> E. f_equal.
    - destruct (K1 _ _ _ (or_introl eq_refl)) as [I1 _]. destruct (K2 _ _ _ (or_introl eq_refl)) as [I2 _]. apply is_token_classify in I1, I2. congruence.
    - apply IH; [intros t s n I; apply K1; right; exact I|exact E|intros t s n I; apply K2; right; exact I]. }
  subst l2. split; [congruence|]. exists i1. split; [exact R1|]. rewrite H1, <- H2, V1, <- V2. exact R2.
Qed.
