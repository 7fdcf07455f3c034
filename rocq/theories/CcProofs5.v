(* Every source that the C/C++ lexer accepts consists of tokens, spaces and comments:
   directives and the whole. *)
From Verif Require Import Base CcModel CcSpec CcProofs CcProofs2 CcProofs3 CcProofs4.
Local Open Scope N_scope.

Definition okheld (st : scan) : Prop := forall x, held st = Some x -> ch x = Some BS /\ xline x = line st.
Lemma Rep_norm st S p : Rep st S p -> back st = None -> exists sp, splices sp /\ S = sp ++ hold st ++ rest st /\ posof st = adv sp p /\ okheld st.
Proof.
  intros (sp & Sp & ES & EP & Hb & Hh) B. unfold bk in *. rewrite B in *. exists sp. repeat split; try assumption; apply Hh; assumption.
Qed.
Lemma Rep_now st : back st = None -> okheld st -> Rep st (hold st ++ rest st) (posof st).
Proof.
  intros B H. exists []. unfold bk. rewrite B. cbn [app]. split; [constructor|]. split; [reflexivity|]. split; [reflexivity|]. split; [intros x E; congruence|exact H].
Qed.
Lemma plog_adv s : forall p, plog p = None <-> plog (adv s p) = None.
Proof.
  induction s as [|c s IH]; intros p; [reflexivity|]. unfold adv in *. cbn [fold_left]. rewrite <- IH. unfold adv1.
  destruct (ceqb c NL); [|reflexivity]. cbn. destruct (plog p); cbn; split; congruence.
Qed.
Lemma pfile_adv s : forall p, pfile (adv s p) = pfile p.
Proof. induction s as [|c s IH]; intros p; [reflexivity|]. unfold adv in *. cbn [fold_left]. rewrite IH. unfold adv1. destruct (ceqb c NL); reflexivity. Qed.
Lemma adv_pfile s f : forall p, adv s (mkpos (pline p) (plog p) f) = mkpos (pline (adv s p)) (plog (adv s p)) f.
Proof. induction s as [|c s IH]; intros p; [reflexivity|]. unfold adv in *. cbn [fold_left]. rewrite <- IH. unfold adv1. destruct (ceqb c NL); reflexivity. Qed.
Lemma adv_one c p : c <> NL -> adv [c] p = p.
Proof. apply adv1_not. Qed.

Lemma bytes_app a c : bytes_of (a ++ c) = bytes_of a ++ bytes_of c.
Proof. unfold bytes_of. rewrite map_app, concat_app. reflexivity. Qed.
Lemma bytes_one l s : bytes_of [Text l s] = le 8 l ++ s.
Proof. unfold bytes_of. cbn [map concat item_bytes]. apply app_nil_r. Qed.

(* A token after spaces. *)
Lemma token_reads n nl c f st S p st1 t st2 x : skipped nl st S p c st1 -> ch c = Some x -> x <> NL -> next_token n c f st1 = Some (t, st2) ->
  exists text S2 p2, is_token (type t) text /\ hd_error text = Some x /\ value t = match type t with Identifier => text | _ => [] end /\
    cs st2 = rev (le 8 (tline t) ++ text) ++ cs st /\ Rep st2 S2 p2 /\ first t = f /\ type t <> Eos /\
    forall pp m m' h ts, (nl = true -> m = Plain) -> next_part pp m (type t) text = Some m' -> reads pp m' p2 S2 h ts ->
      reads pp m p S ([Text (tline t) text] ++ h) (match m, m' with Plain, Plain => (type t, value t, tline t) :: ts | _, _ => ts end).
Proof.
  intros (S1 & p1 & sp & S2 & G & Sp & ES & Hc & L & R & C & B & K) Ec Nn E.
  destruct (K _ Ec) as (Bl & _ & Sl). rewrite Ec in Hc. symmetry in Hc. pose proof (hd_some _ _ Hc) as ES2. unfold char in R. rewrite Ec in R.
  destruct (next_token_spec _ _ _ _ _ _ _ _ _ E Ec R B Bl Nn Sl) as (text & S' & (s & Es & Et & R2) & It & En & Cs & V & Tl & Ff & Ne).
  exists (x :: text), S', (adv s (adv (sp ++ [x]) p1)). split; [exact It|]. split; [reflexivity|]. split; [exact V|].
  split; [rewrite Cs, C, Tl; reflexivity|]. split; [exact R2|]. split; [exact Ff|]. split; [exact Ne|].
  intros pp m m' h ts Nl Np H. apply (G pp m _ _ Nl). rewrite ES, ES2, Es. replace (sp ++ x :: s ++ S') with ((sp ++ x :: s) ++ S') by (rewrite <- app_assoc; reflexivity).
  rewrite V. eapply r_token; [exact It|exact Np|constructor; [exact Sp|exact Et]|exact En| |].
  - cbn [hd]. destruct (Rep_norm _ _ _ R B) as (sp' & Sp' & ES3 & EP & _).
    rewrite Tl. destruct (log st1) as [l|] eqn:Lg.
    + exists sp, sp', (hold st1 ++ rest st1). split; [exact Sp|]. split; [exact Sp'|]. split; [rewrite <- ES3, Es, <- app_assoc; reflexivity|].
      apply (f_equal plog) in EP. cbn in EP. rewrite Lg in EP. rewrite adv_app, adv_one in EP by exact Nn. unfold cur. rewrite adv_app, <- EP. reflexivity.
    + exists sp, [], (tl S2). split; [exact Sp|]. split; [constructor|]. split; [rewrite Es, <- app_assoc; reflexivity|].
      apply (f_equal plog) in EP. cbn in EP. rewrite Lg in EP. symmetry in EP. apply plog_adv in EP. rewrite adv_app in EP. apply plog_adv in EP. unfold cur. rewrite app_nil_r, EP. exact L.
  - replace (sp ++ x :: s) with ((sp ++ [x]) ++ s) by (rewrite <- app_assoc; reflexivity). rewrite adv_app. exact H.
Qed.

(* The rest of the digits. *)
Lemma digits_spec n : forall s0 st S p s st', digits n s0 st = Some (s, st') -> Rep st S p -> back st = None ->
  exists text S', eats st S p text st' S' /\ cs st' = cs st /\ all digit text /\ s = rev text ++ s0 /\ back st' = None /\
    exists c, peek true st' = (c, st') /\ (forall x, ch c = Some x -> digit x = false).
Proof.
  induction n as [|n IH]; intros s0 st S p s st' E R B; [discriminate E|]. cbn [digits] in E.
  destruct (peek true st) as [c st1] eqn:P. destruct (peek_cases _ _ _ _ _ R P) as (C1 & R1 & B1 & A1 & K1 & T1).
  assert (Stop : (forall x, ch c = Some x -> digit x = false) -> Some (s0, st1) = Some (s, st') -> exists text S', eats st S p text st' S' /\ cs st' = cs st /\ all digit text /\ s = rev text ++ s0 /\ back st' = None /\
    exists c, peek true st' = (c, st') /\ (forall x, ch c = Some x -> digit x = false)).
  { intros H E'. injection E' as <- <-. exists [], S. split; [apply eats_nil; exact R1|]. split; [exact C1|]. split; [intros y []|]. split; [reflexivity|]. split; [exact (B1 B)|]. exists c. split; [exact A1|exact H]. }
  destruct (ch c) as [x|] eqn:Ec.
  - destruct (digit x) eqn:Dx.
    + destruct (T1 _ eq_refl) as (sp & S1 & Sp & ES & R2 & _ & B2 & _).
      destruct (IH _ _ _ _ _ _ E R2 B2) as (text & S' & Ea & Cs & A & -> & Bk & Pk).
      exists (x :: text), S'. split; [eapply (eats_cons _ _ _ sp x S1 (take c st1)); [exact Sp|exact ES|exact Ea]|].
      split; [rewrite Cs, take_cs, C1; reflexivity|]. split; [intros y [<-|Hy]; [exact Dx|exact (A _ Hy)]|].
      split; [cbn [rev]; rewrite <- app_assoc; reflexivity|]. split; [exact Bk|exact Pk].
    + apply Stop; [|exact E]. intros y H. injection H as <-. exact Dx.
  - apply Stop; [|exact E]. intros y H. discriminate H.
Qed.
(* The file name, after the opening quote. *)
Lemma file_name_spec n : forall pr s0 st S p s st', file_name n pr s0 st = Some (s, st') -> Rep st S p -> back st = None -> pr <> DQ ->
  exists body name S', eats st S p (body ++ [DQ]) st' S' /\ cs st' = cs st /\ s = rev name ++ s0 /\ back st' = None /\
    (pr <> BS -> file_body body name) /\ (pr = BS -> file_body (BS :: body) name).
Proof.
  induction n as [|n IH]; intros pr s0 st S p s st' E R B Np; [discriminate E|]. cbn [file_name] in E.
  apply ceqb_neq in Np. rewrite Np in E. destruct (get true st) as [c st1] eqn:G.
  destruct (get_cases _ _ _ _ _ R G) as (C1 & B1 & [(Ec & _)|(x & sp & S1 & Ec & Sp & ES & _ & R1 & _)]); rewrite Ec in E; [discriminate E|].
  destruct (ceqb x NL) eqn:Xn; [discriminate E|].
  destruct (ceqb pr BS) eqn:Pb.
  - apply ceqb_eq in Pb. subst pr. destruct (ceqb x BS || ceqb x SQ || ceqb x DQ) eqn:Xe; [|discriminate E].
    destruct (IH _ _ _ _ _ _ _ E R1 B1) as (body & name & S' & Ea & Cs & -> & Bk & F & _); [discriminate|].
    exists (x :: body), (x :: name), S'. split; [eapply (eats_cons _ _ _ sp x S1 st1); [exact Sp|exact ES|exact Ea]|].
    split; [rewrite Cs, C1; reflexivity|]. split; [cbn [rev]; rewrite <- app_assoc; reflexivity|]. split; [exact Bk|].
    split; [intros H; contradiction|]. intros _. apply fb_escape; [|apply F; discriminate].
    rewrite !orb_true_iff, !ceqb_eq in Xe. cbn. intuition auto.
  - assert (Pb' : pr <> BS) by (apply ceqb_neq; exact Pb).
    destruct (ceqb x BS || ceqb x DQ) eqn:Xe.
    + destruct (ceqb x DQ) eqn:Xd.
      * apply ceqb_eq in Xd. subst x. destruct n as [|n]; [discriminate E|]. cbn [file_name] in E. injection E as <- <-.
        exists [], [], S1. split; [eapply (eats_cons _ _ _ sp DQ S1 st1); [exact Sp|exact ES|apply eats_nil; exact R1]|].
        split; [exact C1|]. split; [reflexivity|]. split; [exact B1|]. split; [intros _; constructor|intros H; contradiction].
      * rewrite orb_false_r in Xe. apply ceqb_eq in Xe. subst x.
        destruct (IH _ _ _ _ _ _ _ E R1 B1) as (body & name & S' & Ea & Cs & -> & Bk & _ & F); [discriminate|].
        exists (BS :: body), name, S'. split; [eapply (eats_cons _ _ _ sp BS S1 st1); [exact Sp|exact ES|exact Ea]|].
        split; [rewrite Cs, C1; reflexivity|]. split; [reflexivity|]. split; [exact Bk|]. split; [intros _; apply F; reflexivity|intros H; contradiction].
    + apply orb_false_iff in Xe. destruct Xe as [X1 X2]. apply ceqb_neq in Xn, X1, X2.
      destruct (IH _ _ _ _ _ _ _ E R1 B1) as (body & name & S' & Ea & Cs & -> & Bk & F & _); [exact X2|].
      exists (x :: body), (x :: name), S'. split; [eapply (eats_cons _ _ _ sp x S1 st1); [exact Sp|exact ES|exact Ea]|].
      split; [rewrite Cs, C1; reflexivity|]. split; [cbn [rev]; rewrite <- app_assoc; reflexivity|]. split; [exact Bk|].
      split; [|intros H; contradiction]. intros _. apply fb_char; try assumption. apply F. exact X1.
Qed.

Definition setp (st : scan) (f : bytes * bool) : scan := mkscan (rest st) (back st) (held st) (line st) (col1 st) (log st) f (cs st).
Lemma Rep_file st S p f : Rep st S p -> Rep (setp st f) S (mkpos (pline p) (plog p) f).
Proof.
  intros (sp & Sp & ES & EP & Hb & Hh). exists sp. split; [exact Sp|]. split; [exact ES|]. split; [|split; [exact Hb|exact Hh]].
  rewrite adv_pfile. change (bk (setp st f)) with (bk st). rewrite <- EP. reflexivity.
Qed.
Lemma Rep_pfile st S p : Rep st S p -> pfile p = file st.
Proof. intros (sp & Sp & ES & EP & _). apply (f_equal pfile) in EP. rewrite pfile_adv in EP. symmetry. exact EP. Qed.

(* A line directive that starts with a digit after spaces. *)
Lemma line_directive_spec n c st S p st1 st' x m : skipped false st S p c st1 -> ch c = Some x -> digit x = true -> m = Hash \/ m = LineWord ->
  line_directive n c st1 = Some st' ->
  exists k S2 p2, cs st' = rev (bytes_of k) ++ cs st /\ Rep st' S2 p2 /\ forall pp h ts, reads pp Tail p2 S2 h ts -> reads pp m p S (k ++ h) ts.
Proof.
  intros (S1 & p1 & sp & S2 & G & Sp & ES & Hc & L & R & C & B & K) Ec Dx Hm E. unfold line_directive in E.
  rewrite Ec in Hc. symmetry in Hc. pose proof (hd_some _ _ Hc) as ES2. unfold char in R, E. rewrite Ec in R, E.
  destruct (digits n [x] st1) as [[s st2]|] eqn:Dg; [|discriminate E].
  destruct (digits_spec _ _ _ _ _ _ _ Dg R B) as (text & S3 & (s1 & Es & Et & R2) & Cs & A & -> & Bk & e & Pe & He).
  rewrite rev_app_distr, rev_involutive in E. cbn [rev app] in E.
  set (i := number_of (x :: text)) in *. destruct (u64 <=? i) eqn:Hi; [discriminate E|]. apply N.leb_gt in Hi.
  destruct (Rep_norm _ _ _ R2 Bk) as (sp2 & Sp2 & ES4 & EP & Hh).
  set (st3 := mkscan (rest st2) (back st2) (held st2) (line st2) (col1 st2) (Some ((i + (u64 - 1)) mod u64)) (file st2) (cs st2)) in E.
  assert (R3 : Rep st3 (hold st3 ++ rest st3) (posof st3)) by (apply Rep_now; [exact Bk|exact Hh]).
  set (S4 := hold st3 ++ rest st3) in *. change (hold st2 ++ rest st2) with S4 in ES4.
  (* From the number on. *)
  assert (Number : forall pp h ts, reads pp LineNumber (posof st3) S4 h ts -> reads pp m p S h ts).
  { intros pp h ts H. apply (G pp m); [intros D; discriminate D|]. rewrite ES, ES2, Es, ES4.
    replace (sp ++ x :: s1 ++ sp2 ++ S4) with ((sp ++ x :: s1 ++ sp2) ++ S4) by (rewrite <- !app_assoc; cbn [app]; rewrite <- !app_assoc; reflexivity).
    apply (r_number _ _ (x :: text)); [exact Hm|discriminate|intros y [<-|Hy]; [exact Dx|exact (A _ Hy)]| |exact Hi| |].
    - constructor; [exact Sp|]. rewrite <- (app_nil_r text). apply spliced_app; [exact Et|constructor; exact Sp2].
    - destruct (peek_cases st2 S4 (posof st2) e st2) as (_ & _ & _ & _ & [S5 K5] & _); [apply Rep_now; assumption|exact Pe|].
      exists (ch e), S5. split; [exact K5|]. destruct (ch e) as [y|]; [apply He; reflexivity|exact I].
    - replace (adv (sp ++ x :: s1 ++ sp2) p1) with (posof st2); [exact H|]. rewrite EP, <- !adv_app. f_equal. rewrite <- app_assoc. reflexivity. }
  destruct (skip_spaces n false st3) as [[[d f] st4]|] eqn:Sk; [|discriminate E].
  destruct (skip_spaces_spec _ _ _ _ _ _ _ _ Sk R3) as (S5 & p5 & sp5 & S6 & G5 & Sp5 & ES5 & Hd & L5 & R5 & C5 & B5 & K5).
  destruct (is d DQ) eqn:Dd.
  - apply is_some in Dd. destruct (file_name n NUL [] st4) as [[nm st5]|] eqn:Fn; [|discriminate E].
    rewrite Dd in Hd. symmetry in Hd. pose proof (hd_some _ _ Hd) as ES6. unfold char in R5. rewrite Dd in R5.
    destruct (file_name_spec _ _ _ _ _ _ _ _ Fn R5 B5) as (body & name & S7 & (s7 & Es7 & Et7 & R7) & Cs7 & -> & B7 & Fb & _); [discriminate|].
    rewrite app_nil_r, rev_involutive in E. unfold set_file in E. assert (Nn : name <> []) by (intros ->; discriminate E).
    assert (Pf : pfile (adv s7 (adv (sp5 ++ [DQ]) p5)) = file st5) by (apply (Rep_pfile _ _ _ R7)).
    rewrite !pfile_adv in Pf.
    assert (St : exists f k, set_pfile name (file st5) = (f, k) /\ st' = append k (setp st5 f)).
    { destruct name as [|y name]; [contradiction|]. unfold set_pfile. destruct (beqb (fst (file st5)) (y :: name)) eqn:Eb.
      - injection E as <-. exists (file st5), []. split; [reflexivity|]. destruct st5; reflexivity.
      - cbv zeta in E. destruct (if special (y :: name) then (y :: name, false) else to_path (y :: name)) as [g1 g2]. cbn [fst snd] in *.
        exists (g1, g2). eexists. split; [reflexivity|]. destruct g2; injection E as <-; reflexivity. }
    destruct St as (f7 & k & Sf & ->).
    exists [File k], S7, (mkpos (pline (adv s7 (adv (sp5 ++ [DQ]) p5))) (plog (adv s7 (adv (sp5 ++ [DQ]) p5))) f7).
    split; [rewrite append_cs; unfold bytes_of; cbn [map concat item_bytes]; rewrite app_nil_r; f_equal; cbn; rewrite Cs7, C5; cbn; rewrite Cs; exact C|].
    split; [apply Rep_append, Rep_file; exact R7|].
    intros pp h ts H. apply Number. apply (G5 pp LineNumber); [intros D; discriminate D|]. rewrite ES5, ES6, Es7.
    replace (sp5 ++ DQ :: s7 ++ S7) with ((sp5 ++ DQ :: s7) ++ S7) by (rewrite <- app_assoc; reflexivity).
    eapply (r_file _ body name); [apply Fb; discriminate|exact Nn|constructor; [exact Sp5|exact Et7]|rewrite Pf; exact Sf|].
    cbn zeta. replace (adv (sp5 ++ DQ :: s7) p5) with (adv s7 (adv (sp5 ++ [DQ]) p5)); [exact H|]. rewrite <- adv_app, <- app_assoc. reflexivity.
  - injection E as <-. exists [], S6, (adv sp5 p5). split; [cbn; rewrite C5; cbn; rewrite Cs; exact C|].
    assert (HS : char d ++ tl S6 = S6).
    { unfold char. rewrite Hd. destruct S6; reflexivity. }
    split.
    + rewrite <- HS. apply unget_rep; [rewrite adv_app in R5; exact R5|exact B5|exact L5|]. intros H. rewrite H in Hd. symmetry in Hd. apply hd_none in Hd. rewrite Hd. reflexivity.
    + intros pp h ts H. apply Number. apply (G5 pp LineNumber); [intros D; discriminate D|]. rewrite ES5. apply r_splices; [exact Sp5|]. apply r_no_file; [|exact H].
      destruct S6 as [|y S6]; [exact I|]. cbn [hd_error tl] in *. destruct (K5 _ Hd) as (Bl & _ & Sl). split; [intros ->; apply (is_not _ _ Dd); exact Hd|].
      split; [exact Bl|]. intros Hy. destruct (Sl Hy) as (e' & Pe' & N1 & N2).
      destruct (peek_cases _ _ _ _ _ R5 Pe') as (_ & _ & _ & _ & [S8 K8] & _). exists (ch e'), S8. auto.
Qed.

Lemma splices_nil_app (sp S : bytes) : sp ++ S = [] -> sp = [] /\ S = [].
Proof. apply app_eq_nil. Qed.
Lemma is_token_nil t : ~ is_token t [].
Proof.
  intros H. remember [] as s eqn:Es in H. destruct H; try discriminate Es.
  - subst s. cbn in H. repeat (destruct H as [H|H]; [discriminate H|]). exact H.
  - apply app_eq_nil in Es. destruct Es as [_ Es]. discriminate Es.
  - apply app_eq_nil in Es. destruct Es as [_ Es]. discriminate Es.
  - apply app_eq_nil in Es. destruct Es as [_ Es]. discriminate Es.
Qed.
Lemma spliced_nil text : spliced text [] -> text = [].
Proof. intros H. remember [] as s eqn:E in H. destruct H; [reflexivity|]. apply app_eq_nil in E. destruct E as [_ E]. discriminate E. Qed.
(* The end. *)
Lemma reads_nil pp m p S h ts : reads pp m p S h ts -> S = [] -> h = [] /\ ts = [].
Proof.
  induction 1; intros E; try discriminate E; auto.
  - apply app_eq_nil in E. destruct E as [_ E]. auto.
  - exfalso. apply app_eq_nil in E. destruct E as [-> _]. match goal with H : spliced _ [] |- _ => apply spliced_nil in H; subst text end.
    match goal with H : comment [] |- _ => remember [] as z eqn:Z in H; destruct H; discriminate Z end.
  - exfalso. apply app_eq_nil in E. destruct E as [-> _]. match goal with H : spliced _ [] |- _ => apply spliced_nil in H; subst text end.
    eapply is_token_nil. eassumption.
  - exfalso. apply app_eq_nil in E. destruct E as [-> _]. match goal with H : spliced _ [] |- _ => apply spliced_nil in H; contradiction end.
  - exfalso. apply app_eq_nil in E. destruct E as [-> _]. match goal with H : spliced _ [] |- _ => apply spliced_nil in H; discriminate H end.
Qed.

Lemma reads_end_splices pp m p sp : splices sp -> m <> LineWord -> m <> LineNumber -> reads pp m p sp [] [].
Proof. intros H N1 N2. rewrite <- (app_nil_r sp). apply r_splices; [exact H|]. apply r_end; assumption. Qed.
(* A preprocessor directive after # (or after what follows). *)
Lemma directive_spec n : forall pp first st S p st', directive n pp first st = Some st' -> Rep st S p ->
  exists k S' p', cs st' = rev (bytes_of k) ++ cs st /\ Rep st' S' p' /\
    forall h ts, reads pp Plain p' S' h ts -> reads pp (if first then Hash else Tail) p S (k ++ h) ts.
Proof.
  induction n as [|n IH]; intros pp first st S p st' E R; [discriminate E|]. cbn [directive] in E.
  destruct (skip_spaces n false st) as [[[c f] st1]|] eqn:Sk; [|discriminate E].
  pose proof (skip_spaces_spec _ _ _ _ _ _ _ _ Sk R) as K. set (m := if first then Hash else Tail).
  assert (Hm1 : m <> LineWord) by (unfold m; destruct first; discriminate). assert (Hm2 : m <> LineNumber) by (unfold m; destruct first; discriminate).
  destruct (ch c) as [x|] eqn:Ec.
  - destruct (ceqb x NL) eqn:Xn.
    + apply ceqb_eq in Xn. subst x. injection E as <-.
      destruct K as (S1 & p1 & sp & S2 & G & Sp & ES & Hc & L & R1 & C & B & K). rewrite Ec in Hc. symmetry in Hc. pose proof (hd_some _ _ Hc) as ES2.
      exists [], (tl S2), (adv (sp ++ char c) p1). split; [exact C|]. split; [exact R1|]. intros h ts H.
      apply (G pp m); [intros D; discriminate D|]. rewrite ES. apply r_splices; [exact Sp|]. rewrite ES2. apply (r_newline _ _ Plain).
      * unfold m. destruct first; reflexivity.
      * rewrite adv_app in H. unfold char in H. rewrite Ec in H. exact H.
    + apply ceqb_neq in Xn. destruct (first && digit x) eqn:Fd.
      * apply andb_true_iff in Fd. destruct Fd as [-> Dx].
        destruct (line_directive n c st1) as [st2|] eqn:Ld; [|discriminate E].
        destruct (line_directive_spec _ _ _ _ _ _ _ _ Hash K Ec Dx (or_introl eq_refl) Ld) as (k1 & S2 & p2 & C2 & R2 & H2).
        destruct (IH _ _ _ _ _ _ E R2) as (k2 & S' & p' & C3 & R3 & H3).
        exists (k1 ++ k2), S', p'. split; [rewrite C3, C2, bytes_app, rev_app_distr, app_assoc; reflexivity|]. split; [exact R3|].
        intros h ts H. rewrite <- app_assoc. apply H2, H3, H.
      * destruct (next_token n c false st1) as [[t st2]|] eqn:Nt; [|discriminate E].
        destruct (token_reads _ _ _ _ _ _ _ _ _ _ _ K Ec Xn Nt) as (text & S2 & p2 & It & Ht & V & C2 & R2 & _ & Ne & H2).
        assert (Rest : next_part pp m (type t) text = Some Tail -> directive n pp false st2 = Some st' ->
          exists k S' p', cs st' = rev (bytes_of k) ++ cs st /\ Rep st' S' p' /\ forall h ts, reads pp Plain p' S' h ts -> reads pp m p S (k ++ h) ts).
        { intros Np E2. destruct (IH _ _ _ _ _ _ E2 R2) as (k2 & S' & p' & C3 & R3 & H3).
          exists ([Text (tline t) text] ++ k2), S', p'. split; [rewrite C3, C2, bytes_app, bytes_one, (rev_app_distr _ (bytes_of k2)), app_assoc; reflexivity|]. split; [exact R3|].
          intros h ts H. rewrite <- (app_assoc [Text (tline t) text]). specialize (H2 pp m Tail (k2 ++ h) ts). unfold m in H2, Np |- *.
          destruct first; (apply H2; [intros D; discriminate D|exact Np|apply H3; exact H]). }
        assert (Hd : hd NUL text = x) by (destruct text; [discriminate Ht|injection Ht as ->; reflexivity]).
        destruct (first && match type t with Identifier => true | _ => false end) eqn:Fi.
        -- apply andb_true_iff in Fi. destruct Fi as [-> Ti]. assert (Ti' : type t = Identifier) by (destruct (type t); first [discriminate Ti|reflexivity]).
           rewrite Ti' in V, Rest, H2. cbn [andb] in Fd. rewrite V in E. 
           destruct (beqb text (b "line")) eqn:Bl.
           ++ destruct (skip_spaces n false st2) as [[[d f2] st3]|] eqn:Sk2; [|discriminate E].
              pose proof (skip_spaces_spec _ _ _ _ _ _ _ _ Sk2 R2) as K2.
              destruct (match ch d with Some y => digit y | None => false end) eqn:Dd; [|discriminate E].
              destruct (ch d) as [y|] eqn:Ed; [|discriminate Dd].
              destruct (line_directive n d st3) as [st4|] eqn:Ld; [|discriminate E].
              destruct (line_directive_spec _ _ _ _ _ _ _ _ LineWord K2 Ed Dd (or_intror eq_refl) Ld) as (k1 & S4 & p4 & C4 & R4 & H4).
              destruct (IH _ _ _ _ _ _ E R4) as (k2 & S' & p' & C3 & R3 & H3).
              exists ([Text (tline t) text] ++ k1 ++ k2), S', p'. split; [rewrite C3, C4, C2, !bytes_app, bytes_one, (rev_app_distr _ (bytes_of k1 ++ bytes_of k2)), (rev_app_distr (bytes_of k1)), !app_assoc; reflexivity|].
              split; [exact R3|]. intros h ts H. rewrite <- (app_assoc [Text (tline t) text]).
              apply (H2 pp Hash LineWord); [intros D; discriminate D|cbn [next_part word]; rewrite Bl; reflexivity|]. rewrite <- app_assoc. apply H4, H3, H.
           ++ destruct (pp && beqb text (b "include")) eqn:Bi; [discriminate E|].
              apply Rest; [|exact E]. cbn [next_part m word]. rewrite Bl, Bi, Hd, Fd. reflexivity.
        -- apply Rest; [|exact E]. unfold m. destruct first; [|reflexivity]. cbn [andb] in Fi, Fd. cbn [next_part].
           assert (W : forall w, word (type t) text w = false) by (intros w; destruct (type t); first [discriminate Fi|reflexivity]).
           rewrite !W, andb_false_r, Hd, Fd. reflexivity.
  - injection E as <-. destruct K as (S1 & p1 & sp & S2 & G & Sp & ES & Hc & L & R1 & C & B & K). rewrite Ec in Hc. symmetry in Hc. apply hd_none in Hc. subst S2. rewrite app_nil_r in ES.
    exists [], [], (adv (sp ++ char c) p1). split; [exact C|]. split; [exact R1|]. intros h ts H. destruct (reads_nil _ _ _ _ _ _ H eq_refl) as [-> ->].
    apply (G pp m); [intros D; discriminate D|]. rewrite ES. apply reads_end_splices; assumption.
Qed.

Lemma hash_token text : is_token Punctuation text -> hd_error text = Some "#"%char -> text = b "#".
Proof.
  intros H E. inversion H as [| | | | | | | |s I| | | | | | |]; subst. cbn in I. repeat (destruct I as [<-|I]; [first [reflexivity|discriminate E]|]). destruct I.
Qed.
Lemma next_spec n : forall pp st S p t st', next n pp st = Some (t, st') -> Rep st S p ->
  exists k S' p', cs st' = rev (bytes_of k) ++ cs st /\ Rep st' S' p' /\ (type t = Eos -> reads pp Plain p S k []) /\
    (type t <> Eos -> forall h ts, reads pp Plain p' S' h ts -> reads pp Plain p S (k ++ h) ((type t, value t, tline t) :: ts)).
Proof.
  induction n as [|n IH]; intros pp st S p t st' E R; [discriminate E|]. cbn [next] in E.
  destruct (skip_spaces n true st) as [[[c f] st1]|] eqn:Sk; [|discriminate E].
  pose proof (skip_spaces_spec _ _ _ _ _ _ _ _ Sk R) as K.
  destruct (ch c) as [x|] eqn:Ec.
  - assert (Xn : x <> NL).
    { destruct K as (S1 & p1 & sp & S2 & G & Sp & ES & Hc & L & R1 & C & B & K). destruct (K _ Ec) as (_ & H & _). intros ->. discriminate (H eq_refl). }
    destruct (ceqb x "#") eqn:Xh.
    + apply ceqb_eq in Xh. subst x. set (l := match log st1 with Some l => l | None => xline c end) in E.
      assert (Nt : next_token n c f st1 = Some (mktoken Punctuation f [] l, append (le 8 l ++ char c) st1)) by (unfold next_token; rewrite Ec; reflexivity).
      destruct (directive n pp true (append (le 8 l ++ char c) st1)) as [st2|] eqn:Dr; [|discriminate E].
      destruct (token_reads _ _ _ _ _ _ _ _ _ _ _ K Ec Xn Nt) as (text & S2 & p2 & It & Ht & V & C2 & R2 & _ & Ne & H2).
      cbn [type tline value] in *. apply hash_token in It; [|exact Ht]. subst text.
      destruct (directive_spec _ _ _ _ _ _ _ Dr R2) as (k2 & S3 & p3 & C3 & R3 & H3).
      destruct (IH _ _ _ _ _ _ E R3) as (k3 & S' & p' & C4 & R4 & He & Ht4).
      assert (Go : forall h ts, reads pp Plain p3 S3 h ts -> reads pp Plain p S (([Text l (b "#")] ++ k2) ++ h) ts).
      { intros h ts H. rewrite <- (app_assoc [Text l (b "#")]). apply (H2 pp Plain Hash); [reflexivity|reflexivity|]. apply H3, H. }
      exists (([Text l (b "#")] ++ k2) ++ k3), S', p'.
      split; [rewrite C4, C3, C2, !bytes_app, bytes_one, !(rev_app_distr _ (bytes_of k3)), (rev_app_distr _ (bytes_of k2)), !app_assoc; reflexivity|]. split; [exact R4|].
      split; [intros H; apply Go, He, H|]. intros H h ts Hr. rewrite <- (app_assoc _ k3). apply Go, Ht4; assumption.
    + destruct (token_reads _ _ _ _ _ _ _ _ _ _ _ K Ec Xn E) as (text & S2 & p2 & It & Ht & V & C2 & R2 & _ & Ne & H2).
      exists [Text (tline t) text], S2, p2. split; [rewrite bytes_one; exact C2|]. split; [exact R2|]. split; [intros H; contradiction|].
      intros _ h ts H. apply (H2 pp Plain Plain); [reflexivity| |exact H]. cbn [next_part]. destruct (beqb text (b "#")) eqn:Bh; [|reflexivity].
      apply beqb_eq in Bh. subst text. injection Ht as <-. discriminate Xh.
  - injection E as <- <-. destruct K as (S1 & p1 & sp & S2 & G & Sp & ES & Hc & L & R1 & C & B & K). rewrite Ec in Hc. symmetry in Hc. apply hd_none in Hc. subst S2. rewrite app_nil_r in ES.
    exists [], [], (adv (sp ++ char c) p1). split; [exact C|]. split; [exact R1|]. split; [|intros H; exfalso; apply H; reflexivity].
    intros _. apply (G pp Plain); [reflexivity|]. rewrite ES. apply reads_end_splices; [exact Sp|discriminate|discriminate].
Qed.

Definition seen (t : token) : ttype * bytes * N := (type t, value t, tline t).
Lemma lex_all_spec n : forall pp st S p l st', lex_all n pp st = Some (l, st') -> Rep st S p ->
  exists k, cs st' = rev (bytes_of k) ++ cs st /\ reads pp Plain p S k (map seen l).
Proof.
  induction n as [|n IH]; intros pp st S p l st' E R; [discriminate E|]. cbn [lex_all] in E.
  destruct (next n pp st) as [[t st1]|] eqn:Nx; [|discriminate E].
  destruct (next_spec _ _ _ _ _ _ _ Nx R) as (k & S1 & p1 & C & R1 & He & Ht).
  destruct (type t) eqn:T;
    [injection E as <- <-; exists k; split; [exact C|apply He; reflexivity]
    |destruct (lex_all n pp st1) as [[l1 st2]|] eqn:La; [|discriminate E]; injection E as <- <-;
     destruct (IH _ _ _ _ _ _ La R1) as (k2 & C2 & H2); exists (k ++ k2);
     (split; [rewrite C2, C, bytes_app, rev_app_distr, app_assoc; reflexivity|]); cbn [map]; unfold seen at 1; rewrite T; apply Ht; [discriminate|exact H2] ..].
Qed.
Theorem lex_reads pp name s ts h : lex pp name s = Some (ts, h) -> exists items, reads pp Plain (begin name) s items (map seen ts) /\ h = bytes_of items.
Proof.
  unfold lex. destruct (lex_all _ _ _) as [[l st]|] eqn:E; [|discriminate]. intros H. injection H as <- <-.
  destruct (lex_all_spec _ _ _ s (begin name) _ _ E) as (k & C & H).
  - exists []. cbn. split; [constructor|]. split; [reflexivity|]. split; [reflexivity|]. split; intros x D; discriminate D.
  - cbn in C. rewrite app_nil_r in C. exists k. split; [exact H|]. rewrite C, rev_involutive. reflexivity.
Qed.
