(* The scanner of the C/C++ lexer. *)
From Verif Require Import Base CcModel CcSpec.
Local Open Scope N_scope.

Definition posof (st : scan) : pos := mkpos (line st) (log st) (file st).
Definition bk (st : scan) : bytes := match back st with Some x => char x | None => [] end.
Definition hold (st : scan) : bytes := match held st with Some x => char x | None => [] end.
(* The scanner is at p and S is what remains of the source: some line splices may be already
   skipped. *)
Definition Rep (st : scan) (S : bytes) (p : pos) : Prop :=
  exists sp, splices sp /\ S = bk st ++ sp ++ hold st ++ rest st /\ posof st = adv (bk st ++ sp) p /\
    (forall x, back st = Some x -> xline x = pline p /\ (ch x = None -> sp = [] /\ hold st = [] /\ rest st = [])) /\
    (forall x, held st = Some x -> ch x = Some BS /\ xline x = line st).
(* The same, without anything looked at. *)
Definition Clean (st : scan) (S : bytes) (p : pos) : Prop := back st = None /\ held st = None /\ S = rest st /\ posof st = p.

Lemma adv_app a c p : adv (a ++ c) p = adv c (adv a p).
Proof. unfold adv. apply fold_left_app. Qed.
Lemma adv1_not p c : c <> NL -> adv1 p c = p.
Proof. intros H. unfold adv1. apply ceqb_neq in H. rewrite H. reflexivity. Qed.
Lemma adv_cr crs p : (forall c, In c crs -> c = CR) -> adv crs p = p.
Proof.
  induction crs as [|c crs IH]; intros H; [reflexivity|]. unfold adv in *. cbn [fold_left].
  rewrite (H c) by (left; reflexivity). rewrite adv1_not by discriminate. apply IH. intros d D. apply H. right. exact D.
Qed.
Lemma splices_app a c : splices a -> splices c -> splices (a ++ c).
Proof. induction 1; intros H'; [exact H'|]. rewrite <- app_assoc. constructor; auto. Qed.
Lemma splices_one x : splice x -> splices x.
Proof. intros H. rewrite <- (app_nil_r x). constructor; [exact H|constructor]. Qed.
Lemma spliced_app a s c t : spliced a s -> spliced c t -> spliced (a ++ c) (s ++ t).
Proof.
  induction 1 as [sp Sp|]; intros H'.
  - cbn [app]. destruct H' as [sp' Sp'|]; [constructor; apply splices_app; assumption|]. rewrite app_assoc. constructor; [apply splices_app|]; assumption.
  - cbn [app]. rewrite <- app_assoc. cbn [app]. constructor; auto.
Qed.
Lemma spliced_one sp c : splices sp -> spliced [c] (sp ++ [c]).
Proof. intros H. apply spd_char; [exact H|repeat constructor]. Qed.
Lemma spliced_refl s : spliced s s.
Proof. induction s as [|c s IH]; [repeat constructor|]. apply (spd_char c s [] s); [constructor|exact IH]. Qed.
Lemma rev_char x : rev (char x) = char x.
Proof. unfold char. destruct (ch x); reflexivity. Qed.

(* What remains of a splice in this mode, followed by more of them. *)
Definition opens (m : mode) (w : bytes) : Prop :=
  match m with
  | Start => w = []
  | Slash _ => exists crs, (forall c, In c crs -> c = CR) /\ (w = crs ++ [NL] \/ w = CR :: crs)
  | Return => exists crs, (forall c, In c crs -> c = CR) /\ (w = crs ++ [NL] \/ w = crs)
  end.
Lemma unescape_spec r : forall m st x st', back st = None -> held st = None -> unescape m r st = (x, st') ->
  (forall y, m = Slash y -> ch y = Some BS /\ xline y = line st) ->
  back st' = None /\ cs st' = cs st /\ file st' = file st /\
  ((exists w sp r1, opens m w /\ splices sp /\ r = w ++ sp ++ r1 /\ posof st' = adv (w ++ sp) (posof st) /\
     ch x = hd_error r1 /\ xline x = line st' /\
     ((held st' = None /\ rest st' = r1) \/ (held st' = Some x /\ ch x = Some BS /\ r1 = BS :: rest st'))) \/
   (exists y, m = Slash y /\ x = y /\ held st' = Some y /\ rest st' = r /\ posof st' = posof st)).
Proof.
  induction r as [|c r IH]; intros m st x st' Hb Hh E Y.
  - cbn in E. destruct m as [|y|].
    + injection E as <- <-. cbn. rewrite Hb. repeat (split; [reflexivity|]). left. exists [], [], []. cbn. rewrite Hh. repeat (split; [constructor || reflexivity|]). left. split; reflexivity.
    + injection E as <- <-. cbn. rewrite Hb. repeat (split; [reflexivity|]). right. exists y. repeat (split; [reflexivity|]). reflexivity.
    + injection E as <- <-. cbn. rewrite Hb. repeat (split; [reflexivity|]). left. exists [], [], []. cbn. rewrite Hh.
      split; [exists []; split; [intros ? []|right; reflexivity]|]. repeat (split; [constructor || reflexivity|]). left. split; reflexivity.
  - cbn [unescape] in E.
    set (at_ := fun r l c g => mkscan r (back st) (held st) l c g (file st) (cs st)) in E.
    (* not a splice *)
    assert (Plain_ : forall w, opens m w -> posof st = adv w (posof st) ->
      (if ceqb c BS then unescape (Slash (mkx (Some c) (line st) (col1 st))) r (at_ r (line st) false (log st))
       else (mkx (Some c) (line st) (col1 st), at_ (c :: r) (line st) (col1 st) (log st))) = (x, st') ->
      w = [] ->
      back st' = None /\ cs st' = cs st /\ file st' = file st /\
      (exists w sp r1, opens m w /\ splices sp /\ c :: r = w ++ sp ++ r1 /\ posof st' = adv (w ++ sp) (posof st) /\
        ch x = hd_error r1 /\ xline x = line st' /\
        ((held st' = None /\ rest st' = r1) \/ (held st' = Some x /\ ch x = Some BS /\ r1 = BS :: rest st')))).
    { intros w O A E' W. subst w. destruct (ceqb c BS) eqn:Ec.
      - apply ceqb_eq in Ec. subst c. apply IH in E'; [|exact Hb|exact Hh|intros y Hy; injection Hy as <-; split; reflexivity].
        destruct E' as (B1 & B2 & B3 & [(w & sp & r1 & O1 & Sp & Er & Ep & Ex & El & D)|(y & Hy & -> & H1 & H2 & H3)]).
        + cbn in B2, B3. repeat (split; [assumption|]).
          destruct O1 as (crs & Cr & W). exists [], ((BS :: w) ++ sp), r1. split; [exact O|]. split.
          * apply sps_cons; [|exact Sp]. destruct W as [-> | ->]; constructor; exact Cr.
          * split; [cbn; rewrite Er, <- app_assoc; reflexivity|]. split.
            { rewrite Ep. cbn [app]. cbn [adv fold_left]. rewrite adv1_not by discriminate. reflexivity. }
            { repeat split; assumption. }
        + injection Hy as <-. cbn in B2, B3. repeat (split; [assumption|]). exists [], [], (BS :: r). cbn.
          split; [exact O|]. split; [constructor|]. split; [reflexivity|]. split; [exact H3|]. split; [reflexivity|]. split.
          * unfold posof in H3. cbn in H3. injection H3 as -> _ _. reflexivity.
          * right. rewrite H1, H2. repeat split.
      - injection E' as <- <-. cbn. rewrite Hb, Hh. repeat (split; [reflexivity|]). exists [], [], (c :: r).
        split; [exact O|]. split; [constructor|]. repeat (split; [reflexivity|]). left. split; reflexivity. }
    (* a newline *)
    assert (Newline : c = NL -> unescape Start r (at_ r (line st + 1) true (bump (log st))) = (x, st') ->
      opens m [NL] ->
      back st' = None /\ cs st' = cs st /\ file st' = file st /\
      (exists w sp r1, opens m w /\ splices sp /\ c :: r = w ++ sp ++ r1 /\ posof st' = adv (w ++ sp) (posof st) /\
        ch x = hd_error r1 /\ xline x = line st' /\
        ((held st' = None /\ rest st' = r1) \/ (held st' = Some x /\ ch x = Some BS /\ r1 = BS :: rest st')))).
    { intros -> E' O. apply IH in E'; [|exact Hb|exact Hh|intros y Hy; discriminate Hy].
      destruct E' as (B1 & B2 & B3 & [(w & sp & r1 & O1 & Sp & Er & Ep & Ex & El & D)|(y & Hy & _)]); [|discriminate Hy].
      cbn in O1. subst w. cbn in B2, B3. repeat (split; [assumption|]). exists [NL], sp, r1. split; [exact O|]. split; [exact Sp|].
      split; [cbn in Er |- *; rewrite Er; reflexivity|]. split; [|repeat split; assumption].
      rewrite Ep. cbn [app]. change (adv (NL :: sp)) with (fun p => adv sp (adv1 p NL)). cbv beta. unfold adv1. change (ceqb NL NL) with true. cbn iota. reflexivity. }
    (* a carriage return *)
    assert (Return_ : c = CR -> unescape Return r (at_ r (line st) false (log st)) = (x, st') ->
      (forall w, opens Return w -> opens m (CR :: w)) ->
      back st' = None /\ cs st' = cs st /\ file st' = file st /\
      (exists w sp r1, opens m w /\ splices sp /\ c :: r = w ++ sp ++ r1 /\ posof st' = adv (w ++ sp) (posof st) /\
        ch x = hd_error r1 /\ xline x = line st' /\
        ((held st' = None /\ rest st' = r1) \/ (held st' = Some x /\ ch x = Some BS /\ r1 = BS :: rest st')))).
    { intros -> E' O. apply IH in E'; [|exact Hb|exact Hh|intros y Hy; discriminate Hy].
      destruct E' as (B1 & B2 & B3 & [(w & sp & r1 & O1 & Sp & Er & Ep & Ex & El & D)|(y & Hy & _)]); [|discriminate Hy].
      cbn in B2, B3. repeat (split; [assumption|]). exists (CR :: w), sp, r1. split; [apply O; exact O1|]. split; [exact Sp|].
      split; [cbn in Er |- *; rewrite Er; reflexivity|]. split; [|repeat split; assumption].
      rewrite Ep. cbn [app]. cbn [adv fold_left]. rewrite adv1_not by discriminate. reflexivity. }
    destruct m as [|y|].
    + apply (Plain_ []) in E; [|reflexivity|reflexivity|reflexivity]. destruct E as (B1 & B2 & B3 & D). repeat (split; [assumption|]). left. exact D.
    + destruct (ceqb c CR) eqn:E1.
      * apply ceqb_eq in E1. apply Return_ in E; [|exact E1|].
        -- destruct E as (B1 & B2 & B3 & D). repeat (split; [assumption|]). left. exact D.
        -- intros w (crs & Cr & W). destruct W as [-> | ->].
           ++ exists (CR :: crs). split; [intros d [<-|D]; [reflexivity|apply Cr; exact D]|left; reflexivity].
           ++ exists crs. split; [exact Cr|right; reflexivity].
      * destruct (ceqb c NL) eqn:E2.
        -- apply ceqb_eq in E2. apply Newline in E; [|exact E2|exists []; split; [intros ? []|left; reflexivity]].
           destruct E as (B1 & B2 & B3 & D). repeat (split; [assumption|]). left. exact D.
        -- injection E as <- <-. cbn. rewrite Hb. repeat (split; [reflexivity|]). right. exists y. repeat (split; [reflexivity|]). reflexivity.
    + destruct (ceqb c CR) eqn:E1.
      * apply ceqb_eq in E1. apply Return_ in E; [|exact E1|].
        -- destruct E as (B1 & B2 & B3 & D). repeat (split; [assumption|]). left. exact D.
        -- intros w (crs & Cr & W). exists (CR :: crs). split; [intros d [<-|D]; [reflexivity|apply Cr; exact D]|]. destruct W as [-> | ->]; [left|right]; reflexivity.
      * destruct (ceqb c NL) eqn:E2.
        -- apply ceqb_eq in E2. apply Newline in E; [|exact E2|exists []; split; [intros ? []|left; reflexivity]].
           destruct E as (B1 & B2 & B3 & D). repeat (split; [assumption|]). left. exact D.
        -- apply (Plain_ []) in E; [|exists []; split; [intros ? []|right; reflexivity]|reflexivity|reflexivity].
           destruct E as (B1 & B2 & B3 & D). repeat (split; [assumption|]). left. exact D.
Qed.

Lemma Rep_clean st S p : Clean st S p -> Rep st S p.
Proof.
  intros (B & H & -> & <-). exists []. unfold bk, hold. rewrite B, H. cbn. split; [constructor|]. split; [reflexivity|]. split; [reflexivity|].
  split; intros x Hx; discriminate Hx.
Qed.
Lemma take_cs x st : cs (take x st) = cs st.
Proof. unfold take. destruct (back st), (held st), (ch x) as [c|]; try destruct (ceqb c NL); reflexivity. Qed.
Lemma take_file x st : file (take x st) = file st.
Proof. unfold take. destruct (back st), (held st), (ch x) as [c|]; try destruct (ceqb c NL); reflexivity. Qed.
Lemma adv_char x p c : ch x = Some c -> adv (char x) p = adv1 p c.
Proof. unfold char. intros ->. reflexivity. Qed.
Lemma adv_eos x p : ch x = None -> adv (char x) p = p.
Proof. unfold char. intros ->. reflexivity. Qed.

(* Taking a character that was looked at. *)
Lemma take_rep st x S p : back st = None -> posof st = p -> ch x = hd_error S ->
  ((held st = None /\ rest st = S) \/ (held st = Some x /\ ch x = Some BS /\ S = BS :: rest st)) ->
  Clean (take x st) (tl S) (adv (char x) p).
Proof.
  intros B P X [[H R]|[H [X' ->]]].
  - unfold take, Clean. rewrite B, H, R. destruct (ch x) as [c|] eqn:Ec.
    + rewrite (adv_char _ _ _ Ec). subst p. unfold adv1. destruct (ceqb c NL); cbn; repeat split.
    + rewrite (adv_eos _ _ Ec). rewrite B, H, R. destruct S; [|discriminate X]. repeat split. exact P.
  - unfold take, Clean. rewrite B, H. cbn. repeat (split; [reflexivity|]). rewrite (adv_char _ _ _ X'). rewrite adv1_not by discriminate. exact P.
Qed.
Lemma peek_none st S p : Rep st S p -> back st = None -> forall x st1, peek true st = (x, st1) ->
  exists sp S1, splices sp /\ S = sp ++ S1 /\ ch x = hd_error S1 /\ xline x = pline (adv sp p) /\ cs st1 = cs st /\
    back st1 = None /\ posof st1 = adv sp p /\
    ((held st1 = None /\ rest st1 = S1) \/ (held st1 = Some x /\ ch x = Some BS /\ S1 = BS :: rest st1)).
Proof.
  intros (sp0 & Sp0 & ES & EP & _ & Hh) B x st1 E. unfold bk in ES, EP. rewrite B in ES, EP. cbn [app] in ES, EP.
  unfold peek in E. rewrite B in E. destruct (held st) as [y|] eqn:H.
  - injection E as <- <-. destruct (Hh y eq_refl) as [Hy Hl]. unfold hold in ES. rewrite H in ES. unfold char in ES. rewrite Hy in ES. cbn [app] in ES.
    exists sp0, (BS :: rest st). repeat (split; [assumption || reflexivity|]). split; [rewrite Hl; rewrite <- EP; reflexivity|].
    split; [reflexivity|]. split; [exact B|]. split; [exact EP|]. right. repeat split; assumption.
  - unfold hold in ES. rewrite H in ES. cbn [app] in ES.
    destruct (unescape_spec _ _ _ _ _ B H E) as (B1 & B2 & B3 & [(w & sp & r1 & O & Sp & Er & Ep & Ex & El & D)|(y & Hy & _)]);
      [intros y Hy; discriminate Hy| |discriminate Hy].
    cbn in O. subst w. cbn [app] in *. exists (sp0 ++ sp), r1. split; [apply splices_app; assumption|].
    split; [rewrite ES, Er, <- app_assoc; reflexivity|]. split; [exact Ex|].
    assert (P : posof st1 = adv (sp0 ++ sp) p) by (rewrite adv_app, <- EP; exact Ep).
    split; [rewrite El, <- P; reflexivity|]. split; [exact B2|]. split; [exact B1|]. split; [exact P|exact D].
Qed.
Lemma peek_some st y : back st = Some y -> peek true st = (y, st).
Proof. unfold peek. intros ->. reflexivity. Qed.

(* Looking at the next character. *)
Lemma peek_rep st S p x st1 : Rep st S p -> peek true st = (x, st1) ->
  exists sp S1, splices sp /\ S = sp ++ S1 /\ ch x = hd_error S1 /\ xline x = pline (adv sp p) /\ cs st1 = cs st /\
    Rep st1 S p /\ Rep (take x st1) (tl S1) (adv (sp ++ char x) p) /\
    (back st = None -> back st1 = None /\ Clean (take x st1) (tl S1) (adv (sp ++ char x) p)).
Proof.
  intros R E. destruct (back st) as [y|] eqn:B.
  - rewrite (peek_some _ _ B) in E. injection E as <- <-. exists [], S. split; [constructor|]. split; [reflexivity|].
    destruct R as (sp & Sp & ES & EP & Hb & Hh). destruct (Hb y B) as [Hl Hn].
    unfold bk in ES, EP. rewrite B in ES, EP.
    assert (X : ch y = hd_error S).
    { subst S. unfold char. destruct (ch y) as [c|] eqn:Ec; [reflexivity|]. destruct (Hn eq_refl) as (-> & -> & ->). reflexivity. }
    split; [exact X|]. split; [exact Hl|]. split; [reflexivity|]. split.
    { exists sp. unfold bk. rewrite B. repeat (split; [assumption|]). split; [|exact Hh]. intros x Hx. injection Hx as <-. split; assumption. }
    split; [|intros H; discriminate H].
    exists sp. unfold take. rewrite B. unfold bk, hold. cbn [back held rest]. split; [exact Sp|]. split.
    + subst S. destruct (ch y) eqn:Ec; [unfold char; rewrite Ec; reflexivity|]. destruct (Hn eq_refl) as (-> & Ho & Hr). unfold hold in Ho. cbn [back held rest]. rewrite Hr, ?Ho. unfold hold. rewrite ?Ho. unfold char. rewrite Ec. reflexivity.
    + cbn [app]. split; [rewrite <- adv_app; exact EP|]. split; [intros x Hx; discriminate Hx|exact Hh].
  - destruct (peek_none _ _ _ R B _ _ E) as (sp & S1 & Sp & ES & X & L & C & B1 & P & D).
    exists sp, S1. repeat (split; [assumption|]).
    assert (K : Clean (take x st1) (tl S1) (adv (sp ++ char x) p)) by (rewrite adv_app; apply take_rep; assumption).
    split; [|split; [apply Rep_clean; exact K|intros _; split; [exact B1|exact K]]].
    exists sp. unfold bk. rewrite B1. cbn [app]. split; [exact Sp|]. split.
    + rewrite ES. f_equal. unfold hold. destruct D as [[-> <-]|[-> [X' ->]]]; [reflexivity|]. unfold char. rewrite X'. reflexivity.
    + split; [exact P|]. split; [intros z Hz; discriminate Hz|].
      intros z Hz. destruct D as [[D _]|[D [X' _]]]; rewrite D in Hz; [discriminate Hz|]. injection Hz as <-. split; [exact X'|]. rewrite L, <- P. reflexivity.
Qed.
Lemma get_rep st S p x st1 : Rep st S p -> get true st = (x, st1) ->
  exists sp S1, splices sp /\ S = sp ++ S1 /\ ch x = hd_error S1 /\ xline x = pline (adv sp p) /\ cs st1 = cs st /\
    Rep st1 (tl S1) (adv (sp ++ char x) p) /\ back st1 = None /\ (back st = None -> Clean st1 (tl S1) (adv (sp ++ char x) p)).
Proof.
  intros R E. unfold get in E. destruct (peek true st) as [y st2] eqn:Ep. injection E as <- <-.
  destruct (peek_rep _ _ _ _ _ R Ep) as (sp & S1 & Sp & ES & X & L & C & R1 & R2 & K).
  exists sp, S1. rewrite take_cs. repeat (split; [assumption|]). split; [|intros B; apply K; exact B].
  unfold take. destruct (back st2) eqn:B2; [reflexivity|]. destruct (held st2); [reflexivity|].
  destruct (ch y) as [c|]; [destruct (ceqb c NL); reflexivity|exact B2].
Qed.
(* Appending to the checksum. *)
Lemma Rep_append k st S p : Rep st S p -> Rep (append k st) S p.
Proof. intros H. exact H. Qed.
Lemma Clean_append k st S p : Clean st S p -> Clean (append k st) S p.
Proof. intros H. exact H. Qed.
Lemma append_cs k st : cs (append k st) = rev k ++ cs st.
Proof. reflexivity. Qed.
Lemma get_clean st S p x st1 : Clean st S p -> get false st = (x, st1) ->
  ch x = hd_error S /\ Clean st1 (tl S) (adv (char x) p) /\ cs st1 = cs st.
Proof.
  intros (B & H & R & P) E. unfold get, peek in E. rewrite B, H in E. injection E as <- <-.
  split; [cbn; rewrite R; reflexivity|]. split; [|rewrite take_cs; reflexivity].
  apply take_rep; [exact B|exact P|cbn; rewrite R; reflexivity|left; split; [exact H|symmetry; exact R]].
Qed.

(* The text is consumed. *)
Definition eats (st : scan) (S : bytes) (p : pos) (text : bytes) (st' : scan) (S' : bytes) : Prop :=
  exists s, S = s ++ S' /\ spliced text s /\ Rep st' S' (adv s p).
Lemma eats_nil st S p st' : Rep st' S p -> eats st S p [] st' S.
Proof. intros R. exists []. split; [reflexivity|]. split; [repeat constructor|exact R]. Qed.
Lemma eats_cons st S p sp c S1 st1 text st' S' :
  splices sp -> S = sp ++ c :: S1 -> eats st1 S1 (adv (sp ++ [c]) p) text st' S' -> eats st S p (c :: text) st' S'.
Proof.
  intros Sp -> (s & -> & Es & R). exists (sp ++ c :: s). split; [rewrite <- app_assoc; reflexivity|]. split; [constructor; assumption|].
  rewrite adv_app in R |- *. cbn [adv fold_left] in R |- *. exact R.
Qed.
Lemma eats_app st S p t1 st1 S1 t2 st2 S2 : eats st S p t1 st1 S1 ->
  (forall q, Rep st1 S1 q -> eats st1 S1 q t2 st2 S2) -> eats st S p (t1 ++ t2) st2 S2.
Proof.
  intros (s & -> & E1 & R1) H. destruct (H _ R1) as (s2 & -> & E2 & R2). exists (s ++ s2). split; [apply app_assoc|]. split; [apply spliced_app; assumption|].
  rewrite adv_app. exact R2.
Qed.
Lemma hd_some (S : bytes) c : hd_error S = Some c -> S = c :: tl S.
Proof. destruct S; [discriminate|]. intros E. injection E as ->. reflexivity. Qed.
Lemma hd_none {A} (S : list A) : hd_error S = None -> S = [].
Proof. destruct S; [reflexivity|discriminate]. Qed.

(* Looking again gives the same. *)
Lemma unescape_again r : forall m st x st', held st = None -> unescape m r st = (x, st') -> held st' = None -> unescape Start (rest st') st' = (x, st').
Proof.
  induction r as [|c r IH]; intros m st x st' H E H'.
  - cbn in E. destruct m; injection E as <- <-; cbn in H' |- *; try discriminate H'; reflexivity.
  - cbn [unescape] in E.
    assert (P : (if ceqb c BS then unescape (Slash (mkx (Some c) (line st) (col1 st))) r (mkscan r (back st) (held st) (line st) false (log st) (file st) (cs st))
       else (mkx (Some c) (line st) (col1 st), mkscan (c :: r) (back st) (held st) (line st) (col1 st) (log st) (file st) (cs st))) = (x, st') ->
       unescape Start (rest st') st' = (x, st')).
    { destruct (ceqb c BS) eqn:Ec; intros E'; [eapply IH; [|exact E'|exact H']; exact H|]. injection E' as <- <-. cbn. rewrite Ec. reflexivity. }
    destruct m as [|y|].
    + exact (P E).
    + destruct (ceqb c CR); [eapply IH; [|exact E|exact H']; exact H|]. destruct (ceqb c NL); [eapply IH; [|exact E|exact H']; exact H|].
      injection E as <- <-. discriminate H'.
    + destruct (ceqb c CR); [eapply IH; [|exact E|exact H']; exact H|]. destruct (ceqb c NL); [eapply IH; [|exact E|exact H']; exact H|]. exact (P E).
Qed.
Lemma unescape_back r : forall m st x st', unescape m r st = (x, st') -> back st' = back st.
Proof.
  induction r as [|c r IH]; intros m st x st' E.
  - cbn in E. destruct m; injection E as <- <-; reflexivity.
  - cbn [unescape] in E. destruct m as [|y|]; try destruct (ceqb c CR); try destruct (ceqb c NL); try destruct (ceqb c BS);
      first [apply IH in E; exact E|injection E as <- <-; reflexivity].
Qed.
Lemma unescape_held r : forall m st x st' y, held st = None -> unescape m r st = (x, st') -> held st' = Some y -> y = x.
Proof.
  induction r as [|c r IH]; intros m st x st' y H E Y.
  - cbn in E. destruct m; injection E as <- <-; cbn in Y; congruence.
  - cbn [unescape] in E. destruct m as [|z|]; try destruct (ceqb c CR); try destruct (ceqb c NL); try destruct (ceqb c BS);
      first [eapply IH; [|exact E|exact Y]; exact H|injection E as <- <-; cbn in Y; congruence].
Qed.
Lemma peek_again st x st1 : peek true st = (x, st1) -> peek true st1 = (x, st1).
Proof.
  unfold peek at 1. destruct (back st) eqn:B; [intros E; injection E as <- <-; apply peek_some; exact B|].
  destruct (held st) eqn:H; intros E.
  - injection E as <- <-. unfold peek. rewrite B, H. reflexivity.
  - unfold peek. rewrite (unescape_back _ _ _ _ _ E), B. destruct (held st1) as [y|] eqn:H1.
    + rewrite (unescape_held _ _ _ _ _ _ H E H1). reflexivity.
    + eapply unescape_again; [|exact E|exact H1]. exact H.
Qed.
