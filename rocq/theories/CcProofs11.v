(* The checksum of a source as a sequence of tokens with layout between them. *)
From Verif Require Import Base CcModel CcSpec CcProofs CcProofs5 CcProofs6 CcProofs10.
From Coq Require Import Lia.
Local Open Scope N_scope.

Lemma adv_newlines s : forall p, plog p = None -> adv s p = mkpos (pline p + newlines s) None (pfile p).
Proof.
  unfold newlines. induction s as [|c s IH]; intros p H.
  - cbn. rewrite N.add_0_r. destruct p. cbn in H. subst. reflexivity.
  - unfold adv in *. cbn [fold_left count_occ]. unfold adv1 at 2. destruct (ascii_dec c NL) as [->|N].
    + change (ceqb NL NL) with true. cbn iota. rewrite IH; [|cbn; rewrite H; reflexivity]. cbn [pline plog pfile]. rewrite Nnat.Nat2N.inj_succ. f_equal. lia.
    + apply ceqb_neq in N. rewrite N. apply IH. exact H.
Qed.
Lemma reads_layout pp g p S h ts : layout g -> reads pp Plain (adv g p) S h ts -> reads pp Plain p (g ++ S) h ts.
Proof.
  intros L. revert p. induction L as [|c g Bl L IH|g L IH|s g Ns L IH|s g Mi L IH]; intros p R.
  - exact R.
  - cbn [app]. apply r_blank; [exact Bl|]. apply IH. unfold adv in *. cbn [fold_left] in R. rewrite adv1_not in R; [exact R|]. intros ->. discriminate Bl.
  - cbn [app]. apply (r_newline _ Plain Plain); [reflexivity|]. apply IH. exact R.
  - rewrite app_assoc, <- app_assoc. apply (r_comment _ _ _ (b "//" ++ s)); [constructor; exact Ns|apply spliced_refl| |].
    + intros _. exists (Some NL), (NL :: g ++ S). split; [|right; reflexivity]. exists []. split; [constructor|]. split; reflexivity.
    + cbn [app]. apply (r_newline _ Plain Plain); [reflexivity|]. apply IH. rewrite app_assoc, adv_app in R. exact R.
  - replace ((b "/*" ++ s ++ b "*/" ++ g) ++ S) with ((b "/*" ++ s ++ b "*/") ++ g ++ S) by (rewrite <- !app_assoc; reflexivity).
    apply (r_comment _ _ _ (b "/*" ++ s ++ b "*/")); [constructor; exact Mi|apply spliced_refl|intros H; discriminate H|].
    apply IH. rewrite <- adv_app, <- !app_assoc. exact R.
Qed.
Lemma reads_laid pp ps g : laid ps g -> forall p, plog p = None -> reads pp Plain p (source ps g) (map lined (placed (pline p) ps)) (map valued (placed (pline p) ps)).
Proof.
  induction ps as [|[g0 [t text]] ps IH]; intros L p H; cbn [laid source placed map] in *.
  - rewrite <- (app_nil_r g). apply reads_layout; [exact L|]. apply r_end; discriminate.
  - destruct L as (Lg & It & Nh & En & L). apply reads_layout; [exact Lg|]. rewrite (adv_newlines _ _ H).
    set (q := mkpos (pline p + newlines g0) None (pfile p)).
    assert (E : adv text q = mkpos (pline p + newlines g0 + newlines text) None (pfile p)) by (unfold q; rewrite adv_newlines; reflexivity).
    specialize (IH L (adv text q)). rewrite E in IH. cbn [pline plog pfile] in IH. specialize (IH eq_refl).
    apply (r_token pp Plain Plain t text q text (pline p + newlines g0)); [exact It| |apply spliced_refl|exact En| |rewrite E; exact IH].
    + cbn [next_part]. destruct (beqb text (b "#")) eqn:B; [|reflexivity]. apply beqb_eq in B. destruct (Nh B).
    + destruct text as [|x text]; [destruct (token_not_nil _ It)|]. exists [], [], (text ++ source ps g). split; [constructor|]. split; [constructor|]. split; reflexivity.
Qed.
Theorem lex_laid pp name ps g : laid ps g -> unspliced (source ps g) = true ->
  exists l, lex pp name (source ps g) = Some (l, concat (map (fun x => let '(t, s, n) := x in le 8 n ++ s) (placed 1 ps))) /\
    map seen l = map (fun x => let '(t, s, n) := x in (t, match t with Identifier => s | _ => [] end, n)) (placed 1 ps).
Proof.
  intros L U. destruct (reads_lex pp name _ _ _ U (reads_laid pp ps g L (begin name) eq_refl)) as (l & E & M). exists l. change (pline (begin name)) with 1 in *. split.
  - rewrite E. unfold bytes_of. rewrite map_map. do 3 f_equal. apply map_ext. intros [[t s] n]. reflexivity.
  - rewrite M. apply map_ext. intros [[t s] n]. reflexivity.
Qed.
Lemma count_source ps g : forall l t s n, In (t, s, n) (placed l ps) -> n <= l + newlines (source ps g).
Proof.
  assert (A : forall a c, newlines (a ++ c) = newlines a + newlines c) by (intros a c; unfold newlines; rewrite count_occ_app, Nnat.Nat2N.inj_add; reflexivity).
  induction ps as [|[g0 [t0 text]] ps IH]; intros l t s n I; [destruct I|]. cbn [placed source] in *. rewrite !A. destruct I as [I|I]; [injection I as <- <- <-; lia|]. specialize (IH _ _ _ _ I). lia.
Qed.
Lemma laid_tokens ps g : laid ps g -> forall l t s n, In (t, s, n) (placed l ps) -> is_token t s.
Proof.
  induction ps as [|[g0 [t0 text]] ps IH]; intros L l t s n I; [destruct I|]. cbn [placed laid] in *. destruct L as (_ & It & _ & _ & L). destruct I as [I|I]; [injection I as <- <- <-; exact It|]. eapply IH; eassumption.
Qed.
Theorem laid_checksum pp n1 n2 ps1 g1 ps2 g2 l1 l2 h1 h2 :
  laid ps1 g1 -> laid ps2 g2 -> texty (source ps1 g1) -> texty (source ps2 g2) -> newlines (source ps1 g1) + 1 < 2 ^ 32 -> newlines (source ps2 g2) + 1 < 2 ^ 32 ->
  unspliced (source ps1 g1) = true -> unspliced (source ps2 g2) = true ->
  lex pp n1 (source ps1 g1) = Some (l1, h1) -> lex pp n2 (source ps2 g2) = Some (l2, h2) ->
  (h1 = h2 <-> placed 1 ps1 = placed 1 ps2).
Proof.
  intros L1 L2 T1 T2 F1 F2 U1 U2 E1 E2. destruct (lex_laid pp n1 _ _ L1 U1) as (k1 & E1' & _). destruct (lex_laid pp n2 _ _ L2 U2) as (k2 & E2' & _).
  rewrite E1 in E1'. rewrite E2 in E2'. injection E1' as -> ->. injection E2' as -> ->. split; [|intros ->; reflexivity]. intros H.
  pose proof (reads_laid pp ps1 g1 L1 (begin n1) eq_refl) as R1. pose proof (reads_laid pp ps2 g2 L2 (begin n2) eq_refl) as R2. change (pline (begin n1)) with 1 in R1. change (pline (begin n2)) with 1 in R2.
  assert (Fit : forall ps g, newlines (source ps g) + 1 < 2 ^ 32 -> fits (map lined (placed 1 ps))).
  { intros ps g F n x I. apply in_map_iff in I. destruct I as ([[t y] m] & E & I). injection E as <- <-. left. pose proof (count_source ps g _ _ _ _ I). lia. }
  assert (Hb : forall l : list (ttype * bytes * N), bytes_of (map lined l) = concat (map (fun x => let '(t, s, n) := x in le 8 n ++ s) l)).
  { intros l. unfold bytes_of. rewrite map_map. f_equal. apply map_ext. intros [[t s] n]. reflexivity. }
  assert (E : snd (records (map lined (placed 1 ps1))) = snd (records (map lined (placed 1 ps2)))).
  { apply (same_records _ _ _ _ _ _ _ _ _ R1 R2 T1 T2); [eapply Fit; eassumption|eapply Fit; eassumption|rewrite !Hb; exact H]. }
  assert (Rec : forall l : list (ttype * bytes * N), records (map lined l) = ([], map (fun x => let '(t, s, n) := x in (n, s)) l)).
  { clear. induction l as [|[[t s] n] l IH]; [reflexivity|]. cbn [map lined records]. rewrite IH, app_nil_r. reflexivity. }
  rewrite !Rec in E. cbn [snd] in E. pose proof (laid_tokens _ _ L1 1) as K1. pose proof (laid_tokens _ _ L2 1) as K2. revert E K1 K2. generalize (placed 1 ps1), (placed 1 ps2). clear.
  induction l as [|[[t1 x1] m1] l1 IH]; intros [|[[t2 x2] m2] l2] E K1 K2; try discriminate E; [reflexivity|]. cbn [map] in E. injection E as -> -> E. f_equal.
  - pose proof (K1 _ _ _ (or_introl eq_refl)) as I1. pose proof (K2 _ _ _ (or_introl eq_refl)) as I2. apply is_token_classify in I1, I2. congruence.
  - apply IH; [exact E|intros t s n I; eapply K1; right; exact I|intros t s n I; eapply K2; right; exact I].
Qed.
