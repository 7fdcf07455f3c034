From Verif Require Import Base DepdbModel DepdbSpec.

(* --- getline --- *)

Lemma getline_none s : getline s = None <-> ~ In NL s.
Proof.
  induction s as [|c s IH]; simpl.
  - split; [intros _ []|reflexivity].
  - destruct (ceqb c NL) eqn:E.
    + apply ceqb_eq in E. split; [discriminate|]. intros H. exfalso. apply H. left; exact E.
    + apply ceqb_neq in E. destruct (getline s) as [[l r]|].
      * split; [discriminate|]. intros H.
        assert (~ In NL s) as H' by tauto. apply IH in H'. discriminate.
      * split; [|reflexivity]. intros _ [H|H]; [congruence|].
        assert (@None (bytes*bytes) = None) as H0 by reflexivity. apply IH in H0. contradiction.
Qed.

Lemma getline_some s l r : getline s = Some (l, r) <-> s = l ++ NL :: r /\ ~ In NL l.
Proof.
  revert l r; induction s as [|c s IH]; simpl; intros l r.
  - split; [discriminate|]. intros [H _]. destruct l; discriminate.
  - destruct (ceqb c NL) eqn:E.
    + apply ceqb_eq in E. subst c. split.
      * intros H; inversion H; subst. split; [reflexivity|intros []].
      * intros [H Hn]. destruct l as [|x l]; simpl in H; inversion H; subst; [reflexivity|].
        exfalso. apply Hn. left; reflexivity.
    + apply ceqb_neq in E. destruct (getline s) as [[l' r']|] eqn:G.
      * split.
        -- intros H; inversion H; subst. destruct (IH l' r) as [IH1 _].
           destruct (IH1 eq_refl) as [-> Hn]. split; [reflexivity|]. intros [H1|H1]; [congruence|tauto].
        -- intros [H Hn]. destruct l as [|x l]; simpl in H; inversion H; subst; [congruence|].
           assert (Some (l', r') = Some (l, r)) as H0.
           { apply IH. split; [reflexivity|]. intros Hi; apply Hn; right; exact Hi. }
           inversion H0; subst; reflexivity.
      * split; [discriminate|]. intros [H Hn]. destruct l as [|x l]; simpl in H; inversion H; subst; [congruence|].
        assert (@None (bytes*bytes) = Some (l, r)) as H0.
        { apply IH. split; [reflexivity|]. intros Hi; apply Hn; right; exact Hi. }
        discriminate.
Qed.

(* --- holds is deterministic and total --- *)

Lemma app_NL_inj (l l' r r' : bytes) :
  ~ In NL l -> ~ In NL l' -> l ++ NL :: r = l' ++ NL :: r' -> l = l' /\ r = r'.
Proof.
  intros H H' E.
  assert (getline (l ++ NL :: r) = Some (l, r)) as G by (apply getline_some; auto).
  assert (getline (l' ++ NL :: r') = Some (l', r')) as G' by (apply getline_some; auto).
  rewrite E, G' in G. inversion G; auto.
Qed.

Lemma holds_inv s ls cl : holds s ls cl ->
  match getline s with
  | None => ls = [] /\ cl = false
  | Some (_, []) => ls = [] /\ cl = false
  | Some (l, c :: r) =>
      if ceqb c NUL then ls = [l] /\ cl = true
      else exists ls', ls = l :: ls' /\ holds (c :: r) ls' cl
  end.
Proof.
  intros H; destruct H as [s H|l H|l junk H|l c s ls cl H Hc Hh].
  - apply getline_none in H. rewrite H. auto.
  - assert (getline (l ++ [NL]) = Some (l, [])) as G by (apply getline_some; auto).
    rewrite G. auto.
  - assert (getline (l ++ NL :: NUL :: junk) = Some (l, NUL :: junk)) as G by (apply getline_some; auto).
    rewrite G. simpl. auto.
  - assert (getline (l ++ NL :: c :: s) = Some (l, c :: s)) as G by (apply getline_some; auto).
    rewrite G. apply ceqb_neq in Hc. rewrite Hc. eauto.
Qed.

Lemma holds_det s ls cl ls' cl' : holds s ls cl -> holds s ls' cl' -> ls = ls' /\ cl = cl'.
Proof.
  intros H; revert ls' cl'; induction H as [s H|l H|l junk H|l c s ls cl H Hc Hh IH]; intros ls' cl' H'.
  - apply holds_inv in H'. apply getline_none in H. rewrite H in H'. destruct H'; subst; auto.
  - apply holds_inv in H'.
    assert (getline (l ++ [NL]) = Some (l, [])) as G by (apply getline_some; auto).
    rewrite G in H'. destruct H'; subst; auto.
  - apply holds_inv in H'.
    assert (getline (l ++ NL :: NUL :: junk) = Some (l, NUL :: junk)) as G by (apply getline_some; auto).
    rewrite G in H'. simpl in H'. destruct H'; subst; auto.
  - apply holds_inv in H'.
    assert (getline (l ++ NL :: c :: s) = Some (l, c :: s)) as G by (apply getline_some; auto).
    rewrite G in H'. apply ceqb_neq in Hc. rewrite Hc in H'.
    destruct H' as [ls'' [-> H'']]. apply IH in H''. destruct H''; subst; auto.
Qed.

Lemma holds_total s : exists ls cl, holds s ls cl.
Proof.
  remember (length s) as n eqn:E. assert (length s <= n) as Hle by lia. clear E.
  revert s Hle; induction n as [|n IH]; intros s Hle.
  - destruct s; [|simpl in Hle; lia]. exists [], false. apply holds_eof. intros [].
  - destruct (getline s) as [[l r]|] eqn:G.
    + apply getline_some in G. destruct G as [-> Hn].
      destruct r as [|c r].
      * exists [], false. apply holds_last; exact Hn.
      * destruct (ceqb c NUL) eqn:E.
        -- apply ceqb_eq in E. subst c. exists [l], true. apply holds_end; exact Hn.
        -- apply ceqb_neq in E. destruct (IH (c :: r)) as [ls [cl H]].
           { rewrite app_length in Hle; simpl in *; lia. }
           exists (l :: ls), cl. apply holds_more; auto.
    + apply getline_none in G. exists [], false. apply holds_eof; exact G.
Qed.

(* --- encoding of complete lines --- *)

Fixpoint enc (ls : list bytes) : bytes :=
  match ls with [] => [] | l :: ls' => l ++ NL :: enc ls' end.

Lemma enc_app x y : enc (x ++ y) = enc x ++ enc y.
Proof. induction x as [|l x IH]; simpl; [reflexivity|]. rewrite IH, <- app_assoc. reflexivity. Qed.

Lemma enc_snoc x l : enc (x ++ [l]) = enc x ++ l ++ [NL].
Proof. rewrite enc_app. reflexivity. Qed.

(* A non-empty sequence of lines followed by something not starting with the
   end marker. *)
Lemma holds_enc_app ls s ls' cl :
  Forall line_ok ls -> s <> [] -> hd_error s <> Some NUL -> holds s ls' cl ->
  holds (enc ls ++ s) (ls ++ ls') cl.
Proof.
  intros Hok Hs Hhd Hh. induction Hok as [|l ls Hl Hok IH]; simpl; [exact Hh|].
  rewrite <- app_assoc. simpl.
  assert (exists c r, enc ls ++ s = c :: r /\ c <> NUL) as [c [r [Ec Hc]]].
  { destruct Hok as [|l2 ls Hl2 Hok].
    - simpl. destruct s as [|c r]; [congruence|]. exists c, r. split; auto.
      intros ->. apply Hhd. reflexivity.
    - simpl. destruct l2 as [|c r]; simpl.
      + eexists _, _. split; [reflexivity|]. intros H; inversion H.
      + eexists _, _. split; [reflexivity|]. destruct Hl2 as [_ H]. intros ->. apply H. reflexivity. }
  rewrite Ec in *. apply holds_more; auto. apply Hl.
Qed.

Lemma holds_enc_end ls junk :
  ls <> [] -> Forall line_ok ls -> holds (enc ls ++ NUL :: junk) ls true.
Proof.
  intros Hne Hok. destruct (exists_last Hne) as [ls' [l ->]].
  apply Forall_app in Hok. destruct Hok as [Hok Hl]. inversion Hl as [|? ? Hl' _]; subst.
  rewrite enc_snoc, <- !app_assoc. simpl.
  apply holds_enc_app; auto.
  - destruct l; discriminate.
  - destruct l as [|c l]; simpl; [discriminate|]. destruct Hl' as [_ H]. exact H.
  - rewrite <- ?app_assoc. simpl. apply holds_end. apply Hl'.
Qed.

(* Any byte prefix of complete lines plus a partial line is readable as a
   prefix of the lines and is not closed. *)
Lemma no_NL_holds s : ~ In NL s -> holds s [] false.
Proof. apply holds_eof. Qed.

Lemma crash_prefix ls part k :
  Forall line_ok ls -> line_ok part ->
  exists ls', holds (firstn k (enc ls ++ part)) ls' false /\ prefix ls' ls.
Proof.
  intros Hok Hp. revert k; induction Hok as [|l ls Hl Hok IH]; intros k.
  - exists []. split; [|apply prefix_nil]. apply holds_eof.
    simpl. intros Hi. apply (proj1 Hp). apply In_firstn in Hi. exact Hi.
  - simpl. rewrite <- app_assoc. simpl. rewrite firstn_app.
    destruct (k - length l) as [|k'] eqn:Ek.
    + simpl. rewrite app_nil_r. exists []. split; [|apply prefix_nil]. apply holds_eof.
      intros Hi. apply (proj1 Hl). apply In_firstn in Hi. exact Hi.
    + rewrite firstn_all2 by lia. simpl. destruct (IH k') as [ls' [Hh Hpre]].
      destruct (firstn k' (enc ls ++ part)) as [|c r] eqn:Ef.
      * exists []. split; [|apply prefix_nil]. apply holds_last. apply Hl.
      * exists (l :: ls'). split; [|apply prefix_cons; exact Hpre].
        apply holds_more; [apply Hl| |exact Hh].
        destruct k' as [|k']; [discriminate|].
        destruct Hok as [|l2 ls Hl2 Hok]; simpl in Ef.
        -- destruct part as [|p part]; [discriminate|]. inversion Ef; subst.
           destruct Hp as [_ Hp]. intros ->; apply Hp; reflexivity.
        -- destruct l2 as [|p l2]; simpl in Ef; inversion Ef; subst.
           ++ intros H; inversion H.
           ++ destruct Hl2 as [_ Hp2]. intros ->; apply Hp2; reflexivity.
Qed.

(* --- skip_scan --- *)

Lemma skip_scan_shift s n m : skip_scan s n = Some m -> exists j, m = n + j /\ skip_scan s 0 = Some j.
Proof.
  remember (length s) as k eqn:E. assert (length s <= k) as Hle by lia. clear E.
  revert s n m Hle; induction k as [|k IH]; intros s n m Hle H.
  - destruct s; [discriminate|simpl in Hle; lia].
  - destruct s as [|c s]; [discriminate|]. simpl in *. destruct (ceqb c NL).
    + destruct s as [|c2 s]; [discriminate|]. destruct (ceqb c2 NUL).
      * inversion H. exists 2. split; [lia|reflexivity].
      * simpl in Hle. destruct (IH s (n + 2) m) as [j [-> Hj]]; [lia|exact H|].
        exists (2 + j). split; [lia|].
        destruct (skip_scan s 2) as [m'|] eqn:E2.
        -- destruct (IH s 2 m') as [j' [-> Hj']]; [lia|exact E2|]. rewrite Hj in Hj'. inversion Hj'. reflexivity.
        -- exfalso. clear - Hj E2. 
           assert (forall s a, skip_scan s a = None -> forall b0, skip_scan s b0 = None) as G.
           { clear. intros s. remember (length s) as k eqn:E. assert (length s <= k) as Hle by lia. clear E.
             revert s Hle; induction k as [|k IH]; intros s Hle a H b0; destruct s as [|c s]; try reflexivity; [simpl in Hle; lia|].
             simpl in *. destruct (ceqb c NL).
             - destruct s as [|c2 s]; [reflexivity|]. destruct (ceqb c2 NUL); [discriminate|]. simpl in Hle. eapply IH; [lia|exact H].
             - eapply IH; [lia|exact H]. }
           rewrite (G _ _ E2 0) in Hj. discriminate.
    + destruct (IH s (n + 1) m) as [j [-> Hj]]; [lia|exact H|].
      exists (1 + j). split; [lia|].
      destruct (skip_scan s 1) as [m'|] eqn:E2.
      -- destruct (IH s 1 m') as [j' [-> Hj']]; [lia|exact E2|]. rewrite Hj in Hj'. inversion Hj'. reflexivity.
      -- exfalso. clear - Hj E2. 
         assert (forall s a, skip_scan s a = None -> forall b0, skip_scan s b0 = None) as G.
         { clear. intros s. remember (length s) as k eqn:E. assert (length s <= k) as Hle by lia. clear E.
           revert s Hle; induction k as [|k IH]; intros s Hle a H b0; destruct s as [|c s]; try reflexivity; [simpl in Hle; lia|].
           simpl in *. destruct (ceqb c NL).
           - destruct s as [|c2 s]; [reflexivity|]. destruct (ceqb c2 NUL); [discriminate|]. simpl in Hle. eapply IH; [lia|exact H].
           - eapply IH; [lia|exact H]. }
         rewrite (G _ _ E2 0) in Hj. discriminate.
Qed.

(* If the scan finds an end marker then the bytes it went over contain a
   newline followed by the end marker. *)
Lemma skip_scan_marker s j : skip_scan s 0 = Some j ->
  exists p, firstn j s = p ++ [NL; NUL].
Proof.
  remember (length s) as k eqn:E. assert (length s <= k) as Hle by lia. clear E.
  revert s j Hle; induction k as [|k IH]; intros s j Hle H.
  - destruct s; [discriminate|simpl in Hle; lia].
  - destruct s as [|c s]; [discriminate|]. cbn [skip_scan] in H. destruct (ceqb c NL) eqn:Ec.
    + apply ceqb_eq in Ec. subst c. destruct s as [|c2 s]; [discriminate|].
      destruct (ceqb c2 NUL) eqn:E2.
      * inversion H. apply ceqb_eq in E2. subst c2. exists []. reflexivity.
      * apply skip_scan_shift in H. destruct H as [j' [-> Hj]]. simpl in Hle.
        destruct (IH s j') as [p Hp]; [lia|exact Hj|]. exists (NL :: c2 :: p).
        change (0 + 2 + j') with (S (S j')). simpl. rewrite Hp. reflexivity.
    + apply skip_scan_shift in H. destruct H as [j' [-> Hj]]. simpl in Hle.
      destruct (IH s j') as [p Hp]; [lia|exact Hj|]. exists (c :: p).
      change (0 + 1 + j') with (S j'). simpl. rewrite Hp. reflexivity.
Qed.

Lemma not_In_app {A} (x : A) p q : ~ In x (p ++ q) <-> ~ In x p /\ ~ In x q.
Proof. rewrite in_app_iff. tauto. Qed.

(* A newline followed by the end marker anywhere means closed, and nothing
   beyond it matters. *)
Lemma holds_marker p x : exists ls, forall y, holds (p ++ [NL; NUL] ++ x ++ y) ls true.
Proof.
  remember (length p) as k eqn:E. assert (length p <= k) as Hle by lia. clear E.
  revert p Hle; induction k as [|k IH]; intros p Hle.
  - destruct p; [|simpl in Hle; lia]. exists [[]]. intros y. simpl.
    apply (holds_end [] (x ++ y)). intros [].
  - destruct (getline p) as [[l r]|] eqn:G.
    + apply getline_some in G. destruct G as [-> Hn].
      destruct r as [|c r].
      * destruct (IH []) as [ls Hls]; [simpl; lia|].
        exists (l :: ls). intros y. rewrite <- !app_assoc. simpl.
        apply holds_more; [exact Hn|intros H; inversion H|]. apply (Hls y).
      * destruct (ceqb c NUL) eqn:Ec.
        -- apply ceqb_eq in Ec. subst c. exists [l]. intros y.
           rewrite <- !app_assoc. simpl. apply holds_end. exact Hn.
        -- apply ceqb_neq in Ec. destruct (IH (c :: r)) as [ls Hls].
           { rewrite app_length in Hle. simpl in *. lia. }
           exists (l :: ls). intros y. rewrite <- !app_assoc. simpl.
           apply holds_more; [exact Hn|exact Ec|]. apply (Hls y).
    + apply getline_none in G. exists [p]. intros y. simpl.
      apply holds_end. exact G.
Qed.

Lemma skip_scan_closed s j ls cl :
  skip_scan s 0 = Some j -> holds s ls cl ->
  cl = true /\ forall y, holds (firstn j s ++ y) ls true.
Proof.
  intros Hs Hh. destruct (skip_scan_marker _ _ Hs) as [p Hp].
  destruct (holds_marker p []) as [ls' Hls'].
  assert (s = p ++ [NL; NUL] ++ [] ++ skipn j s) as Es.
  { simpl. rewrite <- (firstn_skipn j s) at 1. rewrite Hp, <- app_assoc. reflexivity. }
  assert (holds s ls' true) as H1 by (rewrite Es; apply Hls').
  destruct (holds_det _ _ _ _ _ Hh H1) as [-> ->]. split; [reflexivity|].
  intros y. rewrite Hp, <- app_assoc. apply (Hls' y).
Qed.

(* Completeness of the scan when there are no consecutive newlines. *)

Lemma no_blank_tail p s : no_blank (p ++ s) -> no_blank s.
Proof. intros H p' q E. apply (H (p ++ p') q). rewrite E, <- app_assoc. reflexivity. Qed.

Lemma skip_scan_skip_line l c s n :
  ~ In NL l -> skip_scan (l ++ NL :: c :: s) n =
               if ceqb c NUL then Some (n + length l + 2) else skip_scan s (n + length l + 2).
Proof.
  revert n; induction l as [|x l IH]; intros n Hn.
  - simpl. rewrite Nat.add_0_r. reflexivity.
  - simpl. destruct (ceqb x NL) eqn:E.
    + apply ceqb_eq in E. exfalso. apply Hn. left; exact E.
    + rewrite IH by (intros H; apply Hn; right; exact H).
      replace (n + 1 + length l) with (n + S (length l)) by lia. reflexivity.
Qed.

Lemma skip_scan_no_NL s n : ~ In NL s -> skip_scan s n = None.
Proof.
  revert n; induction s as [|x s IH]; intros n Hn; [reflexivity|].
  simpl. destruct (ceqb x NL) eqn:E.
  - apply ceqb_eq in E. exfalso. apply Hn. left; exact E.
  - apply IH. intros H; apply Hn; right; exact H.
Qed.

Lemma skip_scan_complete s ls : holds s ls true -> no_blank s -> forall n, skip_scan s n <> None.
Proof.
  intros H. remember true as cl eqn:E. 
  induction H as [s H|l H|l junk H|l c s ls cl H Hc Hh IH]; intros Hb n; subst; try discriminate.
  - rewrite skip_scan_skip_line by exact H. simpl. discriminate.
  - rewrite skip_scan_skip_line by exact H. apply ceqb_neq in Hc as Hc'. rewrite Hc'.
    assert (c <> NL) as HcNL.
    { intros ->. apply (Hb l s). reflexivity. }
    assert (no_blank (c :: s)) as Hb'.
    { apply (no_blank_tail (l ++ [NL])). rewrite <- app_assoc. exact Hb. }
    specialize (IH eq_refl Hb' (n + length l + 1)). simpl in IH.
    apply ceqb_neq in HcNL. rewrite HcNL in IH.
    replace (n + length l + 2) with (n + length l + 1 + 1) by lia. exact IH.
Qed.

(* --- The refinement relation --- *)

Inductive R : db -> adb -> Prop :=
| R_read f kept cur c s ls cl w wb p :
    f = enc (accept kept cur) ++ c :: s -> c <> NUL ->
    Forall line_ok (accept kept cur) -> accept kept cur <> [] ->
    holds (c :: s) ls cl -> p = length (enc kept) ->
    R (mkdb Read false f (length (enc (accept kept cur))) p w wb) (AReading kept cur ls cl)
| R_eof f kept cur junk w wb p :
    f = enc (accept kept cur) ++ NUL :: junk ->
    Forall line_ok (accept kept cur) -> accept kept cur <> [] ->
    p = length (enc kept) ->
    R (mkdb ReadEof false f (length (enc (accept kept cur))) p w wb) (AReading kept cur [] true)
| R_skip f kept c s ls j w wb p :
    f = enc kept ++ c :: s -> c <> NUL -> Forall line_ok kept ->
    holds (c :: s) ls true -> ls <> [] -> skip_scan (c :: s) 0 = Some j ->
    p = length (enc kept) ->
    R (mkdb ReadEof false f (length (enc kept) + j) p w wb) (ASkipped kept ls)
| R_write f done part g p w wb :
    w = length f -> f ++ wb = enc done ++ part ->
    R (mkdb Write false f g p w wb) (AWriting done part).

Lemma firstn_exact {A} (x y : list A) : firstn (length x) (x ++ y) = x.
Proof. rewrite firstn_app, Nat.sub_diag, firstn_all. simpl. apply app_nil_r. Qed.

Lemma skipn_exact {A} (x y : list A) : skipn (length x) (x ++ y) = y.
Proof. rewrite skipn_app, Nat.sub_diag, skipn_all. reflexivity. Qed.

Lemma enc_accept_len kept cur :
  length (enc kept) <= length (enc (accept kept cur)) /\
  exists t, enc (accept kept cur) = enc kept ++ t.
Proof.
  destruct cur as [l|]; simpl.
  - rewrite enc_snoc, app_length. split; [lia|eauto].
  - split; [lia|]. exists []. rewrite app_nil_r. reflexivity.
Qed.

(* change() truncates to the start of the last line read. *)
Lemma change_R s kept cur r g w wb :
  R (change true (mkdb s false (enc (accept kept cur) ++ r) g (length (enc kept)) w wb))
    (AWriting kept []).
Proof.
  unfold change; simpl. 
  destruct (enc_accept_len kept cur) as [_ [t Et]].
  assert (firstn (length (enc kept)) (enc (accept kept cur) ++ r) = enc kept) as Ef.
  { rewrite Et, <- app_assoc. apply firstn_exact. }
  rewrite Ef. constructor; [reflexivity|]. reflexivity.
Qed.

Lemma change_R_none s kept r g w wb :
  R (change true (mkdb s false (enc kept ++ r) g (length (enc kept)) w wb)) (AWriting kept []).
Proof. apply (change_R s kept None). Qed.

Lemma read_refines d a : R d a -> forall l a', aread a = Some (l, a') ->
  exists d', read d = (l, d') /\ R d' a'.
Proof.
  intros H l a' Ha. destruct H as [f kept cur c s ls cl w wb p Ef Hc Hok Hne Hh Hp
                                  |f kept cur junk w wb p Ef Hok Hne Hp
                                  |f kept c s ls j w wb p Ef Hc Hok Hh Hls Hj Hp
                                  |f done part g p w wb Hw He]; simpl in Ha.
  - unfold read, read_. cbn [st set_pos gpos file].
    subst f. rewrite skipn_exact. pose proof (holds_inv _ _ _ Hh) as Hi.
    destruct (getline (c :: s)) as [[l0 r]|] eqn:G.
    + pose proof G as G'. apply getline_some in G'. destruct G' as [Es Hn].
      destruct r as [|c' r].
      * destruct Hi as [-> ->]. inversion Ha; subst. eexists. split; [reflexivity|].
        apply change_R_none.
      * destruct (ceqb c' NUL) eqn:Ec.
        -- destruct Hi as [-> ->]. inversion Ha; subst. apply ceqb_eq in Ec. subst c'.
           eexists. split; [reflexivity|]. unfold set_st, set_gpos; cbn.
           assert (length (enc (accept kept cur)) + length l0 + 1 =
                   length (enc (accept (accept kept cur) (Some l0)))) as El.
           { simpl. rewrite enc_snoc, !app_length. simpl. lia. }
           rewrite El. apply R_eof with (junk := r).
           ++ simpl. rewrite Es, enc_snoc, <- !app_assoc. reflexivity.
           ++ simpl. apply Forall_app. split; [exact Hok|]. constructor; [|constructor].
              split; [exact Hn|]. destruct l0 as [|x l0]; [discriminate|]. simpl in *.
              inversion Es; subst. congruence.
           ++ simpl. intros Hx. apply app_eq_nil in Hx. destruct Hx; discriminate.
           ++ reflexivity.
        -- destruct Hi as [ls' [-> Hh']]. inversion Ha; subst. apply ceqb_neq in Ec.
           eexists. split; [reflexivity|]. unfold set_gpos; cbn.
           assert (length (enc (accept kept cur)) + length l0 + 1 =
                   length (enc (accept (accept kept cur) (Some l0)))) as El.
           { simpl. rewrite enc_snoc, !app_length. simpl. lia. }
           rewrite El. apply R_read with (c := c') (s := r); auto.
           ++ simpl. rewrite Es, enc_snoc, <- !app_assoc. reflexivity.
           ++ simpl. apply Forall_app. split; [exact Hok|]. constructor; [|constructor].
              split; [exact Hn|]. destruct l0 as [|x l0]; [discriminate|]. simpl in *.
              inversion Es; subst. congruence.
           ++ simpl. intros Hx. apply app_eq_nil in Hx. destruct Hx; discriminate.
    + destruct Hi as [-> ->]. inversion Ha; subst. eexists. split; [reflexivity|].
      apply change_R_none.
  - inversion Ha; subst. unfold read, read_. cbn. eexists. split; [reflexivity|].
    unfold set_pos; cbn.
    apply (R_eof _ (accept kept cur) None junk); auto.
  - discriminate.
  - inversion Ha; subst. unfold read; cbn. eexists. split; [reflexivity|].
    constructor; auto.
Qed.

Lemma to_write_R d a : R d a ->
  R (match st d with Write => d | _ => change true d end) (AWriting (fst (akeep a)) (snd (akeep a))).
Proof.
  intros H. destruct H as [f kept cur c s ls cl w wb p Ef Hc Hok Hne Hh Hp
                                  |f kept cur junk w wb p Ef Hok Hne Hp
                                  |f kept c s ls j w wb p Ef Hc Hok Hh Hls Hj Hp
                                  |f done part g p w wb Hw He]; subst; cbn [st akeep fst snd].
  - apply change_R.
  - apply change_R.
  - apply change_R_none.
  - constructor; auto.
Qed.

Lemma write_refines s nl d a : R d a ->
  exists d', write s nl d = Some d' /\ R d' (awrite s nl (fst (akeep a)) (snd (akeep a))).
Proof.
  intros H. apply to_write_R in H. unfold write.
  set (d1 := match st d with Write => d | _ => change true d end) in *.
  inversion H as [| | |f done part g p w wb Hw He Hd Ha]; subst; cbn [ro].
  eexists. split; [reflexivity|]. unfold put, awrite; cbn. destruct nl.
  - constructor; [auto|]. rewrite enc_snoc, app_assoc, He, app_nil_r, <- !app_assoc. reflexivity.
  - constructor; [auto|]. rewrite app_nil_r, app_assoc, He, <- app_assoc. reflexivity.
Qed.

Lemma skip_refines d a r d' : R d a -> skip d = Some (r, d') -> exists a', askip a r a' /\ R d' a'.
Proof.
  intros H Hs. destruct H as [f kept cur c s ls cl w wb p Ef Hc Hok Hne Hh Hp
                                  |f kept cur junk w wb p Ef Hok Hne Hp
                                  |f kept c s ls j w wb p Ef Hc Hok Hh Hls Hj Hp
                                  |f done part g p w wb Hw He]; unfold skip in Hs; cbn [st] in Hs.
  - cbn [set_pos gpos file] in Hs. subst f. rewrite skipn_exact in Hs.
    destruct (skip_scan (c :: s) 0) as [j|] eqn:E; inversion Hs; subst; clear Hs.
    + destruct (skip_scan_closed _ _ _ _ E Hh) as [-> _].
      assert (ls <> []) as Hls.
      { intros ->. inversion Hh. }
      destruct ls as [|l ls]; [congruence|].
      eexists. split; [apply askip_ok|]. unfold set_st, set_gpos, set_pos; cbn.
      eapply R_skip; eauto.
    + eexists. split; [apply askip_bad|]. unfold set_pos; cbn [st ro file gpos pos wpos wbuf]. apply change_R_none.
  - inversion Hs; subst. eexists. split; [apply askip_eof|]. apply R_eof with (junk := junk); auto.
  - inversion Hs; subst. eexists. split; [apply askip_again|]. eapply R_skip; eauto.
  - discriminate.
Qed.

Definition is_skipped (a : adb) : Prop := match a with ASkipped _ _ => True | _ => False end.

Lemma step_refines d a o d' v os sk :
  R d a -> (is_skipped a -> sk = true) -> legal sk (o :: os) = true -> step d o = Some (d', v) ->
  exists a', astep a o v a' /\ R d' a' /\
             exists sk', legal sk' os = true /\ (is_skipped a' -> sk' = true).
Proof.
  intros HR Hsk Hl Hs.
  assert (sk = false -> forall l a', aread a = Some (l, a') -> ~ is_skipped a') as Hns.
  { intros _ l a' Ha. destruct a as [kept cur [|x rest] [|]| |]; simpl in Ha; inversion Ha; subst; simpl; auto. }
  destruct o as [|v0|s nl| | |]; simpl in Hl, Hs.
  - apply andb_true_iff in Hl. destruct Hl as [Hl1 Hl2]. apply negb_true_iff in Hl1. subst sk.
    destruct (aread a) as [[l a']|] eqn:Ea.
    + destruct (read_refines _ _ HR _ _ Ea) as [d'' [Er HR']]. rewrite Er in Hs. inversion Hs; subst.
      exists a'. split; [constructor; exact Ea|]. split; [exact HR'|].
      exists false. split; [exact Hl2|]. intros Hx. exfalso. eapply Hns; eauto.
    + destruct a as [kept cur [|x rest] [|]| |]; simpl in Ea; try discriminate.
      specialize (Hsk I). discriminate.
  - apply andb_true_iff in Hl. destruct Hl as [Hl1 Hl2]. apply negb_true_iff in Hl1. subst sk.
    destruct (aread a) as [[l a']|] eqn:Ea.
    + destruct (read_refines _ _ HR _ _ Ea) as [d'' [Er HR']].
      unfold expect in Hs. rewrite Er in Hs.
      destruct (write_refines v0 true _ _ HR') as [d3 [Ew HR3]]. rewrite Ew in Hs.
      assert (l <> Some v0 -> Some (d3, VLine l) = Some (d', v) ->
              exists a' : adb, astep a (OExpect v0) v a' /\ R d' a' /\
              (exists sk' : bool, legal sk' os = true /\ (is_skipped a' -> sk' = true))) as Hbad.
      { intros Hne E. inversion E; subst. eexists. split; [eapply as_expect_bad; eauto|].
        split; [exact HR3|]. exists false. split; [exact Hl2|]. unfold awrite; simpl. tauto. }
      destruct l as [x|].
      * destruct (beqb x v0) eqn:Eb.
        -- apply beqb_eq in Eb. subst x. inversion Hs; subst.
           exists a'. split; [apply as_expect_ok; exact Ea|]. split; [exact HR'|].
           exists false. split; [exact Hl2|]. intros Hx. exfalso. eapply Hns; eauto.
        -- apply Hbad; [|exact Hs]. intros E. inversion E; subst. rewrite beqb_refl in Eb. discriminate.
      * apply Hbad; [discriminate|exact Hs].
    + destruct a as [kept cur [|x rest] [|]| |]; simpl in Ea; try discriminate.
      specialize (Hsk I). discriminate.
  - destruct (write_refines s nl _ _ HR) as [d3 [Ew HR3]]. rewrite Ew in Hs. inversion Hs; subst.
    eexists. split; [constructor|]. split; [exact HR3|]. exists false. split; [exact Hl|].
    unfold awrite. destruct nl; simpl; tauto.
  - inversion Hs; subst. eexists. split; [constructor|]. split; [apply to_write_R; exact HR|].
    exists false. split; [exact Hl|]. simpl. tauto.
  - destruct (skip d) as [[r d3]|] eqn:E; inversion Hs; subst.
    destruct (skip_refines _ _ _ _ HR E) as [a' [Ha HR']].
    eexists. split; [constructor; exact Ha|]. split; [exact HR'|]. exists true. split; [exact Hl|]. auto.
  - inversion Hs; subst. eexists. split; [constructor|]. split; [exact HR|]. exists sk. split; auto.
Qed.

Lemma run_refines os : forall d a sk d' vs,
  R d a -> (is_skipped a -> sk = true) -> legal sk os = true -> run d os = Some (d', vs) ->
  exists a', aruns a os vs a' /\ R d' a'.
Proof.
  induction os as [|o os IH]; intros d a sk d' vs HR Hsk Hl Hr; simpl in Hr.
  - inversion Hr; subst. exists a. split; [constructor|exact HR].
  - destruct (step d o) as [[d1 v]|] eqn:Es; [|discriminate].
    destruct (run d1 os) as [[d2 vs']|] eqn:Er; [|discriminate]. inversion Hr; subst.
    destruct (step_refines _ _ _ _ _ _ _ HR Hsk Hl Es) as [a1 [Ha1 [HR1 [sk' [Hl' Hsk']]]]].
    destruct (IH _ _ _ _ _ HR1 Hsk' Hl' Er) as [a2 [Ha2 HR2]].
    exists a2. split; [econstructor; eauto|exact HR2].
Qed.

Lemma version_ok : line_ok version.
Proof. split; [intros [H|[]]; discriminate|simpl; discriminate]. Qed.

Lemma open_refines f : exists a, aopen f a /\ R (open_db false f) a.
Proof.
  destruct f as [c|].
  - destruct (holds_total c) as [ls [cl Hh]]. pose proof (holds_inv _ _ _ Hh) as Hi.
    unfold open_db, read_. cbn [st set_pos gpos file skipn].
    assert (forall d r, file d = r -> ro d = false -> pos d = 0 ->
            st d <> Write \/ (st d = Write /\ file d = [] /\ wpos d = 0 /\ wbuf d = []) ->
            exists d', write version true d = Some d' /\ R d' (AWriting [version] [])) as Hbad.
    { intros d r Er Hro Hp Hst. unfold write. destruct d as [s0 ro0 f0 g0 p0 w0 wb0]; cbn in *. subst.
      destruct s0; unfold change; cbn.
      - eexists; split; [reflexivity|]. unfold put; cbn. constructor; reflexivity.
      - eexists; split; [reflexivity|]. unfold put; cbn. constructor; reflexivity.
      - destruct Hst as [Hst|[_ [-> [-> ->]]]]; [congruence|].
        eexists; split; [reflexivity|]. unfold put; cbn. constructor; reflexivity. }
    destruct (getline c) as [[l r]|] eqn:G.
    + pose proof G as G'. apply getline_some in G'. destruct G' as [Es Hn].
      destruct r as [|c' r].
      * destruct Hi as [-> ->].
        destruct (Hbad (change true (set_pos 0 (mkdb Read false c 0 0 0 []))) []) as [d' [Ew HR]];
          [reflexivity|reflexivity|reflexivity|right; repeat split; reflexivity|].
        rewrite Ew. exists (AWriting [version] []). split; [eapply ao_bad; [exact Hh|discriminate]|exact HR].
      * destruct (ceqb c' NUL) eqn:Ec.
        -- destruct Hi as [-> ->]. apply ceqb_eq in Ec. subst c'.
           destruct (beqb l version) eqn:Eb.
           ++ apply beqb_eq in Eb. subst l. eexists. split; [apply ao_ok; exact Hh|].
              apply (R_eof _ [] (Some version) r); auto.
              ** simpl. constructor; [apply version_ok|constructor].
              ** discriminate.
           ++ destruct (Hbad (set_st ReadEof (set_gpos (0 + length l + 1) (set_pos 0 (mkdb Read false c 0 0 0 [])))) c) as [d' [Ew HR]];
                [reflexivity|reflexivity|reflexivity|left; discriminate|].
              rewrite Ew. eexists. split; [eapply ao_bad; [exact Hh|]|exact HR].
              simpl. intros E. inversion E; subst. rewrite beqb_refl in Eb. discriminate.
        -- destruct Hi as [ls' [-> Hh']]. apply ceqb_neq in Ec.
           destruct (beqb l version) eqn:Eb.
           ++ apply beqb_eq in Eb. subst l. eexists. split; [apply ao_ok; exact Hh|].
              apply (R_read _ [] (Some version) c' r); auto.
              ** simpl. constructor; [apply version_ok|constructor].
              ** discriminate.
           ++ destruct (Hbad (set_gpos (0 + length l + 1) (set_pos 0 (mkdb Read false c 0 0 0 []))) c) as [d' [Ew HR]];
                [reflexivity|reflexivity|reflexivity|left; discriminate|].
              rewrite Ew. eexists. split; [eapply ao_bad; [exact Hh|]|exact HR].
              simpl. intros E. inversion E; subst. rewrite beqb_refl in Eb. discriminate.
    + destruct Hi as [-> ->].
      destruct (Hbad (change true (set_pos 0 (mkdb Read false c 0 0 0 []))) []) as [d' [Ew HR]];
        [reflexivity|reflexivity|reflexivity|right; repeat split; reflexivity|].
      rewrite Ew. exists (AWriting [version] []). split; [eapply ao_bad; [exact Hh|discriminate]|exact HR].
  - exists (AWriting [version] []). split; [constructor|]. unfold open_db, put; cbn.
    constructor; reflexivity.
Qed.

Lemma aopen_not_skipped f a : aopen f a -> ~ is_skipped a.
Proof. intros H; destruct H; simpl; auto. Qed.

Lemma session_refines f os d vs :
  legal false os = true -> run (open_db false f) os = Some (d, vs) ->
  exists a0 a, aopen f a0 /\ aruns a0 os vs a /\ R d a.
Proof.
  intros Hl Hr. destruct (open_refines f) as [a0 [Ha0 HR0]].
  assert (is_skipped a0 -> false = true) as Hsk.
  { intros Hx. exfalso. eapply aopen_not_skipped; eauto. }
  destruct (run_refines os _ _ false _ _ HR0 Hsk Hl Hr) as [a [Ha HR]].
  eauto.
Qed.

(* --- closing --- *)

Lemma flushed_write f g p w wb :
  w = length f -> flushed (mkdb Write false f g p w wb) = f ++ wb.
Proof.
  intros ->. unfold flushed, image; cbn. rewrite firstn_all. unfold overwrite.
  rewrite firstn_all, skipn_all2 by lia. rewrite app_nil_r. reflexivity.
Qed.

Lemma image_write f g p w wb k :
  w = length f -> image (mkdb Write false f g p w wb) k = f ++ firstn k wb.
Proof.
  intros ->. unfold image; cbn. unfold overwrite.
  rewrite firstn_all, skipn_all2 by lia. rewrite app_nil_r. reflexivity.
Qed.

Lemma alines_nonempty d a : R d a -> complete a -> alines a <> [] \/ exists ls, a = AWriting ls [] .
Proof.
  intros H Hc. destruct H as [f kept cur c s ls cl w wb p Ef Hc' Hok Hne Hh Hp
                                  |f kept cur junk w wb p Ef Hok Hne Hp
                                  |f kept c s ls j w wb p Ef Hc' Hok Hh Hls Hj Hp
                                  |f done part g p w wb Hw He]; simpl in *; auto.
  - left. intros Hx. apply app_eq_nil in Hx. destruct Hx; congruence.
  - right. destruct Hc as [_ ->]. eauto.
Qed.

Lemma overwrite_end f w : overwrite f (length f) w = f ++ w.
Proof. unfold overwrite. rewrite firstn_all, skipn_all2 by lia. rewrite app_nil_r. reflexivity. Qed.

(* The contents after close are readable as exactly the session's lines and
   are properly closed. *)
Lemma close_holds d a t : R d a -> complete a -> alines a <> [] -> holds (close_db t d) (alines a) true.
Proof.
  intros H Hc Hne. destruct H as [f kept cur c s ls cl w wb p Ef Hc' Hok Hne' Hh Hp
                                  |f kept cur junk w wb p Ef Hok Hne' Hp
                                  |f kept c s ls j w wb p Ef Hc' Hok Hh Hls Hj Hp
                                  |f done part g p w wb Hw He]; unfold close_db, closing; cbn [ro st].
  - subst f. unfold set_pos, change, put; cbn -[flushed image firstn]. rewrite firstn_exact.
    rewrite flushed_write by reflexivity. apply holds_enc_end; auto.
  - subst f. destruct t; cbn.
    + unfold flushed, image; cbn. apply holds_enc_end; auto.
    + unfold set_pos, change, put, flushed, image; cbn. unfold overwrite. rewrite firstn_exact.
      simpl. apply holds_enc_end; auto.
    + unfold flushed, image; cbn. apply holds_enc_end; auto.
  - subst f. simpl.
    assert (holds (enc kept ++ c :: s) (kept ++ ls) true) as Hall.
    { apply holds_enc_app; auto; simpl; congruence. }
    destruct t; cbn; try exact Hall.
    unfold set_pos, change, put, flushed, image; cbn. unfold overwrite.
    rewrite firstn_app. rewrite firstn_all2 by lia.
    replace (length (enc kept) + j - length (enc kept)) with j by lia.
    rewrite <- app_assoc. destruct (skip_scan_closed _ _ _ _ Hj Hh) as [_ Hcl].
    pose proof Hj as Hj'. apply skip_scan_marker in Hj'. destruct Hj' as [p0 Hp0].
    apply holds_enc_app; [exact Hok| | |apply Hcl].
    + rewrite Hp0. destruct p0; discriminate.
    + destruct j as [|j]; [destruct p0; discriminate|]. simpl. congruence.
  - simpl in *. destruct Hc as [Hok ->]. unfold put; cbn -[flushed image firstn]. rewrite flushed_write by exact Hw.
    rewrite app_assoc, He, app_nil_r. apply holds_enc_end; auto.
Qed.

(* --- crash --- *)

Lemma crash_holds d a k : R d a -> storable a -> st d = Write ->
  exists ls', holds (image d k) ls' false /\ prefix ls' (alines a).
Proof.
  intros H Hs Hst. destruct H as [| | |f done part g p w wb Hw He]; try discriminate.
  simpl in *. rewrite image_write by exact Hw. destruct Hs as [Hok Hp].
  assert (f ++ firstn k wb = firstn (length f + k) (enc done ++ part)) as ->.
  { rewrite <- He, firstn_app_2. reflexivity. }
  apply crash_prefix; auto.
Qed.

(* Crash inside close(): either not closed, or the complete database. *)
Lemma crash_close_holds d a k : R d a -> complete a -> alines a <> [] -> st d <> ReadEof ->
  (exists ls', holds (image (closing TNone d) k) ls' false /\ prefix ls' (alines a)) \/
  holds (image (closing TNone d) k) (alines a) true.
Proof.
  intros H Hc Hne Hst. destruct H as [f kept cur c s ls cl w wb p Ef Hc' Hok Hne' Hh Hp
                                  |f kept cur junk w wb p Ef Hok Hne' Hp
                                  |f kept c s ls j w wb p Ef Hc' Hok Hh Hls Hj Hp
                                  |f done part g p w wb Hw He]; unfold closing; cbn [ro st] in *; try congruence.
  - subst f. unfold set_pos, change, put; cbn -[flushed image firstn]. rewrite firstn_exact.
    rewrite image_write by reflexivity. destruct k as [|k].
    + left. simpl. rewrite app_nil_r.
      destruct (crash_prefix (accept kept cur) [] (length (enc (accept kept cur)))) as [ls' Hls']; auto.
      { split; [intros []|discriminate]. }
      rewrite app_nil_r, firstn_all in Hls'. eauto.
    + right. simpl. rewrite firstn_nil. apply holds_enc_end; auto.
  - simpl in *. destruct Hc as [Hok ->]. unfold put; cbn -[flushed image firstn]. rewrite image_write by exact Hw.
    destruct (le_lt_dec k (length wb)) as [Hk|Hk].
    + left. rewrite firstn_app. replace (k - length wb) with 0 by lia. simpl. rewrite app_nil_r.
      assert (f ++ firstn k wb = firstn (length f + k) (enc done ++ [])) as ->.
      { rewrite <- He, firstn_app_2. reflexivity. }
      apply crash_prefix; auto. split; [intros []|discriminate].
    + right. rewrite firstn_all2 by (rewrite app_length; simpl; lia).
      rewrite app_assoc, He, app_nil_r. apply holds_enc_end; auto.
Qed.
