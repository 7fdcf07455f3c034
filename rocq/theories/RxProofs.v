(* Proofs about pattern rules. *)
From Verif Require Import Base ImpModel RxModel RxSpec.

Lemma lex_app t : forall s u, lex s (t ++ u) = match lex s t with Some (a, s') => match lex s' u with Some (r, s'') => Some (a ++ r, s'') | None => None end | None => None end.
Proof.
  induction t as [|c t IH]; intros s u; cbn [lex app].
  - now destruct (lex s u) as [[r s']|].
  - destruct (lex_step s c) as [[a s']|]; [|reflexivity]. rewrite IH. destruct (lex s' t) as [[r s'']|]; [|reflexivity]. destruct (lex s'' u) as [[r' s3]|]; [|reflexivity]. now rewrite app_assoc.
Qed.
Lemma lex_cons s c t : lex s (c :: t) = match lex_step s c with Some (a, s) => match lex s t with Some (r, s) => Some (a ++ r, s) | None => None end | None => None end.
Proof. reflexivity. Qed.
Lemma tokens_join t u ts us : tokens t = Some ts -> tokens u = Some us -> tokens (t ++ SL :: u) = Some (ts ++ TLit SL :: us).
Proof.
  unfold tokens. intros T U. rewrite lex_app. destruct (lex Norm t) as [[a s]|]; [|discriminate]. destruct (lex Norm u) as [[r s']|] eqn:LU; [|discriminate].
  destruct s; try discriminate; injection T as <-; rewrite lex_cons.
  - change (lex_step Norm SL) with (Some ([TLit SL], Norm)). cbn iota. rewrite LU.
    destruct s'; try discriminate; injection U as <-; [reflexivity|]. now rewrite <- app_assoc.
  - change (lex_step (Num n) SL) with (Some ([TRef n; TLit SL], Norm)). cbn iota. rewrite LU.
    destruct s'; try discriminate; injection U as <-; cbn [app]; rewrite <- !app_assoc; reflexivity.
Qed.

Lemma parse_all_app a : forall s c, parse_all s (a ++ c) = match parse_all s a with Some s => parse_all s c | None => None end.
Proof. induction a as [|t a IH]; intros s c; cbn [parse_all app]; [reflexivity|]. destruct (parse_step s t); [apply IH | reflexivity]. Qed.

(* Without and with something before at the outermost level. *)
Definition emb (base : list re) (s s' : pst) : Prop := exists fs c n, s = (fs ++ [(None, [], c)], n) /\ s' = (fs ++ [(None, [], c ++ base)], n).
Definition bad (s : pst) : Prop := exists fs a d c n, s = (fs ++ [(None, a :: d, c)], n).
Lemma bad_step s t s1 : bad s -> parse_step s t = Some s1 -> bad s1.
Proof.
  intros (fs & a & d & c & n & ->) E. destruct fs as [|[[k d'] c'] fs]; cbn [app] in E.
  - destruct t as [x|f|k|lo hi|[|]| |]; cbn [parse_step push fst snd] in E.
    + injection E as <-. now exists [], a, d, (Lit x :: c), n.
    + injection E as <-. now exists [], a, d, (Cls f :: c), n.
    + destruct (_ && _); [|discriminate]. injection E as <-. now exists [], a, d, (Ref k :: c), n.
    + destruct c as [|r c]; [discriminate|]. destruct r; try discriminate; injection E as <-; eexists [], a, d, _, n; reflexivity.
    + injection E as <-. now exists [(Some (S n), [], [])], a, d, c, (S n).
    + injection E as <-. now exists [(None, [], [])], a, d, c, n.
    + injection E as <-. now exists [], (rev c), (a :: d), [], n.
    + discriminate.
  - destruct t as [x|f|k'|lo hi|[|]| |]; cbn [parse_step push fst snd] in E.
    + injection E as <-. now exists ((k, d', Lit x :: c') :: fs), a, d, c, n.
    + injection E as <-. now exists ((k, d', Cls f :: c') :: fs), a, d, c, n.
    + destruct (_ && _); [|discriminate]. injection E as <-. now exists ((k, d', Ref k' :: c') :: fs), a, d, c, n.
    + destruct c' as [|r c']; [discriminate|]. destruct r; try discriminate; injection E as <-; eexists ((k, d', _ :: c') :: fs), a, d, c, n; reflexivity.
    + injection E as <-. now exists ((Some (S n), [], []) :: (k, d', c') :: fs), a, d, c, (S n).
    + injection E as <-. now exists ((None, [], []) :: (k, d', c') :: fs), a, d, c, n.
    + injection E as <-. now exists ((k, rev c' :: d', []) :: fs), a, d, c, n.
    + destruct fs as [|[[k2 d2] c2] fs]; cbn [app push] in E; injection E as <-.
      * now exists [], a, d, (Grp k (rev (rev c' :: d')) :: c), n.
      * now exists ((k2, d2, Grp k (rev (rev c' :: d')) :: c2) :: fs), a, d, c, n.
Qed.
Lemma bad_all ts : forall s s1, bad s -> parse_all s ts = Some s1 -> bad s1.
Proof.
  induction ts as [|t ts IH]; intros s s1 B E; cbn [parse_all] in E; [congruence|]. destruct (parse_step s t) as [s2|] eqn:P; [|discriminate].
  eapply IH; [eapply bad_step; eauto | exact E].
Qed.
Lemma frames_ok n (fs : list frame) c c' : not_open n (fs ++ [(None, [], c)]) = not_open n (fs ++ [(None, [], c')]).
Proof. unfold not_open. rewrite !forallb_app. reflexivity. Qed.
Lemma emb_step base s s' t s1 : emb base s s' -> parse_step s t = Some s1 -> bad s1 \/ exists s1', parse_step s' t = Some s1' /\ emb base s1 s1'.
Proof.
  intros (fs & c & n & -> & ->) E. destruct fs as [|[[k d'] c'] fs]; cbn [app] in E |- *.
  - destruct t as [x|f|k|lo hi|[|]| |]; cbn [parse_step push fst snd] in E |- *.
    + injection E as <-. right. eexists. split; [reflexivity|]. now exists [], (Lit x :: c), n.
    + injection E as <-. right. eexists. split; [reflexivity|]. now exists [], (Cls f :: c), n.
    + change (not_open k [(None, [], c ++ base)]) with (not_open k [(None, [], c)]). destruct ((k <=? n) && not_open k [(None, [], c)]); [|discriminate]. injection E as <-. right. eexists. split; [reflexivity|]. now exists [], (Ref k :: c), n.
    + destruct c as [|r c]; [discriminate|]. cbn [app]. right. destruct r; try discriminate; injection E as <-; (eexists; split; [reflexivity|]; eexists [], _, n; split; reflexivity).
    + injection E as <-. right. eexists. split; [reflexivity|]. now exists [(Some (S n), [], [])], c, (S n).
    + injection E as <-. right. eexists. split; [reflexivity|]. now exists [(None, [], [])], c, n.
    + injection E as <-. left. now exists [], (rev c), [], [], n.
    + discriminate.
  - right. destruct t as [x|f|k'|lo hi|[|]| |]; cbn [parse_step push fst snd] in E |- *.
    + injection E as <-. eexists. split; [reflexivity|]. now exists ((k, d', Lit x :: c') :: fs), c, n.
    + injection E as <-. eexists. split; [reflexivity|]. now exists ((k, d', Cls f :: c') :: fs), c, n.
    + pose proof (frames_ok k' ((k, d', c') :: fs) c (c ++ base)) as F. cbn [app] in F. match goal with |- context [not_open k' ?l] => replace (not_open k' l) with (not_open k' ((k, d', c') :: fs ++ [(None, [], c)])) by exact F end.
      match type of E with context [not_open k' ?l] => change (not_open k' l) with (not_open k' ((k, d', c') :: fs ++ [(None, [], c)])) in E end.
      destruct ((k' <=? n) && not_open k' ((k, d', c') :: fs ++ [(None, [], c)])); [|discriminate]. injection E as <-. eexists. split; [reflexivity|]. now exists ((k, d', Ref k' :: c') :: fs), c, n.
    + destruct c' as [|r c']; [discriminate|]. destruct r; try discriminate; injection E as <-; (eexists; split; [reflexivity|]; eexists ((k, d', _ :: c') :: fs), c, n; split; reflexivity).
    + injection E as <-. eexists. split; [reflexivity|]. now exists ((Some (S n), [], []) :: (k, d', c') :: fs), c, (S n).
    + injection E as <-. eexists. split; [reflexivity|]. now exists ((None, [], []) :: (k, d', c') :: fs), c, n.
    + injection E as <-. eexists. split; [reflexivity|]. now exists ((k, rev c' :: d', []) :: fs), c, n.
    + destruct fs as [|[[k2 d2] c2] fs]; cbn [app push] in E |- *; injection E as <-; (eexists; split; [reflexivity|]).
      * now exists [], (Grp k (rev (rev c' :: d')) :: c), n.
      * now exists ((k2, d2, Grp k (rev (rev c' :: d')) :: c2) :: fs), c, n.
Qed.
Lemma emb_all base ts : forall s s' s1, emb base s s' -> parse_all s ts = Some s1 -> bad s1 \/ exists s1', parse_all s' ts = Some s1' /\ emb base s1 s1'.
Proof.
  induction ts as [|t ts IH]; intros s s' s1 M E; cbn [parse_all] in *; [right; exists s'; split; [reflexivity | congruence]|].
  destruct (parse_step s t) as [s2|] eqn:P; [|discriminate]. destruct (emb_step _ _ _ _ _ M P) as [B|(s2' & P' & M')]; [left; eapply bad_all; eauto|].
  rewrite P'. eapply IH; eauto.
Qed.
(* An expression without alternatives, after something. *)
Lemma parse_single n t s n' : parse n t = Some ([s], n') -> exists ts, tokens t = Some ts /\ forall base, parse_all ([(None, [], base)], n) ts = Some ([(None, [], rev s ++ base)], n').
Proof.
  unfold parse. destruct (tokens t) as [ts|]; [|discriminate]. destruct (parse_all _ ts) as [[[|[[k d] c] [|f fs]] m]|] eqn:P; try discriminate. intros E.
  assert (Q : rev d ++ [rev c] = [s] /\ m = n') by (cbn [rev] in E; split; congruence). destruct Q as [Q ->]. destruct (rev d) as [|x l] eqn:RD; [|destruct l; discriminate].
  apply (f_equal (@rev _)) in RD. rewrite rev_involutive in RD. cbn in RD. subst d. injection Q as <-. exists ts. split; [reflexivity|]. intros base. rewrite rev_involutive.
  destruct (emb_all base ts ([(None, [], [])], n) ([(None, [], base)], n) _ ltac:(now exists [], [], n) P) as [(fs & a & d & c' & m & B)|(s1 & P' & (fs & c' & m & B & ->))].
  - exfalso. destruct fs as [|f [|g fs]]; cbn in B; [injection B as _ B; discriminate | discriminate | discriminate].
  - rewrite P'. destruct fs as [|f [|g fs]]; cbn in B; [|discriminate|discriminate]. injection B as _ -> ->. reflexivity.
Qed.

(* All together. *)
Fixpoint jre (ss : list (list re)) : list re := match ss with [] => [] | [s] => s | s :: ss => s ++ Lit SL :: jre ss end.
Inductive seqs : nat -> list bytes -> list (list re) -> Prop :=
| seqs_nil n : seqs n [] []
| seqs_cons n t ts s n' ss : parse n t = Some ([s], n') -> seqs n' ts ss -> seqs n (t :: ts) (s :: ss).
Lemma simple_seqs n ts : simple n ts -> exists ss, seqs n ts ss.
Proof. induction 1 as [n|n t ts s n' P _ (ss & IH)]; [exists []; constructor | exists (s :: ss); econstructor; eauto]. Qed.
Lemma seqs_join n ts ss : seqs n ts ss -> ts <> [] -> exists tks n', tokens (join ts) = Some tks /\ forall base, parse_all ([(None, [], base)], n) tks = Some ([(None, [], rev (jre ss) ++ base)], n').
Proof.
  induction 1 as [n|n t ts s n' ss P S IH]; intros NE; [contradiction|]. destruct (parse_single _ _ _ _ P) as (tk & T & R).
  destruct S as [n'|n' t' ts s' n'' ss P' S].
  - exists tk, n'. auto.
  - destruct IH as (tks & m & T' & R'); [discriminate|]. exists (tk ++ TLit SL :: tks), m. split; [apply (tokens_join t (join (t' :: ts))); auto|].
    intros base. rewrite parse_all_app, R. cbn [parse_all parse_step push]. rewrite R'. f_equal. f_equal. f_equal. f_equal.
    change (jre (s :: s' :: ss)) with (s ++ Lit SL :: jre (s' :: ss)). rewrite rev_app_distr. cbn [rev]. rewrite <- !app_assoc. reflexivity.
Qed.
Lemma parse_join n ts ss : seqs n ts ss -> ts <> [] -> exists n', parse n (join ts) = Some ([jre ss], n').
Proof.
  intros S NE. destruct (seqs_join _ _ _ S NE) as (tks & m & T & R). exists m. unfold parse. rewrite T, R. cbn. now rewrite app_nil_r, rev_involutive.
Qed.

Lemma ma_one ic s e w e' : ma ic [s] e w e' <-> ms ic s e w e'.
Proof. split; [intros M; inversion M as [s0 alts e0 w0 e0' I M1]; subst; destruct I as [<-|[]]; exact M1 | intros M; econstructor; [now left | exact M]]. Qed.
Section M.
Context (ic : bool).
Lemma same_slash x : same ic x SL = true -> x = SL.
Proof. destruct ic; destruct x as [[] [] [] [] [] [] [] []]; vm_compute; congruence. Qed.
Lemma ms_app a c e w e' : ms ic (a ++ c) e w e' <-> exists w1 e1 w2, w = w1 ++ w2 /\ ms ic a e w1 e1 /\ ms ic c e1 w2 e'.
Proof.
  revert e w. induction a as [|r a IH]; intros e w; cbn [app].
  - split; [intros M; exists [], e, w; repeat split; auto; constructor | intros (w1 & e1 & w2 & -> & M & M')]. inversion M; subst. exact M'.
  - split.
    + intros M. inversion M as [|? ? ? u e1 v ? M1 M2]; subst. apply IH in M2 as (v1 & e2 & v2 & -> & A & B). exists (u ++ v1), e2, v2. split; [now rewrite app_assoc|]. split; [econstructor; eauto | exact B].
    + intros (w1 & e1 & w2 & -> & M & M'). inversion M as [|? ? ? u e2 v ? M1 M2]; subst. rewrite <- app_assoc. econstructor; [exact M1|]. apply IH. eauto 10.
Qed.
Inductive eachs : list (list re) -> env -> list bytes -> env -> Prop :=
| es_nil e : eachs [] e [] e
| es_cons s ss e w e1 ws e2 : ms ic s e w e1 -> eachs ss e1 ws e2 -> eachs (s :: ss) e (w :: ws) e2.
Lemma jre_match ss : ss <> [] -> forall e w e', ms ic (jre ss) e w e' <-> exists vs, w = join vs /\ eachs ss e vs e'.
Proof.
  induction ss as [|s ss IH]; intros NE e w e'; [contradiction|]. destruct ss as [|s' ss].
  - cbn [jre]. split.
    + intros M. exists [w]. split; [reflexivity|]. econstructor; [exact M | constructor].
    + intros (vs & -> & E). inversion E as [|? ? ? v e1 ws ? M E']; subst. inversion E'; subst. exact M.
  - change (jre (s :: s' :: ss)) with (s ++ Lit SL :: jre (s' :: ss)). rewrite ms_app. split.
    + intros (w1 & e1 & w2 & -> & M & M'). inversion M' as [|? ? ? u e2 v ? M1 M2]; subst. inversion M1 as [c x e0 S| | | | | | |]; subst. apply same_slash in S. subst x.
      apply IH in M2 as (vs & -> & E); [|discriminate]. exists (w1 :: vs). split; [|econstructor; eauto]. inversion E; subst. reflexivity.
    + intros (vs & -> & E). inversion E as [|? ? ? v e1 ws ? M E']; subst. exists v, e1, (SL :: join ws). split; [inversion E'; subst; reflexivity|]. split; [exact M|].
      change (SL :: join ws) with ([SL] ++ join ws). econstructor; [constructor; unfold same; now rewrite (proj2 (ceqb_eq SL SL) eq_refl)|]. apply IH; [discriminate|]. eauto.
Qed.
Lemma eachs_length ss e vs e' : eachs ss e vs e' -> length vs = length ss.
Proof. induction 1; cbn; congruence. Qed.
Lemma each_eachs n ts ss : seqs n ts ss -> forall e ws e', each ic n ts e ws e' <-> eachs ss e ws e'.
Proof.
  induction 1 as [n|n t ts s n' ss P S IH]; intros e ws e'.
  - split; intros E; inversion E; subst; constructor.
  - split; intros E.
    + inversion E as [|? ? ? a n2 w ws' ? e1 ? P' M E']; subst. rewrite P in P'. injection P' as <- <-. apply ma_one in M. econstructor; [exact M | now apply IH].
    + inversion E as [|? ? ? w e1 ws' ? M E']; subst. econstructor; [exact P | econstructor; [now left | exact M] | now apply IH].
Qed.
End M.

(* Names without separators. *)
Fixpoint slashes (w : bytes) : nat := match w with [] => 0 | c :: w => (if ceqb c SL then 1 else 0) + slashes w end.
Lemma slashes_app a c : slashes (a ++ c) = slashes a + slashes c.
Proof. induction a as [|x a IH]; cbn; [reflexivity | rewrite IH; lia]. Qed.
Lemma slashes_none w : ~ In SL w -> slashes w = 0.
Proof. induction w as [|c w IH]; intros N; cbn; [reflexivity|]. destruct (ceqb c SL) eqn:E; [apply ceqb_eq in E; subst; exfalso; apply N; now left|]. rewrite IH; [reflexivity|]. intros I. apply N. now right. Qed.
Lemma join_slashes ws : Forall (fun w => ~ In SL w) ws -> slashes (join ws) = length ws - 1.
Proof.
  induction ws as [|w ws IH]; intros F; [reflexivity|]. inversion F as [|? ? N F']; subst. destruct ws as [|w' ws]; [cbn; now rewrite slashes_none|].
  change (join (w :: w' :: ws)) with (w ++ SL :: join (w' :: ws)). rewrite slashes_app, slashes_none by exact N. cbn [slashes]. rewrite IH by exact F'. change (ceqb SL SL) with true. cbn. lia.
Qed.
Lemma join_at_least vs : length vs - 1 <= slashes (join vs).
Proof.
  induction vs as [|v vs IH]; [cbn; lia|]. destruct vs as [|v' vs]; [cbn; lia|]. change (join (v :: v' :: vs)) with (v ++ SL :: join (v' :: vs)). rewrite slashes_app. cbn [slashes]. change (ceqb SL SL) with true. cbn [length] in *. lia.
Qed.
Lemma first_slash w v x y : ~ In SL w -> v ++ SL :: x = w ++ SL :: y -> v = w /\ x = y \/ exists z, v = w ++ SL :: z /\ z ++ SL :: x = y.
Proof.
  revert v. induction w as [|c w IH]; intros v N E.
  - destruct v as [|d v]; cbn in E; [injection E as ->; auto|]. injection E as -> E. right. now exists v.
  - destruct v as [|d v]; cbn in E.
    + exfalso. apply N. left. congruence.
    + assert (d = c) as -> by congruence. assert (E' : v ++ SL :: x = w ++ SL :: y) by congruence. destruct (IH v) as [[-> ->]|(z & -> & Z)]; auto; [intros I; apply N; now right|]. right. now exists z.
Qed.
Lemma join_inj ws : Forall (fun w => ~ In SL w) ws -> forall vs, length vs = length ws -> join vs = join ws -> vs = ws.
Proof.
  induction ws as [|w ws IH]; intros F [|v vs] L E; try discriminate; [reflexivity|]. inversion F as [|? ? N F']; subst. injection L as L.
  destruct ws as [|w' ws], vs as [|v' vs]; try discriminate; [cbn in E; congruence|].
  change (join (v :: v' :: vs)) with (v ++ SL :: join (v' :: vs)) in E. change (join (w :: w' :: ws)) with (w ++ SL :: join (w' :: ws)) in E.
  destruct (first_slash _ _ _ _ N E) as [[-> X]|(z & -> & X)]; [f_equal; now apply IH|]. exfalso.
  pose proof (join_slashes _ F') as A. rewrite <- X, slashes_app in A. cbn [slashes] in A. change (ceqb SL SL) with true in A. pose proof (join_at_least (v' :: vs)) as B. cbn [length] in *. lia.
Qed.
Lemma join_match ic n ts ss ws e e' : seqs n ts ss -> ts <> [] -> length ws = length ts -> Forall (fun w => ~ In SL w) ws ->
  (ma ic [jre ss] e (join ws) e' <-> each ic n ts e ws e').
Proof.
  intros S NE L F. rewrite (each_eachs ic n ts ss S). assert (LS : length ss = length ts) by (clear - S; induction S; cbn; congruence).
  assert (NS : ss <> []) by (intros ->; destruct ts; [contradiction | discriminate]). split.
  - intros M. apply ma_one in M. apply jre_match in M as (vs & E & V); [|exact NS].
    assert (vs = ws) as <-; [|exact V]. apply join_inj; [exact F | rewrite (eachs_length _ _ _ _ _ V); congruence | now symmetry].
  - intros V. econstructor; [now left|]. apply jre_match; eauto.
Qed.

(* Values. *)
Lemma rfind_iff d t a z : rfind d t = Some (a, z) <-> t = a ++ d :: z /\ ~ In d z.
Proof.
  revert a. assert (NO : forall t, rfind d t = None <-> ~ In d t).
  { clear. induction t as [|c t IH]; cbn [rfind]; [split; auto|]. destruct (rfind d t) as [[a z]|].
    - split; [discriminate|]. intros N. exfalso. assert (X : Some (a, z) = None) by (apply IH; intros I; apply N; now right). discriminate.
    - destruct (ceqb c d) eqn:E; [apply ceqb_eq in E; subst; split; [discriminate | intros N; exfalso; apply N; now left]|]. split; [|reflexivity]. intros _ [->|I]; [|now apply (proj1 IH eq_refl)].
      assert (ceqb d d = true) by (now apply ceqb_eq). congruence. }
  induction t as [|c t IH]; intros a; cbn [rfind]; [split; [discriminate | intros [E _]; destruct a; discriminate]|].
  destruct (rfind d t) as [[a' z']|] eqn:R.
  - specialize (IH a'). split.
    + intros E. injection E as <- <-. destruct (proj1 IH eq_refl) as [-> N]. auto.
    + intros [E N]. assert (ID : In d t) by (destruct (in_dec Ascii.ascii_dec d t) as [I|I]; [exact I|]; apply NO in I; congruence).
      destruct a as [|x a]; cbn in E; [injection E as -> ->; contradiction|]. injection E as -> ->. clear IH.
      assert (U : forall t a z, t = a ++ d :: z -> ~ In d z -> rfind d t = Some (a, z)).
      { clear - NO. intros t a z -> N. induction a as [|x a IH]; cbn [rfind app]; [rewrite (proj2 (NO z) N); now rewrite (proj2 (ceqb_eq d d) eq_refl) | now rewrite IH]. }
      rewrite (U _ a z eq_refl N) in R. injection R as <- <-. reflexivity.
  - apply NO in R. destruct (ceqb c d) eqn:E.
    + apply ceqb_eq in E. subst c. split; [intros X; injection X as <- <-; auto|]. intros [X N]. destruct a as [|x a]; cbn in X; [now injection X as ->|]. injection X as -> ->. exfalso. apply R, in_or_app. right. now left.
    + split; [discriminate|]. intros [X N]. exfalso. destruct a as [|x a]; cbn in X; [injection X as -> ->; rewrite (proj2 (ceqb_eq d d) eq_refl) in E; discriminate|]. injection X as -> ->. apply R, in_or_app. right. now left.
Qed.
Lemma split_iff v t fl : split v = Some (t, fl) <-> delimited v t fl.
Proof.
  unfold split, delimited. destruct v as [|d v]; [split; [discriminate | intros (d & E & _); discriminate]|]. rewrite rfind_iff. split.
  - intros [-> N]. now exists d.
  - intros (d' & E & N). injection E as -> ->. auto.
Qed.
