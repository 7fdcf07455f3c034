(* The C/C++ lexer accepts every source that consists of tokens, spaces and comments (and has no
   line splices): a token. *)
From Coq Require Import Lia.
From Verif Require Import Base CcModel CcSpec CcProofs CcProofs2 CcProofs3 CcProofs4 CcProofs5 CcProofs7.
Local Open Scope N_scope.

Lemma ends_stops t s S : ends t s S -> unspliced S = true -> t <> Semi -> t <> LBrace -> t <> RBrace -> t <> Scope -> t <> Other -> stops S (longer t s).
Proof.
  intros E U. destruct t; intros; try contradiction; destruct E as (o & S' & C & H'); destruct (continues_unspliced _ _ _ C U) as [-> ->]; destruct S as [|c S]; cbn in *; try exact I; apply H'.
Qed.
(* Choose the branch where the condition is known. *)
Ltac branch := repeat match goal with |- context [if ?c then ?u else ?v] =>
    let r := eval vm_compute in c in
    match r with true => change (if c then u else v) with u | false => change (if c then u else v) with v end end.
Ltac falses := repeat match goal with H : _ || _ = false |- _ => apply orb_false_iff in H; destruct H end; repeat match goal with H : ?x = false |- _ => rewrite H; clear H end.

Lemma longer_suffix_inv s q g c : q = SQ \/ q = DQ -> suffixed g -> (if ceqb (lastc (s ++ q :: g)) q then letter c else ident c) = false -> match g with [] => letter c | _ => ident c end = false.
Proof.
  intros L Sf H. rewrite lastc_app in H. destruct Sf as [|d g Ld A].
  - cbn in H. unfold ceqb in H. rewrite Ascii.eqb_refl in H. exact H.
  - rewrite last_cons in H. assert (I : ident (last g d) = true) by (apply last_ident; [exact A|apply letter_ident; exact Ld]).
    destruct (ceqb (last g d) q) eqn:E; [|exact H]. apply ceqb_eq in E. rewrite E in I. destruct L as [-> | ->]; discriminate I.
Qed.
Lemma quoted_fwd' q s g n st S p : q = SQ \/ q = DQ -> quoted_body q s -> suffixed g -> (length (s ++ [q] ++ g) < n)%nat -> Rep st ((s ++ [q] ++ g) ++ S) p -> unspliced ((s ++ [q] ++ g) ++ S) = true -> back st = None ->
  stops S (fun c => match g with [] => letter c | _ => ident c end) -> exists st', quoted n q q st = Some st' /\ left_ st (s ++ [q] ++ g) S p st'.
Proof.
  intros Hq Q Sf Ln R U B St. rewrite !app_length in Ln. cbn [length] in Ln. rewrite <- !app_assoc in R, U.
  apply (quoted_fwd q s g Q n q st S p); try assumption; [destruct Hq as [-> | ->]; discriminate|destruct Hq as [-> | ->]; discriminate|destruct Hq as [-> | ->]; discriminate|lia].
Qed.
Lemma prefix_fwd x e q rest S n st p : all ident e -> ident q = false -> (length e < n)%nat -> Rep st (e ++ q :: rest ++ S) p -> unspliced (e ++ q :: rest ++ S) = true -> back st = None ->
  exists d st1, identifier n [x] st = Some (rev (x :: e), d, st1) /\ ch d = Some q /\ Rep (takeh d st1) (rest ++ S) (adv (e ++ [q]) p) /\ unspliced (rest ++ S) = true /\
    back (takeh d st1) = None /\ cs (takeh d st1) = rev (e ++ [q]) ++ cs st.
Proof.
  intros A Nq Ln R U B. destruct (identifier_fwd e n [x] st (q :: rest ++ S) p A Ln R U B Nq) as (d & st1 & E & (L1 & L2 & L3) & Pk & Hd & T).
  cbn [hd_error] in Hd. destruct (T _ _ eq_refl) as (R1 & B1).
  exists d, st1. split; [exact E|]. split; [exact Hd|]. split; [rewrite adv_app; exact R1|]. split; [apply unspliced_app in U; eapply unspliced_tl; exact U|]. split; [exact B1|].
  rewrite (takeh_cs _ _ _ Hd), L2, rev_app_distr. reflexivity.
Qed.
Lemma left_after st a st1 text S p st' : left_ st1 text S (adv a p) st' -> cs st1 = rev a ++ cs st -> left_ st (a ++ text) S p st'.
Proof. intros (R & C & B) E. split; [rewrite adv_app; exact R|]. split; [|exact B]. rewrite C, E, rev_app_distr, app_assoc. reflexivity. Qed.
Lemma encoding_ident x e : encoding (x :: e) -> all ident e.
Proof.
  intros H. cbn in H. destruct H as [H|H]; [discriminate H|].
  repeat (destruct H as [H|H]; [injection H as <- <-; intros y Hy; cbn in Hy; first [destruct Hy as [<-|[]]; reflexivity|destruct Hy]|]). destruct H.
Qed.
Lemma next_token_fwd n c f st S p x t text : ch c = Some x -> Rep st (text ++ S) p -> unspliced (text ++ S) = true -> back st = None ->
  is_token t (x :: text) -> ends t (x :: text) S -> (length text < n)%nat ->
  let l := match log st with Some l => l | None => xline c end in
  exists st', next_token n c f st = Some (mktoken t f (match t with Identifier => x :: text | _ => [] end) l, st') /\ Rep st' S (adv text p) /\
    cs st' = rev (le 8 l ++ x :: text) ++ cs st.
Proof.
  intros Ec R U B It En Ln l. unfold next_token. fold l. rewrite Ec.
  set (st0 := append (le 8 l ++ char c) st). assert (R0 : Rep st0 (text ++ S) p) by exact R. assert (B0 : back st0 = None) by exact B.
  assert (C0 : cs st0 = rev (le 8 l ++ [x]) ++ cs st) by (unfold st0, char; rewrite Ec; reflexivity).
  clearbody st0.
  assert (Fin : forall st', left_ st0 text S p st' -> Rep st' S (adv text p) /\ cs st' = rev (le 8 l ++ x :: text) ++ cs st).
  { intros st' (R' & C' & _). split; [exact R'|]. rewrite C', C0. change (x :: text) with ([x] ++ text). rewrite !rev_app_distr, ?app_assoc. reflexivity. }
  assert (U0 : unspliced S = true) by (eapply unspliced_app; exact U).
  destruct (upeek _ _ _ R0 U B0) as (d & st1 & P & Hd & C1 & R1 & B1 & A1 & T1).
  (* Only this character, or the next one is looked at. *)
  assert (Zero : text = [] -> Rep st0 S (adv text p) /\ cs st0 = rev (le 8 l ++ x :: text) ++ cs st) by (intros ->; apply Fin; apply left_nil; auto).
  assert (One : text = [] -> Rep st1 S (adv text p) /\ cs st1 = rev (le 8 l ++ x :: text) ++ cs st) by (intros ->; apply Fin; apply left_nil; auto).
  assert (Two : forall y, text = [y] -> Rep (takeh d st1) S (adv text p) /\ cs (takeh d st1) = rev (le 8 l ++ x :: text) ++ cs st).
  { intros y ->. apply Fin. destruct (T1 _ _ eq_refl) as (R2 & B2 & _). split; [exact R2|]. split; [|exact B2]. cbn in Hd. rewrite (takeh_cs _ _ _ Hd), C1. reflexivity. }
  (* After the next one. *)
  assert (Next : forall y text', text = y :: text' -> exists e st2, peek true (takeh d st1) = (e, st2) /\ ch e = hd_error (text' ++ S) /\
     (text' = [] -> Rep st2 S (adv text p) /\ cs st2 = rev (le 8 l ++ x :: text) ++ cs st) /\
     (forall z, text' = [z] -> Rep (takeh e st2) S (adv text p) /\ cs (takeh e st2) = rev (le 8 l ++ x :: text) ++ cs st)).
  { intros y text' ->. cbn [app] in *. destruct (T1 _ _ eq_refl) as (R2 & B2 & _).
    destruct (upeek _ _ _ (takeh_rep _ _ _ _ _ Hd R2) (unspliced_tl _ _ U) B2) as (e & st2 & P2 & He & C2 & R3 & B3 & _ & T2).
    exists e, st2. split; [exact P2|]. split; [exact He|]. split.
    - intros ->. apply Fin. split; [exact R3|]. split; [|exact B3]. rewrite C2, (takeh_cs _ _ _ Hd), C1. reflexivity.
    - intros z ->. apply Fin. destruct (T2 _ _ eq_refl) as (R4 & B4 & _). split; [exact R4|]. split; [|exact B4].
      rewrite (takeh_cs _ _ _ He), C2, (takeh_cs _ _ _ Hd), C1. reflexivity. }
  remember (x :: text) as tx eqn:Etx in It. pose proof (ends_stops _ _ _ En U0) as St.
  destruct It as [| | | | | | | |s I|y s I D A|y s D Nr|y s D Nr|e s g Enc Q Sf|e s g Enc Q Sf|e dl s g Enc Ok Mi Sf|y I Ns Nn Bl].
  - (* . *) injection Etx as <- <-. branch. rewrite P. cbn [app] in *. specialize (St ltac:(discriminate) ltac:(discriminate) ltac:(discriminate) ltac:(discriminate) ltac:(discriminate)).
    unfold is. rewrite Hd. destruct S as [|w S]; cbn [hd_error].
    + exists st1. split; [reflexivity|auto].
    + cbn [stops longer] in St. apply orb_false_iff in St. destruct St as [S1 S2]. rewrite S1, S2. destruct (ceqb w ".") eqn:Wd.
      * apply ceqb_eq in Wd. subst w. destruct (T1 _ _ eq_refl) as (R2 & B2 & C2).
        destruct (upeek _ _ _ R2 (unspliced_tl _ _ U) B2) as (e & st2 & P2 & He & C3 & R3 & B3 & _ & T2). rewrite P2, He.
        assert (Nd : hd_error S <> Some "."%char).
        { destruct En as (o & S' & Co & Ho). destruct (continues_unspliced _ _ _ Co U0) as [-> ->]. cbn in Ho. destruct Ho as [_ Ho].
          destruct (Ho eq_refl eq_refl) as (o' & S'' & Co' & Ho'). destruct (continues_unspliced _ _ _ Co' (unspliced_tl _ _ U0)) as [-> ->]. exact Ho'. }
        exists (unget d st2). split.
        -- destruct (hd_error S) as [w|]; [|reflexivity]. assert (Wd : ceqb w "." = false) by (apply ceqb_neq; congruence). rewrite Wd. reflexivity.
        -- cbn [app hd_error] in *. assert (Hc : char d = ["."%char]) by (unfold char; rewrite Hd; reflexivity). split; [|cbn; rewrite C3, C2, C0; reflexivity].
           replace ("."%char :: S) with (char d ++ S) by (rewrite Hc; reflexivity). apply unget_rep; [rewrite Hc; exact R3|exact B3| |intros H; congruence].
           destruct (peek_cases _ _ _ _ _ R0 P) as (_ & _ & _ & _ & _ & T3). destruct (T3 _ Hd) as (sp & S3 & Sp & ES & _ & L3 & _). rewrite ES in U. rewrite (splices_unspliced _ _ Sp U) in L3. exact L3.
      * exists st1. split; [reflexivity|auto].
  - injection Etx as <- <-. branch. exists st0. auto.
  - (* : *) injection Etx as <- <-. branch. rewrite P. specialize (St ltac:(discriminate) ltac:(discriminate) ltac:(discriminate) ltac:(discriminate) ltac:(discriminate)).
    unfold is. rewrite Hd. exists st1. split; [|auto]. destruct S as [|w S]; cbn [hd_error app]; [reflexivity|]. cbn in St. rewrite St. reflexivity.
  - injection Etx as <- <-. branch. rewrite P. unfold is. rewrite Hd. cbn [app hd_error]. branch. exists (takeh d st1). split; [reflexivity|eauto].
  - (* < *) injection Etx as <- <-. branch. rewrite P. specialize (St ltac:(discriminate) ltac:(discriminate) ltac:(discriminate) ltac:(discriminate) ltac:(discriminate)).
    unfold is. rewrite Hd. exists st1. split; [|auto]. destruct S as [|w S]; cbn [hd_error app]; [reflexivity|]. cbn [stops longer] in St. falses. reflexivity.
  - (* > *) injection Etx as <- <-. branch. rewrite P. specialize (St ltac:(discriminate) ltac:(discriminate) ltac:(discriminate) ltac:(discriminate) ltac:(discriminate)).
    unfold is. rewrite Hd. exists st1. split; [|auto]. destruct S as [|w S]; cbn [hd_error app]; [reflexivity|]. cbn [stops longer] in St. falses. reflexivity.
  - injection Etx as <- <-. branch. exists st0. auto.
  - injection Etx as <- <-. branch. exists st0. auto.
  - specialize (St ltac:(discriminate) ltac:(discriminate) ltac:(discriminate) ltac:(discriminate) ltac:(discriminate)). subst s. cbn in I.
    repeat (destruct I as [I|I]; [injection I as <- <-; branch;
      first
        [exists st0; split; [reflexivity|apply Zero; reflexivity]
        |rewrite P; unfold is; rewrite Hd; cbn [hd_error app]; branch; exists (takeh d st1); split; [reflexivity|eapply Two; reflexivity]
        |rewrite P; unfold is; rewrite Hd; destruct S as [|w S]; cbn [hd_error app];
         [branch; exists st1; split; [reflexivity|apply One; reflexivity]
         |cbn [stops] in St; unfold longer in St; revert St; branch; intros St; falses; branch; exists st1; split; [reflexivity|apply One; reflexivity]]
        |destruct (Next _ _ eq_refl) as (e & st2 & P2 & He & N1 & N2); rewrite P; unfold is; rewrite Hd; cbn [hd_error app]; branch; rewrite P2, He; cbn [hd_error app]; branch; exists (takeh e st2);
         split; [reflexivity|eapply N2; reflexivity]
        |destruct (Next _ _ eq_refl) as (e & st2 & P2 & He & N1 & N2); rewrite P; unfold is; rewrite Hd; cbn [hd_error app]; branch; rewrite P2, He; cbn [app];
         destruct S as [|w S]; cbn [hd_error];
         [branch; exists st2; split; [reflexivity|apply N1; reflexivity]
         |cbn [stops] in St; unfold longer in St; revert St; branch; intros St; falses; branch; exists st2; split; [reflexivity|apply N1; reflexivity]]
        |idtac]|]).
    (* "..." *)
    2:{ destruct I. }
    rewrite P. unfold is. rewrite Hd. cbn [hd_error app]. branch. cbn [app] in *. destruct (T1 _ _ eq_refl) as (R2 & B2 & C2).
    destruct (upeek _ _ _ R2 (unspliced_tl _ _ U) B2) as (e & st2 & P2 & He & C3 & R3 & B3 & _ & T2). rewrite P2, He. cbn [hd_error]. branch.
    destruct (T2 _ _ eq_refl) as (R4 & B4 & C4).
    exists (takeh e (append (char d) st2)). split; [reflexivity|]. apply Fin.
    assert (Q : takeh e (append (char d) st2) = append (char e) (append (char d) (take e st2))).
    { unfold takeh, take, append. cbn [back held]. destruct (back st2); [reflexivity|]. destruct (held st2); [reflexivity|]. rewrite He. reflexivity. }
    rewrite Q. split; [exact R4|]. split; [|exact B4]. rewrite !append_cs. unfold char. rewrite Hd, He, C4, C2. reflexivity.
  - (* an identifier *)
    injection Etx as -> ->. specialize (St ltac:(discriminate) ltac:(discriminate) ltac:(discriminate) ltac:(discriminate) ltac:(discriminate)).
    assert (Id : forall (T : Type) (u v : T) q, ident q = false -> (if ceqb x q then u else v) = v).
    { intros T u v q Hq. destruct (ceqb x q) eqn:E; [|reflexivity]. apply ceqb_eq in E. subst q. congruence. }
    assert (Ie : forall (T : Type) (u v : T) qs, forallb (fun q => negb (ident q)) qs = true -> (if existsb (ceqb x) qs then u else v) = v).
    { intros T u v qs Hq. destruct (existsb (ceqb x) qs) eqn:E; [|reflexivity]. apply existsb_in in E. rewrite forallb_forall in Hq. specialize (Hq _ E). rewrite I in Hq. discriminate Hq. }
    assert (Io : forall (T : Type) (u v : T) q r, ident q = false -> ident r = false -> (if ceqb x q || ceqb x r then u else v) = v).
    { intros T u v q r Hq Hr. destruct (ceqb x q) eqn:E; [apply ceqb_eq in E; subst q; congruence|]. destruct (ceqb x r) eqn:E'; [apply ceqb_eq in E'; subst r; congruence|]. reflexivity. }
    rewrite !Ie, !Id, !Io, D, I by reflexivity.
    assert (S1 : stops S ident) by (destruct S as [|w S']; [exact Logic.I|]; cbn [stops longer] in St |- *; apply orb_false_iff in St; destruct St as [St _]; apply orb_false_iff in St; apply St).
    destruct (identifier_fwd text n [x] st0 S p A Ln R0 U B0 S1) as (d' & st2 & E & L & Pk & Hc & T2). rewrite E. cbn iota. rewrite rev_app_distr, rev_involutive. cbn [rev app].
    unfold is. rewrite Hc. exists st2. split; [|apply Fin; exact L]. destruct S as [|w S']; [reflexivity|]. cbn [hd_error stops longer] in *. apply orb_false_iff in St. destruct St as [St S3]. apply orb_false_iff in St. destruct St as [_ S2].
    assert (Np : (ceqb w SQ = true \/ ceqb w DQ = true) -> fst (literal_prefix (x :: text) (ceqb w DQ)) = false).
    { intros Hw. destruct (literal_prefix (x :: text) (ceqb w DQ)) as [[|] raw] eqn:Lp; [exfalso|reflexivity].
      destruct (ceqb w DQ) eqn:W2.
      - destruct raw.
        + destruct (literal_prefix_raw _ Lp) as (e & Enc & He). rewrite He in S3. cbn in Enc. repeat (destruct Enc as [<-|Enc]; [discriminate S3|]). destruct Enc.
        + pose proof (literal_prefix_spec _ _ Lp ltac:(discriminate)) as Enc. unfold encoding in Enc. cbn [In] in Enc. destruct Enc as [Enc|Enc]; [discriminate Enc|].
          repeat (destruct Enc as [Enc|Enc]; [rewrite <- Enc in S3; discriminate S3|]). destruct Enc.
      - destruct Hw as [Hw|Hw]; [|discriminate Hw]. rewrite Hw in S2. destruct raw; [exact (literal_prefix_sq_raw _ _ Lp)|].
        pose proof (literal_prefix_spec _ _ Lp ltac:(discriminate)) as Enc. unfold encoding in Enc. cbn [In] in Enc. destruct Enc as [Enc|Enc]; [discriminate Enc|].
        repeat (destruct Enc as [Enc|Enc]; [rewrite <- Enc in S2; discriminate S2|]). destruct Enc. }
    destruct (ceqb w SQ || ceqb w DQ) eqn:W; [|reflexivity]. apply orb_true_iff in W. specialize (Np W). destruct (literal_prefix (x :: text) (ceqb w DQ)) as [cons raw]. cbn [fst] in Np. subst cons. reflexivity.
  - (* a number *)
    injection Etx as -> ->. specialize (St ltac:(discriminate) ltac:(discriminate) ltac:(discriminate) ltac:(discriminate) ltac:(discriminate)).
    assert (S1 : stops S (fun c => negb (ends_number c) || (exponent (last text x) && (ceqb c "+" || ceqb c "-")))).
    { destruct S as [|w S']; [exact Logic.I|]. cbn [stops longer] in St |- *. unfold lastc in St. rewrite last_cons in St. exact St. }
    destruct (number_fwd _ Nr n st0 S p x Ln R0 U B0 S1) as (st' & E & L). exists st'. split; [|apply Fin; exact L].
    rewrite E. destruct x as [[] [] [] [] [] [] [] []]; first [discriminate D|reflexivity].
  - injection Etx as <- <-. specialize (St ltac:(discriminate) ltac:(discriminate) ltac:(discriminate) ltac:(discriminate) ltac:(discriminate)). branch. rewrite P. unfold is. rewrite Hd. cbn [hd_error app].
    assert (Ny : ceqb y "*" = false) by (destruct y as [[] [] [] [] [] [] [] []]; first [discriminate D|reflexivity]). rewrite Ny, D.
    assert (Nr' : number_rest (y :: s)).
    { constructor; [|exact Nr]. destruct y as [[] [] [] [] [] [] [] []]; first [discriminate D|reflexivity]. }
    assert (S1 : stops S (fun c => negb (ends_number c) || (exponent (last (y :: s) "."%char) && (ceqb c "+" || ceqb c "-")))).
    { destruct S as [|w S']; [exact Logic.I|]. cbn [stops longer] in St |- *. unfold lastc in St. rewrite last_cons in St. exact St. }
    destruct (number_fwd _ Nr' n st1 S p "."%char Ln R1 U B1 S1) as (st' & E & L). rewrite E. exists st'. split; [reflexivity|]. apply Fin.
    destruct L as (L1 & L2 & L3). split; [exact L1|]. split; [rewrite L2, C1; reflexivity|exact L3].
  - (* a character *)
    specialize (St ltac:(discriminate) ltac:(discriminate) ltac:(discriminate) ltac:(discriminate) ltac:(discriminate)).
    assert (S1 : stops S (fun c => match g with [] => letter c | _ => ident c end)).
    { destruct S as [|w S']; [exact Logic.I|]. cbn [stops longer] in St |- *. rewrite <- Etx in St. rewrite (app_assoc e), (app_assoc _ s) in St. cbn [app] in St. eapply longer_suffix_inv; [left; reflexivity|exact Sf|exact St]. }
    cbn in Enc. destruct Enc as [<-|Enc].
    { cbn [app] in Etx. injection Etx as <- <-. branch. destruct (quoted_fwd' SQ s g n st0 S p) as (st' & E & L); auto. rewrite E. exists st'. split; [reflexivity|apply Fin; exact L]. }
    assert (Enc' : encoding e) by (right; exact Enc). destruct e as [|x0 e]; [repeat (destruct Enc as [Enc|Enc]; [discriminate Enc|]); destruct Enc|].
    cbn [app] in Etx. injection Etx as -> <-. pose proof (encoding_ident _ _ Enc') as Ae. rewrite app_length in Ln. cbn [length] in Ln. rewrite <- app_assoc in R0, U.
    destruct (prefix_fwd x e SQ (s ++ [SQ] ++ g) S n st0 p Ae eq_refl ltac:(lia) R0 U B0) as (d' & st2 & E & Hd' & R3 & U3 & B3 & C3).
    destruct (quoted_fwd' SQ s g n (takeh d' st2) S (adv (e ++ [SQ]) p)) as (st' & E' & L); [auto|exact Q|exact Sf|cbn [app] in Ln |- *; lia|exact R3|exact U3|exact B3|exact S1|].
    exists st'. split; [|apply Fin; match goal with |- left_ _ ?tx _ _ _ => replace tx with ((e ++ [SQ]) ++ s ++ [SQ] ++ g) by (rewrite <- app_assoc; reflexivity) end; eapply left_after; [exact L|exact C3]].
    rewrite E. cbn iota. rewrite rev_involutive. unfold is. rewrite Hd'. change (ceqb SQ SQ || ceqb SQ DQ) with true.
    repeat (destruct Enc as [H|Enc]; [injection H as <- <-; branch; cbn - [quoted takeh]; rewrite E'; reflexivity|]). destruct Enc.
  - (* a string *)
    specialize (St ltac:(discriminate) ltac:(discriminate) ltac:(discriminate) ltac:(discriminate) ltac:(discriminate)).
    assert (S1 : stops S (fun c => match g with [] => letter c | _ => ident c end)).
    { destruct S as [|w S']; [exact Logic.I|]. cbn [stops longer] in St |- *. rewrite <- Etx in St. rewrite (app_assoc e), (app_assoc _ s) in St. cbn [app] in St. eapply longer_suffix_inv; [right; reflexivity|exact Sf|exact St]. }
    cbn in Enc. destruct Enc as [<-|Enc].
    { cbn [app] in Etx. injection Etx as <- <-. branch. destruct (quoted_fwd' DQ s g n st0 S p) as (st' & E & L); auto. rewrite E. exists st'. split; [reflexivity|apply Fin; exact L]. }
    assert (Enc' : encoding e) by (right; exact Enc). destruct e as [|x0 e]; [repeat (destruct Enc as [Enc|Enc]; [discriminate Enc|]); destruct Enc|].
    cbn [app] in Etx. injection Etx as -> <-. pose proof (encoding_ident _ _ Enc') as Ae. rewrite app_length in Ln. cbn [length] in Ln. rewrite <- app_assoc in R0, U.
    destruct (prefix_fwd x e DQ (s ++ [DQ] ++ g) S n st0 p Ae eq_refl ltac:(lia) R0 U B0) as (d' & st2 & E & Hd' & R3 & U3 & B3 & C3).
    destruct (quoted_fwd' DQ s g n (takeh d' st2) S (adv (e ++ [DQ]) p)) as (st' & E' & L); [auto|exact Q|exact Sf|cbn [app] in Ln |- *; lia|exact R3|exact U3|exact B3|exact S1|].
    exists st'. split; [|apply Fin; match goal with |- left_ _ ?tx _ _ _ => replace tx with ((e ++ [DQ]) ++ s ++ [DQ] ++ g) by (rewrite <- app_assoc; reflexivity) end; eapply left_after; [exact L|exact C3]].
    rewrite E. cbn iota. rewrite rev_involutive. unfold is. rewrite Hd'. change (ceqb DQ SQ || ceqb DQ DQ) with true.
    repeat (destruct Enc as [H|Enc]; [injection H as <- <-; branch; cbn - [quoted takeh]; rewrite E'; reflexivity|]). destruct Enc.
  - (* a raw string *)
    specialize (St ltac:(discriminate) ltac:(discriminate) ltac:(discriminate) ltac:(discriminate) ltac:(discriminate)).
    assert (S1 : stops S (fun c => match g with [] => letter c | _ => ident c end)).
    { destruct S as [|w S']; [exact Logic.I|]. cbn [stops longer] in St |- *. rewrite <- Etx in St.
      replace (e ++ b "R" ++ [DQ] ++ dl ++ ["("%char] ++ s ++ raw_close dl ++ g) with ((e ++ b "R" ++ [DQ] ++ dl ++ ["("%char] ++ s ++ ")"%char :: dl) ++ DQ :: g) in St
        by (unfold raw_close; rewrite <- !app_assoc; cbn [app]; rewrite <- !app_assoc; reflexivity).
      eapply longer_suffix_inv; [right; reflexivity|exact Sf|exact St]. }
    cbn in Enc.
    assert (He : exists x0 e', e ++ b "R" = x0 :: e' /\ all ident e').
    { repeat (destruct Enc as [<-|Enc]; [eexists _, _; split; [reflexivity|]; intros y Hy; cbn in Hy; repeat (destruct Hy as [<-|Hy]; [reflexivity|]); destruct Hy|]). destruct Enc. }
    destruct He as (x0 & e' & He & Ae). rewrite (app_assoc e), He in Etx. cbn [app] in Etx. injection Etx as -> <-.
    rewrite app_length in Ln. cbn [length] in Ln. rewrite <- app_assoc in R0, U.
    destruct (prefix_fwd x e' DQ (dl ++ ["("%char] ++ s ++ raw_close dl ++ g) S n st0 p Ae eq_refl ltac:(lia) R0 U B0) as (d' & st2 & E & Hd' & R3 & U3 & B3 & C3).
    destruct (raw_fwd dl s g n (takeh d' st2) S (adv (e' ++ [DQ]) p)) as (st' & E' & L); [exact Ok|exact Mi|exact Sf|unfold raw_close in Ln |- *; repeat (rewrite ?app_length in Ln |- *; cbn [length app] in Ln |- *); lia|exact R3|exact U3|exact B3|exact S1|].
    exists st'. split; [|apply Fin; match goal with |- left_ _ ?tx _ _ _ => replace tx with ((e' ++ [DQ]) ++ dl ++ ["("%char] ++ s ++ raw_close dl ++ g) by (rewrite <- app_assoc; reflexivity) end; eapply left_after; [exact L|exact C3]].
    rewrite E. cbn iota. rewrite rev_involutive. unfold is. rewrite Hd'. change (ceqb DQ SQ || ceqb DQ DQ) with true.
    repeat (destruct Enc as [<-|Enc]; [injection He as <- <-; branch; cbn - [raw_string_literal takeh]; rewrite E'; reflexivity|]). destruct Enc.
  - (* another character *)
    injection Etx as -> <-. exists st0. split; [|apply Zero; reflexivity].
    destruct x as [[] [] [] [] [] [] [] []]; first [reflexivity|discriminate I|exfalso; apply Ns; cbn; auto 40].
Qed.
