(* The lexer accepts every source without line splices that consists of tokens. *)
From Verif Require Import Base CcModel CcSpec CcProofs CcProofs2 CcProofs3 CcProofs4 CcProofs5 CcProofs6 CcProofs7 CcProofs8.
From Coq Require Import Lia.
Local Open Scope nat_scope.

(* Skipping spaces takes us from st to st2, where the next character is c. *)
Definition skips (nl : bool) (st : scan) (S : bytes) (c : xchar) (st2 : scan) : Prop :=
  forall k, length S < k -> exists f, skip_spaces k nl st = Some (c, f, st2).
Lemma spaces_first n : forall nl c f st c' f1 st', spaces n nl c f st = Some (c', f1, st') -> forall g, exists f2, spaces n nl c g st = Some (c', f2, st').
Proof.
  induction n as [|n IH]; intros nl c f st c' f1 st' E g; [discriminate E|]. cbn [spaces] in E |- *.
  destruct (ch c) as [x|]; [|injection E as <- <- <-; eexists; reflexivity].
  destruct (ceqb x NL).
  { destruct nl; [destruct (get true st) as [d st1]; eapply IH; exact E|injection E as <- <- <-; eexists; reflexivity]. }
  destruct (blank x); [destruct (get true st) as [d st1]; eapply IH; exact E|].
  destruct (ceqb x "/"); [|injection E as <- <- <-; eexists; reflexivity].
  destruct (peek true st) as [q st1]. destruct (is q "/").
  { destruct (line_comment n (take q st1)) as [[d st2]|]; [|discriminate E]. destruct nl; [destruct (get true st2) as [e st3]; eapply IH; exact E|injection E as <- <- <-; eexists; reflexivity]. }
  destruct (is q "*"); [|injection E as <- <- <-; eexists; reflexivity].
  destruct (block_comment n (take q st1)) as [st2|]; [|discriminate E]. destruct (get true st2) as [e st3]. eapply IH; exact E.
Qed.
Lemma char_some c x : ch c = Some x -> char c = [x].
Proof. unfold char. intros ->. reflexivity. Qed.
Lemma char_none c : ch c = None -> char c = [].
Proof. unfold char. intros ->. reflexivity. Qed.

Lemma skips_blank x S st p : Rep st (x :: S) p -> unspliced (x :: S) = true -> blank x = true ->
  exists st1, Rep st1 S p /\ back st1 = None /\ cs st1 = cs st /\ forall nl c st2, skips nl st1 S c st2 -> skips nl st (x :: S) c st2.
Proof.
  intros R U Bl. destruct (uget _ _ _ R U) as (c0 & st1 & G & Hc & C & B & R1 & _). cbn [hd_error tl] in *. rewrite (char_some _ _ Hc) in R1.
  assert (Nx : x <> NL) by (intros ->; discriminate Bl). rewrite adv_one in R1 by exact Nx. exists st1. split; [exact R1|]. split; [exact B|]. split; [exact C|].
  intros nl c st2 Sk k Hk. destruct k as [|k]; [cbn in Hk; lia|]. cbn [length] in Hk. unfold skip_spaces. rewrite G. cbn [spaces]. rewrite Hc. apply ceqb_neq in Nx. rewrite Nx, Bl.
  destruct (Sk k ltac:(lia)) as [f E]. unfold skip_spaces in E. destruct (get true st1) as [d st3]. eapply spaces_first. exact E.
Qed.
Lemma skips_newline S st p : Rep st (NL :: S) p -> unspliced (NL :: S) = true ->
  exists st1, Rep st1 S (adv1 p NL) /\ back st1 = None /\ cs st1 = cs st /\ forall c st2, skips true st1 S c st2 -> skips true st (NL :: S) c st2.
Proof.
  intros R U. destruct (uget _ _ _ R U) as (c0 & st1 & G & Hc & C & B & R1 & _). cbn [hd_error tl] in *. rewrite (char_some _ _ Hc) in R1.
  exists st1. split; [exact R1|]. split; [exact B|]. split; [exact C|].
  intros c st2 Sk k Hk. destruct k as [|k]; [cbn in Hk; lia|]. cbn [length] in Hk. unfold skip_spaces. rewrite G. cbn [spaces]. rewrite Hc. change (ceqb NL NL) with true. cbn iota.
  destruct (Sk k ltac:(lia)) as [f E]. unfold skip_spaces in E. destruct (get true st1) as [d st3]. eapply spaces_first. exact E.
Qed.

Lemma block_comment_fwd body : forall n st S p, (forall x y, body ++ b "*/" = x ++ b "*/" ++ y -> y = []) -> length body < n ->
  Rep st (body ++ b "*/" ++ S) p -> unspliced (body ++ b "*/" ++ S) = true ->
  exists st', block_comment n st = Some st' /\ Rep st' S (adv (body ++ b "*/") p) /\ cs st' = cs st /\ back st' = None.
Proof.
  induction body as [|x body IH]; intros n st S p Mi Ln R U; (destruct n as [|n]; [cbn in Ln; lia|]); cbn [block_comment].
  - change (b "*/") with ["*"%char; "/"%char] in *. cbn [app] in *. destruct (uget _ _ _ R U) as (c0 & st1 & G & Hc & C & B & R1 & _). rewrite G, Hc. cbn [hd_error tl] in *. rewrite (char_some _ _ Hc) in R1.
    change (ceqb "*" "*") with true. cbn iota. destruct (upeek _ _ _ R1 (unspliced_tl _ _ U) B) as (d & st2 & P & Hd & C2 & R2 & B2 & _ & T). rewrite P. unfold is. rewrite Hd. cbn [hd_error].
    change (ceqb "/" "/") with true. cbn iota. destruct (T _ _ eq_refl) as (R3 & B3 & C3). eexists. split; [reflexivity|]. split; [exact R3|]. split; [congruence|exact B3].
  - cbn [app length] in *. destruct (uget _ _ _ R U) as (c0 & st1 & G & Hc & C & B & R1 & _). rewrite G, Hc. cbn [hd_error tl] in *. rewrite (char_some _ _ Hc) in R1. pose proof (unspliced_tl _ _ U) as U1.
    assert (Mi' : forall u v, body ++ b "*/" = u ++ b "*/" ++ v -> v = []) by (intros u v E; apply (Mi (x :: u)); cbn [app]; rewrite E; reflexivity).
    assert (Go : forall st2, cs st2 = cs st1 -> Rep st2 (body ++ b "*/" ++ S) (adv [x] p) -> exists st', block_comment n st2 = Some st' /\ Rep st' S (adv (x :: body ++ b "*/") p) /\ cs st' = cs st /\ back st' = None).
    { intros st2 C2 R2. destruct (IH n st2 S (adv [x] p) Mi' ltac:(lia) R2 U1) as (st' & E & R' & C' & B'). exists st'. split; [exact E|]. split; [exact R'|]. split; [congruence|exact B']. }
    destruct (ceqb x "*") eqn:X; [|apply Go; [reflexivity|exact R1]]. apply ceqb_eq in X. subst x.
    destruct (upeek _ _ _ R1 U1 B) as (d & st2 & P & Hd & C2 & R2 & B2 & _ & T). rewrite P. unfold is. rewrite Hd.
    assert (Nd : match hd_error (body ++ b "*/" ++ S) with Some y => ceqb y "/" | None => false end = false).
    { destruct body as [|y body]; [reflexivity|]. cbn [hd_error app]. destruct (ceqb y "/") eqn:Y; [|reflexivity]. apply ceqb_eq in Y. subst y. exfalso.
      specialize (Mi [] (body ++ b "*/") eq_refl). apply (f_equal (@length _)) in Mi. rewrite app_length in Mi. cbn in Mi. lia. }
    rewrite Nd. apply Go; [exact C2|exact R2].
Qed.
Lemma line_comment_fwd text : forall n st S p, ~ In NL text -> (S = [] \/ exists S', S = NL :: S') -> length text < n -> Rep st (text ++ S) p -> unspliced (text ++ S) = true -> back st = None ->
  exists st', Rep st' S (adv text p) /\ cs st' = cs st /\ back st' = None /\ line_comment n st = Some (get true st').
Proof.
  induction text as [|x text IH]; intros n st S p Nn HS Ln R U B; (destruct n as [|n]; [cbn in Ln; lia|]); cbn [line_comment app length] in *.
  - exists st. split; [exact R|]. split; [reflexivity|]. split; [exact B|]. destruct (uget _ _ _ R U) as (c0 & st1 & G & Hc & _). rewrite G, Hc. destruct HS as [->|[S' ->]]; reflexivity.
  - destruct (uget _ _ _ R U) as (c0 & st1 & G & Hc & C & B1 & R1 & _). rewrite G, Hc. cbn [hd_error tl] in *. rewrite (char_some _ _ Hc) in R1.
    assert (Nx : x <> NL) by (intros ->; apply Nn; left; reflexivity). apply ceqb_neq in Nx. rewrite Nx.
    destruct (IH n st1 S (adv [x] p)) as (st' & R' & C' & B' & E); [intros H; apply Nn; right; exact H|exact HS|lia|exact R1|exact (unspliced_tl _ _ U)|exact B1|].
    exists st'. split; [exact R'|]. split; [congruence|]. split; [exact B'|exact E].
Qed.
Lemma get_eos st p : Rep st [] p -> back st = None -> exists c, get true st = (c, st) /\ ch c = None.
Proof.
  intros (sp & Sp & ES & _ & _ & Hh) B. symmetry in ES. apply app_eq_nil in ES. destruct ES as [_ ES]. apply app_eq_nil in ES. destruct ES as [_ ES]. apply app_eq_nil in ES. destruct ES as [Eh Er].
  assert (H : held st = None). { destruct (held st) as [x|] eqn:E; [|reflexivity]. destruct (Hh x eq_refl) as [Hx _]. unfold hold in Eh. rewrite E in Eh. unfold char in Eh. rewrite Hx in Eh. discriminate Eh. }
  destruct st as [r bk_ hd_ ln c1 lg fl cs_]. cbn in *. subst. unfold get, peek, take. cbn. eexists. split; reflexivity.
Qed.

Lemma skips_comment text S st p : comment text -> Rep st (text ++ S) p -> unspliced (text ++ S) = true -> (firstn 2 text = b "//" -> S = [] \/ exists S', S = NL :: S') ->
  exists st1, Rep st1 S (adv text p) /\ back st1 = None /\ cs st1 = cs st /\ forall nl c st2, skips nl st1 S c st2 -> skips nl st (text ++ S) c st2.
Proof.
  intros Cm R U Hl.
  assert (HT : exists y rest_, text = "/"%char :: y :: rest_ /\ (y = "/"%char \/ y = "*"%char)).
  { destruct Cm; eexists _, _; (split; [reflexivity|]); auto. }
  destruct HT as (y & rest_ & ET & Hy). rewrite ET in R, U. cbn [app] in R, U.
  destruct (uget _ _ _ R U) as (c0 & st1 & G & Hc & C & B & R1 & _). cbn [hd_error tl] in *. rewrite (char_some _ _ Hc) in R1. pose proof (unspliced_tl _ _ U) as U1. pose proof (unspliced_tl _ _ U1) as U2.
  destruct (upeek _ _ _ R1 U1 B) as (d & st2 & P & Hd & C2 & R2 & B2 & _ & T). cbn [hd_error] in Hd. destruct (T _ _ eq_refl) as (R3 & B3 & C3).
  destruct Cm as [s Nn|s Mi].
  - injection ET as <- <-. specialize (Hl eq_refl).
    assert (Hf : forall n, length s < n -> exists st', Rep st' S (adv s (adv1 (adv ["/"%char] p) "/")) /\ cs st' = cs (take d st2) /\ back st' = None /\ line_comment n (take d st2) = Some (get true st'))
      by (intros n Hn; apply line_comment_fwd; assumption).
    (* The state does not depend on the number of steps. *)
    assert (Mono : forall n m st c st', line_comment n st = Some (c, st') -> n <= m -> line_comment m st = Some (c, st')).
    { clear. induction n as [|n IH]; intros m st c st' E L; [discriminate E|]. destruct m as [|m]; [lia|]. cbn [line_comment] in *. destruct (get true st) as [e st1]. destruct (ch e) as [x|]; [|exact E].
      destruct (ceqb x NL); [exact E|]. apply IH; [exact E|lia]. }
    destruct (Hf (Datatypes.S (length s)) ltac:(lia)) as (st' & R' & C' & B' & E'). exists st'. split; [exact R'|]. split; [exact B'|]. split; [congruence|].
    intros nl c st4 Sk k Hk. destruct k as [|k]; [cbn in Hk; lia|]. rewrite !app_length in Hk. cbn [length b list_ascii_of_string] in Hk. unfold skip_spaces. rewrite G. cbn [spaces]. rewrite Hc.
    change (ceqb "/" NL) with false. change (blank "/") with false. change (ceqb "/" "/") with true. cbn iota. rewrite P. unfold is. rewrite Hd. change (ceqb "/" "/") with true. cbn iota.
    destruct (get true st') as [c1 st5] eqn:G1. rewrite (Mono _ k _ _ _ E') by lia.
    destruct (Sk (Datatypes.S k) ltac:(lia)) as [f E]. unfold skip_spaces in E. rewrite G1 in E. cbn [spaces] in E.
    destruct Hl as [->|[S' ->]].
    + destruct (get_eos _ _ R' B') as (c2 & G2 & H2). rewrite G2 in G1. injection G1 as <- <-. rewrite H2 in E. injection E as <- <- <-. destruct nl; [|eexists; reflexivity].
      rewrite G2. destruct k as [|k]; [lia|]. cbn [spaces]. rewrite H2. eexists. reflexivity.
    + destruct (uget _ _ _ R' ltac:(apply unspliced_app in U2; exact U2)) as (c3 & st6 & G3 & Hc3 & _). rewrite G3 in G1. injection G1 as <- <-. rewrite Hc3 in E. cbn [hd_error] in E. change (ceqb NL NL) with true in E. cbn iota in E.
      destruct nl; [destruct (get true st6) as [c4 st7]; eapply spaces_first; exact E|injection E as <- <- <-; eexists; reflexivity].
  - injection ET as <- <-. clear Hl.
    assert (Mono : forall n m st st', block_comment n st = Some st' -> n <= m -> block_comment m st = Some st').
    { clear. induction n as [|n IH]; intros m st st' E L; [discriminate E|]. destruct m as [|m]; [lia|]. cbn [block_comment] in *. destruct (get true st) as [e st1]. destruct (ch e) as [x|]; [|discriminate E].
      destruct (ceqb x "*"); [|apply IH; [exact E|lia]]. destruct (peek true st1) as [q st2]. destruct (is q "/"); [exact E|]. apply IH; [exact E|lia]. }
    destruct (block_comment_fwd s (Datatypes.S (length s)) (take d st2) S (adv1 (adv ["/"%char] p) "*") Mi ltac:(lia)) as (st' & E' & R' & C' & B');
      [rewrite <- app_assoc in R3; exact R3|rewrite <- app_assoc in U2; exact U2|].
    exists st'. split; [exact R'|]. split; [exact B'|]. split; [congruence|].
    intros nl c st4 Sk k Hk. destruct k as [|k]; [cbn in Hk; lia|]. rewrite !app_length in Hk. cbn [length b list_ascii_of_string] in Hk. unfold skip_spaces. rewrite G. cbn [spaces]. rewrite Hc.
    change (ceqb "/" NL) with false. change (blank "/") with false. change (ceqb "/" "/") with true. cbn iota. rewrite P. unfold is. rewrite Hd. change (ceqb "*" "/") with false. change (ceqb "*" "*") with true. cbn iota.
    rewrite (Mono _ k _ _ E') by lia. destruct (Sk k ltac:(lia)) as [f E]. unfold skip_spaces in E. destruct (get true st') as [c1 st5]. eapply spaces_first. exact E.
Qed.
(* There is nothing to skip. *)
Lemma skips_stop nl S st p : Rep st S p -> unspliced S = true ->
  (forall x S', S = x :: S' -> blank x = false /\ (x = NL -> nl = false) /\ (x = "/"%char -> hd_error S' <> Some "/"%char /\ hd_error S' <> Some "*"%char)) ->
  exists c st1, skips nl st S c st1 /\ ch c = hd_error S /\ Rep st1 (tl S) (adv (char c) p) /\ cs st1 = cs st /\ back st1 = None /\ xline c = pline p.
Proof.
  intros R U H. destruct (uget _ _ _ R U) as (c & st1 & G & Hc & C & B & R1 & L). destruct S as [|x S].
  - exists c, st1. split; [|repeat (split; [assumption|]); exact L]. intros k Hk. destruct k as [|k]; [cbn in Hk; lia|]. unfold skip_spaces. rewrite G. cbn [spaces]. rewrite Hc. cbn [hd_error]. eexists. reflexivity.
  - destruct (H _ _ eq_refl) as (Bl & Nn & Ns). cbn [hd_error tl] in *. destruct (ceqb x "/") eqn:X.
    + apply ceqb_eq in X. subst x. specialize (Ns eq_refl). pose proof (unspliced_tl _ _ U) as U1. destruct (upeek _ _ _ R1 U1 B) as (d & st2 & P & Hd & C2 & R2 & B2 & _).
      exists c, st2. split; [|split; [exact Hc|]; split; [exact R2|]; split; [congruence|]; split; [exact B2|exact L]].
      intros k Hk. destruct k as [|k]; [cbn in Hk; lia|]. unfold skip_spaces. rewrite G. cbn [spaces]. rewrite Hc. change (ceqb "/" NL) with false. change (blank "/") with false. change (ceqb "/" "/") with true. cbn iota. rewrite P.
      unfold is. rewrite Hd. destruct (hd_error S) as [y|]; [|eexists; reflexivity]. destruct Ns as [N1 N2].
      assert (E1 : ceqb y "/" = false) by (apply ceqb_neq; congruence). assert (E2 : ceqb y "*" = false) by (apply ceqb_neq; congruence). rewrite E1, E2. eexists. reflexivity.
    + exists c, st1. split; [|split; [exact Hc|]; split; [exact R1|]; split; [exact C|]; split; [exact B|exact L]].
      intros k Hk. destruct k as [|k]; [cbn in Hk; lia|]. unfold skip_spaces. rewrite G. cbn [spaces]. rewrite Hc. destruct (ceqb x NL) eqn:Xn.
      * apply ceqb_eq in Xn. rewrite (Nn Xn). eexists. reflexivity.
      * rewrite Bl, X. eexists. reflexivity.
Qed.
