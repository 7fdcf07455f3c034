(* Proofs for scripts: what the pre-parser accepts. *)
From Verif Require Import Base FlowModel FlowSpec.

Lemma proper_app v1 s t : proper v1 (s ++ t) -> proper v1 t.
Proof. intros H id Hi. apply H, in_or_app. auto. Qed.
Lemma proper_tl v1 x t : proper v1 (x :: t) -> proper v1 t.
Proof. intros H id Hi. apply H. right. exact Hi. Qed.
Definition looped (loop : nat) : bool := negb (loop =? 0).

(* Second version *)
Definition sound2 (loop : nat) (p : pre) (s : list src) (l : list line) (rest : list src) : Prop :=
  match p with
  | PLine false false => exists x t, l = lines_of_stmt x /\ s = t ++ rest /\ text_stmt x t /\ in_loops_stmt (looped loop) x
  | PLine _ _ => forall t id s', s = SLine t id :: s' -> is_elif t || is_else t = true -> l = [(t, id)] /\ rest = s'
  | PBlockLine => exists b t, l = lines_of b /\ s = t ++ rest /\ text_body b t /\ in_loops (looped loop) b
  | PBlock => exists b t, l = lines_of b /\ s = t ++ RBrace :: rest /\ text b t /\ in_loops (looped loop) b
  | PIf bt => exists b c t u, l = lines_of b ++ lines_of_chain c /\ s = t ++ u ++ rest /\ text_body b t /\ text_chain c u /\ in_loops (looped loop) b /\
                in_loops_chain (looped loop) c /\ (bt = true -> c = CNone)
  | _ => True
  end.
Lemma pre_parse_sound2 steps : forall loop p s l rest, proper false s -> pre_parse steps false loop p s = Some (l, rest) -> sound2 loop p s l rest.
Proof.
  induction steps as [|n IH]; intros loop p s l rest Hp E; [discriminate|]. cbn [pre_parse] in E. destruct p as [fct ie|bt| | |bt|]; try exact I.
  - (* PLine *)
    destruct s as [|[t id| |] s]; try discriminate.
    destruct (match t with LContinue | LBreak => loop =? 0 | _ => false end) eqn:El; [discriminate|].
    destruct (match t with LElif _ _ | LElse => negb ie | LEnd => negb fct | _ => false end) eqn:Ee; [discriminate|].
    assert (Hend : t <> LEnd).
    { intros ->. destruct (Hp id (or_introl eq_refl)). discriminate. }
    assert (HS : exists x t0, (is_elif t || is_else t = true \/ (l = lines_of_stmt x /\ SLine t id :: s = t0 ++ rest /\ text_stmt x t0 /\ in_loops_stmt (looped loop) x))).
    { destruct t; cbn [is_if is_loop] in E; try (injection E as <- <-).
      - exists (SVar id), [SLine LVar id]. right. repeat split; constructor.
      - exists (SCmd id), [SLine LCmd id]. right. repeat split; constructor.
      - destruct (pre_parse n false loop (PIf false) s) as [[l1 s1]|] eqn:E1; [|discriminate]. injection E as <- <-.
        apply IH in E1; [|eapply proper_tl; exact Hp]. destruct E1 as (b & c & t & u & -> & -> & Ht & Hu & Hb & Hc & _).
        exists (SIf k neg id b c), (SLine (LIf k neg) id :: t ++ u). right. split; [reflexivity|]. split; [cbn; rewrite <-app_assoc; reflexivity|].
        split; [constructor; assumption|]. cbn. auto.
      - exists (SVar 0), []. left. reflexivity.
      - exists (SVar 0), []. left. reflexivity.
      - destruct (pre_parse n false (S loop) PBlockLine s) as [[l1 s1]|] eqn:E1; [|discriminate]. injection E as <- <-.
        apply IH in E1; [|eapply proper_tl; exact Hp]. destruct E1 as (b & t & -> & -> & Ht & Hb).
        exists (SWhile id b), (SLine LWhile id :: t). right. split; [reflexivity|]. split; [reflexivity|]. split; [constructor; assumption|]. exact Hb.
      - destruct (pre_parse n false (S loop) PBlockLine s) as [[l1 s1]|] eqn:E1; [|discriminate]. injection E as <- <-.
        apply IH in E1; [|eapply proper_tl; exact Hp]. destruct E1 as (b & t & -> & -> & Ht & Hb).
        exists (SFor true id b), (SLine LForStream id :: t). right. split; [reflexivity|]. split; [reflexivity|]. split; [apply (t_for true); assumption|]. exact Hb.
      - destruct (pre_parse n false (S loop) PBlockLine s) as [[l1 s1]|] eqn:E1; [|discriminate]. injection E as <- <-.
        apply IH in E1; [|eapply proper_tl; exact Hp]. destruct E1 as (b & t & -> & -> & Ht & Hb).
        exists (SFor false id b), (SLine LForArgs id :: t). right. split; [reflexivity|]. split; [reflexivity|]. split; [apply (t_for false); assumption|]. exact Hb.
      - exists (SContinue id), [SLine LContinue id]. right. repeat split; [constructor|]. cbn. unfold looped. rewrite El. reflexivity.
      - exists (SBreak id), [SLine LBreak id]. right. repeat split; [constructor|]. cbn. unfold looped. rewrite El. reflexivity.
      - congruence. }
    destruct fct, ie; cbn [sound2].
    1-3: intros t' id' s' [= <- <- <-] Ht; destruct t; cbn in Ht, E; try discriminate; injection E as <- <-; auto.
    destruct HS as (x & t0 & [Ht|H]); [|exists x, t0; exact H]. destruct t; cbn in Ht, Ee; discriminate.
  - (* PIf *)
    destruct (pre_parse n false loop PBlockLine s) as [[l1 s1]|] eqn:E1; [|discriminate].
    pose proof E1 as E1'. apply IH in E1'; [|exact Hp]. destruct E1' as (b & t & -> & -> & Ht & Hb).
    assert (HE : Some (lines_of b ++ [end_line], s1) = Some (l, rest) -> sound2 loop (PIf bt) (t ++ s1) l rest).
    { intros [= <- <-]. exists b, CNone, t, []. repeat split; try assumption; try constructor. }
    destruct s1 as [|[t1 id1| |] s1]; try exact (HE E).
    destruct (is_elif t1 || is_else t1) eqn:Et; [|exact (HE E)]. clear HE.
    destruct bt; [discriminate|].
    destruct (pre_parse n false loop (PLine true true) (SLine t1 id1 :: s1)) as [[l2 s2]|] eqn:E2; [|discriminate].
    assert (Hp1 : proper false (SLine t1 id1 :: s1)) by (eapply proper_app; exact Hp).
    apply IH in E2; [|exact Hp1]. destruct (E2 _ _ _ eq_refl Et) as [-> ->].
    destruct (pre_parse n false loop (PIf (is_else t1)) s1) as [[l3 s3]|] eqn:E3; [|discriminate]. injection E as <- <-.
    apply IH in E3; [|eapply proper_tl; exact Hp1]. destruct E3 as (b' & c' & t' & u' & -> & -> & Ht' & Hu' & Hb' & Hc' & Hbt).
    destruct t1; cbn in Et; try discriminate.
    + exists b, (CElif k neg id1 b' c'), t, (SLine (LElif k neg) id1 :: t' ++ u'). split; [reflexivity|]. split; [cbn; rewrite <-app_assoc; reflexivity|].
      split; [exact Ht|]. split; [constructor; assumption|]. split; [exact Hb|]. split; [split; assumption|discriminate].
    + rewrite (Hbt eq_refl) in *. inversion Hu'; subst.
      exists b, (CElse id1 b'), t, (SLine LElse id1 :: t'). split; [reflexivity|]. split; [reflexivity|].
      split; [exact Ht|]. split; [constructor; assumption|]. split; [exact Hb|]. split; [assumption|discriminate].
  - (* PBlock *)
    assert (HL : match pre_parse n false loop (PLine false false) s with
                 | Some (l, s) => match pre_parse n false loop PBlock s with Some (l', s) => Some (l ++ l', s) | None => None end
                 | None => None
                 end = Some (l, rest) -> sound2 loop PBlock s l rest).
    { intros E0. destruct (pre_parse n false loop (PLine false false) s) as [[l1 s1]|] eqn:E1; [|discriminate].
      destruct (pre_parse n false loop PBlock s1) as [[l2 s2]|] eqn:E2; [|discriminate]. injection E0 as <- <-.
      apply IH in E1; [|exact Hp]. destruct E1 as (x & t & -> & -> & Ht & Hx).
      apply IH in E2; [|eapply proper_app; exact Hp]. destruct E2 as (b & u & -> & -> & Hu & Hb).
      exists (BCons x b), (t ++ u). split; [reflexivity|]. split; [rewrite <-app_assoc; reflexivity|]. split; [constructor; assumption|]. split; assumption. }
    destruct s as [|[t id| |] s]; try (apply HL; exact E); try discriminate.
    injection E as <- <-. exists BNil, []. repeat split. constructor.
  - (* PBlockLine *)
    assert (HL : pre_parse n false loop (PLine false false) s = Some (l, rest) -> sound2 loop PBlockLine s l rest).
    { intros E1. apply IH in E1; [|exact Hp]. destruct E1 as (x & t & -> & -> & Ht & Hx). exists (BCons x BNil), t.
      split; [cbn; rewrite app_nil_r; reflexivity|]. split; [reflexivity|]. split; [constructor; assumption|]. split; [assumption|exact I]. }
    destruct s as [|[t id| |] s]; try (apply HL; exact E).
    apply IH in E; [|eapply proper_tl; exact Hp]. destruct E as (b & t & -> & -> & Ht & Hb).
    exists b, (LBrace :: t ++ [RBrace]). split; [reflexivity|]. split; [cbn; rewrite <-app_assoc; reflexivity|]. split; [constructor; assumption|assumption].
Qed.
Lemma pre_parse_script_sound2 steps : forall s l, proper false s -> pre_parse_script steps false s = Some l -> exists b, l = lines_of b /\ text b s /\ in_loops false b.
Proof.
  induction steps as [|n IH]; intros s l Hp E; [discriminate|]. cbn [pre_parse_script] in E. destruct s as [|x s].
  - injection E as <-. exists BNil. repeat split. constructor.
  - destruct (pre_parse n false 0 (PLine false false) (x :: s)) as [[l1 s1]|] eqn:E1; [|discriminate].
    destruct (pre_parse_script n false s1) as [l2|] eqn:E2; [|discriminate]. injection E as <-.
    apply pre_parse_sound2 in E1; [|exact Hp]. destruct E1 as (y & t & -> & Es & Ht & Hy). rewrite Es in *.
    apply IH in E2; [|eapply proper_app; exact Hp]. destruct E2 as (b & -> & Hb & Hl). exists (BCons y b). split; [reflexivity|]. split; [constructor; assumption|]. split; assumption.
Qed.

(* First version *)
Definition src_of (ls : list line) : list src := map (fun l => SLine (fst l) (snd l)) ls.
Lemma src_of_app a b : src_of (a ++ b) = src_of a ++ src_of b.
Proof. apply map_app. Qed.
Definition sound1 (loop : nat) (p : pre) (s : list src) (l : list line) (rest : list src) : Prop :=
  s = src_of l ++ rest /\
  match p with
  | PLine fct ie => (exists x, l = lines_of_stmt x /\ in_loops_stmt (looped loop) x) \/
                    (ie = true /\ exists t id, l = [(t, id)] /\ is_elif t || is_else t = true) \/ (fct = true /\ l = [end_line])
  | PIfV1 bt => exists b c, l = lines_of b ++ lines_of_chain c /\ in_loops (looped loop) b /\ in_loops_chain (looped loop) c /\ (bt = true -> c = CNone)
  | PLoopV1 => exists b, l = lines_of b ++ [end_line] /\ in_loops (looped loop) b
  | _ => True
  end.
Lemma stmt_head x : exists t id l, lines_of_stmt x = (t, id) :: l /\ is_end t = false /\ is_elif t = false /\ is_else t = false.
Proof. destruct x; cbn; try (eexists _, _, _; repeat split; reflexivity). destruct stream; eexists _, _, _; repeat split. Qed.
Definition v1_only p : Prop := match p with PLine _ _ | PIfV1 _ | PLoopV1 => True | _ => False end.
Lemma pre_parse_sound1 steps : forall loop p s l rest, v1_only p -> proper true s -> pre_parse steps true loop p s = Some (l, rest) -> sound1 loop p s l rest.
Proof.
  induction steps as [|n IH]; intros loop p s l rest Hv Hp E; [discriminate|]. cbn [pre_parse] in E. destruct p as [fct ie|bt| | |bt|]; try contradiction.
  - destruct s as [|[t id| |] s]; try discriminate.
    destruct (match t with LContinue | LBreak => loop =? 0 | _ => false end) eqn:El; [discriminate|].
    destruct (match t with LElif _ _ | LElse => negb ie | LEnd => negb fct | _ => false end) eqn:Ee; [discriminate|].
    assert (Hp' := proper_tl _ _ _ Hp). unfold sound1.
    destruct t; cbn [is_if is_loop] in E; try (injection E as <- <-).
    + split; [reflexivity|]. left. exists (SVar id). split; constructor.
    + split; [reflexivity|]. left. exists (SCmd id). split; constructor.
    + destruct (pre_parse n true loop (PIfV1 false) s) as [[l1 s1]|] eqn:E1; [|discriminate]. injection E as <- <-.
      apply IH in E1; [|exact I|exact Hp']. destruct E1 as (-> & b & c & -> & Hb & Hc & _). split; [reflexivity|]. left. exists (SIf k neg id b c). split; [reflexivity|]. split; assumption.
    + split; [reflexivity|]. right. left. split; [destruct ie; [reflexivity|discriminate]|]. eexists _, _. split; reflexivity.
    + split; [reflexivity|]. right. left. split; [destruct ie; [reflexivity|discriminate]|]. eexists _, _. split; reflexivity.
    + destruct (pre_parse n true (S loop) PLoopV1 s) as [[l1 s1]|] eqn:E1; [|discriminate]. injection E as <- <-.
      apply IH in E1; [|exact I|exact Hp']. destruct E1 as (-> & b & -> & Hb). split; [reflexivity|]. left. exists (SWhile id b). split; [reflexivity|]. exact Hb.
    + destruct (pre_parse n true (S loop) PLoopV1 s) as [[l1 s1]|] eqn:E1; [|discriminate]. injection E as <- <-.
      apply IH in E1; [|exact I|exact Hp']. destruct E1 as (-> & b & -> & Hb). split; [reflexivity|]. left. exists (SFor true id b). split; [reflexivity|]. exact Hb.
    + destruct (pre_parse n true (S loop) PLoopV1 s) as [[l1 s1]|] eqn:E1; [|discriminate]. injection E as <- <-.
      apply IH in E1; [|exact I|exact Hp']. destruct E1 as (-> & b & -> & Hb). split; [reflexivity|]. left. exists (SFor false id b). split; [reflexivity|]. exact Hb.
    + split; [reflexivity|]. left. exists (SContinue id). split; [reflexivity|]. cbn. unfold looped. rewrite El. reflexivity.
    + split; [reflexivity|]. left. exists (SBreak id). split; [reflexivity|]. cbn. unfold looped. rewrite El. reflexivity.
    + split; [reflexivity|]. right. right. split; [destruct fct; [reflexivity|discriminate]|]. destruct (Hp id (or_introl eq_refl)) as [_ ->]. reflexivity.
  - destruct (pre_parse n true loop (PLine true true) s) as [[[|[t id] l1] s1]|] eqn:E1; try discriminate.
    apply IH in E1; [|exact I|exact Hp]. destruct E1 as [-> H1].
    destruct H1 as [(x & Hx & Hl)|[(_ & t' & id' & [= -> -> ->] & Ht)|(_ & [= -> -> ->])]].
    + destruct (stmt_head x) as (t' & id' & l' & Hh & H1 & H2 & H3). rewrite Hh in Hx. injection Hx as -> -> ->. rewrite H1, H2, H3, andb_false_r in E.
      destruct (pre_parse n true loop (PIfV1 bt) s1) as [[l2 s2]|] eqn:E2; [|discriminate]. injection E as <- <-.
      apply IH in E2; [|exact I|eapply proper_app; exact Hp]. destruct E2 as (-> & b & c & -> & Hb & Hc & Hbt).
      split; [change ((t', id') :: l' ++ lines_of b ++ lines_of_chain c) with (((t', id') :: l') ++ lines_of b ++ lines_of_chain c); rewrite !src_of_app, <-!app_assoc; reflexivity|].
      exists (BCons x b), c. cbn [lines_of]. rewrite Hh, <-app_assoc. split; [reflexivity|]. split; [split; assumption|]. split; assumption.
    + assert (Hb0 : bt = false) by (destruct bt; [rewrite Ht in E; destruct t'; discriminate|reflexivity]). subst bt.
      destruct (is_end t') eqn:En; [destruct t'; discriminate|]. cbn [andb] in E.
      set (bt' := if is_elif t' then false else if is_else t' then true else false) in E.
      destruct (pre_parse n true loop (PIfV1 bt') s1) as [[l2 s2]|] eqn:E2; [|discriminate]. injection E as <- <-.
      apply IH in E2; [|exact I|eapply proper_tl; exact Hp]. destruct E2 as (-> & b & c & -> & Hb & Hc & Hbt). split; [reflexivity|].
      destruct t'; try discriminate; subst bt'; cbn in Hbt.
      * exists BNil, (CElif k neg id' b c). repeat split; try assumption. discriminate.
      * rewrite (Hbt eq_refl). exists BNil, (CElse id' b). repeat split; try assumption. discriminate.
    + cbn in E. injection E as <- <-. split; [reflexivity|]. exists BNil, CNone. repeat split.
  - destruct (pre_parse n true loop (PLine true false) s) as [[[|[t id] l1] s1]|] eqn:E1; try discriminate.
    apply IH in E1; [|exact I|exact Hp]. destruct E1 as [-> H1].
    destruct H1 as [(x & Hx & Hl)|[(H & _)|(_ & [= -> -> ->])]]; [|discriminate|].
    + destruct (stmt_head x) as (t' & id' & l' & Hh & H1 & H2 & H3). rewrite Hh in Hx. injection Hx as -> -> ->. rewrite H1 in E.
      destruct (pre_parse n true loop PLoopV1 s1) as [[l2 s2]|] eqn:E2; [|discriminate]. injection E as <- <-.
      apply IH in E2; [|exact I|eapply proper_app; exact Hp]. destruct E2 as (-> & b & -> & Hb).
      split; [change ((t', id') :: l' ++ lines_of b ++ [end_line]) with (((t', id') :: l') ++ lines_of b ++ [end_line]); rewrite !src_of_app, <-!app_assoc; reflexivity|].
      exists (BCons x b). cbn [lines_of]. rewrite Hh, <-app_assoc. split; [reflexivity|]. split; assumption.
    + cbn in E. injection E as <- <-. split; [reflexivity|]. exists BNil. repeat split.
Qed.
Lemma pre_parse_script_sound1 steps : forall s l, proper true s -> pre_parse_script steps true s = Some l -> exists b, l = lines_of b /\ s = text1 b /\ in_loops false b.
Proof.
  induction steps as [|n IH]; intros s l Hp E; [discriminate|]. cbn [pre_parse_script] in E. destruct s as [|x s].
  - injection E as <-. exists BNil. repeat split.
  - destruct (pre_parse n true 0 (PLine false false) (x :: s)) as [[l1 s1]|] eqn:E1; [|discriminate].
    destruct (pre_parse_script n true s1) as [l2|] eqn:E2; [|discriminate]. injection E as <-.
    apply pre_parse_sound1 in E1; [|exact I|exact Hp]. destruct E1 as (Es & [(y & -> & Hy)|[(H & _)|(H & _)]]); try discriminate.
    rewrite Es in *. apply IH in E2; [|eapply proper_app; exact Hp]. destruct E2 as (b & -> & -> & Hl). exists (BCons y b). split; [reflexivity|].
    split; [unfold text1; cbn [lines_of]; rewrite map_app; reflexivity|]. split; assumption.
Qed.

(* Completeness *)
Definition eventually (P : nat -> Prop) : Prop := exists f, forall g, f <= g -> P g.
Lemma eventually_S (P Q : nat -> Prop) : eventually P -> (forall g, P g -> Q (S g)) -> eventually Q.
Proof. intros [f H] HQ. exists (S f). intros [|g] Hg; [lia|]. apply HQ, H. lia. Qed.
Lemma eventually_and (P Q : nat -> Prop) : eventually P -> eventually Q -> eventually (fun g => P g /\ Q g).
Proof. intros [f H] [g H']. exists (f + g). intros h Hh. split; [apply H|apply H']; lia. Qed.
Lemma eventually_all (P : nat -> Prop) : (forall g, P (S g)) -> eventually P.
Proof. intros H. exists 1. intros [|g] Hg; [lia|apply H]. Qed.

Definition clean (s : list src) : Prop := match s with SLine t _ :: _ => is_elif t || is_else t = false | _ => True end.
(* The rest of if-else after a block. *)
Definition after (g loop : nat) (bt : bool) (l : list line) (s : list src) : option (list line * list src) :=
  match s with
  | SLine t id :: _ =>
      if is_elif t || is_else t then
        if bt then None
        else match pre_parse g false loop (PLine true true) s with
             | Some (l', s) => match pre_parse g false loop (PIf (is_else t)) s with Some (l'', s) => Some (l ++ l' ++ l'', s) | None => None end
             | None => None
             end
      else Some (l ++ [end_line], s)
  | _ => Some (l ++ [end_line], s)
  end.
Lemma after_clean g loop bt l s : clean s -> after g loop bt l s = Some (l ++ [end_line], s).
Proof. unfold after, clean. destruct s as [|[t id| |] s]; try reflexivity. intros ->. reflexivity. Qed.
Lemma PIf_after g loop bt s l s' : pre_parse g false loop PBlockLine s = Some (l, s') -> pre_parse (S g) false loop (PIf bt) s = after g loop bt l s'.
Proof. intros E. cbn [pre_parse]. rewrite E. reflexivity. Qed.
Lemma clean_stmt x rest : clean (braces_stmt x ++ rest).
Proof. destruct x; cbn; try reflexivity. destruct stream; reflexivity. Qed.
Lemma clean_block b rest : clean rest -> clean (braces b ++ rest).
Proof. intros H. destruct b as [|x b]; [exact H|]. cbn [braces]. rewrite <-app_assoc. apply clean_stmt. Qed.
Lemma complete2 :
  (forall x loop rest, in_loops_stmt (looped loop) x -> clean rest -> eventually (fun g => pre_parse g false loop (PLine false false) (braces_stmt x ++ rest) = Some (lines_of_stmt x, rest))) /\
  (forall b loop rest, in_loops (looped loop) b -> eventually (fun g => pre_parse g false loop PBlock (braces b ++ RBrace :: rest) = Some (lines_of b, rest))) /\
  (forall c loop rest l, in_loops_chain (looped loop) c -> clean rest -> eventually (fun g => after g loop false l (braces_chain c ++ rest) = Some (l ++ lines_of_chain c, rest))).
Proof.
  assert (HBL : forall b loop rest, eventually (fun g => pre_parse g false loop PBlock (braces b ++ RBrace :: rest) = Some (lines_of b, rest)) ->
    eventually (fun g => pre_parse g false loop PBlockLine (LBrace :: braces b ++ RBrace :: rest) = Some (lines_of b, rest))).
  { intros b loop rest H. eapply eventually_S; [exact H|]. intros g E. cbn [pre_parse]. exact E. }
  apply program_ind.
  - intros id loop rest _ _. apply eventually_all. reflexivity.
  - intros id loop rest _ _. apply eventually_all. reflexivity.
  - intros id loop rest Hl _. apply eventually_all. intros g. cbn in Hl. unfold looped in Hl. apply negb_true_iff in Hl. cbn. rewrite Hl. reflexivity.
  - intros id loop rest Hl _. apply eventually_all. intros g. cbn in Hl. unfold looped in Hl. apply negb_true_iff in Hl. cbn. rewrite Hl. reflexivity.
  - intros k neg id b IHb c IHc loop rest [Hb Hc] Hr. cbn [braces_stmt app]. rewrite <-app_assoc. cbn [app].
    eapply eventually_S; [eapply (eventually_S _ (fun g => pre_parse g false loop (PIf false) (LBrace :: braces b ++ RBrace :: braces_chain c ++ rest) = Some (lines_of b ++ lines_of_chain c, rest)));
      [apply eventually_and; [apply HBL, (IHb loop (braces_chain c ++ rest) Hb)|apply (IHc loop rest (lines_of b) Hc Hr)]|]|].
    + intros g [E1 E2]. pose proof (PIf_after _ _ false _ _ _ E1) as E. rewrite E2 in E. exact E.
    + cbv beta. intros g E. cbn [pre_parse is_if]. rewrite E. reflexivity.
  - intros id b IHb loop rest Hb Hr. cbn [braces_stmt app]. rewrite <-app_assoc. cbn [app].
    eapply eventually_S; [apply HBL, (IHb (S loop) rest Hb)|]. cbv beta. intros g E. cbn [pre_parse is_if is_loop]. rewrite E. reflexivity.
  - intros stream id b IHb loop rest Hb Hr. cbn [braces_stmt app]. rewrite <-app_assoc. cbn [app].
    eapply eventually_S; [apply HBL, (IHb (S loop) rest Hb)|]. cbv beta. intros g E. destruct stream; cbn [for_type pre_parse is_if is_loop]; rewrite E; reflexivity.
  - intros loop rest _. apply eventually_all. reflexivity.
  - intros x IHx b IHb loop rest [Hx Hb]. cbn [braces lines_of]. rewrite <-app_assoc.
    eapply eventually_S; [apply eventually_and; [apply (IHx loop (braces b ++ RBrace :: rest) Hx)|apply (IHb loop rest Hb)]|].
    + apply clean_block. exact I.
    + cbv beta. intros g [E1 E2]. cbn [pre_parse].
      destruct (braces_stmt x ++ braces b ++ RBrace :: rest) as [|[t id| |] s] eqn:Es; try (destruct x; discriminate).
      rewrite E1, E2. reflexivity.
  - intros loop rest l _ Hr. apply eventually_all. intros g. apply after_clean. exact Hr.
  - intros id b IHb loop rest l Hb Hr. cbn [braces_chain app]. rewrite <-app_assoc. cbn [app]. 
    eapply eventually_S; [apply HBL, (IHb loop rest Hb)|]. cbv beta. intros g E. destruct g as [|g]; [discriminate|]. 
    change (match pre_parse (S (S g)) false loop (PIf true) (LBrace :: braces b ++ RBrace :: rest) with Some (l'', s) => Some (l ++ [(LElse, id)] ++ l'', s) | None => None end =
      Some (l ++ (LElse, id) :: lines_of b ++ [end_line], rest)).
    rewrite (PIf_after _ _ true _ _ _ E), (after_clean _ _ true _ _ Hr). reflexivity.
  - intros k neg id b IHb c IHc loop rest l [Hb Hc] Hr. cbn [braces_chain app]. rewrite <-app_assoc. cbn [app]. 
    eapply eventually_S; [apply eventually_and; [apply HBL, (IHb loop (braces_chain c ++ rest) Hb)|apply (IHc loop rest (lines_of b) Hc Hr)]|].
    cbv beta. intros g [E1 E2]. destruct g as [|g]; [discriminate|]. 
    change (match pre_parse (S (S g)) false loop (PIf false) (LBrace :: braces b ++ RBrace :: braces_chain c ++ rest) with Some (l'', s) => Some (l ++ [(LElif k neg, id)] ++ l'', s) | None => None end =
      Some (l ++ (LElif k neg, id) :: lines_of b ++ lines_of_chain c, rest)).
    rewrite (PIf_after _ _ false _ _ _ E1). rewrite E2. reflexivity.
Qed.
Lemma script_complete2 b : in_loops false b -> eventually (fun g => pre_parse_script g false (braces b) = Some (lines_of b)).
Proof.
  revert b. enough (H : (forall s : stmt, True) /\ (forall b, in_loops false b -> eventually (fun g => pre_parse_script g false (braces b) = Some (lines_of b))) /\ (forall c : chain, True)) by apply H.
  apply program_ind; intros; auto.
  - apply eventually_all. reflexivity.
  - destruct H1 as [Hx Hb]. cbn [braces lines_of].
    eapply eventually_S; [apply eventually_and; [apply (proj1 complete2 s 0 (braces b) Hx)|apply H0, Hb]|].
    + pose proof (clean_block b [] I) as Hc. rewrite app_nil_r in Hc. exact Hc.
    + cbv beta. intros g [E1 E2]. cbn [pre_parse_script]. rewrite E1, E2. destruct (braces_stmt s ++ braces b) eqn:Es; [destruct s; discriminate|]. reflexivity.
Qed.

Definition step1 (p : pre) : Prop := match p with PIfV1 _ | PLoopV1 => True | _ => False end.
Lemma complete1 :
  (forall x loop fct ie rest, in_loops_stmt (looped loop) x -> eventually (fun g => pre_parse g true loop (PLine fct ie) (src_of (lines_of_stmt x) ++ rest) = Some (lines_of_stmt x, rest))) /\
  (forall b loop p s l rest, in_loops (looped loop) b -> step1 p -> eventually (fun g => pre_parse g true loop p s = Some (l, rest)) ->
     eventually (fun g => pre_parse g true loop p (src_of (lines_of b) ++ s) = Some (lines_of b ++ l, rest))) /\
  (forall c loop rest, in_loops_chain (looped loop) c -> eventually (fun g => pre_parse g true loop (PIfV1 false) (src_of (lines_of_chain c) ++ rest) = Some (lines_of_chain c, rest))).
Proof.
  assert (HEnd : forall loop p rest, step1 p -> eventually (fun g => pre_parse g true loop p (SLine LEnd 0 :: rest) = Some ([end_line], rest))).
  { intros loop p rest Hp. exists 2. intros [|[|g]] Hg; try lia. destruct p; try contradiction; reflexivity. }
  apply program_ind.
  - intros id loop fct ie rest _. apply eventually_all. reflexivity.
  - intros id loop fct ie rest _. apply eventually_all. reflexivity.
  - intros id loop fct ie rest Hl. apply eventually_all. intros g. cbn in Hl. unfold looped in Hl. apply negb_true_iff in Hl. cbn. rewrite Hl. reflexivity.
  - intros id loop fct ie rest Hl. apply eventually_all. intros g. cbn in Hl. unfold looped in Hl. apply negb_true_iff in Hl. cbn. rewrite Hl. reflexivity.
  - intros k neg id b IHb c IHc loop fct ie rest [Hb Hc]. cbn [lines_of_stmt src_of map app fst snd]. fold (src_of (lines_of b ++ lines_of_chain c)). rewrite src_of_app, <-app_assoc.
    eapply eventually_S; [exact (IHb loop (PIfV1 false) _ _ _ Hb I (IHc loop rest Hc))|]. cbv beta. intros g E. cbn [pre_parse is_if]. rewrite E. reflexivity.
  - intros id b IHb loop fct ie rest Hb. cbn [lines_of_stmt src_of map app fst snd]. fold (src_of (lines_of b ++ [end_line])). rewrite src_of_app, <-app_assoc.
    eapply eventually_S; [exact (IHb (S loop) PLoopV1 _ _ _ Hb I (HEnd (S loop) PLoopV1 rest I))|]. cbv beta. intros g E. cbn [pre_parse is_if is_loop]. cbn [src_of map app fst snd end_line]. rewrite E. reflexivity.
  - intros stream id b IHb loop fct ie rest Hb. cbn [lines_of_stmt src_of map app fst snd]. fold (src_of (lines_of b ++ [end_line])). rewrite src_of_app, <-app_assoc.
    eapply eventually_S; [exact (IHb (S loop) PLoopV1 _ _ _ Hb I (HEnd (S loop) PLoopV1 rest I))|]. cbv beta. intros g E. destruct stream; cbn [for_type pre_parse is_if is_loop]; cbn [src_of map app fst snd end_line]; rewrite E; reflexivity.
  - intros loop p s l rest _ _ H. exact H.
  - intros x IHx b IHb loop p s l rest [Hx Hb] Hp H. cbn [lines_of]. rewrite src_of_app, <-!app_assoc.
    specialize (IHb loop p s l rest Hb Hp H).
    destruct (stmt_head x) as (t & id & l' & Hh & H1 & H2 & H3).
    destruct p as [|?| | |bt|]; try contradiction.
    + eapply eventually_S; [apply eventually_and; [apply (IHx loop true true (src_of (lines_of b) ++ s) Hx)|exact IHb]|].
      cbv beta. intros g [E1 E2]. cbn [pre_parse]. rewrite E1, Hh, H1, H2, H3, andb_false_r, E2. reflexivity.
    + eapply eventually_S; [apply eventually_and; [apply (IHx loop true false (src_of (lines_of b) ++ s) Hx)|exact IHb]|].
      cbv beta. intros g [E1 E2]. cbn [pre_parse]. rewrite E1, Hh, H1, E2. reflexivity.
  - intros loop rest _. apply HEnd. exact I.
  - intros id b IHb loop rest Hb. cbn [lines_of_chain src_of map app fst snd]. fold (src_of (lines_of b ++ [end_line])). rewrite src_of_app, <-app_assoc.
    eapply eventually_S; [exact (IHb loop (PIfV1 true) _ _ _ Hb I (HEnd loop (PIfV1 true) rest I))|]. cbv beta. intros g E. destruct g as [|g]; [discriminate|].
    change (match pre_parse (S g) true loop (PIfV1 true) (src_of (lines_of b) ++ SLine LEnd 0 :: rest) with Some (l', s) => Some ([(LElse, id)] ++ l', s) | None => None end = Some ((LElse, id) :: lines_of b ++ [end_line], rest)).
    rewrite E. reflexivity.
  - intros k neg id b IHb c IHc loop rest [Hb Hc]. cbn [lines_of_chain src_of map app fst snd]. fold (src_of (lines_of b ++ lines_of_chain c)). rewrite src_of_app, <-app_assoc.
    eapply eventually_S; [exact (IHb loop (PIfV1 false) _ _ _ Hb I (IHc loop rest Hc))|]. cbv beta. intros g E. destruct g as [|g]; [discriminate|].
    change (match pre_parse (S g) true loop (PIfV1 false) (src_of (lines_of b) ++ src_of (lines_of_chain c) ++ rest) with Some (l', s) => Some ([(LElif k neg, id)] ++ l', s) | None => None end = Some ((LElif k neg, id) :: lines_of b ++ lines_of_chain c, rest)).
    rewrite E. reflexivity.
Qed.
Lemma script_complete1 b : in_loops false b -> eventually (fun g => pre_parse_script g true (text1 b) = Some (lines_of b)).
Proof.
  revert b. enough (H : (forall s : stmt, True) /\ (forall b, in_loops false b -> eventually (fun g => pre_parse_script g true (src_of (lines_of b)) = Some (lines_of b))) /\ (forall c : chain, True)) by apply H.
  apply program_ind; intros; auto.
  - apply eventually_all. reflexivity.
  - destruct H1 as [Hx Hb]. cbn [lines_of]. rewrite src_of_app.
    eapply eventually_S; [apply eventually_and; [apply (proj1 complete1 s 0 false false (src_of (lines_of b)) Hx)|apply H0, Hb]|].
    cbv beta. intros g [E1 E2]. cbn [pre_parse_script]. rewrite E1, E2. destruct (stmt_head s) as (t & id & l' & Hh & _). rewrite Hh. reflexivity.
Qed.
