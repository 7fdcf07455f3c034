(* Every source that the C/C++ lexer accepts consists of tokens, spaces and comments: a
   token. *)
From Verif Require Import Base CcModel CcSpec CcProofs CcProofs2 CcProofs3.
Local Open Scope N_scope.

Lemma ends_then t s S : t <> Dot -> then_ S (fun c => longer t s c = false) -> ends t s S.
Proof.
  intros N (o & S' & C & H). destruct t; try exact I; try (exfalso; apply N; reflexivity);
    (exists o, S'; split; [exact C|]; destruct o; [split; [exact H|intros E; discriminate E]|exact I]).
Qed.
Lemma lastc_app s (x : ascii) f : lastc (s ++ x :: f) = last f x.
Proof.
  unfold lastc. induction s as [|y s IH]; cbn [app]; [apply last_cons|]. rewrite last_cons. destruct s as [|z s]; cbn [app] in *; [rewrite last_cons; reflexivity|].
  rewrite last_cons in *. exact IH.
Qed.
Lemma last_ident f x : all ident f -> ident x = true -> ident (last f x) = true.
Proof. revert x. induction f as [|y f IH]; intros x A I; [exact I|]. rewrite last_cons. apply IH; [intros c Hc; apply A; right; exact Hc|apply A; left; reflexivity]. Qed.
Lemma letter_ident c : letter c = true -> ident c = true.
Proof. unfold letter, ident. destruct (digit c), (alpha c), (ceqb c "_"); cbn; congruence. Qed.
(* The end of a literal in quotes. *)
Lemma longer_suffix s q f c (L : q = SQ \/ q = DQ) : suffixed f -> match f with [] => letter c | _ => ident c end = false ->
  (if ceqb (lastc (s ++ q :: f)) q then letter c else ident c) = false.
Proof.
  intros Sf H. rewrite lastc_app. destruct Sf as [|d f Ld A].
  - cbn. unfold ceqb. rewrite Ascii.eqb_refl. exact H.
  - rewrite last_cons. assert (I : ident (last f d) = true) by (apply last_ident; [exact A|apply letter_ident; exact Ld]).
    destruct (ceqb (last f d) q) eqn:E; [|exact H]. apply ceqb_eq in E. rewrite E in I. destruct L as [-> | ->]; discriminate I.
Qed.

Lemma existsb_in x l : existsb (ceqb x) l = true -> In x l.
Proof. intros H. apply existsb_exists in H. destruct H as (y & I & E). apply ceqb_eq in E. subst y. exact I. Qed.
Lemma ends_punctuation s S : (forall c, longer Punctuation s c = false) -> splices [] -> ends Punctuation s S.
Proof. intros H Z. apply ends_then; [discriminate|]. exists (hd_error S), S. split; [exists []; repeat split; exact Z|]. destruct (hd_error S); [apply H|exact I]. Qed.

(* The literal prefixes. *)
Lemma literal_prefix_spec id dq : literal_prefix id dq = (true, false) -> id <> [] -> encoding id.
Proof.
  unfold literal_prefix, encoding. intros E N. destruct id as [|c0 id]; [contradiction|].
  cbn [length nth Nat.ltb Nat.leb andb] in E. change (0 <? S (length id))%nat with true in E. cbn [andb] in E.
  destruct (ceqb c0 "u") eqn:Eu.
  - apply ceqb_eq in Eu. subst c0. destruct id as [|c1 id].
    + cbn. auto 9.
    + cbn [length nth] in E. change (1 <? S (S (length id)))%nat with true in E. cbn [andb] in E. destruct (ceqb c1 "8") eqn:E8.
      * apply ceqb_eq in E8. subst c1. destruct id as [|c2 id]; [cbn; auto|]. exfalso. cbn [length nth] in E. 
        destruct (dq && _) in E; [discriminate E|]. injection E as E. discriminate E.
      * exfalso. destruct (dq && _) in E; [discriminate E|]. injection E as E. discriminate E.
  - destruct (ceqb c0 "L") eqn:EL.
    + apply ceqb_eq in EL. subst c0. cbn [orb] in E. destruct (dq && _) in E; [discriminate E|]. injection E as E. destruct id; [cbn; auto|discriminate E].
    + destruct (ceqb c0 "U") eqn:EU.
      * apply ceqb_eq in EU. subst c0. cbn [orb] in E. destruct (dq && _) in E; [discriminate E|]. injection E as E. destruct id; [cbn; auto 9|discriminate E].
      * cbn [orb] in E. exfalso. destruct (ceqb c0 "R"); [destruct dq|]; [discriminate E| |]; injection E as E; discriminate E.
Qed.
Lemma literal_prefix_raw id : literal_prefix id true = (true, true) -> exists e, encoding e /\ id = e ++ b "R".
Proof.
  unfold literal_prefix, encoding. intros E. destruct id as [|c0 id]; [discriminate E|].
  cbn [length nth] in E. change (0 <? S (length id))%nat with true in E. cbn [andb] in E.
  destruct (ceqb c0 "u") eqn:Eu.
  - apply ceqb_eq in Eu. subst c0. destruct id as [|c1 id]; [discriminate E|].
    cbn [length nth] in E. change (1 <? S (S (length id)))%nat with true in E. cbn [andb] in E. destruct (ceqb c1 "8") eqn:E8.
    + apply ceqb_eq in E8. subst c1. destruct id as [|c2 id]; [discriminate E|]. cbn [length nth] in E. change (2 <? S (S (S (length id))))%nat with true in E. cbn [andb] in E.
      destruct (ceqb c2 "R") eqn:ER; [|discriminate E]. apply ceqb_eq in ER. subst c2. injection E as E. destruct id; [|discriminate E]. exists (b "u8"). cbn. auto 9.
    + change (1 <? S (S (length id)))%nat with true in E. cbn [andb nth] in E. destruct (ceqb c1 "R") eqn:ER; [|discriminate E]. apply ceqb_eq in ER. subst c1.
      injection E as E. destruct id; [|discriminate E]. exists (b "u"). cbn. auto 9.
  - destruct (ceqb c0 "L") eqn:EL.
    + apply ceqb_eq in EL. subst c0. cbn [orb] in E. destruct id as [|c1 id]; [discriminate E|]. cbn [length nth] in E. change (1 <? S (S (length id)))%nat with true in E. cbn [andb] in E.
      destruct (ceqb c1 "R") eqn:ER; [|discriminate E]. apply ceqb_eq in ER. subst c1. injection E as E. destruct id; [|discriminate E]. exists (b "L"). cbn. auto 9.
    + destruct (ceqb c0 "U") eqn:EU.
      * apply ceqb_eq in EU. subst c0. cbn [orb] in E. destruct id as [|c1 id]; [discriminate E|]. cbn [length nth] in E. change (1 <? S (S (length id)))%nat with true in E. cbn [andb] in E.
        destruct (ceqb c1 "R") eqn:ER; [|discriminate E]. apply ceqb_eq in ER. subst c1. injection E as E. destruct id; [|discriminate E]. exists (b "U"). cbn. auto 9.
      * cbn [orb] in E. destruct (ceqb c0 "R") eqn:ER; [|discriminate E]. apply ceqb_eq in ER. subst c0. injection E as E. destruct id; [|discriminate E]. exists []. cbn. auto 9.
Qed.
(* Those that are recognized are all of them. *)
Lemma literal_prefix_sq id raw : literal_prefix id false = (false, raw) -> existsb (beqb id) [b "u8"; b "u"; b "L"; b "U"] = false.
Proof.
  intros E. cbn [existsb]. repeat match goal with |- context [beqb id ?x] => let Q := fresh in destruct (beqb id x) eqn:Q; [apply beqb_eq in Q; subst id; discriminate E|] end. reflexivity.
Qed.
Lemma literal_prefix_dq id raw : literal_prefix id true = (false, raw) -> existsb (beqb id) [b "u8"; b "u"; b "L"; b "U"; b "R"; b "u8R"; b "uR"; b "LR"; b "UR"] = false.
Proof.
  intros E. cbn [existsb]. repeat match goal with |- context [beqb id ?x] => let Q := fresh in destruct (beqb id x) eqn:Q; [apply beqb_eq in Q; subst id; discriminate E|] end. reflexivity.
Qed.
Lemma literal_prefix_sq_raw id c : literal_prefix id false = (c, true) -> False.
Proof.
  unfold literal_prefix. cbn [andb].
  repeat match goal with |- context [if ?x then _ else _] => destruct x end; intros E; discriminate E.
Qed.

Lemma then_is S d : (exists S', continues S (ch d) S') -> forall Q : ascii -> bool, (forall x, ch d = Some x -> Q x = false) -> then_ S (fun c => Q c = false).
Proof. intros K Q H. eapply then_peek; [exact K|exact H]. Qed.
Lemma longer_peek t s d : forall S, t <> Dot -> (exists S', continues S (ch d) S') -> (forall x, ch d = Some x -> longer t s x = false) -> ends t s S.
Proof. intros S N K H. apply ends_then; [exact N|]. eapply then_peek; [exact K|exact H]. Qed.
Lemma is_neq d x y : is d y = false -> ch d = Some x -> ceqb x y = false.
Proof. unfold is. intros H E. rewrite E in H. exact H. Qed.
Lemma unget_rep st S x p : Rep st S (adv (char x) p) -> back st = None -> xline x = pline p -> (ch x = None -> S = []) -> Rep (unget x st) (char x ++ S) p.
Proof.
  intros (sp & Sp & ES & EP & Hb & Hh) B L N. exists sp. unfold bk in *. rewrite B in *. cbn [app] in *. unfold unget. cbn [back held rest].
  split; [exact Sp|]. split; [rewrite ES; reflexivity|]. split; [rewrite adv_app; exact EP|]. split; [|exact Hh].
  intros y Hy. injection Hy as <-. split; [exact L|]. intros H. specialize (N H). rewrite ES in N.
  apply app_eq_nil in N. destruct N as [N1 N]. apply app_eq_nil in N. destruct N as [N2 N3]. repeat split; assumption.
Qed.

Lemma unescape_append k r : forall m st x st', unescape m r st = (x, st') -> unescape m r (append k st) = (x, append k st').
Proof.
  induction r as [|c r IH]; intros m st x st' E.
  - cbn in E |- *. destruct m; injection E as <- <-; reflexivity.
  - cbn [unescape] in E |- *. destruct m as [|y|]; try destruct (ceqb c CR); try destruct (ceqb c NL); try destruct (ceqb c BS);
      first [apply IH in E; exact E|injection E as <- <-; reflexivity].
Qed.
Lemma peek_append k st x st' : peek true st = (x, st') -> peek true (append k st) = (x, append k st').
Proof.
  unfold peek. cbn [append back held rest]. destruct (back st); [intros E; injection E as <- <-; reflexivity|].
  destruct (held st); [intros E; injection E as <- <-; reflexivity|]. apply unescape_append.
Qed.

Ltac cases_in H := repeat (destruct H as [<-|H]); [..|destruct H].
Lemma next_token_spec n c f st S p x t st' :
  next_token n c f st = Some (t, st') -> ch c = Some x -> Rep st S p -> back st = None -> blank x = false -> x <> NL ->
  (x = "/"%char -> exists d, peek true st = (d, st) /\ ch d <> Some "/"%char /\ ch d <> Some "*"%char) ->
  let l := match log st with Some l => l | None => xline c end in
  exists text S', eats st S p text st' S' /\ is_token (type t) (x :: text) /\ ends (type t) (x :: text) S' /\
    cs st' = rev (le 8 l ++ x :: text) ++ cs st /\ value t = match type t with Identifier => x :: text | _ => [] end /\ tline t = l /\ first t = f /\ type t <> Eos.
Proof.
  intros E Ec R B Bl Nn Sl l. unfold next_token in E. fold l in E. rewrite Ec in E.
  set (st0 := append (le 8 l ++ char c) st) in E. assert (R0 : Rep st0 S p) by exact R. assert (B0 : back st0 = None) by exact B.
  assert (C0 : cs st0 = rev (le 8 l ++ [x]) ++ cs st) by (unfold st0, char; rewrite Ec; reflexivity).
  assert (Sl0 : x = "/"%char -> exists d, peek true st0 = (d, st0) /\ ch d <> Some "/"%char /\ ch d <> Some "*"%char).
  { intros H. destruct (Sl H) as (d & Hd & H'). exists d. split; [apply peek_append; exact Hd|exact H']. }
  clear Sl. clearbody st0.
  (* How it ends. *)
  assert (Fin : forall ty v text st3 S', Some (mktoken ty f v l, st3) = Some (t, st') -> eats st0 S p text st3 S' ->
    is_token ty (x :: text) -> ends ty (x :: text) S' -> cs st3 = rev text ++ cs st0 ->
    v = match ty with Identifier => x :: text | _ => [] end -> ty <> Eos ->
    exists text S', eats st S p text st' S' /\ is_token (type t) (x :: text) /\ ends (type t) (x :: text) S' /\
      cs st' = rev (le 8 l ++ x :: text) ++ cs st /\ value t = match type t with Identifier => x :: text | _ => [] end /\ tline t = l /\ first t = f /\ type t <> Eos).
  { intros ty v text st3 S' H Ea It En Cs V Ne. injection H as <- <-. exists text, S'. cbn [type value tline first]. split; [exact Ea|]. split; [exact It|]. split; [exact En|].
    split; [|repeat split; assumption]. rewrite Cs, C0. change (x :: text) with ([x] ++ text). rewrite !rev_app_distr, ?app_assoc. reflexivity. }
  (* A single character. *)
  assert (One : forall ty, Some (mktoken ty f [] l, st0) = Some (t, st') -> is_token ty [x] -> (forall S, ends ty [x] S) -> ty <> Identifier -> ty <> Eos ->
    exists text S', eats st S p text st' S' /\ is_token (type t) (x :: text) /\ ends (type t) (x :: text) S' /\
      cs st' = rev (le 8 l ++ x :: text) ++ cs st /\ value t = match type t with Identifier => x :: text | _ => [] end /\ tline t = l /\ first t = f /\ type t <> Eos).
  { intros ty H It En Ni Ne. eapply (Fin ty [] [] st0 S H); [apply eats_nil; exact R0|exact It|apply En|reflexivity| |exact Ne]. destruct ty; try reflexivity. contradiction. }
  destruct (peek true st0) as [d st1] eqn:P. destruct (peek_cases _ _ _ _ _ R0 P) as (C1 & R1 & B1 & A1 & K1 & T1).
  (* A character, and what follows does not belong to it. *)
  assert (Short : forall ty, Some (mktoken ty f [] l, st1) = Some (t, st') -> is_token ty [x] -> ty <> Dot -> ty <> Identifier -> ty <> Eos ->
    (forall y, ch d = Some y -> longer ty [x] y = false) ->
    exists text S', eats st S p text st' S' /\ is_token (type t) (x :: text) /\ ends (type t) (x :: text) S' /\
      cs st' = rev (le 8 l ++ x :: text) ++ cs st /\ value t = match type t with Identifier => x :: text | _ => [] end /\ tline t = l /\ first t = f /\ type t <> Eos).
  { intros ty H It Nd Ni Ne Lo. eapply (Fin ty [] [] st1 S H); [apply eats_nil; exact R1|exact It| |exact C1| |exact Ne]; [|destruct ty; try reflexivity; contradiction].
    eapply longer_peek; [exact Nd|exact K1|exact Lo]. }
  (* The next character belongs to the token. *)
  assert (Two : forall y ty, ch d = Some y -> Some (mktoken ty f [] l, takeh d st1) = Some (t, st') -> is_token ty [x; y] -> (forall S, ends ty [x; y] S) -> ty <> Identifier -> ty <> Eos ->
    exists text S', eats st S p text st' S' /\ is_token (type t) (x :: text) /\ ends (type t) (x :: text) S' /\
      cs st' = rev (le 8 l ++ x :: text) ++ cs st /\ value t = match type t with Identifier => x :: text | _ => [] end /\ tline t = l /\ first t = f /\ type t <> Eos).
  { intros y ty Ed H It En Ni Ne. destruct (T1 _ Ed) as (sp & S1 & Sp & ES & R2 & _ & B2 & _).
    eapply (Fin ty [] [y] (takeh d st1) S1 H); [|exact It|apply En|rewrite (takeh_cs _ _ _ Ed), C1; reflexivity| |exact Ne]; [|destruct ty; try reflexivity; contradiction].
    apply (eats_cons _ _ _ sp y S1 st1); [exact Sp|exact ES|]. apply eats_nil. exact R2. }
  (* Then there is one more, or not. *)
  assert (Three : forall y z e st2, ch d = Some y -> peek true (takeh d st1) = (e, st2) ->
    Some (mktoken Punctuation f [] l, if is e z then takeh e st2 else st2) = Some (t, st') ->
    is_token Punctuation [x; y] -> is_token Punctuation [x; y; z] -> (forall S, ends Punctuation [x; y; z] S) -> (forall w, ceqb w z = false -> longer Punctuation [x; y] w = false) ->
    exists text S', eats st S p text st' S' /\ is_token (type t) (x :: text) /\ ends (type t) (x :: text) S' /\
      cs st' = rev (le 8 l ++ x :: text) ++ cs st /\ value t = match type t with Identifier => x :: text | _ => [] end /\ tline t = l /\ first t = f /\ type t <> Eos).
  { intros y z e st2 Ed P2 H It2 It3 En3 Lo. destruct (T1 _ Ed) as (sp & S1 & Sp & ES & R2 & _ & B2 & _).
    assert (R2' : Rep (takeh d st1) S1 (adv (sp ++ [y]) p)) by exact R2.
    destruct (peek_cases _ _ _ _ _ R2' P2) as (C2 & R3 & B3 & A3 & K3 & T3). rewrite (takeh_cs _ _ _ Ed), C1 in C2.
    destruct (is e z) eqn:Ez.
    - apply is_some in Ez. destruct (T3 _ Ez) as (sp2 & S2 & Sp2 & ES2 & R4 & _).
      eapply (Fin Punctuation [] [y; z] (takeh e st2) S2 H); [|exact It3|apply En3|rewrite (takeh_cs _ _ _ Ez), C2; reflexivity|reflexivity|discriminate].
      apply (eats_cons _ _ _ sp y S1 st1); [exact Sp|exact ES|]. apply (eats_cons _ _ _ sp2 z S2 st2); [exact Sp2|exact ES2|]. apply eats_nil. exact R4.
    - eapply (Fin Punctuation [] [y] st2 S1 H); [|exact It2| |rewrite C2; reflexivity|reflexivity|discriminate].
      + apply (eats_cons _ _ _ sp y S1 st1); [exact Sp|exact ES|]. apply eats_nil. exact R3.
      + eapply longer_peek; [discriminate|exact K3|]. intros w Ew. apply Lo. eapply is_neq; eassumption. }
  (* A literal: it is number_literal () or other function that is called. *)
  destruct (existsb (ceqb x) ["#"; "("; ")"; "["; "]"; ","; "?"; "~"; BS]%char) eqn:X1.
  { apply existsb_in in X1. apply (One _ E); [| |discriminate|discriminate].
    - apply it_punctuation. cbn in X1. cases_in X1; cbn; auto 20.
    - intros S0. cbn in X1. cases_in X1; apply ends_punctuation; try (intros y; reflexivity); constructor. }
  destruct (ceqb x ";") eqn:X2; [apply ceqb_eq in X2; subst x; apply (One _ E); [constructor|intros; exact I|discriminate|discriminate]|].
  destruct (ceqb x "{") eqn:X3; [apply ceqb_eq in X3; subst x; apply (One _ E); [constructor|intros; exact I|discriminate|discriminate]|].
  destruct (ceqb x "}") eqn:X4; [apply ceqb_eq in X4; subst x; apply (One _ E); [constructor|intros; exact I|discriminate|discriminate]|].
  destruct (ceqb x ".") eqn:X5.
  { apply ceqb_eq in X5. subst x. destruct (is d "*") eqn:D1.
    - apply (Two "*"%char _ (is_some _ _ D1) E); [apply it_punctuation; cbn; auto 20|intros; apply ends_punctuation; [reflexivity|constructor]|discriminate|discriminate].
    - destruct (match ch d with Some y => digit y | None => false end) eqn:D2.
      + destruct (ch d) as [y|] eqn:Ed; [|discriminate D2].
        destruct (number_literal n st1) as [st2|] eqn:Nl; [|discriminate E].
        destruct (number_spec _ _ _ _ "."%char _ Nl R1 (B1 B0)) as (text & S' & Ea & Cs & Nr & Bk & Th); [intros H; discriminate H|].
        (* the first one is the digit *)
        assert (H1 : exists text', text = y :: text' /\ number_rest text').
        { destruct n as [|n]; [discriminate Nl|]. cbn [number_literal] in Nl. rewrite A1, Ed in Nl.
          assert (Ey : ends_number y = false) by (destruct y as [[] [] [] [] [] [] [] []]; first [discriminate D2|reflexivity]).
          assert (Xy : exponent y = false) by (destruct y as [[] [] [] [] [] [] [] []]; first [discriminate D2|reflexivity]).
          rewrite Ey, Xy in Nl. destruct (T1 _ eq_refl) as (sp & S1 & Sp & ES & R2 & _ & B2 & _).
          assert (R2' : Rep (takeh d st1) S1 (adv (sp ++ [y]) p)) by exact R2.
          destruct (number_spec _ _ _ _ y _ Nl R2' B2) as (text' & S'' & Ea' & Cs' & Nr' & _); [intros H; rewrite H in Xy; discriminate Xy|].
          exists text'. split; [|exact Nr']. rewrite (takeh_cs _ _ _ Ed) in Cs'. rewrite Cs in Cs'. rewrite rev_cons_app in Cs'. apply app_inv_tail in Cs'.
          rewrite <- (rev_involutive text), Cs', rev_involutive. reflexivity. }
        destruct H1 as (text' & -> & Nr').
        eapply (Fin Number [] _ st2 S' E); [exact Ea|apply it_fraction; assumption| |rewrite Cs, C1; reflexivity|reflexivity|discriminate].
        apply ends_then; [discriminate|]. destruct Th as (o & S2 & Co & Th). exists o, S2. split; [exact Co|]. destruct o as [w|]; [|exact I]. cbn [longer]. unfold lastc. rewrite last_cons. exact Th.
      + destruct (is d ".") eqn:D3.
        * apply is_some in D3. destruct (T1 _ D3) as (sp & S1 & Sp & ES & R2 & L2 & B2 & _).
          destruct (peek true (take d st1)) as [e st2] eqn:P2. destruct (peek_cases _ _ _ _ _ R2 P2) as (C2 & R3 & B3 & A3 & K3 & T3). rewrite take_cs, C1 in C2.
          destruct (is e ".") eqn:D4.
          -- apply is_some in D4. destruct (T3 _ D4) as (sp2 & S2 & Sp2 & ES2 & R4 & _).
             eapply (Fin Punctuation [] (b "..") _ S2 E); [|apply it_punctuation; cbn; auto 20|apply ends_punctuation; [reflexivity|constructor]| |reflexivity|discriminate].
             ++ apply (eats_cons _ _ _ sp "."%char S1 st1); [exact Sp|exact ES|]. apply (eats_cons _ _ _ sp2 "."%char S2 st2); [exact Sp2|exact ES2|]. apply eats_nil.
                replace (takeh e (append (char d) st2)) with (append (char e) (append (char d) (take e st2))); [exact R4|].
                unfold takeh, take, append. cbn [back held]. destruct (back st2); [reflexivity|]. destruct (held st2); [reflexivity|]. rewrite D4. reflexivity.
             ++ unfold takeh. rewrite append_cs, take_cs, append_cs, C2. unfold char. rewrite D3, D4. reflexivity.
          -- eapply (Fin Dot [] [] (unget d st2) ("."%char :: S1) E); [|constructor| |exact C2|reflexivity|discriminate].
             ++ exists sp. split; [exact ES|]. split; [constructor; exact Sp|].
                assert (Hc : char d = ["."%char]) by (unfold char; rewrite D3; reflexivity).
                replace ("."%char :: S1) with (char d ++ S1) by (rewrite Hc; reflexivity).
                apply unget_rep; [rewrite <- adv_app, Hc; exact R3|exact (B3 B2)|exact L2|intros H; congruence].
             ++ exists (Some "."%char), ("."%char :: S1). split; [exists []; repeat split; constructor|]. split; [reflexivity|]. intros _ _. cbn [tl].
                destruct K3 as [S3 K3]. exists (ch e), S3. split; [exact K3|]. apply is_not. exact D4.
        * eapply (Fin Dot [] [] st1 S E); [apply eats_nil; exact R1|constructor| |exact C1|reflexivity|discriminate].
          destruct K1 as [S2 K1]. exists (ch d), S2. split; [exact K1|]. destruct (ch d) as [y|] eqn:Ed; [|exact I].
          split; [|intros _ ->; exfalso; apply (is_not _ _ D3); exact Ed]. cbn [longer]. rewrite (is_neq _ _ _ D1 Ed). exact D2. }
  destruct (existsb (ceqb x) ["="; "!"; "*"; "/"; "%"; "^"]%char) eqn:X6.
  { apply existsb_in in X6.
    destruct (is d "=") eqn:D1.
    - apply (Two "="%char _ (is_some _ _ D1) E); [apply it_punctuation; cbn in X6; cases_in X6; cbn; auto 30| |discriminate|discriminate].
      intros S0. cbn in X6. cases_in X6; apply ends_punctuation; try (intros y; reflexivity); constructor.
    - apply (Short _ E); [apply it_punctuation; cbn in X6; cases_in X6; cbn; auto 30|discriminate|discriminate|discriminate|].
      intros y Ey. pose proof (is_neq _ _ _ D1 Ey) as Q. cbn in X6. cases_in X6; try exact Q.
      cbn. rewrite Q. cbn. destruct (Sl0 eq_refl) as (d' & Hd & N1 & N2). injection Hd as -> _. rewrite Ey in N1, N2.
      apply orb_false_iff. split; apply ceqb_neq; congruence. }
  destruct (ceqb x "<" || ceqb x ">") eqn:X7.
  { assert (Hx : x = "<"%char \/ x = ">"%char) by (apply orb_true_iff in X7; destruct X7 as [H|H]; apply ceqb_eq in H; auto). clear X7.
    destruct (is d x) eqn:D1.
    - destruct (peek true (takeh d st1)) as [e st2] eqn:P2.
      apply (Three x "="%char e st2 (is_some _ _ D1) eq_refl E).
      + apply it_punctuation; destruct Hx as [-> | ->]; cbn; auto 40.
      + apply it_punctuation; destruct Hx as [-> | ->]; cbn; auto 40.
      + intros S0. apply ends_punctuation; [destruct Hx as [-> | ->]; reflexivity|constructor].
      + intros w Hw. destruct Hx as [-> | ->]; exact Hw.
    - destruct (is d "=") eqn:D2.
      + apply (Two "="%char _ (is_some _ _ D2) E); [apply it_punctuation; destruct Hx as [-> | ->]; cbn; auto 40| |discriminate|discriminate].
        intros S0. apply ends_punctuation; [destruct Hx as [-> | ->]; reflexivity|constructor].
      + apply (Short _ E); [destruct Hx as [-> | ->]; constructor|destruct Hx as [-> | ->]; discriminate|destruct Hx as [-> | ->]; discriminate|destruct Hx as [-> | ->]; discriminate|].
        intros y Ey. pose proof (is_neq _ _ _ D1 Ey) as Q1. pose proof (is_neq _ _ _ D2 Ey) as Q2. destruct Hx as [-> | ->]; cbn; rewrite Q1, Q2; reflexivity. }
  destruct (ceqb x "+" || ceqb x "-") eqn:X8.
  { assert (Hx : x = "+"%char \/ x = "-"%char) by (apply orb_true_iff in X8; destruct X8 as [H|H]; apply ceqb_eq in H; auto). clear X8.
    destruct (is d x || is d "=") eqn:D1.
    - assert (Hd : exists y, ch d = Some y /\ (y = x \/ y = "="%char)) by (apply orb_true_iff in D1; destruct D1 as [H|H]; apply is_some in H; eauto).
      destruct Hd as (y & Ed & Hy). apply (Two y _ Ed E); [apply it_punctuation; destruct Hx as [-> | ->], Hy as [-> | ->]; cbn; auto 50| |discriminate|discriminate].
      intros S0. apply ends_punctuation; [destruct Hx as [-> | ->], Hy as [-> | ->]; reflexivity|constructor].
    - apply orb_false_iff in D1. destruct D1 as [D1 D2]. destruct (ceqb x "-" && is d ">") eqn:D3.
      + apply andb_true_iff in D3. destruct D3 as [Hm D3]. apply ceqb_eq in Hm. subst x. destruct (peek true (takeh d st1)) as [e st2] eqn:P2.
        apply (Three ">"%char "*"%char e st2 (is_some _ _ D3) eq_refl E).
        * apply it_punctuation; cbn; auto 50.
        * apply it_punctuation; cbn; auto 50.
        * intros S0. apply ends_punctuation; [reflexivity|constructor].
        * intros w Hw. exact Hw.
      + apply (Short _ E); [apply it_punctuation; destruct Hx as [-> | ->]; cbn; auto 50|discriminate|discriminate|discriminate|].
        intros y Ey. pose proof (is_neq _ _ _ D1 Ey) as Q1. pose proof (is_neq _ _ _ D2 Ey) as Q2. destruct Hx as [-> | ->]; cbn; rewrite Q1, Q2; [reflexivity|]. cbn.
        cbn in D3. exact (is_neq _ _ _ D3 Ey). }
  destruct (ceqb x "&" || ceqb x "|") eqn:X9.
  { assert (Hx : x = "&"%char \/ x = "|"%char) by (apply orb_true_iff in X9; destruct X9 as [H|H]; apply ceqb_eq in H; auto). clear X9.
    destruct (is d x || is d "=") eqn:D1.
    - assert (Hd : exists y, ch d = Some y /\ (y = x \/ y = "="%char)) by (apply orb_true_iff in D1; destruct D1 as [H|H]; apply is_some in H; eauto).
      destruct Hd as (y & Ed & Hy). apply (Two y _ Ed E); [apply it_punctuation; destruct Hx as [-> | ->], Hy as [-> | ->]; cbn; auto 50| |discriminate|discriminate].
      intros S0. apply ends_punctuation; [destruct Hx as [-> | ->], Hy as [-> | ->]; reflexivity|constructor].
    - apply orb_false_iff in D1. destruct D1 as [D1 D2]. apply (Short _ E); [apply it_punctuation; destruct Hx as [-> | ->]; cbn; auto 50|discriminate|discriminate|discriminate|].
      intros y Ey. pose proof (is_neq _ _ _ D1 Ey) as Q1. pose proof (is_neq _ _ _ D2 Ey) as Q2. destruct Hx as [-> | ->]; cbn; rewrite Q1, Q2; reflexivity. }
  destruct (ceqb x ":") eqn:X10.
  { apply ceqb_eq in X10. subst x. destruct (is d ":") eqn:D1.
    - apply (Two ":"%char _ (is_some _ _ D1) E); [constructor|intros; exact I|discriminate|discriminate].
    - apply (Short _ E); [constructor|discriminate|discriminate|discriminate|]. intros y Ey. exact (is_neq _ _ _ D1 Ey). }
  (* The literals do not peek first. *)
  clear Short Two Three Sl0. clear d st1 P C1 R1 B1 A1 K1 T1.
  destruct (digit x) eqn:X11.
  { destruct (number_literal n st0) as [st2|] eqn:Nl; [|discriminate E].
    destruct (number_spec _ _ _ _ x _ Nl R0 B0) as (text & S' & Ea & Cs & Nr & Bk & Th).
    { intros H. exfalso. destruct x as [[] [] [] [] [] [] [] []]; first [discriminate H|discriminate X11]. }
    eapply (Fin Number [] text st2 S' E); [exact Ea|apply it_number; assumption| |exact Cs|reflexivity|discriminate].
    apply ends_then; [discriminate|]. destruct Th as (o & S2 & Co & Th). exists o, S2. split; [exact Co|]. destruct o as [w|]; [|exact I]. cbn [longer]. unfold lastc. rewrite last_cons. exact Th. }
  (* A literal in quotes, possibly with a prefix. *)
  assert (Quoted : forall e q ty st1 S1 st2, Some (mktoken ty f [] l, st2) = Some (t, st') -> eats st0 S p (tl (e ++ [q])) st1 S1 -> e ++ [q] = x :: tl (e ++ [q]) -> 
     cs st1 = rev (tl (e ++ [q])) ++ cs st0 -> quoted n q q st1 = Some st2 -> encoding e -> (q = SQ /\ ty = Character) \/ (q = DQ /\ ty = Str) ->
    exists text S', eats st S p text st' S' /\ is_token (type t) (x :: text) /\ ends (type t) (x :: text) S' /\
      cs st' = rev (le 8 l ++ x :: text) ++ cs st /\ value t = match type t with Identifier => x :: text | _ => [] end /\ tline t = l /\ first t = f /\ type t <> Eos).
  { intros e q ty st1 S1 st2 H (s1 & ES & Es1 & Rs1) Ex Cs1 Q En Hq.
    destruct (quoted_spec _ _ _ _ _ _ _ Q Rs1) as (body & g & S' & (s2 & -> & Es2 & Rs2) & Cs & Q1 & _ & Sf & Bk & Th).
    assert (Hn : q <> BS) by (destruct Hq as [[-> _]|[-> _]]; discriminate). specialize (Q1 Hn).
    assert (Htext : x :: tl (e ++ [q]) ++ body ++ [q] ++ g = e ++ [q] ++ body ++ [q] ++ g).
    { change (x :: tl (e ++ [q]) ++ body ++ [q] ++ g) with ((x :: tl (e ++ [q])) ++ body ++ [q] ++ g). rewrite <- Ex, <- app_assoc. reflexivity. }
    eapply (Fin ty [] (tl (e ++ [q]) ++ body ++ [q] ++ g) st2 S' H).
    - exists (s1 ++ s2). split; [rewrite ES, app_assoc; reflexivity|]. split; [apply spliced_app; assumption|rewrite adv_app; exact Rs2].
    - rewrite Htext. destruct Hq as [[-> ->]|[-> ->]]; constructor; assumption.
    - rewrite Htext. apply ends_then; [destruct Hq as [[-> ->]|[-> ->]]; discriminate|]. destruct Th as (o & S2 & Co & Th). exists o, S2. split; [exact Co|].
      destruct o as [w|]; [|exact I]. replace (e ++ [q] ++ body ++ [q] ++ g) with ((e ++ [q] ++ body) ++ q :: g) by (rewrite <- !app_assoc; reflexivity).
      destruct Hq as [[-> ->]|[-> ->]]; apply longer_suffix; auto.
    - rewrite Cs, Cs1, app_assoc, <- rev_app_distr. reflexivity.
    - destruct Hq as [[_ ->]|[_ ->]]; reflexivity.
    - destruct Hq as [[_ ->]|[_ ->]]; discriminate. }
  destruct (ident x) eqn:X12.
  { destruct (identifier n [x] st0) as [[[id d] st1]|] eqn:Id; [|discriminate E].
    destruct (identifier_spec _ _ _ _ _ _ _ _ Id R0 B0) as (text & S1 & Ea & Cs & A & -> & Bk & Pk & Ni).
    rewrite rev_app_distr, rev_involutive in E. cbn [rev app] in E.
    destruct Ea as (s1 & ES & Es1 & Rs1).
    destruct (peek_cases _ _ _ _ _ Rs1 Pk) as (_ & _ & _ & _ & K & T).
    assert (Ident : Some (mktoken Identifier f (x :: text) l, st1) = Some (t, st') ->
      (forall y, ch d = Some y -> longer Identifier (x :: text) y = false) ->
      exists text S', eats st S p text st' S' /\ is_token (type t) (x :: text) /\ ends (type t) (x :: text) S' /\
        cs st' = rev (le 8 l ++ x :: text) ++ cs st /\ value t = match type t with Identifier => x :: text | _ => [] end /\ tline t = l /\ first t = f /\ type t <> Eos).
    { intros H Lo. eapply (Fin Identifier _ text st1 S1 H); [exists s1; repeat split; assumption|constructor; assumption| |exact Cs|reflexivity|discriminate].
      eapply longer_peek; [discriminate|exact K|exact Lo]. }
    destruct (is d SQ || is d DQ) eqn:Dq.
    - destruct (literal_prefix (x :: text) (is d DQ)) as [consumed raw] eqn:Lp. destruct consumed.
      + assert (exists q, ch d = Some q /\ ((q = SQ /\ is d SQ = true) \/ (q = DQ /\ is d DQ = true /\ is d SQ = false))) as (q & Ed & Hq).
        { apply orb_true_iff in Dq. destruct Dq as [H|H]; pose proof (is_some _ _ H) as H'; [exists SQ|exists DQ]; (split; [exact H'|]); [left|right]; auto. unfold is. rewrite H'. auto. }
        destruct (T _ Ed) as (sp & S2 & Sp & ES2 & R2 & _ & B2 & _).
        assert (Eat : forall e, e = x :: text -> eats st0 S p (tl (e ++ [q])) (takeh d st1) S2).
        { intros e ->. cbn [app tl]. exists (s1 ++ sp ++ [q]). split; [rewrite ES, ES2, <- !app_assoc; reflexivity|].
          split; [apply spliced_app; [exact Es1|apply spliced_one; exact Sp]|]. rewrite adv_app. exact R2. }
        assert (Cq : cs (takeh d st1) = rev (text ++ [q]) ++ cs st0).
        { rewrite (takeh_cs _ _ _ Ed), Cs, rev_app_distr. reflexivity. }
        destruct Hq as [[-> Hq]|[-> [Hq Hs]]].
        * rewrite Hq in E. assert (Hdq : is d DQ = false) by (unfold is; rewrite Ed; reflexivity). rewrite Hdq in Lp.
          destruct (quoted n SQ SQ (takeh d st1)) as [st2|] eqn:Q; [|discriminate E].
          destruct raw; [destruct (literal_prefix_sq_raw _ _ Lp)|].
          eapply (Quoted (x :: text) SQ Character _ S2 st2 E); [apply Eat; reflexivity|reflexivity|exact Cq|exact Q| |left; split; reflexivity].
          eapply literal_prefix_spec; [exact Lp|discriminate].
        * rewrite Hs in E. rewrite Hq in Lp. destruct raw.
          -- destruct (raw_string_literal n (takeh d st1)) as [st2|] eqn:Q; [|discriminate E].
             destruct (literal_prefix_raw _ Lp) as (e & Enc & He).
             destruct (Eat _ eq_refl) as (s3 & ES3 & Es3 & Rs3).
             destruct (raw_spec _ _ _ _ _ Q Rs3 B2) as (dl & body & g & S' & (s4 & -> & Es4 & Rs4) & Cs4 & Ok & Mi & Sf & Bk4 & Th).
             assert (Htext : x :: (text ++ [DQ]) ++ dl ++ ["("%char] ++ body ++ raw_close dl ++ g = e ++ b "R" ++ [DQ] ++ dl ++ ["("%char] ++ body ++ raw_close dl ++ g).
             { change (x :: (text ++ [DQ]) ++ dl ++ ["("%char] ++ body ++ raw_close dl ++ g) with (((x :: text) ++ [DQ]) ++ dl ++ ["("%char] ++ body ++ raw_close dl ++ g).
               rewrite He, <- !app_assoc. reflexivity. }
             eapply (Fin Str [] ((text ++ [DQ]) ++ dl ++ ["("%char] ++ body ++ raw_close dl ++ g) st2 S' E).
             ++ exists (s3 ++ s4). split; [rewrite ES3, app_assoc; reflexivity|]. split; [apply spliced_app; assumption|rewrite adv_app; exact Rs4].
             ++ rewrite Htext. apply it_raw; assumption.
             ++ rewrite Htext. apply ends_then; [discriminate|]. destruct Th as (o & S3 & Co & Th). exists o, S3. split; [exact Co|]. destruct o as [w|]; [|exact I].
                unfold longer. replace (e ++ b "R" ++ [DQ] ++ dl ++ ["("%char] ++ body ++ raw_close dl ++ g) with ((e ++ b "R" ++ [DQ] ++ dl ++ ["("%char] ++ body ++ ")"%char :: dl) ++ DQ :: g)
                  by (unfold raw_close; rewrite <- !app_assoc; cbn [app]; rewrite <- !app_assoc; reflexivity).
                apply longer_suffix; auto.
             ++ rewrite Cs4, Cq, app_assoc, <- rev_app_distr. reflexivity.
             ++ reflexivity.
             ++ discriminate.
          -- destruct (quoted n DQ DQ (takeh d st1)) as [st2|] eqn:Q; [|discriminate E].
             eapply (Quoted (x :: text) DQ Str _ S2 st2 E); [apply Eat; reflexivity|reflexivity|exact Cq|exact Q| |right; split; reflexivity].
             eapply literal_prefix_spec; [exact Lp|discriminate].
      + apply (Ident E). intros y Hy. cbn [longer]. rewrite (Ni _ Hy). cbn [orb]. destruct (is d DQ) eqn:Hdq.
        * apply is_some in Hdq. rewrite Hdq in Hy. injection Hy as <-. rewrite (literal_prefix_dq _ _ Lp). reflexivity.
        * rewrite orb_false_r in Dq. apply is_some in Dq. rewrite Dq in Hy. injection Hy as <-. rewrite (literal_prefix_sq _ _ Lp). reflexivity.
    - apply orb_false_iff in Dq. destruct Dq as [D1 D2]. apply (Ident E). intros y Hy. cbn [longer]. rewrite (Ni _ Hy), (is_neq _ _ _ D1 Hy), (is_neq _ _ _ D2 Hy). reflexivity. }
  destruct (ceqb x SQ) eqn:X13.
  { apply ceqb_eq in X13. subst x. destruct (quoted n SQ SQ st0) as [st2|] eqn:Q; [|discriminate E].
    eapply (Quoted [] SQ Character st0 S st2 E); [apply eats_nil; exact R0|reflexivity|reflexivity|exact Q|cbn; auto|left; split; reflexivity]. }
  destruct (ceqb x DQ) eqn:X14.
  { apply ceqb_eq in X14. subst x. destruct (quoted n DQ DQ st0) as [st2|] eqn:Q; [|discriminate E].
    eapply (Quoted [] DQ Str st0 S st2 E); [apply eats_nil; exact R0|reflexivity|reflexivity|exact Q|cbn; auto|right; split; reflexivity]. }
  apply (One _ E); [|intros; exact I|discriminate|discriminate].
  apply it_other; [exact X12| |exact Nn|exact Bl].
  intros H. cbn in H. repeat (destruct H as [<-|H]; [discriminate|]). destruct H.
Qed.
