(* The lexer accepts every source without line splices that consists of tokens. *)
From Verif Require Import Base CcModel CcSpec CcProofs CcProofs2 CcProofs3 CcProofs4 CcProofs5 CcProofs6 CcProofs7 CcProofs8 CcProofs9.
From Coq Require Import Lia.
Local Open Scope nat_scope.

Lemma digits_fwd text : forall n d0 st S p, all digit text -> length text < n -> Rep st (text ++ S) p -> unspliced (text ++ S) = true -> back st = None -> stops S digit ->
  exists st', digits n d0 st = Some (rev text ++ d0, st') /\ Rep st' S (adv text p) /\ cs st' = cs st /\ back st' = None.
Proof.
  induction text as [|x text IH]; intros n d0 st S p A Ln R U B St; (destruct n as [|n]; [cbn in Ln; lia|]); cbn [digits app length rev] in *;
    destruct (upeek _ _ _ R U B) as (d & st1 & P & Hd & C1 & R1 & B1 & _ & T); rewrite P, Hd.
  - exists st1. split; [|repeat (split; [assumption|]); exact B1]. destruct S as [|x S]; [reflexivity|]. cbn [hd_error stops] in *. rewrite St. reflexivity.
  - cbn [hd_error]. rewrite (A x) by (left; reflexivity). destruct (T _ _ eq_refl) as (R2 & B2 & C2).
    destruct (IH n (x :: d0) (take d st1) S (adv1 p x)) as (st' & E & R' & C' & B'); [intros y Hy; apply A; right; exact Hy|lia|exact R2|exact (unspliced_tl _ _ U)|exact B2|exact St|].
    exists st'. split; [rewrite E, <- app_assoc; reflexivity|]. split; [exact R'|]. split; [congruence|exact B'].
Qed.
Lemma file_name_fwd body name : file_body body name -> forall n pr s0 st S p, pr <> DQ -> pr <> BS -> length body + 1 < n ->
  Rep st (body ++ DQ :: S) p -> unspliced (body ++ DQ :: S) = true ->
  exists st', file_name n pr s0 st = Some (rev name ++ s0, st') /\ Rep st' S (adv (body ++ [DQ]) p) /\ cs st' = cs st /\ back st' = None.
Proof.
  induction 1 as [|c s t N1 N2 N3 F IH|c s t I F IH]; intros n pr s0 st S p P1 P2 Ln R U; (destruct n as [|n]; [cbn in Ln; lia|]); cbn [file_name app length rev] in *;
    apply ceqb_neq in P1, P2; rewrite P1; destruct (uget _ _ _ R U) as (c0 & st1 & G & Hc & C & B & R1 & _); rewrite G, Hc; cbn [hd_error tl] in *; rewrite (char_some _ _ Hc) in R1; rewrite P2.
  - change (ceqb DQ NL) with false. change (ceqb DQ BS || ceqb DQ DQ) with true. cbn iota. destruct n as [|n]; [lia|]. cbn [file_name]. change (ceqb DQ DQ) with true. cbn iota.
    exists st1. split; [reflexivity|]. split; [exact R1|]. split; [exact C|exact B].
  - pose proof N1 as N1'. pose proof N2 as N2'. apply ceqb_neq in N1, N2, N3. rewrite N1, N2, N3. cbn [orb].
    destruct (IH n c (c :: s0) st1 S (adv [c] p)) as (st' & E & R' & C' & B'); [exact N1'|exact N2'|lia|exact R1|exact (unspliced_tl _ _ U)|].
    exists st'. split; [rewrite E, <- app_assoc; reflexivity|]. split; [exact R'|]. split; [congruence|exact B'].
  - change (ceqb BS NL) with false. change (ceqb BS BS || ceqb BS DQ) with true. cbn iota. destruct n as [|n]; [lia|]. cbn [file_name]. change (ceqb BS DQ) with false. cbn iota.
    pose proof (unspliced_tl _ _ U) as U1. destruct (uget _ _ _ R1 U1) as (c1 & st2 & G1 & Hc1 & C1 & B1 & R2 & _). rewrite G1, Hc1. cbn [hd_error tl] in *. rewrite (char_some _ _ Hc1) in R2.
    assert (Nn : ceqb c NL = false) by (cbn in I; repeat (destruct I as [<-|I]; [reflexivity|]); destruct I). rewrite Nn. change (ceqb BS BS) with true. cbn iota.
    assert (Y : ceqb c BS || ceqb c SQ || ceqb c DQ = true) by (cbn in I; repeat (destruct I as [<-|I]; [reflexivity|]); destruct I). rewrite Y.
    destruct (IH n NUL (c :: s0) st2 S (adv [c] (adv [BS] p))) as (st' & E & R' & C' & B'); [discriminate|discriminate|lia|exact R2|exact (unspliced_tl _ _ U1)|].
    exists st'. split; [rewrite E, <- app_assoc; reflexivity|]. split; [exact R'|]. split; [congruence|exact B'].
Qed.

Section Fwd.
Context (pp : bool).
Definition finish (a : nat) (r : option (token * scan)) : option (list token * scan) :=
  match r with
  | None => None
  | Some (t, st) =>
      match type t with
      | Eos => Some ([], st)
      | _ => match lex_all a pp st with Some (l, st) => Some (t :: l, st) | None => None end
      end
  end.
Definition lexb (a n : nat) (st : scan) := finish a (next n pp st).
Definition dir (a n d : nat) (first : bool) (st : scan) := match directive d pp first st with Some st => lexb a n st | None => None end.
(* The rest of these after skipping spaces. *)
Definition kplain (a n : nat) (c : xchar) (f : bool) (st : scan) :=
  match ch c with
  | None => Some ([], st)
  | Some x =>
      if ceqb x "#" then
        let l := match log st with Some l => l | None => xline c end in
        dir a n n true (append (le 8 l ++ char c) st)
      else finish a (next_token n c f st)
  end.
Definition kword (a n d : nat) (c : xchar) (st : scan) :=
  if match ch c with Some y => digit y | None => false end then
    match line_directive d c st with Some st => dir a n d false st | None => None end
  else None.
Definition kdir (first : bool) (a n d : nat) (c : xchar) (st : scan) :=
  match ch c with
  | None => lexb a n st
  | Some x =>
      if ceqb x NL then lexb a n st
      else if first && digit x then match line_directive d c st with Some st => dir a n d false st | None => None end
      else
        match next_token d c false st with
        | None => None
        | Some (t, st) =>
            if first && match type t with Identifier => true | _ => false end then
              if beqb (value t) (b "line") then
                match skip_spaces d false st with
                | None => None
                | Some (c, _, st) => kword a n d c st
                end
              else if pp && beqb (value t) (b "include") then None
              else dir a n d false st
            else dir a n d false st
        end
  end.
Definition knumber (a n d : nat) (c : xchar) (st : scan) :=
  match (if is c DQ then match file_name d NUL [] st with Some (s, st) => set_file (rev s) st | None => None end else Some (unget c st)) with
  | Some st => dir a n d false st
  | None => None
  end.
Definition K (m : part) (a n d : nat) (c : xchar) (f : bool) (st : scan) :=
  match m with Plain => kplain a n c f st | Hash => kdir true a n d c st | Tail => kdir false a n d c st | LineWord => kword a n d c st | LineNumber => knumber a n d c st end.
Definition nlm (m : part) : bool := match m with Plain => true | _ => false end.
Definition enough (m : part) (k a n d : nat) : Prop :=
  k + 2 <= a /\ match m with Plain => k + 1 <= n | LineNumber => k + 2 <= n /\ k + 2 <= d | _ => k + 2 <= n /\ k + 1 <= d end.
Definition done (r : option (list token * scan)) (st : scan) (h : list item) (ts : list (ttype * bytes * N)) : Prop :=
  exists l st', r = Some (l, st') /\ cs st' = rev (bytes_of h) ++ cs st /\ map seen l = ts.
Definition good (m : part) (S : bytes) (p : pos) (h : list item) (ts : list (ttype * bytes * N)) : Prop :=
  forall st, Rep st S p -> exists c st2, skips (nlm m) st S c st2 /\ forall a n d f, enough m (length S) a n d -> done (K m a n d c f st2) st h ts.

Lemma lexb_eq a n st : lexb a (Datatypes.S n) st = match skip_spaces n true st with None => None | Some (c, f, st) => kplain a n c f st end.
Proof.
  unfold lexb, kplain, dir, finish. cbn [next]. destruct (skip_spaces n true st) as [[[c f] st1]|]; [|reflexivity]. destruct (ch c) as [x|]; [|reflexivity].
  destruct (ceqb x "#"); [|reflexivity]. destruct (directive n pp true _) as [st2|]; reflexivity.
Qed.
Lemma dir_eq a n d first st : dir a n (Datatypes.S d) first st = match skip_spaces d false st with None => None | Some (c, f, st) => kdir first a n d c st end.
Proof.
  unfold dir, kdir, kword. cbn [directive]. destruct (skip_spaces d false st) as [[[c f] st1]|]; [|reflexivity]. destruct (ch c) as [x|]; [|reflexivity].
  destruct (ceqb x NL); [reflexivity|]. destruct (first && digit x); [destruct (line_directive d c st1); reflexivity|].
  destruct (next_token d c false st1) as [[t st2]|]; [|reflexivity]. destruct (first && _); [|reflexivity]. destruct (beqb (value t) (b "line")); [|destruct (pp && _); reflexivity].
  destruct (skip_spaces d false st2) as [[[c' f'] st3]|]; [|reflexivity]. destruct (match ch c' with Some y => digit y | None => false end); [|reflexivity]. destruct (line_directive d c' st3); reflexivity.
Qed.
Lemma good_lexb S p h ts st a n : good Plain S p h ts -> Rep st S p -> length S + 2 <= a -> length S + 2 <= n -> done (lexb a n st) st h ts.
Proof.
  intros G R La Ln. destruct (G _ R) as (c & st2 & Sk & Kk). destruct n as [|n]; [lia|]. destruct (Sk n ltac:(lia)) as [f E]. cbn [nlm] in E. rewrite lexb_eq, E. apply (Kk a n 0 f). split; lia.
Qed.
Lemma good_lex S p h ts st a : good Plain S p h ts -> Rep st S p -> length S + 3 <= a -> done (lex_all a pp st) st h ts.
Proof. intros G R La. destruct a as [|a]; [lia|]. apply (good_lexb S p h ts st a a G R); lia. Qed.
Lemma good_dir (first : bool) S p h ts st a n d : good (if first then Hash else Tail) S p h ts -> Rep st S p -> length S + 2 <= a -> length S + 2 <= n -> length S + 2 <= d ->
  done (dir a n d first st) st h ts.
Proof.
  intros G R La Ln Ld. destruct (G _ R) as (c & st2 & Sk & Kk). destruct d as [|d]; [lia|]. destruct (Sk d ltac:(lia)) as [f E].
  replace (nlm (if first then Hash else Tail)) with false in E by (destruct first; reflexivity). rewrite dir_eq, E. specialize (Kk a n d f). destruct first; apply Kk; unfold enough; lia.
Qed.
Lemma good_number S p h ts st a n d : good LineNumber S p h ts -> Rep st S p -> length S + 2 <= a -> length S + 2 <= n -> length S + 2 <= d ->
  done (match skip_spaces d false st with None => None | Some (c, _, st) => knumber a n d c st end) st h ts.
Proof. intros G R La Ln Ld. destruct (G _ R) as (c & st2 & Sk & Kk). destruct (Sk d ltac:(lia)) as [f E]. cbn [nlm] in E. rewrite E. apply (Kk a n d f). unfold enough; lia. Qed.
Lemma done_cs r st st1 h ts : done r st1 h ts -> cs st1 = cs st -> done r st h ts.
Proof. intros (l & st' & E & C & M) H. exists l, st'. split; [exact E|]. split; [congruence|exact M]. Qed.
Lemma done_text r st st1 h ts l s : done r st1 h ts -> cs st1 = rev (le 8 l ++ s) ++ cs st -> done r st (Text l s :: h) ts.
Proof.
  intros (ll & st' & E & C & M) H. exists ll, st'. split; [exact E|]. split; [|exact M]. rewrite C, H, app_assoc, <- rev_app_distr. reflexivity.
Qed.
Lemma done_file r st st1 h ts s : done r st1 h ts -> cs st1 = rev s ++ cs st -> done r st (File s :: h) ts.
Proof.
  intros (ll & st' & E & C & M) H. exists ll, st'. split; [exact E|]. split; [|exact M]. rewrite C, H, app_assoc, <- rev_app_distr. reflexivity.
Qed.

(* Skipping something. *)
Lemma good_gap m S h ts S1 p1 st st1 : good m S1 p1 h ts -> Rep st1 S1 p1 -> cs st1 = cs st -> length S1 <= length S ->
  (forall c st2, skips (nlm m) st1 S1 c st2 -> skips (nlm m) st S c st2) ->
  exists c st2, skips (nlm m) st S c st2 /\ forall a n d f, enough m (length S) a n d -> done (K m a n d c f st2) st h ts.
Proof.
  intros G R1 C L H. destruct (G _ R1) as (c & st2 & Sk & Kk). exists c, st2. split; [apply H; exact Sk|].
  intros a n d f E. eapply done_cs; [|exact C]. apply Kk. unfold enough in *. destruct m; lia.
Qed.
Lemma good_end_plain p : good Plain [] p [] [].
Proof.
  intros st R. destruct (skips_stop true [] st p R eq_refl ltac:(discriminate)) as (c & st1 & Sk & Hc & R1 & C & B & L). exists c, st1. split; [exact Sk|].
  intros a n d f E. cbn [K]. unfold kplain. rewrite Hc. cbn [hd_error]. exists [], st1. split; [reflexivity|]. split; [exact C|reflexivity].
Qed.

(* What a token starts with. *)
Lemma token_head t x text : is_token t (x :: text) -> blank x = false /\ x <> NL /\ (x = "/"%char -> t = Punctuation /\ (text = [] \/ text = ["="%char])) /\ (x = "#"%char -> t = Punctuation /\ text = []) /\ t <> Eos.
Proof.
  intros H. remember (x :: text) as w eqn:E. destruct H as [ | | | | | | | |s I|c s I D A|c s D N|c s D N|e s f En Q Sf|e s f En Q Sf|e d s f En Ok Mi Sf|c I NI NN NB].
  1-8: injection E as <- <-; repeat split; discriminate.
  - cbn in I. subst s. repeat (destruct I as [I|I]; [injection I as <- <-; split; [reflexivity|]; split; [discriminate|]; split; [|split; [|discriminate]]; intros H; try discriminate H; auto|]). destruct I.
  - injection E as -> ->. destruct x as [[] [] [] [] [] [] [] []]; try discriminate I; repeat split; discriminate.
  - injection E as -> ->. destruct x as [[] [] [] [] [] [] [] []]; try discriminate D; repeat split; discriminate.
  - injection E as <- <-. repeat split; discriminate.
  - cbn in En. repeat (destruct En as [<-|En]; [injection E as <- _; repeat split; discriminate|]). destruct En.
  - cbn in En. repeat (destruct En as [<-|En]; [injection E as <- _; repeat split; discriminate|]). destruct En.
  - cbn in En. repeat (destruct En as [<-|En]; [injection E as <- _; repeat split; discriminate|]). destruct En.
  - injection E as -> <-. split; [exact NB|]. split; [exact NN|]. split; [|split; [|discriminate]]; intros ->; exfalso; apply NI; cbn; tauto.
Qed.
Lemma token_not_nil t : ~ is_token t [].
Proof.
  intros H. remember [] as w eqn:E. destruct H as [ | | | | | | | |s I|c s I D A|c s D N|c s D N|e s f En Q Sf|e s f En Q Sf|e d s f En Ok Mi Sf|c I NI NN NB]; try discriminate E.
  - subst s. cbn in I. repeat (destruct I as [I|I]; [discriminate I|]). destruct I.
  - destruct e; discriminate E.
  - destruct e; discriminate E.
  - destruct e; discriminate E.
Qed.
Lemma cur_line st S p c p' : Rep st S p' -> unspliced S = true -> back st = None -> plog p' = plog p -> xline c = pline p -> match log st with Some l => l | None => xline c end = cur p.
Proof. intros R U B E L. pose proof (Rep_posof _ _ _ R U B) as P. unfold cur. rewrite <- E, <- P. cbn. rewrite L. reflexivity. Qed.

(* The number of a line directive that starts with c. *)
Lemma number_done m x text S st1 p c a n d h ts st :
  good LineNumber S (let q := adv text p in mkpos (pline q) (Some ((number_of (x :: text) + (u64 - 1)) mod u64)%N) (pfile q)) h ts ->
  ch c = Some x -> digit x = true -> all digit text -> (number_of (x :: text) < u64)%N -> stops S digit -> Rep st1 (text ++ S) p -> unspliced (text ++ S) = true -> back st1 = None -> cs st1 = cs st ->
  enough m (length (x :: text ++ S)) a n d -> (m = Hash \/ m = LineWord) ->
  done (match line_directive d c st1 with Some st => dir a n d false st | None => None end) st h ts.
Proof.
  intros G Hc Dx A Lt St R U B C En Hm.
  assert (F : length text + length S + 3 <= a /\ length text + length S + 3 <= n /\ length text + length S + 2 <= d).
  { cbn [length] in En. rewrite app_length in En. unfold enough in En. destruct Hm as [->| ->]; lia. }
  unfold line_directive. destruct (digits_fwd text d (char c) st1 S p A ltac:(lia) R U B St) as (st2 & E & R2 & C2 & B2). rewrite E, (char_some _ _ Hc), rev_app_distr, rev_involutive. cbn [rev app].
  assert (Lt' : (u64 <=? number_of (x :: text))%N = false) by (apply N.leb_gt; exact Lt). rewrite Lt'.
  set (st3 := mkscan (rest st2) (back st2) (held st2) (line st2) (col1 st2) (Some ((number_of (x :: text) + (u64 - 1)) mod u64)%N) (file st2) (cs st2)).
  pose proof (unspliced_app _ _ U) as U2. pose proof (Rep_posof _ _ _ R2 U2 B2) as P2.
  assert (R3 : Rep st3 S (let q := adv text p in mkpos (pline q) (Some ((number_of (x :: text) + (u64 - 1)) mod u64)%N) (pfile q))).
  { destruct (Rep_norm _ _ _ R2 B2) as (sp & Sp & ES & EP & Oh). subst S. pose proof (splices_unspliced _ _ Sp U2). subst sp. cbn [app]. cbn zeta. rewrite <- P2.
    change (mkpos (pline (posof st2)) (Some ((number_of (x :: text) + (u64 - 1)) mod u64)%N) (pfile (posof st2))) with (posof st3). exact (Rep_now st3 B2 Oh). }
  pose proof (good_number _ _ _ _ st3 a n d G R3 ltac:(lia) ltac:(lia) ltac:(lia)) as D. eapply done_cs; [|transitivity (cs st3); [exact (eq_refl (cs st3))|cbn; rewrite C2; exact C]].
  revert D. generalize (skip_spaces d false st3). intros [[[e f] st4]|]; [|intros D; exact D]. unfold knumber. destruct (is e DQ); [|intros D; exact D]. destruct (file_name d NUL [] st4) as [[s st5]|]; intros D; exact D.
Qed.

Theorem reads_good m p S h ts : reads pp m p S h ts -> unspliced S = true -> good m S p h ts.
Proof.
  induction 1 as [m p M1 M2|m p sp S h ts Sp Rd IH|m p c S h ts Bl Rd IH|m m' p S h ts An Rd IH|m p text s S h ts Cm Spd Hl Rd IH
                 |m m' t text p s l S h ts It Np Spd En Hli Rd IH|m text p s S h ts Hm Nz A Spd Lt Hs Rd IH|body name p s S f k h ts Fb Nz Spd Sf Rd IH|p S h ts Nf Rd IH]; intros U.
  - (* the end *)
    intros st R. destruct (skips_stop (nlm m) [] st p R eq_refl ltac:(discriminate)) as (c & st1 & Sk & Hc & R1 & C & B & L). exists c, st1. split; [exact Sk|].
    intros a n d f E. cbn [hd_error tl] in *. rewrite (char_none _ Hc) in R1.
    assert (Dn : m <> Plain -> done (lexb a n st1) st [] []).
    { intros Mp. eapply done_cs; [|exact C]. eapply good_lexb; [apply good_end_plain|exact R1| |]; cbn [length]; unfold enough in E; cbn [length] in E; destruct m; try lia; try destruct (Mp eq_refl). }
    destruct m; cbn [K]; try (destruct (M1 eq_refl)); try (destruct (M2 eq_refl)); unfold kplain, kdir; rewrite Hc; try (apply Dn; discriminate).
    exists [], st1. split; [reflexivity|]. split; [exact C|reflexivity].
  - pose proof (splices_unspliced _ _ Sp U). subst sp. apply IH. exact U.
  - (* a blank *)
    intros st R. destruct (skips_blank _ _ _ _ R U Bl) as (st1 & R1 & B1 & C1 & H). eapply (good_gap m (c :: S)); [exact (IH (unspliced_tl _ _ U))|exact R1|exact C1|cbn; lia|apply H].
  - (* a newline *)
    specialize (IH (unspliced_tl _ _ U)). destruct m; try discriminate An; injection An as <-; intros st R.
    + destruct (skips_newline _ _ _ R U) as (st1 & R1 & B1 & C1 & H). eapply (good_gap Plain (NL :: S)); [exact IH|exact R1|exact C1|cbn; lia|apply H].
    + destruct (skips_stop false (NL :: S) st p R U) as (c & st1 & Sk & Hc & R1 & C & B & L).
      { intros x S' E. injection E as <- <-. split; [reflexivity|]. split; [reflexivity|discriminate]. }
      exists c, st1. split; [exact Sk|]. intros a n d f E. cbn [K]. unfold kdir. rewrite Hc. cbn [hd_error tl] in *. change (ceqb NL NL) with true. cbn iota. rewrite (char_some _ _ Hc) in R1.
      eapply done_cs; [|exact C]. eapply good_lexb; [exact IH|exact R1| |]; unfold enough in E; cbn [length] in E; lia.
    + destruct (skips_stop false (NL :: S) st p R U) as (c & st1 & Sk & Hc & R1 & C & B & L).
      { intros x S' E. injection E as <- <-. split; [reflexivity|]. split; [reflexivity|discriminate]. }
      exists c, st1. split; [exact Sk|]. intros a n d f E. cbn [K]. unfold kdir. rewrite Hc. cbn [hd_error tl] in *. change (ceqb NL NL) with true. cbn iota. rewrite (char_some _ _ Hc) in R1.
      eapply done_cs; [|exact C]. eapply good_lexb; [exact IH|exact R1| |]; unfold enough in E; cbn [length] in E; lia.
  - (* a comment *)
    pose proof (spliced_unspliced _ _ Spd _ U). subst s. intros st R. pose proof (unspliced_app _ _ U) as U1.
    destruct (skips_comment text S st p Cm R U) as (st1 & R1 & B1 & C1 & H).
    { intros Hf. destruct (Hl Hf) as (o & S' & Co & Ho). destruct (continues_unspliced _ _ _ Co U1) as [-> ->]. destruct Ho as [Ho|Ho]; [left; apply hd_none; exact Ho|right; exists (tl S); apply hd_some; exact Ho]. }
    eapply (good_gap m (text ++ S)); [exact (IH U1)|exact R1|exact C1|rewrite app_length; lia|apply H].
  - (* a token *)
    pose proof (spliced_unspliced _ _ Spd _ U). subst s. pose proof (unspliced_app _ _ U) as U1. specialize (IH U1). destruct text as [|x text]; [destruct (token_not_nil _ It)|].
    destruct (token_head _ _ _ It) as (Bl & Nn & Hs & Hh & Ne). pose proof (unspliced_tl _ _ U) as Ut.
    assert (El : l = cur p).
    { destruct Hli as (sp & sp' & S' & Sp & Sp' & E & ->). rewrite E in U. pose proof (splices_unspliced _ _ Sp U). subst sp. cbn [app hd] in *. pose proof (splices_unspliced _ _ Sp' (unspliced_tl _ _ U)). subst sp'. reflexivity. }
    clear Hli. subst l. intros st R. destruct (skips_stop (nlm m) ((x :: text) ++ S) st p R U) as (c & st1 & Sk & Hc & R1 & C & B & L).
    { intros y S' E. cbn [app] in E. injection E as <- <-. split; [exact Bl|]. split; [intros H; destruct (Nn H)|]. intros H. destruct (Hs H) as [-> Ht]. destruct Ht as [->| ->]; [|split; discriminate].
      subst x. cbn [app]. cbn [ends] in En. destruct En as (o & S' & Co & Ho). destruct (continues_unspliced _ _ _ Co U1) as [-> ->]. destruct (hd_error S) as [y|]; [|split; discriminate].
      destruct Ho as [Ho _]. unfold longer in Ho. revert Ho. branch. intros Ho. apply orb_false_iff in Ho. destruct Ho as [Ho H3]. apply orb_false_iff in Ho. destruct Ho as [_ H2]. apply ceqb_neq in H2, H3. split; congruence. }
    exists c, st1. split; [exact Sk|]. intros a n d f E. cbn [app hd_error tl] in *. rewrite (char_some _ _ Hc), adv_one in R1 by exact Nn.
    pose proof (cur_line _ _ _ c p R1 Ut B eq_refl L) as Lc.
    assert (Adv : adv (x :: text) p = adv text p) by (rewrite adv_cons, adv1_not by exact Nn; reflexivity). rewrite Adv in *.
    assert (Fw : forall g fu, length text < fu -> exists st', next_token fu c g st1 = Some (mktoken t g (match t with Identifier => x :: text | _ => [] end) (cur p), st') /\ Rep st' S (adv text p) /\ cs st' = rev (le 8 (cur p) ++ x :: text) ++ cs st).
    { intros g fu Hfu. pose proof (next_token_fwd fu c g st1 S p x t text Hc R1 Ut B It En Hfu) as H. cbn zeta in H. rewrite Lc, C in H. exact H. }
    assert (Ln : length (x :: text ++ S) = Datatypes.S (length text + length S)) by (cbn [length]; rewrite app_length; reflexivity). rewrite Ln in E.
    unfold enough in E. destruct m; cbn [next_part K] in *.
    + unfold kplain. rewrite Hc. destruct (ceqb x "#") eqn:X.
      * apply ceqb_eq in X. destruct (Hh X) as [-> ->]. subst x. injection Np as <-. rewrite Lc, (char_some _ _ Hc). eapply done_text; [|rewrite append_cs, C; reflexivity].
        eapply good_dir with (first := true); [exact IH|apply Rep_append; exact R1| | |]; unfold enough in E; cbn [length] in E; lia.
      * assert (X' : beqb (x :: text) (b "#") = false).
        { destruct (beqb (x :: text) (b "#")) eqn:Q; [|reflexivity]. apply beqb_eq in Q. injection Q as -> ->. discriminate X. }
        rewrite X' in Np. injection Np as <-. destruct (Fw f n ltac:(lia)) as (st' & Et & R' & C'). rewrite Et. unfold finish. cbn [type].
        destruct (good_lex _ _ _ _ st' a IH R' ltac:(lia)) as (ll & st'' & El & Cl & Ml). rewrite El.
        exists (mktoken t f (match t with Identifier => x :: text | _ => [] end) (cur p) :: ll), st''. split; [destruct t; try reflexivity; destruct (Ne eq_refl)|].
        split; [rewrite Cl, C', app_assoc, <- rev_app_distr; reflexivity|]. cbn [map]. rewrite Ml. reflexivity.
    + unfold kdir. rewrite Hc. apply ceqb_neq in Nn. rewrite Nn. cbn [andb]. destruct (word t (x :: text) "line") eqn:W.
      { destruct t; try discriminate W. cbn [word] in W. pose proof W as W'. apply beqb_eq in W'. injection W' as Wx _. assert (Dx : digit x = false) by (rewrite Wx; reflexivity). rewrite Dx.
        destruct (Fw false d ltac:(lia)) as (st' & Et & R' & C'). rewrite Et. cbn [type value]. rewrite W. injection Np as <-.
        destruct (IH _ R') as (c2 & st2 & Sk2 & K2). destruct (Sk2 d ltac:(lia)) as [f2 E2]. cbn [nlm] in E2. rewrite E2. eapply done_text; [|exact C']. apply (K2 a n d f2). unfold enough. lia. }
      destruct (pp && word t (x :: text) "include") eqn:W2; [discriminate Np|]. cbn [hd] in Np. destruct (digit x) eqn:Dx; [discriminate Np|]. injection Np as <-.
      destruct (Fw false d ltac:(lia)) as (st' & Et & R' & C'). rewrite Et. cbn [type value].
      assert (Go : done (dir a n d false st') st (Text (cur p) (x :: text) :: h) ts) by (eapply done_text; [|exact C']; eapply good_dir with (first := false); [exact IH|exact R'| | |]; lia).
      destruct t; try exact Go. cbn [word] in W, W2. rewrite W, W2. exact Go.
    + discriminate Np.
    + discriminate Np.
    + injection Np as <-. unfold kdir. rewrite Hc. apply ceqb_neq in Nn. rewrite Nn. cbn [andb]. destruct (Fw false d ltac:(lia)) as (st' & Et & R' & C'). rewrite Et.
      eapply done_text; [|exact C']. eapply good_dir with (first := false); [exact IH|exact R'| | |]; lia.
  - (* a number *)
    pose proof (spliced_unspliced _ _ Spd _ U). subst s. pose proof (unspliced_app _ _ U) as U1. specialize (IH U1). destruct text as [|x text]; [destruct (Nz eq_refl)|]. clear Nz.
    assert (Dx : digit x = true) by (apply A; left; reflexivity). assert (A' : all digit text) by (intros y Hy; apply A; right; exact Hy).
    assert (St : stops S digit). { destruct Hs as (o & S' & Co & Ho). destruct (continues_unspliced _ _ _ Co U1) as [-> ->]. destruct S; [exact Logic.I|exact Ho]. }
    assert (Nn : x <> NL) by (intros ->; discriminate Dx). assert (Adv : adv (x :: text) p = adv text p) by (rewrite adv_cons, adv1_not by exact Nn; reflexivity). rewrite Adv in *.
    intros st R. replace (nlm m) with false by (destruct Hm as [->| ->]; reflexivity). destruct (skips_stop false ((x :: text) ++ S) st p R U) as (c & st1 & Sk & Hc & R1 & C & B & L).
    { intros y S' E. injection E as <- <-. split; [destruct x as [[] [] [] [] [] [] [] []]; try discriminate Dx; reflexivity|]. split; [reflexivity|intros ->; discriminate Dx]. }
    exists c, st1. split; [exact Sk|]. intros a n d f E. cbn [app hd_error tl] in *. rewrite (char_some _ _ Hc), adv_one in R1 by exact Nn.
    pose proof (number_done m x text S st1 p c a n d h ts st IH Hc Dx A' Lt St R1 (unspliced_tl _ _ U) B C E Hm) as D.
    destruct Hm as [->| ->]; cbn [K].
    + unfold kdir. rewrite Hc. apply ceqb_neq in Nn. rewrite Nn, Dx. exact D.
    + unfold kword. rewrite Hc, Dx. exact D.
  - (* a file *)
    pose proof (spliced_unspliced _ _ Spd _ U). subst s. pose proof (unspliced_app _ _ U) as U1. specialize (IH U1). rewrite <- !app_assoc in *. cbn [app] in *.
    intros st R. destruct (skips_stop false (DQ :: body ++ DQ :: S) st p R U) as (c & st1 & Sk & Hc & R1 & C & B & L).
    { intros y S' E. injection E as <- <-. split; [reflexivity|]. split; [reflexivity|discriminate]. }
    exists c, st1. split; [exact Sk|]. intros a n d g E. cbn [hd_error tl] in *. rewrite (char_some _ _ Hc), adv_one in R1 by discriminate. cbn [K]. unfold knumber, is. rewrite Hc. change (ceqb DQ DQ) with true. cbn iota.
    unfold enough in E. cbn [length] in E. rewrite app_length in E. cbn [length] in E. destruct (file_name_fwd _ _ Fb d NUL [] st1 S p ltac:(discriminate) ltac:(discriminate) ltac:(lia) R1 (unspliced_tl _ _ U)) as (st2 & Ef & R2 & C2 & B2).
    rewrite Ef, app_nil_r, rev_involutive. change (adv (DQ :: body ++ [DQ]) p) with (adv (body ++ [DQ]) p) in *.
    pose proof (Rep_pfile _ _ _ R2) as Pf. rewrite pfile_adv in Pf. unfold set_pfile in Sf. rewrite Pf in Sf. unfold set_file. destruct name as [|y name]; [destruct (Nz eq_refl)|].
    destruct (beqb (fst (file st2)) (y :: name)).
    + injection Sf as <- <-. eapply done_file; [|cbn; rewrite C2; exact C]. eapply good_dir with (first := false); [exact IH| | | |]; try lia.
      replace (mkpos (pline (adv (body ++ [DQ]) p)) (plog (adv (body ++ [DQ]) p)) (file st2)) with (adv (body ++ [DQ]) p); [exact R2|]. rewrite <- Pf, <- (pfile_adv (body ++ [DQ]) p). destruct (adv (body ++ [DQ]) p). reflexivity.
    + set (f' := if special (y :: name) then (y :: name, false) else to_path (y :: name)) in *. injection Sf as <- <-. pose proof (Rep_file _ _ _ f' R2) as R3.
      fold (setp st2 f'). destruct (snd f').
      * eapply (done_file _ _ (setp st2 f')); [|cbn; rewrite C2; exact C]. eapply good_dir with (first := false); [exact IH|exact R3| | |]; lia.
      * eapply (done_file _ _ (append (fst f') (setp st2 f'))); [|rewrite append_cs; cbn [setp cs]; rewrite C2, C; reflexivity]. eapply good_dir with (first := false); [exact IH|apply Rep_append; exact R3| | |]; lia.
  - (* no file *)
    specialize (IH U). intros st R. destruct (skips_stop false S st p R U) as (c & st1 & Sk & Hc & R1 & C & B & L).
    { intros x S' ->. cbn [no_file] in Nf. destruct Nf as (_ & Bl & Ns). split; [exact Bl|]. split; [reflexivity|]. intros Hx. destruct (Ns Hx) as (o & S'' & Co & N1 & N2).
      destruct (continues_unspliced _ _ _ Co (unspliced_tl _ _ U)) as [-> ->]. split; assumption. }
    exists c, st1. split; [exact Sk|]. intros a n d f E. cbn [K]. unfold knumber.
    assert (Nd : is c DQ = false). { unfold is. rewrite Hc. destruct S as [|x S]; [reflexivity|]. cbn [hd_error no_file] in *. apply ceqb_neq. apply Nf. }
    rewrite Nd. apply (done_cs _ _ (unget c st1)); [|exact C]. unfold enough in E. eapply good_dir with (first := false); [exact IH| | | |]; try lia.
    replace S with (char c ++ tl S) by (destruct S as [|x S]; [rewrite (char_none _ Hc)|rewrite (char_some _ _ Hc)]; reflexivity).
    apply unget_rep; [exact R1|exact B|exact L|]. intros Hn. rewrite Hn in Hc. symmetry in Hc. apply hd_none in Hc. rewrite Hc. reflexivity.
Qed.
End Fwd.

Theorem reads_lex pp name s items ts : unspliced s = true -> reads pp Plain (begin name) s items ts ->
  exists l, lex pp name s = Some (l, bytes_of items) /\ map seen l = ts.
Proof.
  intros U Rd. pose proof (reads_good pp Plain _ _ _ _ Rd U) as G. unfold lex.
  assert (R : Rep (start name s) s (begin name)) by (apply Rep_clean; repeat split).
  destruct (good_lex pp _ _ _ _ (start name s) (3 * length s + 5) G R ltac:(lia)) as (l & st' & E & C & M). rewrite E. exists l. split; [|exact M].
  rewrite C. change (cs (start name s)) with (@nil ascii). rewrite app_nil_r, rev_involutive. reflexivity.
Qed.
