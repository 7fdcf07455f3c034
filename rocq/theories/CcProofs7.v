(* The C/C++ lexer accepts every source that consists of tokens, spaces and comments (and has no
   line splices): the functions that look at the characters. *)
From Coq Require Import Lia.
From Verif Require Import Base CcModel CcSpec CcProofs CcProofs2 CcProofs3 CcProofs4 CcProofs5.
Local Open Scope N_scope.

(* Without line splices. *)
Lemma unspliced_tl c s : unspliced (c :: s) = true -> unspliced s = true.
Proof. cbn [unspliced]. intros H. apply andb_true_iff in H. apply H. Qed.
Lemma unspliced_app a : forall s, unspliced (a ++ s) = true -> unspliced s = true.
Proof. induction a as [|c a IH]; intros s H; [exact H|]. apply IH. eapply unspliced_tl. exact H. Qed.
Lemma unspliced_app_l a : forall s, unspliced (a ++ s) = true -> unspliced a = true.
Proof.
  induction a as [|c a IH]; intros s H; [reflexivity|]. cbn [app unspliced] in H |- *. apply andb_true_iff in H. destruct H as [H1 H2]. rewrite (IH _ H2), andb_true_r.
  destruct a as [|d a]; [|exact H1]. rewrite andb_false_r. reflexivity.
Qed.
Lemma splice_spliced x S : splice x -> unspliced (x ++ S) = false.
Proof.
  intros [crs H|crs H].
  - cbn [app unspliced]. destruct crs as [|c crs]; [reflexivity|]. rewrite (H c) by (left; reflexivity). reflexivity.
  - reflexivity.
Qed.
Lemma splices_unspliced sp S : splices sp -> unspliced (sp ++ S) = true -> sp = [].
Proof. intros [|x y Sx _] U; [reflexivity|]. rewrite <- app_assoc, splice_spliced in U by exact Sx. discriminate U. Qed.
Lemma spliced_unspliced text s : spliced text s -> forall S, unspliced (s ++ S) = true -> s = text.
Proof.
  induction 1 as [sp Sp|c text sp s Sp H IH]; intros S U.
  - eapply splices_unspliced; eassumption.
  - rewrite <- app_assoc in U. pose proof (splices_unspliced _ _ Sp U). subst sp. cbn [app] in U |- *. f_equal. apply (IH S). eapply unspliced_tl. exact U.
Qed.
Lemma continues_unspliced S o S' : continues S o S' -> unspliced S = true -> S' = S /\ o = hd_error S.
Proof. intros (sp & Sp & -> & H) U. pose proof (splices_unspliced _ _ Sp U). subst sp. auto. Qed.
Lemma Rep_posof st S p : Rep st S p -> unspliced S = true -> back st = None -> posof st = p.
Proof.
  intros (sp & Sp & ES & EP & _) U B. unfold bk in *. rewrite B in *. cbn [app] in *. rewrite ES in U. pose proof (splices_unspliced _ _ Sp U). subst sp. exact EP.
Qed.

Lemma upeek st S p : Rep st S p -> unspliced S = true -> back st = None ->
  exists c st1, peek true st = (c, st1) /\ ch c = hd_error S /\ cs st1 = cs st /\ Rep st1 S p /\ back st1 = None /\ peek true st1 = (c, st1) /\
    (forall x S1, S = x :: S1 -> Rep (take c st1) S1 (adv1 p x) /\ back (take c st1) = None /\ cs (take c st1) = cs st).
Proof.
  intros R U B. destruct (peek true st) as [c st1] eqn:P. destruct (peek_cases _ _ _ _ _ R P) as (C1 & R1 & B1 & A1 & [S' K1] & T1).
  exists c, st1. split; [reflexivity|]. destruct (continues_unspliced _ _ _ K1 U) as [_ H]. split; [exact H|]. split; [exact C1|]. split; [exact R1|]. split; [exact (B1 B)|]. split; [exact A1|].
  intros x S1 ->. destruct (T1 x H) as (sp & S2 & Sp & E & R2 & _ & B2 & _). rewrite E in U. pose proof (splices_unspliced _ _ Sp U). subst sp. injection E as <-.
  split; [exact R2|]. split; [exact B2|]. rewrite take_cs. exact C1.
Qed.
Lemma uget st S p : Rep st S p -> unspliced S = true ->
  exists c st1, get true st = (c, st1) /\ ch c = hd_error S /\ cs st1 = cs st /\ back st1 = None /\ Rep st1 (tl S) (adv (char c) p) /\ xline c = pline p.
Proof.
  intros R U. destruct (get true st) as [c st1] eqn:G. destruct (get_rep _ _ _ _ _ R G) as (sp & S1 & Sp & E & X & L & C & R1 & B & _).
  subst S. pose proof (splices_unspliced _ _ Sp U). subst sp. exists c, st1. cbn [app] in *. repeat split; try assumption; reflexivity.
Qed.
Lemma adv_cons c s p : adv (c :: s) p = adv s (adv1 p c).
Proof. reflexivity. Qed.
Lemma takeh_rep c st x S p : ch c = Some x -> Rep (take c st) S p -> Rep (takeh c st) S p.
Proof. intros _ R. apply Rep_append. exact R. Qed.

(* What a function that reads text leaves. *)
Definition left_ (st : scan) (text S : bytes) (p : pos) (st' : scan) : Prop :=
  Rep st' S (adv text p) /\ cs st' = rev text ++ cs st /\ back st' = None.
Lemma left_cons st x text S p st1 st' : left_ st1 text S (adv1 p x) st' -> cs st1 = x :: cs st -> left_ st (x :: text) S p st'.
Proof. intros (R & C & B) E. split; [exact R|]. split; [|exact B]. rewrite C, E. cbn [rev]. rewrite <- app_assoc. reflexivity. Qed.
Lemma left_nil st S p st1 : Rep st1 S p -> cs st1 = cs st -> back st1 = None -> left_ st [] S p st1.
Proof. intros R C B. repeat split; assumption. Qed.

Definition stops (S : bytes) (Q : ascii -> bool) : Prop := match S with c :: _ => Q c = false | [] => True end.
Lemma number_sign s : number_rest s -> match s with c :: _ => ceqb c "+" || ceqb c "-" = false | [] => True end.
Proof.
  intros [|c s' E _|e c s' E _ _]; [exact I| |].
  - destruct (ceqb c "+" || ceqb c "-") eqn:Q; [|reflexivity]. apply orb_true_iff in Q. destruct Q as [Q|Q]; apply ceqb_eq in Q; subst c; discriminate E.
  - destruct (ceqb e "+" || ceqb e "-") eqn:Q; [|reflexivity]. apply orb_true_iff in Q. destruct Q as [Q|Q]; apply ceqb_eq in Q; subst e; discriminate E.
Qed.
Lemma number_fwd text : number_rest text -> forall n st S p prev, (length text < n)%nat -> Rep st (text ++ S) p -> unspliced (text ++ S) = true -> back st = None ->
  stops S (fun c => negb (ends_number c) || (exponent (last text prev) && (ceqb c "+" || ceqb c "-"))) -> exists st', number_literal n st = Some st' /\ left_ st text S p st'.
Proof.
  induction 1 as [|c s Ec Nr IH|e c s Ee Hc Nr IH]; intros n st S p prev Hn R U B St.
  - cbn [app] in *. destruct n as [|n]; [cbn in Hn; lia|]. cbn [number_literal]. destruct (upeek _ _ _ R U B) as (d & st1 & P & Hd & C1 & R1 & B1 & A1 & T1).
    rewrite P. exists st1. split; [|apply left_nil; assumption]. rewrite Hd. destruct S as [|x S]; [reflexivity|]. cbn [hd_error]. cbn [stops] in St. apply orb_false_iff in St. destruct St as [St _].
    apply negb_false_iff in St. rewrite St. reflexivity.
  - destruct n as [|n]; [cbn in Hn; lia|]. cbn [number_literal]. cbn [app] in *. destruct (upeek _ _ _ R U B) as (d & st1 & P & Hd & C1 & R1 & B1 & A1 & T1).
    rewrite P. rewrite Hd. cbn [hd_error] in *. rewrite Ec. destruct (T1 _ _ eq_refl) as (R2 & B2 & C2).
    pose proof (takeh_rep _ _ _ _ _ Hd R2) as R3. pose proof (unspliced_tl _ _ U) as U3.
    rewrite last_cons in St. cbn [length] in Hn.
    destruct (exponent c) eqn:Ex.
    + destruct (upeek _ _ _ R3 U3 B2) as (e & st2 & P2 & He & C3 & R4 & B4 & A4 & T4). rewrite P2.
      assert (Sg : is e "+" || is e "-" = false).
      { unfold is. rewrite He. destruct s as [|y s]; cbn [app hd_error].
        - destruct S as [|z S]; [reflexivity|]. cbn [hd_error stops last] in St |- *. rewrite Ex in St. apply orb_false_iff in St. apply St.
        - apply (number_sign _ Nr). }
      rewrite Sg. destruct (IH n st2 S (adv1 p c) c) as (st' & E & L); [lia|exact R4|exact U3|exact B4|exact St|].
      exists st'. split; [exact E|]. eapply left_cons; [exact L|]. rewrite C3, (takeh_cs _ _ _ Hd), C1. reflexivity.
    + destruct (IH n (takeh d st1) S (adv1 p c) c) as (st' & E & L); [lia|exact R3|exact U3|exact B2|exact St|].
      exists st'. split; [exact E|]. eapply left_cons; [exact L|]. rewrite (takeh_cs _ _ _ Hd), C1. reflexivity.
  - destruct n as [|n]; [cbn in Hn; lia|]. cbn [number_literal]. cbn [app] in *. destruct (upeek _ _ _ R U B) as (d & st1 & P & Hd & C1 & R1 & B1 & A1 & T1).
    rewrite P. rewrite Hd. cbn [hd_error] in *.
    assert (En : ends_number e = false) by (destruct e as [[] [] [] [] [] [] [] []]; first [discriminate Ee|reflexivity]). rewrite En, Ee.
    destruct (T1 _ _ eq_refl) as (R2 & B2 & C2).
    pose proof (takeh_rep _ _ _ _ _ Hd R2) as R3. pose proof (unspliced_tl _ _ U) as U3.
    destruct (upeek _ _ _ R3 U3 B2) as (e' & st2 & P2 & He & C3 & R4 & B4 & A4 & T4). rewrite P2. cbn [hd_error] in He.
    assert (Sg : is e' "+" || is e' "-" = true) by (unfold is; rewrite He; destruct Hc as [-> | ->]; reflexivity). rewrite Sg.
    destruct (T4 _ _ eq_refl) as (R5 & B5 & C5).
    rewrite !last_cons in St. cbn [length] in Hn.
    destruct (IH n (takeh e' st2) S (adv1 (adv1 p e) c) c) as (st' & E & L); [lia|exact R5|exact (unspliced_tl _ _ U3)|exact B5|exact St|].
    exists st'. split; [exact E|]. eapply left_cons; [eapply left_cons; [exact L|]|].
    + rewrite (takeh_cs _ _ _ He), C3. reflexivity.
    + rewrite (takeh_cs _ _ _ Hd), C1. reflexivity.
Qed.
Lemma suffix_rest_fwd text : forall n st S p, all ident text -> (length text < n)%nat -> Rep st (text ++ S) p -> unspliced (text ++ S) = true -> back st = None ->
  stops S ident -> exists st', suffix_rest n st = Some st' /\ left_ st text S p st'.
Proof.
  induction text as [|c text IH]; intros n st S p A Hn R U B St; (destruct n as [|n]; [cbn in Hn; lia|]); cbn [suffix_rest app length] in *;
    destruct (upeek _ _ _ R U B) as (d & st1 & P & Hd & C1 & R1 & B1 & A1 & T1); rewrite P; unfold isid; rewrite Hd.
  - exists st1. split; [|apply left_nil; assumption]. destruct S as [|x S]; [reflexivity|]. cbn [hd_error]. cbn [stops] in St. rewrite St. reflexivity.
  - cbn [hd_error] in *. rewrite (A c) by (left; reflexivity). destruct (T1 _ _ eq_refl) as (R2 & B2 & C2).
    destruct (IH n (takeh d st1) S (adv1 p c)) as (st' & E & L); [intros y Hy; apply A; right; exact Hy|lia|exact R2|exact (unspliced_tl _ _ U)|exact B2|exact St|].
    exists st'. split; [exact E|]. eapply left_cons; [exact L|]. rewrite (takeh_cs _ _ _ Hd), C1. reflexivity.
Qed.
Lemma suffix_fwd f n st S p : suffixed f -> (length f < n)%nat -> Rep st (f ++ S) p -> unspliced (f ++ S) = true -> back st = None ->
  stops S (fun c => match f with [] => letter c | _ => ident c end) -> exists st', suffix n st = Some st' /\ left_ st f S p st'.
Proof.
  intros Sf Hn R U B St. unfold suffix. destruct (upeek _ _ _ R U B) as (d & st1 & P & Hd & C1 & R1 & B1 & A1 & T1). rewrite P, Hd. destruct Sf as [|c f L A]; cbn [app hd_error length] in *.
  - exists st1. split; [|apply left_nil; assumption]. destruct S as [|x S]; [reflexivity|]. cbn [hd_error]. cbn [stops] in St. unfold letter in St. rewrite St. reflexivity.
  - unfold letter in L. rewrite L. destruct (T1 _ _ eq_refl) as (R2 & B2 & C2).
    destruct (suffix_rest_fwd f n (takeh d st1) S (adv1 p c) A) as (st' & E & Lf); [lia|exact R2|exact (unspliced_tl _ _ U)|exact B2|exact St|].
    exists st'. split; [exact E|]. eapply left_cons; [exact Lf|]. rewrite (takeh_cs _ _ _ Hd), C1. reflexivity.
Qed.
Lemma ugeth st x S p : Rep st (x :: S) p -> unspliced (x :: S) = true ->
  exists c st1, geth true st = (c, st1) /\ ch c = Some x /\ cs st1 = x :: cs st /\ back st1 = None /\ Rep st1 S (adv1 p x).
Proof.
  intros R U. destruct (uget _ _ _ R U) as (c & st1 & G & Hc & C & B & R1 & _). unfold geth. rewrite G. exists c, (append (char c) st1). cbn [hd_error tl] in *.
  split; [reflexivity|]. split; [exact Hc|]. unfold char in *. rewrite Hc in *. split; [rewrite append_cs, C; reflexivity|]. split; [exact B|]. apply Rep_append. exact R1.
Qed.
(* A literal in quotes after the opening one. *)
Lemma quoted_fwd q body f : quoted_body q body -> forall n pr st S p, pr <> BS -> q <> BS -> q <> NL -> suffixed f -> (length body + length f + 1 < n)%nat ->
  Rep st (body ++ [q] ++ f ++ S) p -> unspliced (body ++ [q] ++ f ++ S) = true -> back st = None ->
  stops S (fun c => match f with [] => letter c | _ => ident c end) -> exists st', quoted n q pr st = Some st' /\ left_ st (body ++ [q] ++ f) S p st'.
Proof.
  induction 1 as [|c s Nq Nb Nn Q IH|c s Nn Q IH]; intros n pr st S p Hp Hq Hn Sf Ln R U B St; (destruct n as [|n]; [cbn in Ln; lia|]); cbn [quoted app length] in *;
    destruct (ugeth _ _ _ _ R U) as (d & st1 & G & Hd & C & B1 & R1); rewrite G, Hd; pose proof (unspliced_tl _ _ U) as U1.
  - apply ceqb_neq in Hn. rewrite Hn. apply ceqb_neq in Hp. rewrite Hp. unfold ceqb at 1. rewrite Ascii.eqb_refl. cbn [andb negb].
    destruct (suffix_fwd f n st1 S (adv1 p q) Sf) as (st' & E & L); [lia|exact R1|exact U1|exact B1|exact St|].
    exists st'. split; [exact E|]. eapply left_cons; [exact L|exact C].
  - apply ceqb_neq in Nn, Nq. rewrite Nn, Nq. cbn [andb]. pose proof Nb as Nb'. apply ceqb_neq in Nb. rewrite Nb. cbn [andb].
    destruct (IH n c st1 S (adv1 p c)) as (st' & E & L); [exact Nb'|assumption|assumption|assumption|lia|exact R1|exact U1|exact B1|exact St|].
    exists st'. split; [exact E|]. eapply left_cons; [exact L|exact C].
  - (* an escape *)
    change (ceqb BS NL) with false. cbn iota. assert (Eq : ceqb BS q = false) by (apply ceqb_neq; congruence). rewrite Eq. cbn [andb].
    assert (Ep : ceqb pr BS = false) by (apply ceqb_neq; exact Hp). rewrite Ep, andb_false_r.
    destruct n as [|n]; [cbn in Ln; lia|]. cbn [quoted]. destruct (ugeth _ _ _ _ R1 U1) as (e & st2 & G2 & He & C2 & B2 & R2). rewrite G2, He.
    apply ceqb_neq in Nn. rewrite Nn. change (ceqb BS BS) with true. cbn [negb]. rewrite andb_false_r, andb_true_r.
    destruct (IH n (if ceqb c BS then NUL else c) st2 S (adv1 (adv1 p BS) c)) as (st' & E & L); [|assumption|assumption|assumption|lia|exact R2|exact (unspliced_tl _ _ U1)|exact B2|exact St|].
    + destruct (ceqb c BS) eqn:Cb; [discriminate|]. apply ceqb_neq. exact Cb.
    + exists st'. split; [exact E|]. eapply left_cons; [eapply left_cons; [exact L|exact C2]|exact C].
Qed.
(* A raw string after the opening quote. *)
Lemma raw_delimiter_fwd d : forall n d0 st S p, okd d -> (length d < n)%nat -> Rep st (d ++ "("%char :: S) p -> unspliced (d ++ "("%char :: S) = true -> back st = None ->
  exists st', raw_delimiter n d0 st = Some (DQ :: rev d ++ d0, st') /\ Clean st' S (adv (d ++ ["("%char]) p) /\ cs st' = rev (d ++ ["("%char]) ++ cs st.
Proof.
  induction d as [|c d IH]; intros n d0 st S p Ok Hn R U B; (destruct n as [|n]; [cbn in Hn; lia|]); cbn [raw_delimiter app length rev] in *.
  - destruct (get true st) as [c st1] eqn:G. destruct (get_rep _ _ _ _ _ R G) as (sp & S1 & Sp & E & X & L & C & R1 & B1 & Cl). rewrite E in U. pose proof (splices_unspliced _ _ Sp U). subst sp. cbn [app] in E. subst S1.
    unfold geth. rewrite G. cbn [hd_error tl] in *. unfold char in *. rewrite X in *. change (ceqb "(" ")" || ceqb "(" BS || ceqb "(" SP) with false. change (ceqb "(" "(") with true. cbn iota.
    eexists. split; [reflexivity|]. split; [apply Clean_append; apply Cl; exact B|]. rewrite append_cs, C. reflexivity.
  - destruct (ugeth _ _ _ _ R U) as (e & st1 & G & He & C & B1 & R1). rewrite G, He. destruct (Ok c (or_introl eq_refl)) as (N1 & N2 & N3 & N4). apply ceqb_neq in N1, N2, N3, N4. rewrite N1, N2, N3, N4. cbn [orb].
    destruct (IH n (c :: d0) st1 S (adv1 p c)) as (st' & E & Cl & Cs); [intros y Hy; apply Ok; right; exact Hy|lia|exact R1|exact (unspliced_tl _ _ U)|exact B1|].
    exists st'. split; [rewrite E, <- app_assoc; reflexivity|]. split; [exact Cl|]. rewrite Cs, C, <- app_assoc. reflexivity.
Qed.

Section Raw.
Context (d : bytes) (Hd : okd d).
Lemma raw_rest_fwd f : suffixed f -> forall s n i w st S p, Clean st (s ++ f ++ S) p -> unspliced (f ++ S) = true ->
  (s = [] -> False) -> matched d w i -> (exists u, w ++ s = u ++ raw_close d) -> (forall u v, w ++ s = u ++ raw_close d ++ v -> v = []) -> (length s + length f < n)%nat ->
  stops S (fun c => match f with [] => letter c | _ => ident c end) -> exists st', raw_rest n (raw_close d) i st = Some st' /\ left_ st (s ++ f) S p st'.
Proof.
  intros Sf s. induction s as [|x s IH]; intros n i w st S p K U Nz M Oc Mi Ln St; [destruct (Nz eq_refl)|]. clear Nz.
  destruct n as [|n]; [cbn in Ln; lia|]. cbn [raw_rest app length] in *.
  destruct (get false st) as [c st1] eqn:G. destruct (get_clean _ _ _ _ _ K G) as (X & K1 & C1). cbn [hd_error tl] in *. unfold geth. rewrite G. unfold char in *. rewrite X in *. 
  set (st2 := append [x] st1). assert (K2 : Clean st2 (s ++ f ++ S) (adv1 p x)) by (apply Clean_append; exact K1).
  assert (C2 : cs st2 = x :: cs st) by (unfold st2; rewrite append_cs, C1; reflexivity). clearbody st2.
  pose proof (matched_step d Hd w i x M) as (M1 & M2 & M3).
  (* Goes on. *)
  assert (Go : forall i', matched d (w ++ [x]) i' -> exists st', raw_rest n (raw_close d) i' st2 = Some st' /\ left_ st (x :: s ++ f) S p st').
  { intros i' M'. destruct (IH n i' (w ++ [x]) st2 S (adv1 p x)) as (st' & E & L); [exact K2|exact U| |exact M'|rewrite <- app_assoc; exact Oc|intros u v; rewrite <- app_assoc; apply Mi|lia|exact St|].
    - intros ->. destruct Oc as [u Eu]. destruct M' as (_ & _ & _ & No). apply (No u []). rewrite app_nil_r. exact Eu.
    - exists st'. split; [exact E|]. eapply left_cons; [exact L|exact C2]. }
  assert (Fin : x = nth i (raw_close d) NUL -> Datatypes.S i = length (raw_close d) -> exists st', suffix n st2 = Some st' /\ left_ st (x :: s ++ f) S p st').
  { intros Xi Li. assert (s = []).
    { destruct M as ((u & ->) & Lt & _). apply (Mi u). rewrite <- app_assoc. f_equal. change (x :: s) with ([x] ++ s). rewrite app_assoc. f_equal.
      rewrite Xi. rewrite <- firstn_snoc by assumption. rewrite Li, firstn_all. reflexivity. }
    subst s. destruct K2 as (Kb & Kr). destruct (suffix_fwd f n st2 S (adv1 p x) Sf) as (st' & E & L); [cbn in Ln; lia|apply Rep_clean; split; assumption|exact U|exact Kb|exact St|].
    exists st'. split; [exact E|]. eapply left_cons; [exact L|exact C2]. }
  destruct (ceqb x (nth i (raw_close d) NUL)) eqn:Exi; cbn [negb andb].
  - rewrite Exi. apply ceqb_eq in Exi. destruct (Datatypes.S i =? length (raw_close d))%nat eqn:EL.
    + apply Nat.eqb_eq in EL. apply Fin; assumption.
    + apply Nat.eqb_neq in EL. apply Go. apply M1; assumption.
  - apply ceqb_neq in Exi. destruct (i =? 0)%nat eqn:Ei; cbn [negb].
    + apply Nat.eqb_eq in Ei. subst i. destruct (ceqb x (nth 0 (raw_close d) NUL)) eqn:E0; [apply ceqb_eq in E0; contradiction|]. apply Go. apply M3; assumption.
    + destruct (ceqb x (nth 0 (raw_close d) NUL)) eqn:E0.
      * apply ceqb_eq in E0. assert (L1 : (1 =? length (raw_close d))%nat = false) by (apply Nat.eqb_neq; unfold raw_close; cbn; rewrite app_length; cbn; lia).
        rewrite L1. apply Go. apply M2; try assumption. apply Nat.eqb_neq in L1. exact L1.
      * apply ceqb_neq in E0. apply Go. apply M3; assumption.
Qed.
End Raw.
Lemma raw_fwd d s f n st S p : okd d -> (forall x y, s ++ raw_close d = x ++ raw_close d ++ y -> y = []) -> suffixed f ->
  (length (d ++ ["("%char] ++ s ++ raw_close d ++ f) < n)%nat -> Rep st ((d ++ ["("%char] ++ s ++ raw_close d ++ f) ++ S) p -> unspliced ((d ++ ["("%char] ++ s ++ raw_close d ++ f) ++ S) = true -> back st = None ->
  stops S (fun c => match f with [] => letter c | _ => ident c end) ->
  exists st', raw_string_literal n st = Some st' /\ left_ st (d ++ ["("%char] ++ s ++ raw_close d ++ f) S p st'.
Proof.
  intros Ok Mi Sf Ln R U B St. rewrite !app_length in Ln. unfold raw_string_literal.
  replace ((d ++ ["("%char] ++ s ++ raw_close d ++ f) ++ S) with (d ++ "("%char :: (s ++ raw_close d) ++ f ++ S) in R, U by (rewrite <- !app_assoc; cbn [app]; rewrite <- ?app_assoc; reflexivity).
  destruct (raw_delimiter_fwd d n [")"%char] st ((s ++ raw_close d) ++ f ++ S) p Ok) as (st1 & E & Cl & Cs); [lia|exact R|exact U|exact B|].
  rewrite E. replace (rev (DQ :: rev d ++ [")"%char])) with (raw_close d) by (cbn [rev]; rewrite rev_app_distr, rev_involutive; reflexivity).
  assert (M0 : matched d [] 0).
  { split; [exists []; reflexivity|]. split; [cbn; lia|]. split.
    - intros j u Lj Eu. exfalso. destruct j as [|j]; [lia|]. cbn in Eu. destruct u; discriminate Eu.
    - intros u v Eu. destruct u; discriminate Eu. }
  assert (U' : unspliced (f ++ S) = true).
  { apply unspliced_app in U. apply unspliced_tl in U. apply unspliced_app in U. exact U. }
  destruct (raw_rest_fwd d Ok f Sf (s ++ raw_close d) n 0%nat [] st1 S (adv (d ++ ["("%char]) p)) as (st' & E2 & (R2 & C2 & B2)); try assumption.
  - intros H. apply app_eq_nil in H. destruct H as [_ H]. discriminate H.
  - exists s. reflexivity.
  - rewrite app_length. lia.
  - exists st'. split; [exact E2|]. replace (d ++ ["("%char] ++ s ++ raw_close d ++ f) with ((d ++ ["("%char]) ++ (s ++ raw_close d) ++ f) by (rewrite <- !app_assoc; reflexivity).
    split; [rewrite adv_app; exact R2|]. split; [|exact B2]. rewrite C2, Cs, (rev_app_distr (d ++ ["("%char])), app_assoc. reflexivity.
Qed.
Lemma identifier_fwd text : forall n id st S p, all ident text -> (length text < n)%nat -> Rep st (text ++ S) p -> unspliced (text ++ S) = true -> back st = None ->
  stops S ident -> exists c st', identifier n id st = Some (rev text ++ id, c, st') /\ left_ st text S p st' /\ peek true st' = (c, st') /\ ch c = hd_error S /\
    (forall x S1, S = x :: S1 -> Rep (take c st') S1 (adv1 (adv text p) x) /\ back (take c st') = None).
Proof.
  induction text as [|x text IH]; intros n id st S p A Hn R U B St; (destruct n as [|n]; [cbn in Hn; lia|]); cbn [identifier app length] in *;
    destruct (upeek _ _ _ R U B) as (d & st1 & P & Hd & C1 & R1 & B1 & A1 & T1); rewrite P, Hd.
  - exists d, st1. split; [|split; [apply left_nil; assumption|]].
    + destruct S as [|x S]; [reflexivity|]. cbn [hd_error]. cbn [stops] in St. rewrite St. reflexivity.
    + split; [exact A1|]. split; [exact Hd|]. intros y S1 Hy. destruct (T1 _ _ Hy) as (R2 & B2 & _). split; assumption.
  - cbn [hd_error] in *. rewrite (A x) by (left; reflexivity). destruct (T1 _ _ eq_refl) as (R2 & B2 & C2).
    destruct (IH n (x :: id) (takeh d st1) S (adv1 p x)) as (c & st' & E & L & Pk & Hc & T2); [intros y Hy; apply A; right; exact Hy|lia|exact R2|exact (unspliced_tl _ _ U)|exact B2|exact St|].
    exists c, st'. split; [rewrite E; cbn [rev]; rewrite <- app_assoc; reflexivity|]. split; [eapply left_cons; [exact L|]; rewrite (takeh_cs _ _ _ Hd), C1; reflexivity|]. auto.
Qed.
