From Verif Require Import Base ConfModel ConfSpec.
From Coq Require Import Permutation.

Lemma at_is_0 c s : at_is c 0 s = true <-> exists r, c = s ++ r.
Proof.
  unfold at_is. cbn. rewrite beqb_eq. split.
  - intro H. exists (skipn (length s) c). rewrite <- H at 1. symmetry. apply firstn_skipn.
  - intros [r ->]. rewrite firstn_app, Nat.sub_diag, firstn_all, firstn_O, app_nil_r. reflexivity.
Qed.
Lemma at_is_app s t c : at_is (s ++ c) (length s) t = at_is c 0 t.
Proof. unfold at_is. rewrite skipn_app, skipn_all, Nat.sub_diag. reflexivity. Qed.

Lemma action_ok s sv w : action (s ++ (if sv : bool then b "save" else b "drop") ++ (if w : bool then b "+warn" else [])) (length s) = Decided sv w.
Proof.
  unfold action. rewrite !at_is_app. rewrite !app_length.
  assert (S4 : forall x y : bytes, length x = 4 -> skipn (length s + 4) (s ++ x ++ y) = y).
  { intros x y L. rewrite skipn_app, skipn_all2 by lia. replace (length s + 4 - length s) with 4 by lia. cbn [app].
    rewrite skipn_app, skipn_all2 by lia. rewrite L. reflexivity. }
  destruct sv.
  - change (at_is (b "save" ++ (if w then b "+warn" else [])) 0 (b "save")) with true. cbv iota. rewrite (S4 (b "save")) by reflexivity.
    destruct w; cbn [length b Nat.add]; [rewrite (proj2 (Nat.eqb_neq _ _)) by (cbn; lia) | rewrite (proj2 (Nat.eqb_eq _ _)) by (cbn; lia)]; reflexivity.
  - change (at_is (b "drop" ++ (if w then b "+warn" else [])) 0 (b "save")) with false.
    change (at_is (b "drop" ++ (if w then b "+warn" else [])) 0 (b "drop")) with true. cbv iota. rewrite (S4 (b "drop")) by reflexivity.
    destruct w; cbn [length b Nat.add]; [rewrite (proj2 (Nat.eqb_neq _ _)) by (cbn; lia) | rewrite (proj2 (Nat.eqb_eq _ _)) by (cbn; lia)]; reflexivity.
Qed.

Section P.
Context (path_match : bytes -> bytes -> bool).
Lemma persisted_skip name i u r rules : inapplicable path_match name i u r -> persisted path_match name i u (r :: rules) = persisted path_match name i u rules.
Proof.
  destruct r as [pat c]. intros [H | (cd & rest & E & H)]; cbn [persisted fst snd] in *; [rewrite H; reflexivity|].
  destruct (path_match name pat); [|reflexivity]. subst c. cbn [negb].
  destruct cd, i, u; try discriminate H; reflexivity.
Qed.
Lemma persisted_skip_all name i u after rules : (forall r, In r after -> inapplicable path_match name i u r) -> persisted path_match name i u (after ++ rules) = persisted path_match name i u rules.
Proof.
  induction after as [|r after IH]; intro H; [reflexivity|]. cbn [app]. rewrite persisted_skip by (apply H; left; reflexivity). apply IH. intros x I. apply H. right. exact I.
Qed.
Lemma persisted_hit name i u pat cd sv w rules : path_match name pat = true -> concerns cd i u = true ->
  persisted path_match name i u ((pat, rule_text cd sv w) :: rules) = Some (Decided sv w).
Proof.
  intros M C. cbn [persisted]. rewrite M. cbn [negb]. unfold rule_text. 
  assert (A : forall s, action ((s ++ b "=") ++ (if sv then b "save" else b "drop") ++ (if w then b "+warn" else [])) (length (s ++ b "=")) = Decided sv w) by (intro; apply action_ok).
  destruct cd.
  - specialize (A (b "unused")). rewrite <- app_assoc in A. destruct u, i; try discriminate C. exact (f_equal Some A).
  - specialize (A (b "inherited")). rewrite <- app_assoc in A. destruct i; try discriminate C. exact (f_equal Some A).
  - specialize (A (b "inherited-used")). rewrite <- app_assoc in A. destruct u, i; try discriminate C. exact (f_equal Some A).
  - specialize (A (b "inherited-unused")). rewrite <- app_assoc in A. destruct u, i; try discriminate C. exact (f_equal Some A).
Qed.
Lemma persisted_bad_condition name i u pat c rules : path_match name pat = true -> (forall cd rest, c <> condition_text cd ++ b "=" ++ rest) ->
  persisted path_match name i u ((pat, c) :: rules) = Some Invalid.
Proof.
  intros M N. cbn [persisted]. rewrite M. cbn [negb].
  assert (F : forall cd, at_is c 0 (condition_text cd ++ b "=") = false).
  { intro cd. destruct (at_is c 0 _) eqn:E; [|reflexivity]. apply at_is_0 in E. destruct E as [r E]. exfalso. apply (N cd r). rewrite E, <- app_assoc. reflexivity. }
  pose proof (F CUnused) as F1. pose proof (F CInherited) as F2. pose proof (F CInheritedUsed) as F3. pose proof (F CInheritedUnused) as F4.
  cbn [condition_text] in *. change (b "unused" ++ b "=") with (b "unused=") in F1. change (b "inherited" ++ b "=") with (b "inherited=") in F2.
  change (b "inherited-used" ++ b "=") with (b "inherited-used=") in F3. change (b "inherited-unused" ++ b "=") with (b "inherited-unused=") in F4.
  rewrite F1, F2, F3, F4. reflexivity.
Qed.
Lemma action_bad s rest : (forall sv w, rest <> (if sv : bool then b "save" else b "drop") ++ (if w : bool then b "+warn" else [])) -> action (s ++ rest) (length s) = Invalid.
Proof.
  intro H. unfold action. rewrite !at_is_app. rewrite app_length.
  assert (G : forall (sv : bool) (x : bytes), x = (if sv then b "save" else b "drop") -> forall r, rest = x ++ r ->
    (if length s + 4 =? length s + length rest then Decided sv false else if beqb (skipn (length s + 4) (s ++ rest)) (b "+warn") then Decided sv true else Invalid) = Invalid).
  { intros sv x Ex r Er. assert (L : length x = 4) by (subst x; destruct sv; reflexivity).
    destruct (length s + 4 =? length s + length rest) eqn:E1.
    - apply Nat.eqb_eq in E1. rewrite Er, app_length, L in E1. destruct r; [|cbn in E1; lia]. exfalso. apply (H sv false). rewrite Er, Ex. reflexivity.
    - destruct (beqb _ _) eqn:E2; [|reflexivity]. apply beqb_eq in E2. exfalso. apply (H sv true). rewrite Er, Ex in *.
      rewrite skipn_app, skipn_all2 in E2 by lia. replace (length s + 4 - length s) with 4 in E2 by lia. cbn [app] in E2.
      rewrite skipn_app, skipn_all2 in E2 by (rewrite <- Ex in *; lia). rewrite L in E2. cbn in E2. rewrite E2. reflexivity. }
  destruct (at_is rest 0 (b "save")) eqn:E1; [apply at_is_0 in E1; destruct E1 as [r E1]; apply (G true _ eq_refl r E1)|].
  destruct (at_is rest 0 (b "drop")) eqn:E2; [apply at_is_0 in E2; destruct E2 as [r E2]; apply (G false _ eq_refl r E2) | reflexivity].
Qed.
Lemma persisted_bad_action name i u pat cd rest rules : path_match name pat = true -> concerns cd i u = true ->
  (forall sv w, rest <> (if sv : bool then b "save" else b "drop") ++ (if w : bool then b "+warn" else [])) ->
  persisted path_match name i u ((pat, condition_text cd ++ b "=" ++ rest) :: rules) = Some Invalid.
Proof.
  intros M C H. cbn [persisted]. rewrite M. cbn [negb].
  assert (A : forall s, action ((s ++ b "=") ++ rest) (length (s ++ b "=")) = Invalid) by (intro; apply action_bad; exact H).
  destruct cd.
  - specialize (A (b "unused")). rewrite <- app_assoc in A. destruct u, i; try discriminate C. exact (f_equal Some A).
  - specialize (A (b "inherited")). rewrite <- app_assoc in A. destruct i; try discriminate C. exact (f_equal Some A).
  - specialize (A (b "inherited-used")). rewrite <- app_assoc in A. destruct u, i; try discriminate C. exact (f_equal Some A).
  - specialize (A (b "inherited-unused")). rewrite <- app_assoc in A. destruct u, i; try discriminate C. exact (f_equal Some A).
Qed.
End P.

(* Modules. *)
Lemma is_sup_iff m k : is_sup m k = true <-> encloses m k.
Proof.
  unfold is_sup, encloses. rewrite !Bool.orb_true_iff, Bool.andb_true_iff, beqb_eq, Nat.eqb_eq, at_is_0, ceqb_eq. split.
  - intros [[H | H] | [[r ->] H]]; [auto | destruct m; [auto | discriminate]|]. right. right.
    rewrite app_nth2, Nat.sub_diag in H by lia. destruct r as [|c r]; [discriminate H|]. cbn in H. subst c. exists r. reflexivity.
  - intros [H | [-> | [r ->]]]; [auto | auto|]. right. split; [exists (DOT :: r); reflexivity|]. rewrite app_nth2, Nat.sub_diag by lia. reflexivity.
Qed.
Lemma encloses_trans x y z : encloses x y -> encloses y z -> encloses x z.
Proof.
  unfold encloses. intros Hx Hy. destruct Hy as [<- | [-> | [q ->]]]; [exact Hx | |].
  - right. left. destruct Hx as [H | [H | [r H]]]; [exact H | exact H | destruct x; discriminate].
  - destruct Hx as [-> | [-> | [r ->]]]; right; [right; exists q; reflexivity | left; reflexivity | right; exists (r ++ DOT :: q); rewrite <- app_assoc; reflexivity].
Qed.
(* Of two that enclose the same the shorter encloses the longer. *)
Lemma encloses_shorter x y k : encloses x k -> encloses y k -> length x <= length y -> encloses x y.
Proof.
  unfold encloses. intros Hx Hy L. destruct x as [|a x]; [auto|]. destruct y as [|c y]; [cbn in L; lia|].
  assert (P : forall u v w z : bytes, u ++ v = w ++ z -> length u <= length w -> exists t, w = u ++ t /\ v = t ++ z).
  { clear. intros u. induction u as [|p u IH]; intros v w z E H; cbn in *; [exists w; auto|].
    destruct w as [|q w]; [cbn in H; lia|]. injection E as -> E. destruct (IH v w z E ltac:(cbn in H; lia)) as (t & -> & ->). exists t. auto. }
  destruct Hx as [Hx | [Hx | [r Hx]]]; [| discriminate |]; (destruct Hy as [Hy | [Hy | [q Hy]]]; [| discriminate |]).
  - left. congruence.
  - rewrite <- Hx in Hy. rewrite Hy, app_length in L. cbn in L. lia.
  - right. right. exists r. congruence.
  - rewrite Hx in Hy. destruct (P _ _ _ _ Hy L) as (t & E1 & E2). destruct t as [|d t].
    + left. rewrite app_nil_r in E1. congruence.
    + right. right. cbn in E2. injection E2 as <- _. exists t. exact E1.
Qed.
Lemma encloses_length x y : encloses x y -> length x <= length y.
Proof. unfold encloses. intros [-> | [-> | [r ->]]]; [lia | cbn; lia | rewrite app_length; lia]. Qed.

Section M.
Context {V N : Type}.
Notation smodule := (@smodule V N).
Notation saved := (@saved V N).
Lemma find_sup_some k (ms : list smodule) n : find_sup k ms = Some n -> encloses n k /\ In n (map mname ms) /\ forall m, In m ms -> encloses (mname m) k -> length (mname m) <= length n.
Proof.
  revert n. induction ms as [|m ms IH]; intros n H; [discriminate|]. cbn [find_sup] in H. destruct (is_sup (mname m) k) eqn:S.
  - apply is_sup_iff in S. destruct (find_sup k ms) as [q|] eqn:F.
    + destruct (IH q eq_refl) as (E & I & L). destruct (length (mname m) <? length q) eqn:C.
      * injection H as <-. apply Nat.ltb_lt in C. repeat split; [exact E | right; exact I|]. intros x [<- | Ix] Ex; [lia | auto].
      * injection H as <-. apply Nat.ltb_ge in C. repeat split; [exact S | left; reflexivity|]. intros x [<- | Ix] Ex; [lia|]. specialize (L x Ix Ex). lia.
    + injection H as <-. repeat split; [exact S | left; reflexivity|]. intros x [<- | Ix] Ex; [lia|]. exfalso. clear IH S. induction ms as [|y ms IH]; [destruct Ix|].
      cbn [find_sup] in F. destruct (is_sup (mname y) k) eqn:S; [destruct (find_sup k ms) as [q|]; [destruct (_ <? _)|]; discriminate|].
      destruct Ix as [<- | Ix]; [apply is_sup_iff in Ex; congruence | auto].
  - destruct (IH n H) as (E & I & L). repeat split; [exact E | right; exact I|]. intros x [<- | Ix] Ex; [apply is_sup_iff in Ex; congruence | auto].
Qed.
Lemma find_sup_none k (ms : list smodule) : find_sup k ms = None <-> forall m, In m ms -> ~ encloses (mname m) k.
Proof.
  induction ms as [|m ms IH]; [split; [intros _ x [] | reflexivity]|]. cbn [find_sup]. destruct (is_sup (mname m) k) eqn:S.
  - split; [destruct (find_sup k ms) as [q|]; [destruct (_ <? _)|]; discriminate|]. intro H. exfalso. apply (H m); [left; reflexivity | apply is_sup_iff; exact S].
  - rewrite IH. split; intros H x; [intros [<- | I]; [intro E; apply is_sup_iff in E; congruence | auto] | intro I; apply H; right; exact I].
Qed.
(* find_sup is determined by these. *)
Lemma find_sup_intro k (ms : list smodule) n : In n (map mname ms) -> encloses n k -> (forall m, In m ms -> encloses (mname m) k -> length (mname m) <= length n) -> find_sup k ms = Some n.
Proof.
  intros I E L. destruct (find_sup k ms) as [q|] eqn:F.
  - destruct (find_sup_some _ _ _ F) as (Eq & Iq & Lq). f_equal. apply in_map_iff in I. destruct I as (m & <- & Im). apply in_map_iff in Iq. destruct Iq as (m' & <- & Im').
    pose proof (Lq m Im E) as L1. pose proof (L m' Im' Eq) as L2.
    pose proof (encloses_shorter _ _ _ E Eq L1) as X. destruct X as [X | [X | [r X]]]; [congruence | | rewrite X, app_length in L2; cbn in L2; lia].
    rewrite X in L2. cbn in L2. destruct (mname m'); [congruence | cbn in L2; lia].
  - exfalso. apply in_map_iff in I. destruct I as (m & <- & Im). exact (proj1 (find_sup_none _ _) F m Im E).
Qed.

Lemma find_module_some n (ms : list smodule) m : find_module n ms = Some m -> In m ms /\ mname m = n.
Proof. intro H. apply find_some in H. destruct H as [I E]. apply beqb_eq in E. auto. Qed.
Lemma find_module_none n (ms : list smodule) : find_module n ms = None <-> ~ In n (map mname ms).
Proof.
  unfold find_module. split.
  - intros H I. apply in_map_iff in I. destruct I as (m & <- & I). apply (find_none _ _ H) in I. rewrite beqb_refl in I. discriminate.
  - intro H. destruct (find _ ms) as [m|] eqn:F; [|reflexivity]. apply find_some in F. destruct F as [I E]. apply beqb_eq in E. exfalso. apply H. apply in_map_iff. eauto.
Qed.
Lemma find_module_unique n (ms : list smodule) m : NoDup (map mname ms) -> In m ms -> mname m = n -> find_module n ms = Some m.
Proof.
  intros D I E. destruct (find_module n ms) as [x|] eqn:F.
  - apply find_module_some in F. destruct F as [Ix Ex]. f_equal. revert I Ix D. clear -E Ex. induction ms as [|y ms IH]; intros I Ix D; [destruct I|]. cbn in D. apply NoDup_cons_iff in D. destruct D as [Dn D].
    destruct I as [-> | I], Ix as [-> | Ix]; auto; exfalso; apply Dn; apply in_map_iff; eexists; (split; [|eassumption]); congruence.
  - exfalso. apply find_module_none in F. apply F. apply in_map_iff. eauto.
Qed.
Lemma find_saved_some v (l : list saved) s : find_saved v l = Some s -> In s l /\ svar s = v.
Proof. intro H. apply find_some in H. destruct H as [I E]. apply beqb_eq in E. auto. Qed.
Lemma find_saved_none v (l : list saved) : find_saved v l = None <-> ~ In v (map svar l).
Proof.
  unfold find_saved. split.
  - intros H I. apply in_map_iff in I. destruct I as (m & <- & I). apply (find_none _ _ H) in I. rewrite beqb_refl in I. discriminate.
  - intro H. destruct (find _ l) as [m|] eqn:F; [|reflexivity]. apply find_some in F. destruct F as [I E]. apply beqb_eq in E. exfalso. apply H. apply in_map_iff. eauto.
Qed.

Lemma module_name_encloses v : encloses (module_name v) v.
Proof.
  unfold module_name. assert (G : forall s i j, find_dot s i = Some j -> exists x y, s = x ++ DOT :: y /\ j = i + length x).
  { induction s as [|c s IH]; intros i j H; [discriminate|]. cbn in H. destruct (ceqb c DOT) eqn:E.
    - injection H as <-. apply ceqb_eq in E. subst c. exists [], s. cbn. split; [reflexivity | lia].
    - apply IH in H. destruct H as (x & y & -> & ->). exists (c :: x), y. cbn. split; [reflexivity | lia]. }
  destruct (find_dot (skipn 7 v) 7) as [i|] eqn:F; [|left; reflexivity]. apply G in F. destruct F as (x & y & E & ->).
  assert (L : 7 <= length v). { apply Nat.nlt_ge. intro L. rewrite skipn_all2 in E by lia. destruct x; discriminate. }
  right. right. exists y. rewrite <- (firstn_skipn 7 v) at 1 2. rewrite E. rewrite firstn_app. rewrite firstn_length_le by lia.
  rewrite (firstn_all2 (firstn 7 v)) by (rewrite firstn_length_le; lia). replace (7 + length x - 7) with (length x) by lia.
  rewrite firstn_app, Nat.sub_diag, firstn_all, firstn_O, app_nil_r, <- app_assoc. reflexivity.
Qed.

Definition valid (ms : list smodule) : Prop :=
  NoDup (map mname ms) /\ forall m, In m ms -> NoDup (map svar (svars m)) /\ forall s, In s (svars m) -> find_sup (svar s) ms = Some (mname m).

Lemma insert_module_names n p (ms : list smodule) : NoDup (map mname ms) -> NoDup (map mname (insert_module n p ms)).
Proof.
  intro D. unfold insert_module. destruct (find_module n ms) eqn:F; [exact D|]. apply find_module_none in F. rewrite map_app. cbn.
  apply (Permutation_NoDup (l := n :: map mname ms)); [apply Permutation_cons_append | constructor; assumption].
Qed.
Lemma add_saved_names n s (ms : list smodule) : map mname (add_saved n s ms) = map mname ms.
Proof. induction ms as [|m ms IH]; [reflexivity|]. cbn. destruct (beqb (mname m) n); cbn; [reflexivity | rewrite IH; reflexivity]. Qed.
Lemma find_sup_names k (ms ms' : list smodule) : map mname ms = map mname ms' -> find_sup k ms = find_sup k ms'.
Proof.
  revert ms'. induction ms as [|m ms IH]; intros [|m' ms'] E; try discriminate; [reflexivity|]. cbn in E. injection E as E1 E2. cbn. rewrite E1, (IH ms' E2). reflexivity.
Qed.
Lemma add_saved_In n s (ms : list smodule) m : In m (add_saved n s ms) -> In m ms \/ exists m0, In m0 ms /\ mname m0 = n /\ m = mksmodule (mname m0) (prio m0) (svars m0 ++ [s]).
Proof.
  induction ms as [|x ms IH]; cbn; [tauto|]. destruct (beqb (mname x) n) eqn:E; cbn.
  - apply beqb_eq in E. intros [<- | I]; [right; exists x; auto | auto].
  - intros [<- | I]; [auto|]. apply IH in I. destruct I as [I | (m0 & I & H)]; [auto | right; exists m0; tauto].
Qed.
Lemma add_saved_find n s (ms : list smodule) k : find_module k (add_saved n s ms) = match find_module k ms with Some m => Some (if beqb (mname m) n then mksmodule (mname m) (prio m) (svars m ++ [s]) else m) | None => None end.
Proof.
  induction ms as [|x ms IH]; [reflexivity|]. unfold find_module in *. cbn. destruct (beqb (mname x) n) eqn:E; cbn.
  - destruct (beqb (mname x) k) eqn:K; [rewrite E; reflexivity|]. 
    destruct (find _ ms) as [m|] eqn:F; [|reflexivity]. destruct (beqb (mname m) n) eqn:E'; [|reflexivity]. exfalso.
    apply find_some in F. destruct F as [_ F]. apply beqb_eq in F, E, E'. assert (X : mname x = k) by congruence. rewrite X, beqb_refl in K. discriminate.
  - destruct (beqb (mname x) k); [rewrite E; reflexivity | exact IH].
Qed.

(* After making sure there is a module for k, the modules of others are the same. *)
Lemma ensure_sup k (ms : list smodule) : find_sup k ms = None ->
  find_sup k (insert_module (module_name k) 0 ms) = Some (module_name k) /\
  (forall u n, find_sup u ms = Some n -> find_sup u (insert_module (module_name k) 0 ms) = Some n) /\
  insert_module (module_name k) 0 ms = ms ++ [mksmodule (module_name k) 0 []].
Proof.
  intro H. pose proof (proj1 (find_sup_none _ _) H) as No. pose proof (module_name_encloses k) as Ek.
  assert (F : find_module (module_name k) ms = None).
  { apply find_module_none. intro I. apply in_map_iff in I. destruct I as (m & E & I). apply (No m I). rewrite E. exact Ek. }
  assert (I : insert_module (module_name k) 0 ms = ms ++ [mksmodule (module_name k) 0 []]) by (unfold insert_module; rewrite F; reflexivity).
  rewrite I. split; [|split; [|reflexivity]].
  - apply find_sup_intro; [rewrite map_app; apply in_or_app; right; left; reflexivity | exact Ek|].
    intros m Im Em. apply in_app_iff in Im. destruct Im as [Im | [<- | []]]; [exfalso; exact (No m Im Em) | cbn; lia].
  - intros u n Hu. destruct (find_sup_some _ _ _ Hu) as (E & In_ & L). apply find_sup_intro; [rewrite map_app; apply in_or_app; left; exact In_ | exact E|].
    intros m Im Em. apply in_app_iff in Im. destruct Im as [Im | [<- | []]]; [auto|]. cbn in *.
    apply Nat.nlt_ge. intro Lt. apply in_map_iff in In_. destruct In_ as (m & <- & Im). apply (No m Im).
    apply (encloses_trans _ (module_name k)); [|exact Ek]. apply (encloses_shorter _ _ u); [exact E | exact Em | lia].
Qed.

(* save_variable () in other words. *)
Lemma save_variable_cases s (ms ms' : list smodule) : NoDup (map mname ms) -> save_variable s ms = Some ms' ->
  (exists t, find_variable (svar s) ms = Some t /\ ms' = ms) \/
  (find_variable (svar s) ms = None /\ exists ms1 n, NoDup (map mname ms1) /\ find_sup (svar s) ms1 = Some n /\ ms' = add_saved n s ms1 /\ find_saved (svar s) (match find_module n ms1 with Some m => svars m | None => [] end) = None /\ In n (map mname ms1) /\
    ((ms1 = ms) \/ (find_sup (svar s) ms = None /\ n = module_name (svar s) /\ ms1 = ms ++ [mksmodule n 0 []]))).
Proof.
  intros D H. unfold save_variable in H. unfold find_variable. destruct (find_sup (svar s) ms) as [n|] eqn:F.
  - destruct (find_sup_some _ _ _ F) as (_ & I & _). destruct (find_module n ms) as [m|] eqn:G; [|exfalso; apply find_module_none in G; contradiction].
    destruct (find_saved (svar s) (svars m)) as [t|] eqn:S.
    + left. exists t. split; [reflexivity|]. destruct (sflags t), (sflags s); try discriminate; [destruct (flags_eqb _ _); [congruence | discriminate] | congruence].
    + injection H as <-. right. split; [reflexivity|]. exists ms, n. rewrite G. repeat split; auto.
  - destruct (ensure_sup _ _ F) as (E1 & _ & E3). rewrite E3 in *.
    assert (D' : NoDup (map mname (ms ++ [mksmodule (module_name (svar s)) 0 []]))) by (rewrite <- E3; apply insert_module_names; exact D).
    assert (I : In (module_name (svar s)) (map mname (ms ++ [mksmodule (V:=V) (N:=N) (module_name (svar s)) 0 []]))) by (rewrite map_app; apply in_or_app; right; left; reflexivity).
    assert (G : find_module (module_name (svar s)) (ms ++ [mksmodule (module_name (svar s)) 0 []]) = Some (mksmodule (module_name (svar s)) 0 [])).
    { apply find_module_unique; [exact D' | apply in_or_app; right; left; reflexivity | reflexivity]. }
    rewrite G in H. cbn in H. injection H as <-. right. split; [reflexivity|]. eexists _, _. rewrite G. repeat split; eauto.
Qed.
Lemma save_variable_valid s (ms ms' : list smodule) : valid ms -> save_variable s ms = Some ms' -> valid ms'.
Proof.
  intros Hv H. pose proof Hv as [D C]. destruct (save_variable_cases _ _ _ D H) as [(t & _ & ->) | (_ & ms1 & n & D1 & F1 & -> & S1 & I1 & Cs)]; [exact Hv|].
  assert (V1 : valid ms1).
  { destruct Cs as [-> | (F & -> & ->)]; [exact Hv|]. split; [exact D1|]. destruct (ensure_sup _ _ F) as (_ & E2 & E3). rewrite <- E3.
    intros m I. rewrite E3 in I. apply in_app_iff in I. destruct I as [I | [<- | []]]; [|split; [constructor | contradiction]].
    destruct (C m I) as [C1 C2]. split; [exact C1|]. intros x Ix. apply E2. apply C2. exact Ix. }
  split; [rewrite add_saved_names; exact D1|]. intros m I. apply add_saved_In in I.
  assert (Fs : forall k, find_sup k (add_saved n s ms1) = find_sup k ms1) by (intro k; apply find_sup_names; apply add_saved_names).
  destruct I as [I | (m0 & I0 & E0 & ->)].
  - destruct (proj2 V1 m I) as [C1 C2]. split; [exact C1|]. intros x Ix. rewrite Fs. apply C2. exact Ix.
  - destruct (proj2 V1 m0 I0) as [C1 C2]. cbn. split.
    + rewrite map_app. cbn. apply (Permutation_NoDup (l := svar s :: map svar (svars m0))); [apply Permutation_cons_append|]. constructor; [|exact C1].
      rewrite (find_module_unique n ms1 m0 D1 I0 E0) in S1. apply find_saved_none in S1. exact S1.
    + intros x Ix. rewrite Fs. apply in_app_iff in Ix. destruct Ix as [Ix | [<- | []]]; [apply C2; exact Ix | rewrite E0; exact F1].
Qed.
Lemma save_module_valid n p (ms : list smodule) : valid ms -> all_saved ms = [] -> valid (save_module n p ms) /\ all_saved (save_module n p ms) = [].
Proof.
  intros [D C] E. unfold save_module. set (k := b "config." ++ n).
  assert (Em : forall m, In m ms -> svars m = []).
  { intros m I. unfold all_saved in E. clear -I E. induction ms as [|x ms IH]; [destruct I|]. cbn in E. apply app_eq_nil in E. destruct E as [E1 E2].
    destruct I as [-> | I]; [destruct (svars m); [reflexivity | discriminate] | auto]. }
  assert (Ei : forall m, In m (insert_module k p ms) -> svars m = []).
  { intros m I. unfold insert_module in I. destruct (find_module k ms); [auto|]. apply in_app_iff in I. destruct I as [I | [<- | []]]; [auto | reflexivity]. }
  split; [split; [apply insert_module_names; exact D|]|].
  - intros m I. rewrite (Ei m I). split; [constructor | contradiction].
  - unfold all_saved. clear -Ei. induction (insert_module k p ms) as [|x l IH]; [reflexivity|]. cbn. rewrite (Ei x) by (left; reflexivity). cbn. apply IH. intros m I. apply Ei. right. exact I.
Qed.
Lemma valid_unique (ms : list smodule) : valid ms -> NoDup (all_saved ms).
Proof.
  intros [D C]. unfold all_saved.
  assert (G : forall l, incl l ms -> NoDup (map mname l) -> NoDup (flat_map (fun m => map svar (svars m)) l)).
  { induction l as [|m l IH]; intros Sub Dl; [constructor|]. cbn in *. apply NoDup_cons_iff in Dl. destruct Dl as [Dn Dl].
    assert (Im : In m ms) by (apply Sub; left; reflexivity).
    assert (Sl : incl l ms) by (intros x I; apply Sub; right; exact I).
    specialize (IH Sl Dl). destruct (C m Im) as [C1 C2].
    assert (Disj : forall v, In v (map svar (svars m)) -> ~ In v (flat_map (fun m => map svar (svars m)) l)).
    { intros v I J. apply in_map_iff in I. destruct I as (s & <- & Is). apply in_flat_map in J. destruct J as (m' & Im' & Iv). apply in_map_iff in Iv. destruct Iv as (s' & Ev & Is').
      destruct (C m' (Sl m' Im')) as [_ C2']. specialize (C2 s Is). specialize (C2' s' Is'). rewrite Ev in C2'. rewrite C2 in C2'. injection C2' as E. apply Dn. rewrite E. apply in_map. exact Im'. }
    clear -C1 IH Disj. induction (map svar (svars m)) as [|v k IHk]; [exact IH|]. cbn. apply NoDup_cons_iff in C1. destruct C1 as [Cn C1].
    constructor; [intro I; apply in_app_iff in I; destruct I as [I | I]; [contradiction | apply (Disj v); [left; reflexivity | exact I]]|].
    apply IHk; [exact C1 | intros u I; apply Disj; right; exact I]. }
  apply G; [apply incl_refl | exact D].
Qed.
(* Looking up after saving. *)
Lemma find_variable_saved s (ms ms' : list smodule) : NoDup (map mname ms) -> save_variable s ms = Some ms' -> find_variable (svar s) ms' <> None.
Proof.
  intros D H. destruct (save_variable_cases _ _ _ D H) as [(t & E & ->) | (_ & ms1 & n & D1 & F1 & -> & S1 & I1 & _)]; [congruence|].
  unfold find_variable. rewrite (find_sup_names _ _ ms1 (add_saved_names _ _ _)), F1, add_saved_find.
  destruct (find_module n ms1) as [m|] eqn:G; [|exfalso; apply find_module_none in G; contradiction]. apply find_module_some in G. destruct G as [_ G]. subst n. rewrite beqb_refl. cbn.
  intro X. apply find_saved_none in X. apply X. rewrite map_app. apply in_or_app. right. left. reflexivity.
Qed.
Lemma find_variable_other s (ms ms' : list smodule) v : NoDup (map mname ms) -> save_variable s ms = Some ms' -> v <> svar s -> find_variable v ms' = find_variable v ms.
Proof.
  intros D H Nv. destruct (save_variable_cases _ _ _ D H) as [(t & E & ->) | (_ & ms1 & n & D1 & F1 & -> & S1 & I1 & Cs)]; [reflexivity|].
  assert (A : find_variable v (add_saved n s ms1) = find_variable v ms1).
  { unfold find_variable. rewrite (find_sup_names _ _ ms1 (add_saved_names _ _ _)). destruct (find_sup v ms1) as [k|]; [|reflexivity]. rewrite add_saved_find.
    destruct (find_module k ms1) as [m|]; [|reflexivity]. destruct (beqb (mname m) n); [|reflexivity]. cbn. unfold find_saved. clear -Nv. induction (svars m) as [|x l IH]; cbn.
    - destruct (beqb (svar s) v) eqn:E; [apply beqb_eq in E; congruence | reflexivity].
    - destruct (beqb (svar x) v); [reflexivity | exact IH]. }
  rewrite A. destruct Cs as [-> | (F & -> & ->)]; [reflexivity|]. destruct (ensure_sup _ _ F) as (_ & E2 & E3). rewrite <- E3. unfold find_variable.
  destruct (find_sup v ms) as [k|] eqn:Fv.
  - rewrite (E2 v k Fv). rewrite E3. unfold find_module. 
    assert (Ik : In k (map mname ms)) by (apply (find_sup_some _ _ _ Fv)). apply in_map_iff in Ik. destruct Ik as (m & Em & Im).
    assert (G1 : find_module k ms = Some m) by (apply find_module_unique; assumption).
    assert (G2 : find_module k (ms ++ [mksmodule (module_name (svar s)) 0 []]) = Some m).
    { apply find_module_unique; [exact D1 | apply in_or_app; left; exact Im | exact Em]. }
    unfold find_module in G1, G2. rewrite G1, G2. reflexivity.
  - destruct (find_sup v (insert_module (module_name (svar s)) 0 ms)) as [k|] eqn:Fk; [|reflexivity].
    destruct (find_sup_some _ _ _ Fk) as (Ek & Ik & _). rewrite E3 in *. rewrite map_app in Ik. apply in_app_iff in Ik. destruct Ik as [Ik | [<- | []]].
    + exfalso. apply in_map_iff in Ik. destruct Ik as (m & <- & Im). exact (proj1 (find_sup_none _ _) Fv m Im Ek).
    + cbn. rewrite (find_module_unique _ _ (mksmodule (module_name (svar s)) 0 []) D1); [reflexivity | apply in_or_app; right; left; reflexivity | reflexivity].
Qed.
Lemma save_variable_names s (ms ms' : list smodule) : NoDup (map mname ms) -> save_variable s ms = Some ms' -> NoDup (map mname ms').
Proof.
  intros D H. destruct (save_variable_cases _ _ _ D H) as [(t & E & ->) | (_ & ms1 & n & D1 & _ & -> & _)]; [exact D|]. rewrite add_saved_names. exact D1.
Qed.
End M.
