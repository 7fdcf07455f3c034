(* Proofs about the in rule: substitution. *)
From Verif Require Import Base InModel InSpec.
From Coq Require Import Lia.

(* Newlines. *)
Lemma find_some c s n : find c s = Some n -> exists a r, s = a ++ c :: r /\ ~ In c a /\ n = length a.
Proof.
  revert n. induction s as [|x s IH]; intros n E; [discriminate E|]. cbn [find] in E. destruct (ceqb x c) eqn:X.
  - injection E as <-. apply ceqb_eq in X. subst x. exists [], s. repeat split; auto.
  - destruct (find c s) as [m|]; [|discriminate E]. injection E as <-. destruct (IH m eq_refl) as (a & r & -> & N & ->). exists (x :: a), r. split; [reflexivity|]. split; [|reflexivity].
    intros [->|H]; [rewrite (proj2 (ceqb_eq c c) eq_refl) in X; discriminate X|contradiction].
Qed.
Lemma find_none c s : find c s = None -> ~ In c s.
Proof.
  induction s as [|x s IH]; intros E H; [exact H|]. cbn [find] in E. destruct (ceqb x c) eqn:X; [discriminate E|]. destruct (find c s); [discriminate E|]. destruct H as [->|H]; [|exact (IH eq_refl H)].
  rewrite (proj2 (ceqb_eq c c) eq_refl) in X. discriminate X.
Qed.
Lemma find_first c a r : ~ In c a -> find c (a ++ c :: r) = Some (length a).
Proof.
  induction a as [|x a IH]; intros N; cbn [app find length]; [rewrite (proj2 (ceqb_eq c c) eq_refl); reflexivity|].
  destruct (ceqb x c) eqn:X; [apply ceqb_eq in X; subst; exfalso; apply N; left; reflexivity|]. rewrite IH; [reflexivity|]. intros H. apply N. right. exact H.
Qed.
Lemma find_not c s : ~ In c s -> find c s = None.
Proof. intros N. destruct (find c s) eqn:E; [|reflexivity]. apply find_some in E. destruct E as (a & r & -> & _). exfalso. apply N. apply in_app_iff. right. left. reflexivity. Qed.
Lemma skipn_here {A} (a r : list A) : skipn (length a) (a ++ r) = r.
Proof. rewrite skipn_app, skipn_all, Nat.sub_diag. reflexivity. Qed.
Lemma firstn_here {A} (a r : list A) : firstn (length a) (a ++ r) = a.
Proof. rewrite firstn_app, firstn_all, Nat.sub_diag. apply app_nil_r. Qed.
Lemma with_newlines_none nl v : ~ In NL v -> with_newlines nl v = v.
Proof.
  induction v as [|c v IH]; intros N; [reflexivity|]. cbn [with_newlines]. assert (NV : ~ In NL v) by (intros H; apply N; right; exact H). specialize (IH NV).
  destruct (ceqb c NL) eqn:E; [apply ceqb_eq in E; subst; exfalso; apply N; left; reflexivity|]. destruct v as [|c2 v]; [reflexivity|].
  destruct (ceqb c2 NL) eqn:E2; [apply ceqb_eq in E2; subst; exfalso; apply NV; left; reflexivity|]. rewrite andb_false_r, IH. reflexivity.
Qed.
Lemma with_newlines_crlf nl a r : ~ In NL a -> with_newlines nl (a ++ CR :: NL :: r) = a ++ nl ++ with_newlines nl r.
Proof.
  induction a as [|c a IH]; intros N; [reflexivity|]. cbn [app with_newlines]. assert (NV : ~ In NL a) by (intros H; apply N; right; exact H). specialize (IH NV).
  destruct (ceqb c NL) eqn:E; [apply ceqb_eq in E; subst; exfalso; apply N; left; reflexivity|]. cbn [app with_newlines] in IH. destruct a as [|c2 a]; cbn [app] in *.
  - rewrite andb_false_r. rewrite <- IH. reflexivity.
  - destruct (ceqb c2 NL) eqn:E2; [apply ceqb_eq in E2; subst; exfalso; apply NV; left; reflexivity|]. rewrite andb_false_r, IH. reflexivity.
Qed.
Lemma with_newlines_lf nl a r : ~ In NL a -> ~ ends_with CR a -> with_newlines nl (a ++ NL :: r) = a ++ nl ++ with_newlines nl r.
Proof.
  induction a as [|c a IH]; intros N L; [reflexivity|]. cbn [app with_newlines]. assert (NV : ~ In NL a) by (intros H; apply N; right; exact H).
  destruct (ceqb c NL) eqn:E; [apply ceqb_eq in E; subst; exfalso; apply N; left; reflexivity|]. destruct a as [|c2 a]; cbn [app] in *.
  - destruct (ceqb c CR) eqn:E2; [apply ceqb_eq in E2; subst; exfalso; apply L; exists []; reflexivity|]. cbn [andb]. rewrite (IH (fun H => H)); [reflexivity|]. intros ([|? ?] & X); discriminate X.
  - destruct (ceqb c2 NL) eqn:E2; [apply ceqb_eq in E2; subst; exfalso; apply NV; left; reflexivity|]. rewrite andb_false_r, IH; [reflexivity|exact NV|]. intros (x & X). apply L. exists (c :: x). rewrite X. reflexivity.
Qed.

Definition newlines (s : bytes) : nat := length (filter (ceqb NL) s).
Lemma newlines_app a z : newlines (a ++ z) = newlines a + newlines z.
Proof. unfold newlines. rewrite filter_app, app_length. reflexivity. Qed.
Lemma newlines_le s : newlines s <= length s.
Proof. apply filter_length_le || (unfold newlines; induction s as [|c s IH]; [reflexivity|]; cbn [filter]; destruct (ceqb NL c); cbn; lia). Qed.
Lemma ends_dec c s : ends_with c s \/ ~ ends_with c s.
Proof.
  destruct s as [|x s] using rev_ind; [right; intros ([|? ?] & X); discriminate X|]. destruct (ceqb x c) eqn:E; [apply ceqb_eq in E; subst; left; exists s; reflexivity|].
  right. intros (r & X). apply app_inj_tail in X. destruct X as [_ X]. subst. rewrite (proj2 (ceqb_eq c c) eq_refl) in E. discriminate E.
Qed.
Lemma ends_snoc c s x : ends_with c (s ++ [x]) <-> x = c.
Proof. split; [intros (r & X); apply app_inj_tail in X; apply X|intros ->; exists s; reflexivity]. Qed.
(* The newline that is found is after x. *)
Lemma replace_lf k nl p x r : find_from NL p (x ++ NL :: r) = Some (length x) -> ~ ends_with CR x ->
  replace_loop (S k) nl p (x ++ NL :: r) = replace_loop k nl (length x + 1) (x ++ nl ++ r).
Proof.
  intros F L. cbn [replace_loop]. rewrite F. assert (T : negb (length x =? 0) && ceqb (nth (length x - 1) (x ++ NL :: r) NUL) CR = false).
  { destruct x as [|y x] using rev_ind; [reflexivity|]. rewrite app_length. cbn [length]. replace (length x + 1 - 1) with (length x) by lia. rewrite <- app_assoc. rewrite app_nth2, Nat.sub_diag by lia. cbn [app nth].
    destruct (ceqb y CR) eqn:E; [|apply andb_false_r]. exfalso. apply L. apply ceqb_eq in E. subst. exists x. reflexivity. }
  rewrite T. unfold replace. rewrite firstn_here. assert (K : skipn (length x + 1) (x ++ NL :: r) = r); [|rewrite K; reflexivity]. change (NL :: r) with ([NL] ++ r). rewrite app_assoc. replace (length x + 1) with (length (x ++ [NL])) by (rewrite app_length; reflexivity). apply skipn_here.
Qed.
Lemma replace_crlf k nl p x r : find_from NL p (x ++ CR :: NL :: r) = Some (length x + 1) ->
  replace_loop (S k) nl p (x ++ CR :: NL :: r) = replace_loop k nl (length x + 2) (x ++ nl ++ r).
Proof.
  intros F. cbn [replace_loop]. rewrite F. replace (length x + 1 - 1) with (length x) by lia. rewrite app_nth2, Nat.sub_diag by lia. cbn [nth]. replace (length x + 1 =? 0) with false by (symmetry; apply Nat.eqb_neq; lia). cbn [negb andb].
  unfold replace. change (ceqb CR CR) with true. cbv iota. rewrite firstn_here. assert (K : skipn (length x + 2) (x ++ CR :: NL :: r) = r); [|rewrite K; reflexivity]. change (CR :: NL :: r) with ([CR; NL] ++ r). rewrite app_assoc. replace (length x + 2) with (length (x ++ [CR; NL])) by (rewrite app_length; reflexivity). apply skipn_here.
Qed.
Lemma find_here don a r : ~ In NL a -> find_from NL (length don) (don ++ a ++ NL :: r) = Some (length don + length a).
Proof. intros N. unfold find_from. rewrite skipn_here, find_first by exact N. reflexivity. Qed.
Lemma find_here_next don c a r : ~ In NL (c :: a) -> find_from NL (length don + 1) (don ++ c :: a ++ NL :: r) = Some (length don + 1 + length a).
Proof.
  intros N. change (c :: a ++ NL :: r) with ([c] ++ a ++ NL :: r). rewrite app_assoc. replace (length don + 1) with (length (don ++ [c])) by (rewrite app_length; reflexivity). rewrite find_here by (intros H; apply N; right; exact H). reflexivity.
Qed.
Lemma replace_next k don x r : replace_loop k [NL] (length don + 1) (don ++ x :: r) = replace_loop k [NL] (length (don ++ [x])) ((don ++ [x]) ++ r).
Proof. rewrite app_length, <- app_assoc. reflexivity. Qed.
Lemma replace_over k nl don : replace_loop k nl (length don + 1) don = don.
Proof. destruct k; [reflexivity|]. cbn [replace_loop]. unfold find_from. rewrite skipn_all2 by lia. reflexivity. Qed.
Lemma split_newline s : (~ In NL s) \/ exists a r, s = a ++ NL :: r /\ ~ In NL a.
Proof. destruct (find NL s) as [n|] eqn:F; [right|left; apply find_none; exact F]. apply find_some in F. destruct F as (a & r & E & N & _). eauto. Qed.
Lemma ends_app c don a : ~ ends_with c don -> ~ ends_with c a -> ~ ends_with c (don ++ a).
Proof. intros D A. destruct a as [|x a] using rev_ind; [rewrite app_nil_r; exact D|]. clear IHa. rewrite app_assoc, ends_snoc. rewrite ends_snoc in A. exact A. Qed.

Lemma replace_loop_lf n : forall rest, newlines rest <= n -> forall k don, 2 * newlines rest < k -> ~ ends_with CR don ->
  replace_loop k [NL] (length don) (don ++ rest) = don ++ with_newlines [NL] rest.
Proof.
  induction n as [|n IH]; intros rest Ln k don K L; destruct (split_newline rest) as [N|(a & r & -> & N)].
  1,3: rewrite with_newlines_none by exact N; destruct k; [reflexivity|]; cbn [replace_loop]; unfold find_from; rewrite skipn_here, find_not by exact N; reflexivity.
  - rewrite newlines_app in Ln. cbn in Ln. lia.
  - rewrite newlines_app in Ln, K. change (newlines (NL :: r)) with (S (newlines r)) in Ln, K. destruct k as [|k]; [lia|]. destruct (ends_dec CR a) as [(a' & ->)|E].
    + rewrite <- app_assoc. cbn [app]. assert (Na : ~ In NL a') by (intros H; apply N; apply in_app_iff; left; exact H). rewrite with_newlines_crlf by exact Na.
      pose proof (find_here don (a' ++ [CR]) r N) as F. rewrite app_length in F. cbn [length] in F. rewrite <- app_assoc in F. cbn [app] in F. rewrite app_assoc in F |- *.
      rewrite replace_crlf by (rewrite F, app_length; f_equal; lia). rewrite app_assoc. replace (length (don ++ a') + 2) with (length ((don ++ a') ++ [NL]) + 1) by (rewrite !app_length; cbn; lia).
      assert (D : ~ ends_with CR ((don ++ a') ++ [NL])) by (rewrite ends_snoc; discriminate). rewrite <- app_assoc. rewrite app_assoc. destruct r as [|x r].
      * rewrite app_nil_r, replace_over. cbn [with_newlines]. rewrite <- !app_assoc. reflexivity.
      * destruct (ceqb x NL) eqn:X.
        -- apply ceqb_eq in X. subst x. rewrite replace_next. rewrite IH; [|change (newlines (NL :: r)) with (S (newlines r)) in Ln; lia|change (newlines (NL :: r)) with (S (newlines r)) in K; lia|rewrite ends_snoc; discriminate].
           cbn [with_newlines]. change (ceqb NL NL) with true. cbv iota. rewrite <- !app_assoc. reflexivity.
        -- assert (Same : replace_loop k [NL] (length ((don ++ a') ++ [NL]) + 1) (((don ++ a') ++ [NL]) ++ x :: r) = replace_loop k [NL] (length ((don ++ a') ++ [NL])) (((don ++ a') ++ [NL]) ++ x :: r)).
           { generalize ((don ++ a') ++ [NL]). intros dn. destruct k as [|k]; [reflexivity|]. cbn [replace_loop]. replace (find_from NL (length dn + 1) (dn ++ x :: r)) with (find_from NL (length dn) (dn ++ x :: r)); [reflexivity|].
             unfold find_from. rewrite skipn_here. change (x :: r) with ([x] ++ r). rewrite app_assoc. replace (length dn + 1) with (length (dn ++ [x])) by (rewrite app_length; reflexivity). rewrite skipn_here. cbn [app find]. rewrite X.
             destruct (find NL r); [|reflexivity]. rewrite app_length. cbn. f_equal. lia. }
           rewrite Same, IH; [|lia|lia|exact D]. rewrite <- !app_assoc. reflexivity.
    + rewrite with_newlines_lf by assumption. pose proof (find_here don a r N) as F. rewrite app_assoc in F |- *. rewrite replace_lf; [|rewrite F, app_length; reflexivity|apply ends_app; assumption].
      replace (length (don ++ a) + 1) with (length ((don ++ a) ++ [NL])) by (rewrite !app_length; cbn; lia). rewrite app_assoc, IH; [|lia|lia|rewrite ends_snoc; discriminate]. rewrite <- !app_assoc. reflexivity.
Qed.
Lemma replace_loop_crlf n : forall rest, newlines rest <= n -> forall k don, 2 * newlines rest < k -> ~ ends_with CR don ->
  replace_loop k [CR; NL] (length don) (don ++ rest) = don ++ with_newlines [CR; NL] rest.
Proof.
  induction n as [|n IH]; intros rest Ln k don K L; destruct (split_newline rest) as [N|(a & r & -> & N)].
  1,3: rewrite with_newlines_none by exact N; destruct k; [reflexivity|]; cbn [replace_loop]; unfold find_from; rewrite skipn_here, find_not by exact N; reflexivity.
  - rewrite newlines_app in Ln. cbn in Ln. lia.
  - rewrite newlines_app in Ln, K. change (newlines (NL :: r)) with (S (newlines r)) in Ln, K. destruct k as [|k]; [lia|].
    assert (Next : forall x, ~ In NL x -> forall k, 2 * newlines r < k -> replace_loop k [CR; NL] (length (don ++ x) + 2) ((don ++ x) ++ [CR; NL] ++ r) = don ++ x ++ [CR; NL] ++ with_newlines [CR; NL] r).
    { intros x Nx k' K'. replace (length (don ++ x) + 2) with (length ((don ++ x) ++ [CR; NL])) by (rewrite !app_length; cbn; lia). rewrite app_assoc. rewrite IH; [|lia|exact K'|].
      - rewrite <- !app_assoc. reflexivity.
      - change [CR; NL] with ([CR] ++ [NL]). rewrite app_assoc, ends_snoc. discriminate. }
    destruct (ends_dec CR a) as [(a' & ->)|E].
    + rewrite <- app_assoc. cbn [app]. assert (Na : ~ In NL a') by (intros H; apply N; apply in_app_iff; left; exact H). rewrite with_newlines_crlf by exact Na.
      pose proof (find_here don (a' ++ [CR]) r N) as F. rewrite app_length in F. cbn [length] in F. rewrite <- app_assoc in F. cbn [app] in F. rewrite app_assoc in F |- *.
      rewrite replace_crlf by (rewrite F, app_length; f_equal; lia). apply Next; [exact Na|lia].
    + rewrite with_newlines_lf by assumption. pose proof (find_here don a r N) as F. rewrite app_assoc in F |- *. rewrite replace_lf; [|rewrite F, app_length; reflexivity|apply ends_app; assumption].
      destruct k as [|k]; [lia|]. rewrite (replace_crlf k _ (length (don ++ a) + 1) (don ++ a) r).
      * apply Next; [exact N|lia].
      * pose proof (find_here_next (don ++ a) CR [] r) as F2. cbn [app length] in F2. rewrite F2; [f_equal; lia|]. intros [H|[]]. discriminate H.
Qed.
Theorem replace_newlines_correct nl v : nl = [NL] \/ nl = [CR; NL] -> replace_newlines nl v = with_newlines nl v.
Proof.
  intros H. unfold replace_newlines. pose proof (newlines_le v). assert (L : ~ ends_with CR []) by (intros ([|? ?] & X); discriminate X).
  destruct H as [-> | ->]; [refine (replace_loop_lf (newlines v) v (Nat.le_refl _) (S (2 * length v)) [] _ L)|refine (replace_loop_crlf (newlines v) v (Nat.le_refl _) (S (2 * length v)) [] _ L)]; lia.
Qed.

(* Names. *)
Lemma in_existsb c l : In c l <-> existsb (ceqb c) l = true.
Proof. rewrite existsb_exists. split; [intros H; exists c; split; [exact H|apply ceqb_eq; reflexivity]|intros (x & H & E); apply ceqb_eq in E; subst; exact H]. Qed.
Lemma letter_alpha c : letter c <-> alpha c = true.
Proof.
  unfold letter. rewrite in_existsb. assert (E : existsb (ceqb c) (list_ascii_of_string "abcdefghijklmnopqrstuvwxyzABCDEFGHIJKLMNOPQRSTUVWXYZ") = alpha c); [|rewrite E; reflexivity].
  destruct c as [[] [] [] [] [] [] [] []]; vm_compute; reflexivity.
Qed.
Lemma number_digit c : number c <-> between "0" "9" c = true.
Proof.
  unfold number. rewrite in_existsb. assert (E : existsb (ceqb c) (list_ascii_of_string "0123456789") = between "0" "9" c); [|rewrite E; reflexivity].
  destruct c as [[] [] [] [] [] [] [] []]; vm_compute; reflexivity.
Qed.
Definition like (f : bool) (n : bytes) : Prop := forall x c z, n = x ++ c :: z -> c = "_"%char \/ letter c \/ (number c /\ (f = false \/ x <> [])) \/ (c = "."%char /\ z <> []).
Lemma variable_name_like n : forall f, variable_name f n = true <-> like f n.
Proof.
  induction n as [|c n IH]; intros f; cbn [variable_name].
  - split; [intros _ [|? ?] ? ? E; discriminate E|reflexivity].
  - assert (Step : like f (c :: n) <-> (c = "_"%char \/ letter c \/ (number c /\ f = false) \/ (c = "."%char /\ n <> [])) /\ like false n).
    { split.
      - intros H. split; [destruct (H [] c n eq_refl) as [X|[X|[(X & [Y|Y])|X]]]; auto; contradiction|]. intros x d z ->. destruct (H (c :: x) d z eq_refl) as [X|[X|[(X & _)|X]]]; auto 8.
      - intros [Hc H] [|y x] d z E; injection E as -> E; [subst n; tauto|]. subst n. destruct (H x d z eq_refl) as [X|[X|[(X & _)|X]]]; auto. right; right; left. split; [exact X|right; discriminate]. }
    rewrite Step, <- IH, letter_alpha, number_digit. assert (U : ceqb c "_" = true <-> c = "_"%char) by apply ceqb_eq. assert (D : ceqb c "." = true <-> c = "."%char) by apply ceqb_eq.
    assert (A : (if f then alpha c else alnum c) = true <-> alpha c = true \/ (between "0" "9" c = true /\ f = false)).
    { unfold alnum. destruct f, (alpha c), (between "0" "9" c); cbn; intuition congruence. }
    destruct (ceqb c "_" || (if f then alpha c else alnum c)) eqn:E1.
    + apply orb_true_iff in E1. rewrite U, A in E1. tauto.
    + apply orb_false_iff in E1. destruct E1 as [E1 E2]. destruct (ceqb c "." && negb (match n with [] => true | _ => false end)) eqn:E3.
      * apply andb_true_iff in E3. destruct E3 as [E3 E4]. apply D in E3. assert (n <> []) by (destruct n; [discriminate E4|discriminate]). tauto.
      * split; [discriminate|]. intros [[X|[X|[X|[X Y]]]] _]; exfalso.
        -- apply U in X. congruence.
        -- assert (Z : (if f then alpha c else alnum c) = true) by (apply A; tauto). congruence.
        -- assert (Z : (if f then alpha c else alnum c) = true) by (apply A; tauto). congruence.
        -- apply D in X. rewrite X in E3. destruct n; [contradiction|discriminate E3].
Qed.
Lemma variable_name_spec n : variable_name true n = true <-> name_like n.
Proof. rewrite variable_name_like. unfold like, name_like. assert (T : true <> false) by discriminate. split; intros H x c z E; specialize (H x c z E); intuition congruence. Qed.

Lemma lookup_value e n v : lookup e n = Some v <-> value_of e n v.
Proof.
  unfold lookup, value_of. destruct (smap e n) as [[w|]|].
  - split; [intros E; left; congruence|]. intros [E|[([E|[E _]] & _)|[E _]]]; congruence.
  - split; [intros E; right; left; split; [left; reflexivity|exact E]|]. intros [E|[(_ & E)|[E _]]]; congruence.
  - destruct (var e n) as [| |w]; (split; [intros E|intros [E|[([E|[_ E]] & F)|[_ E]]]]); try congruence.
    + right; left. split; [right; split; reflexivity|exact E].
    + right; right. split; [reflexivity|]. congruence.
Qed.

(* The other end. *)
Lemma ceqb_same c : ceqb c c = true.
Proof. apply ceqb_eq. reflexivity. Qed.
Lemma ceqb_diff c d : c <> d -> ceqb c d = false.
Proof. intros N. destruct (ceqb c d) eqn:E; [apply ceqb_eq in E; contradiction|reflexivity]. Qed.
Lemma strict_end_sound y s : forall acc nm r, other_end true y acc s = (nm, Some r) -> exists q n, s = q ++ y :: r /\ quoted y q n /\ nm = rev n ++ acc /\ ~ starts_with y r.
Proof.
  assert (G : forall k s, length s <= k -> forall acc nm r, other_end true y acc s = (nm, Some r) -> exists q n, s = q ++ y :: r /\ quoted y q n /\ nm = rev n ++ acc /\ ~ starts_with y r).
  { clear s. induction k as [|k IH]; intros [|c s] L acc nm r E; try discriminate E; [cbn in L; lia|]. cbn [other_end] in E. destruct (ceqb c y) eqn:C.
    - apply ceqb_eq in C. subst c. destruct s as [|c2 s2]; [injection E as <- <-; exists [], []; repeat split; [constructor|intros (? & X); discriminate X]|]. cbn [andb] in E. destruct (ceqb c2 y) eqn:C2.
      + apply ceqb_eq in C2. subst c2. apply IH in E; [|cbn in L; lia]. destruct E as (q & n & -> & Q & -> & S). exists (y :: y :: q), (y :: n). split; [reflexivity|]. split; [constructor; exact Q|]. split; [cbn [rev]; rewrite <- app_assoc; reflexivity|exact S].
      + injection E as <- <-. exists [], []. split; [reflexivity|]. split; [constructor|]. split; [reflexivity|]. intros (? & X). injection X as -> _. rewrite ceqb_same in C2. discriminate C2.
    - apply IH in E; [|cbn in L; lia]. destruct E as (q & n & -> & Q & -> & S). exists (c :: q), (c :: n). split; [reflexivity|]. split; [constructor; [intros ->; rewrite ceqb_same in C; discriminate C|exact Q]|]. split; [cbn [rev]; rewrite <- app_assoc; reflexivity|exact S]. }
  apply (G (length s)). apply Nat.le_refl.
Qed.
Lemma strict_end_complete y q n r : quoted y q n -> ~ starts_with y r -> forall acc, other_end true y acc (q ++ y :: r) = (rev n ++ acc, Some r).
Proof.
  intros Q S. induction Q as [|c q n N Q IH|q n Q IH]; intros acc; cbn [app other_end].
  - rewrite ceqb_same. destruct r as [|c2 r]; [reflexivity|]. cbn [andb]. rewrite ceqb_diff; [reflexivity|]. intros ->. apply S. exists r. reflexivity.
  - rewrite ceqb_diff by exact N. rewrite IH. cbn [rev]. rewrite <- app_assoc. reflexivity.
  - rewrite ceqb_same. cbn [andb]. rewrite IH. cbn [rev]. rewrite <- app_assoc. reflexivity.
Qed.
Lemma lax_end_sound y s : forall acc nm r, other_end false y acc s = (nm, Some r) -> exists n, s = n ++ y :: r /\ ~ In y n /\ nm = rev n ++ acc.
Proof.
  induction s as [|c s IH]; intros acc nm r E; [discriminate E|]. cbn [other_end andb] in E. destruct (ceqb c y) eqn:C.
  - apply ceqb_eq in C. subst c. assert (X : (acc, Some s) = (nm, Some r)) by (destruct s; exact E). injection X as <- <-. exists []. repeat split. intros [].
  - apply IH in E. destruct E as (n & -> & N & ->). exists (c :: n). split; [reflexivity|]. split; [|cbn [rev]; rewrite <- app_assoc; reflexivity]. intros [->|H]; [rewrite ceqb_same in C; discriminate C|contradiction].
Qed.
Lemma lax_end_none y s : forall acc nm, other_end false y acc s = (nm, None) -> ~ In y s.
Proof.
  induction s as [|c s IH]; intros acc nm E; [intros []|]. cbn [other_end andb] in E. destruct (ceqb c y) eqn:C; [destruct s; discriminate E|]. intros [->|H]; [rewrite ceqb_same in C; discriminate C|exact (IH _ _ E H)].
Qed.
Lemma lax_end_complete y n r : ~ In y n -> forall acc, other_end false y acc (n ++ y :: r) = (rev n ++ acc, Some r).
Proof.
  induction n as [|c n IH]; intros N acc; cbn [app other_end andb].
  - rewrite ceqb_same. destruct r; reflexivity.
  - rewrite ceqb_diff by (intros ->; apply N; left; reflexivity). rewrite IH by (intros H; apply N; right; exact H). cbn [rev]. rewrite <- app_assoc. reflexivity.
Qed.
Lemma lax_end_open y s : ~ In y s -> forall acc, snd (other_end false y acc s) = None.
Proof.
  induction s as [|c s IH]; intros N acc; [reflexivity|]. cbn [other_end]. rewrite ceqb_diff by (intros ->; apply N; left; reflexivity). apply IH. intros H. apply N. right. exact H.
Qed.

(* A line. *)
Definition endings (nl : bytes) : Prop := nl = [NL] \/ nl = [CR; NL].
Lemma expands_text e nl t ps l o : expands e nl ps l o -> expands e nl (map Char t ++ ps) l (t ++ o).
Proof. intros H. induction t as [|c t IH]; [exact H|constructor; exact IH]. Qed.
Lemma expands_text_inv e nl t ps l o : expands e nl (map Char t ++ ps) l o -> exists o', o = t ++ o' /\ expands e nl ps l o'.
Proof.
  revert o. induction t as [|c t IH]; intros o H; [exists o; split; [reflexivity|exact H]|]. cbn [map app] in H. inversion H as [|? ? ? o1 H1|]; subst. destruct (IH _ H1) as (o' & -> & H2). exists o'. split; [reflexivity|exact H2].
Qed.
Lemma put_text_some t r l o : put_text t r = (l, Some o) -> exists o', r = (l, Some o') /\ o = t ++ o'.
Proof. destruct r as [l' [o'|]]; intros E; [|discriminate E]. injection E as <- <-. eauto. Qed.
Lemma process_sound e nl : endings nl -> forall k s l o, process k e nl s = (l, Some o) -> exists ps, reads e s ps /\ expands e nl ps l o.
Proof.
  intros Hn. unfold reads. induction k as [|k IH]; intros s l o E; [discriminate E|]. cbn [process] in E. destruct s as [|c r].
  - injection E as <- <-. exists []. split; [destruct (strict e); constructor|constructor].
  - destruct (ceqb c (sym e)) eqn:C.
    + apply ceqb_eq in C. subst c. destruct (other_end (strict e) (sym e) [] r) as [nm [r'|]] eqn:O.
      * destruct nm as [|x nm].
        -- apply put_text_some in E. destruct E as (o' & E & ->). destruct (strict e) eqn:St.
           ++ apply strict_end_sound in O. destruct O as (q & n & -> & Q & N & S). rewrite app_nil_r in N. destruct n as [|z n]; [|cbn in N; symmetry in N; apply app_eq_nil in N; destruct N as [_ N]; discriminate N]. inversion Q; subst.
              destruct (IH _ _ _ E) as (ps & R & X). exists (Char (sym e) :: ps). split; [apply st_escape; assumption|constructor; exact X].
           ++ apply lax_end_sound in O. destruct O as (n & -> & N & Z). rewrite app_nil_r in Z. destruct n as [|z n]; [|cbn in Z; symmetry in Z; apply app_eq_nil in Z; destruct Z as [_ Z]; discriminate Z].
              destruct (IH _ _ _ E) as (ps & R & X). exists (Char (sym e) :: ps). split; [apply lx_double; exact R|constructor; exact X].
        -- unfold substitute in E. destruct (strict e) eqn:St.
           ++ apply strict_end_sound in O. destruct O as (q & n & -> & Q & N & S). rewrite app_nil_r in N. rewrite N, rev_involutive in E. cbn [negb andb] in E.
              assert (Nn : n <> []) by (intros ->; discriminate N). destruct (lookup e n) as [v|] eqn:Lk; [|discriminate E]. destruct (process k e nl r') as [l' o'] eqn:P. destruct o' as [o'|]; [|discriminate E]. injection E as <- <-.
              destruct (IH _ _ _ P) as (ps & R & X). exists (Sub n :: ps). split; [apply st_sub; assumption|]. rewrite replace_newlines_correct by exact Hn. constructor; [apply lookup_value; exact Lk|exact X].
           ++ apply lax_end_sound in O. destruct O as (n & -> & Ny & N). rewrite app_nil_r in N. rewrite N, rev_involutive in E. cbn [negb andb] in E. assert (Nn : n <> []) by (intros ->; discriminate N).
              destruct (variable_name true n) eqn:V; cbn [negb] in E.
              ** destruct (lookup e n) as [v|] eqn:Lk; [|discriminate E]. destruct (process k e nl r') as [l' o'] eqn:P. destruct o' as [o'|]; [|discriminate E]. injection E as <- <-.
                 destruct (IH _ _ _ P) as (ps & R & X). exists (Sub n :: ps). split; [apply lx_sub; [exact Nn|exact Ny|apply variable_name_spec; exact V|exact R]|]. rewrite replace_newlines_correct by exact Hn. constructor; [apply lookup_value; exact Lk|exact X].
              ** apply put_text_some in E. destruct E as (o' & E & ->). destruct (IH _ _ _ E) as (ps & R & X). exists (map Char (sym e :: n ++ [sym e]) ++ ps). split; [apply lx_not; [exact Nn|exact Ny| |exact R]|apply expands_text; exact X].
                 intros H. apply variable_name_spec in H. congruence.
      * assert (E' : (if strict e then ([], None) else ([], Some (sym e :: r))) = (l, Some o)) by (destruct nm; exact E). clear E. rename E' into E. destruct (strict e) eqn:St; [discriminate E|]. injection E as <- <-. apply lax_end_none in O. exists (map Char (sym e :: r)). split; [apply lx_open; exact O|]. rewrite <- (app_nil_r (map Char _)). rewrite <- (app_nil_r (sym e :: r)) at 2. apply expands_text. constructor.
    + apply put_text_some in E. destruct E as (o' & E & ->). destruct (IH _ _ _ E) as (ps & R & X). assert (N : c <> sym e) by (intros ->; rewrite ceqb_same in C; discriminate C). exists (Char c :: ps).
      split; [destruct (strict e); constructor; assumption|constructor; exact X].
Qed.
Lemma process_complete e nl : endings nl -> forall s ps, reads e s ps -> forall l o k, expands e nl ps l o -> length s < k -> process k e nl s = (l, Some o).
Proof.
  intros Hn. unfold reads. destruct (strict e) eqn:St; intros s ps R.
  - induction R as [|c s ps N R IH|s ps Ns R IH|q n s ps Q Nn Ns R IH]; intros l o k X L; (destruct k as [|k]; [lia|]); cbn [process].
    + inversion X; subst. reflexivity.
    + inversion X as [|? ? ? o1 X1|]; subst. rewrite ceqb_diff by exact N. rewrite (IH _ _ _ X1) by (cbn in L; lia). reflexivity.
    + inversion X as [|? ? ? o1 X1|]; subst. rewrite ceqb_same, St. rewrite (strict_end_complete _ _ _ _ (q_none _) Ns [] : other_end true (sym e) [] (sym e :: s) = _). cbn [rev app]. rewrite (IH _ _ _ X1) by (cbn in L; lia). reflexivity.
    + inversion X as [| |? v ? l1 o1 Hv X1]; subst. rewrite ceqb_same, St. rewrite (strict_end_complete _ _ _ _ Q Ns), app_nil_r. destruct (rev n) as [|z m] eqn:Rn; [exfalso; apply Nn; rewrite <- (rev_involutive n), Rn; reflexivity|].
      rewrite <- Rn, rev_involutive. unfold substitute. rewrite St. cbn [negb andb]. apply lookup_value in Hv. rewrite Hv, (IH _ _ _ X1) by (cbn in L; rewrite app_length in L; cbn in L; lia). rewrite replace_newlines_correct by exact Hn. reflexivity.
  - induction R as [|c s ps N R IH|s No|s ps R IH|n s ps Nn Ny Hl R IH|n s ps Nn Ny Hl R IH]; intros l o k X L; (destruct k as [|k]; [lia|]); cbn [process].
    + inversion X; subst. reflexivity.
    + inversion X as [|? ? ? o1 X1|]; subst. rewrite ceqb_diff by exact N. rewrite (IH _ _ _ X1) by (cbn in L; lia). reflexivity.
    + rewrite <- (app_nil_r (map Char _)) in X. apply expands_text_inv in X. destruct X as (o' & -> & X). inversion X; subst. rewrite app_nil_r, ceqb_same, St. pose proof (lax_end_open _ _ No []) as O. destruct (other_end false (sym e) [] s) as [nm r]. cbn [snd] in O. subst r. destruct nm; reflexivity.
    + inversion X as [|? ? ? o1 X1|]; subst. rewrite ceqb_same, St. rewrite (lax_end_complete (sym e) [] s (fun H => H) [] : other_end false (sym e) [] (sym e :: s) = _). cbn [rev app]. rewrite (IH _ _ _ X1) by (cbn in L |- *; lia). reflexivity.
    + inversion X as [| |? v ? l1 o1 Hv X1]; subst. rewrite ceqb_same, St. rewrite (lax_end_complete _ _ _ Ny), app_nil_r. destruct (rev n) as [|z m] eqn:Rn; [exfalso; apply Nn; rewrite <- (rev_involutive n), Rn; reflexivity|].
      rewrite <- Rn, rev_involutive. unfold substitute. rewrite St, (proj2 (variable_name_spec n) Hl). cbn [negb andb]. apply lookup_value in Hv. rewrite Hv, (IH _ _ _ X1) by (cbn in L; rewrite app_length in L; cbn in L; lia). rewrite replace_newlines_correct by exact Hn. reflexivity.
    + apply expands_text_inv in X. destruct X as (o' & -> & X). rewrite ceqb_same, St. rewrite (lax_end_complete _ _ _ Ny), app_nil_r. destruct (rev n) as [|z m] eqn:Rn; [exfalso; apply Nn; rewrite <- (rev_involutive n), Rn; reflexivity|].
      rewrite <- Rn, rev_involutive. unfold substitute. rewrite St. destruct (variable_name true n) eqn:V; [apply variable_name_spec in V; contradiction|]. cbn [negb andb]. rewrite (IH _ _ _ X) by (cbn in L; rewrite app_length in L; cbn in L; lia). reflexivity.
Qed.

(* A file. *)
Lemma ending_cases l : (exists m, l = m ++ [CR] /\ ending l = (m, [CR; NL])) \/ (~ ends_with CR l /\ ending l = (l, [NL])).
Proof.
  unfold ending. destruct (rev l) as [|c m] eqn:R.
  - right. split; [|reflexivity]. intros (x & ->). rewrite rev_app_distr in R. discriminate R.
  - assert (L : l = rev m ++ [c]) by (rewrite <- (rev_involutive l), R; reflexivity). destruct (ceqb c CR) eqn:C.
    + apply ceqb_eq in C. subst c. left. exists (rev m). split; [exact L|reflexivity].
    + right. split; [|reflexivity]. intros (x & X). rewrite X in L. apply app_inj_tail in L. destruct L as [_ L]. subst c. rewrite ceqb_same in C. discriminate C.
Qed.
Lemma ending_cr m : ending (m ++ [CR]) = (m, [CR; NL]).
Proof. unfold ending. rewrite rev_app_distr. cbn [rev app]. rewrite ceqb_same, rev_involutive. reflexivity. Qed.
Lemma ending_lf l : ~ ends_with CR l -> ending l = (l, [NL]).
Proof. intros N. destruct (ending_cases l) as [(m & -> & _)|[_ E]]; [exfalso; apply N; exists m; reflexivity|exact E]. Qed.
Lemma to_newline_sound s : forall l r, to_newline s = (l, r) -> ~ In NL l /\ match r with Some r => s = l ++ NL :: r | None => s = l end.
Proof.
  induction s as [|c s IH]; intros l r E; cbn [to_newline] in E.
  - injection E as <- <-. split; [intros []|reflexivity].
  - destruct (ceqb c NL) eqn:C.
    + injection E as <- <-. apply ceqb_eq in C. subst c. split; [intros []|reflexivity].
    + destruct (to_newline s) as [l' r']. injection E as <- <-. destruct (IH _ _ eq_refl) as [N S]. split.
      * intros [->|H]; [rewrite ceqb_same in C; discriminate C|contradiction].
      * destruct r'; rewrite S; reflexivity.
Qed.
Lemma to_newline_at l : ~ In NL l -> forall r, to_newline (l ++ NL :: r) = (l, Some r).
Proof. induction l as [|c l IH]; intros N r; cbn [app to_newline]; [rewrite ceqb_same; reflexivity|]. rewrite ceqb_diff by (intros ->; apply N; left; reflexivity). rewrite IH by (intros H; apply N; right; exact H). reflexivity. Qed.
Lemma to_newline_no l : ~ In NL l -> to_newline l = (l, None).
Proof. induction l as [|c l IH]; intros N; cbn [to_newline]; [reflexivity|]. rewrite ceqb_diff by (intros ->; apply N; left; reflexivity). rewrite IH by (intros H; apply N; right; exact H). reflexivity. Qed.

(* The lines of the output: the ending of a line is written before the next one or at the end. *)
Lemma process_lines_sound e : forall k s ln nl subs o, 0 < ln -> process_lines k e ln nl s = (subs, Some o) ->
  exists ls, lines s ls /\ ((ls = [] /\ o = nl) \/ (ls <> [] /\ exists o', expand_lines e ls o' /\ o = (if ln =? 1 then [] else nl) ++ o')).
Proof.
  induction k as [|k IH]; intros s ln nl subs o Ln E; [discriminate E|]. cbn [process_lines] in E. destruct s as [|c0 s0].
  - injection E as <- <-. exists []. split; [constructor|left; split; reflexivity].
  - set (s := c0 :: s0) in *. destruct (to_newline s) as [l r] eqn:T. apply to_newline_sound in T. destruct T as [Nl Hs]. destruct (ending l) as [m nl'] eqn:En.
    destruct (process (S (length m)) e nl' m) as [sb ob] eqn:P. destruct ob as [ob|]; [|discriminate E]. destruct (process_lines k e (S ln) nl' (match r with Some r => r | None => [] end)) as [sb' ob'] eqn:Q. destruct ob' as [ob'|]; [|discriminate E]. injection E as <- <-.
    assert (En' : endings nl') by (destruct (ending_cases l) as [(? & _ & X)|[_ X]]; rewrite X in En; injection En as <- <-; [right|left]; reflexivity).
    destruct (process_sound e nl' En' _ _ _ _ P) as (ps & R & X). apply IH in Q; [|lia]. destruct Q as (ls & Hls & Q).
    assert (Ls : lines s ((m, nl') :: ls)).
    { destruct (ending_cases l) as [(m' & El & X')|[Nc X']]; rewrite X' in En; injection En as <- <-.
      - assert (Nm : ~ In NL m') by (intros H; apply Nl; rewrite El; apply in_app_iff; left; exact H). destruct r as [r|].
        + rewrite Hs, El, <- app_assoc. cbn [app]. constructor; assumption.
        + inversion Hls; subst; [|exfalso; eapply app_cons_not_nil; symmetry; eassumption|exfalso; eapply app_cons_not_nil; symmetry; eassumption|congruence|exfalso; eapply app_cons_not_nil; symmetry; eassumption]. rewrite El. constructor. exact Nm.
      - destruct r as [r|].
        + rewrite Hs. constructor; assumption.
        + inversion Hls; subst; [|exfalso; eapply app_cons_not_nil; symmetry; eassumption|exfalso; eapply app_cons_not_nil; symmetry; eassumption|congruence|exfalso; eapply app_cons_not_nil; symmetry; eassumption]. constructor; [discriminate|assumption|assumption]. }
    exists ((m, nl') :: ls). split; [exact Ls|]. right. split; [discriminate|].
    assert (ln1 : (S ln =? 1) = false) by (apply Nat.eqb_neq; lia). rewrite ln1 in Q.
    destruct Q as [[-> ->]|(_ & o' & Xo & ->)].
    + exists (ob ++ nl'). split; [|reflexivity]. rewrite <- (app_nil_r nl') at 2. econstructor; [exact R|exact X|constructor].
    + exists (ob ++ nl' ++ o'). split; [econstructor; [exact R|exact X|exact Xo]|reflexivity].
Qed.
Lemma process_lines_complete e s ls : lines s ls -> forall k ln nl, 0 < ln -> length s < k ->
  (ls = [] -> exists subs, process_lines k e ln nl s = (subs, Some nl)) /\ (ls <> [] -> forall o, expand_lines e ls o -> exists subs, process_lines k e ln nl s = (subs, Some ((if ln =? 1 then [] else nl) ++ o))).
Proof.
  assert (Line : forall m nl' l r ls k ln nl, endings nl' -> ending l = (m, nl') -> 0 < ln -> l ++ r <> [] -> to_newline (l ++ r) = (l, match r with [] => None | _ :: r => Some r end) ->
    (forall nl, (ls = [] -> exists subs, process_lines k e (S ln) nl (match r with [] => [] | _ :: r => r end) = (subs, Some nl)) /\ (ls <> [] -> forall o, expand_lines e ls o -> exists subs, process_lines k e (S ln) nl (match r with [] => [] | _ :: r => r end) = (subs, Some ((if S ln =? 1 then [] else nl) ++ o)))) ->
    forall o, expand_lines e ((m, nl') :: ls) o -> exists subs, process_lines (S k) e ln nl (l ++ r) = (subs, Some ((if ln =? 1 then [] else nl) ++ o))).
  { intros m nl' l r ls0 k ln nl En El Ln Ns T IH o X. cbn [process_lines]. destruct (l ++ r) as [|c s0] eqn:S0; [contradiction|]. rewrite T, El. inversion X as [|? ? ? ps sb o1 o2 R Xp Xl]; subst.
    rewrite (process_complete e nl' En _ _ R _ _ _ Xp) by lia. assert (ln1 : (S ln =? 1) = false) by (apply Nat.eqb_neq; lia). rewrite ln1 in IH. destruct (IH nl') as [I1 I2].
    assert (Y : exists subs, process_lines k e (S ln) nl' match match r with [] => None | _ :: r => Some r end with Some r => r | None => [] end = (subs, Some (nl' ++ o2))).
    { destruct ls0 as [|x ls0]; [inversion Xl; subst; rewrite app_nil_r; destruct (I1 eq_refl) as (sb' & I); exists sb'; destruct r; exact I|]. destruct (I2 ltac:(discriminate) _ Xl) as (sb' & I). exists sb'. destruct r; exact I. }
    destruct Y as (sb' & ->). eexists. reflexivity. }
  intros H. induction H as [|l s ls N Nc H IH|l s ls N H IH|l Nl N Nc|l N]; intros k ln nl Ln K; (split; [intros Z; try discriminate Z|intros Z; try contradiction]).
  - destruct k; [lia|]. eexists. reflexivity.
  - destruct k as [|k]; [lia|]. apply (Line l [NL] l (NL :: s) ls k ln nl); auto; [left; reflexivity|apply ending_lf; exact Nc|intros X; symmetry in X; exact (app_cons_not_nil _ _ _ X)|apply to_newline_at; exact N|].
    intros nl0. apply IH; [lia|]. rewrite app_length in K. cbn in K. lia.
  - destruct k as [|k]; [lia|]. change (l ++ CR :: NL :: s) with (l ++ [CR] ++ NL :: s). rewrite app_assoc. assert (N' : ~ In NL (l ++ [CR])) by (intros I; apply in_app_iff in I; destruct I as [I|[I|[]]]; [contradiction|discriminate I]).
    apply (Line l [CR; NL] (l ++ [CR]) (NL :: s) ls k ln nl); auto; [right; reflexivity|apply ending_cr|intros X; symmetry in X; exact (app_cons_not_nil _ _ _ X)|apply to_newline_at; exact N'|].
    intros nl0. apply IH; [lia|]. rewrite app_length in K. cbn in K. lia.
  - destruct k as [|k]; [lia|]. destruct k as [|k]; [destruct l; [contradiction|cbn in K; lia]|]. pose proof (Line l [NL] l [] [] (S k) ln nl) as A. rewrite app_nil_r in A. apply A; auto; [left; reflexivity|apply ending_lf; exact Nc|apply to_newline_no; exact N|].
    intros nl0. split; [intros _; eexists; reflexivity|intros Y; contradiction].
  - destruct k as [|k]; [lia|]. destruct k as [|k]; [rewrite app_length in K; cbn in K; lia|]. assert (N' : ~ In NL (l ++ [CR])) by (intros I; apply in_app_iff in I; destruct I as [I|[I|[]]]; [contradiction|discriminate I]).
    rewrite <- (app_nil_r (l ++ [CR])). apply (Line l [CR; NL] (l ++ [CR]) [] [] (S k) ln nl); auto; [right; reflexivity|apply ending_cr|rewrite app_nil_r; intros X; symmetry in X; exact (app_cons_not_nil _ _ _ X)|rewrite app_nil_r; apply to_newline_no; exact N'|].
    intros nl0. split; [intros _; eexists; reflexivity|intros Y; contradiction].
Qed.
Theorem process_file_correct e s o : (exists subs, process_file e s = (subs, Some o)) <-> output e s o.
Proof.
  unfold process_file, output. split.
  - intros (subs & E). apply process_lines_sound in E; [|lia]. destruct E as (ls & L & [[-> ->]|(N & o' & X & ->)]); [exists []|exists ls]; (split; [exact L|]); [left|right]; auto.
  - intros (ls & L & H). pose proof (process_lines_complete e s ls L (S (length s)) 1 [NL] ltac:(lia) ltac:(lia)) as [C1 C2]. destruct H as [[-> ->]|[N X]]; [exact (C1 eq_refl)|]. destruct (C2 N o X) as (subs & E). exists subs. exact E.
Qed.
Theorem output_det e s o1 o2 : output e s o1 -> output e s o2 -> o1 = o2.
Proof. intros H1 H2. apply process_file_correct in H1, H2. destruct H1 as (x & H1), H2 as (y & H2). congruence. Qed.
