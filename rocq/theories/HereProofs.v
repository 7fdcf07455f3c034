(* Lemmas about here-documents. *)
From Verif Require Import Base HereModel HereSpec.

Definition T := line_toks false.

Lemma puts_map lit s l : puts s (line_toks lit l) = line_toks lit (map Ch s ++ l).
Proof. induction s as [|c s IH]; cbn; [reflexivity|]. now rewrite IH. Qed.

Lemma line_toks_read lit l : line_toks lit l = T (as_read lit l).
Proof.
  unfold T. induction l as [|[c|e] l IH]; cbn [line_toks as_read]; [reflexivity|now cbn; rewrite IH|].
  destruct lit; cbn [app].
  - rewrite IH, puts_map. reflexivity.
  - cbn. now rewrite IH.
Qed.

Lemma T_no_nl l : ~ In N (T l).
Proof.
  unfold T. induction l as [|[c|e] l IH]; cbn; [easy| |].
  - destruct (line_toks false l) as [|[v| |x] r]; cbn in *; intros [E|I]; try discriminate; try easy;
      apply IH; auto.
  - intros [E|I]; [discriminate|auto].
Qed.

Lemma T_nil l : T l = [] -> l = [].
Proof.
  unfold T. destruct l as [|[c|e] l]; cbn; [easy| |discriminate].
  destruct (line_toks false l) as [|[v| |x] r]; discriminate.
Qed.

Lemma T_word l v r : T l = W v :: r ->
  exists l', l = map Ch v ++ l' /\ T l' = r /\ v <> [] /\ (forall w q, r <> W w :: q).
Proof.
  unfold T. revert v r. induction l as [|[c|e] l IH]; cbn; intros v r E; [discriminate| |discriminate].
  destruct (line_toks false l) as [|[w| |x] q] eqn:L; cbn in E; injection E as <- <-.
  - exists l. rewrite L. repeat split; try easy.
  - destruct (IH _ _ eq_refl) as [l' [-> [E' [NE NW]]]].
    exists l'. repeat split; try easy.
  - exfalso. apply (T_no_nl l). unfold T. rewrite L. now left.
  - exists l. rewrite L. repeat split; try easy.
Qed.

Lemma T_text s : s <> [] -> T (map Ch s) = [W s].
Proof.
  unfold T. induction s as [|c s IH]; [easy|intros _]. cbn.
  destruct s as [|d s]; [reflexivity|]. now rewrite IH.
Qed.

Lemma T_app s l : s <> [] ->
  T (map Ch s ++ l) = match T l with
                      | W v :: r => W (s ++ v) :: r
                      | ts => W s :: ts
                      end.
Proof.
  unfold T. induction s as [|c s IH]; [easy|intros _]. cbn.
  destruct s as [|d s].
  - cbn. destruct (line_toks false l) as [|[v| |x] r]; reflexivity.
  - rewrite IH by easy. destruct (line_toks false l) as [|[v| |x] r]; reflexivity.
Qed.

Lemma T_single l v : T l = [W v] <-> l = map Ch v /\ v <> [].
Proof.
  split.
  - intros E. destruct (T_word _ _ _ E) as [l' [-> [E' [NE _]]]].
    apply T_nil in E'. subst l'. now rewrite app_nil_r.
  - intros [-> NE]. now apply T_text.
Qed.

Lemma map_Ch_inj x y : map Ch x = map Ch y -> x = y.
Proof.
  revert y. induction x as [|c x IH]; intros [|d y] E; try discriminate; [reflexivity|].
  injection E as -> E. f_equal. now apply IH.
Qed.

(* ---- the end marker ---- *)
Lemma first_nonblank_blank ind em : Forall blank ind ->
  match first_nonblank (ind ++ em) with None => True | Some k => length ind <= k end.
Proof.
  induction 1 as [|c ind Bc F IH]; cbn.
  - destruct (first_nonblank em); [lia|easy].
  - assert (ceqb c SP || ceqb c TAB = true) as ->.
    { destruct Bc as [-> | ->]; reflexivity. }
    destruct (first_nonblank (ind ++ em)); cbn; [lia|easy].
Qed.

Lemma first_nonblank_ge v n :
  match first_nonblank v with None => True | Some k => n <= k end -> Forall blank (firstn n v).
Proof.
  revert n. induction v as [|c v IH]; intros n; cbn; [now rewrite firstn_nil|].
  destruct n as [|n]; [intros; constructor|].
  destruct (ceqb c SP || ceqb c TAB) eqn:Bc.
  - intros H. cbn. constructor.
    + apply orb_true_iff in Bc. destruct Bc as [Bc|Bc]; apply ceqb_eq in Bc; [now left|now right].
    + apply IH. destruct (first_nonblank v); cbn in H; [lia|easy].
  - intros H. lia.
Qed.

Lemma end_marker_iff em v n :
  end_marker em v = Some n <-> exists ind, v = ind ++ em /\ Forall blank ind /\ length ind = n.
Proof.
  unfold end_marker. split.
  - destruct (length em <=? length v) eqn:Le; [|discriminate].
    destruct (beqb _ _) eqn:E; [|discriminate].
    apply beqb_eq in E. apply Nat.leb_le in Le.
    intros H. set (k := length v - length em) in *.
    assert (n = k /\ match first_nonblank v with None => True | Some j => k <= j end) as [-> Hb].
    { destruct (first_nonblank v) as [j|]; [|injection H as <-; easy].
      destruct (k <=? j) eqn:Lk; [|discriminate]. injection H as <-.
      apply Nat.leb_le in Lk. easy. }
    exists (firstn k v). repeat split.
    + transitivity (firstn k v ++ skipn k v); [symmetry; apply firstn_skipn|now rewrite E].
    + now apply first_nonblank_ge.
    + rewrite firstn_length. unfold k. lia.
  - intros [ind [-> [F <-]]]. rewrite app_length.
    assert (length em <=? length ind + length em = true) as -> by (apply Nat.leb_le; lia).
    replace (length ind + length em - length em) with (length ind) by lia.
    rewrite skipn_app, skipn_all, Nat.sub_diag. cbn. rewrite beqb_refl.
    pose proof (first_nonblank_blank ind em F) as H.
    destruct (first_nonblank (ind ++ em)) as [k|]; [|reflexivity].
    apply Nat.leb_le in H. now rewrite H.
Qed.

Definition end_of (em : bytes) (ts : list tok) : option nat :=
  match ts with [W v] => end_marker em v | _ => None end.

Lemma end_of_ends lit em l n : em <> [] ->
  (end_of em (line_toks lit l) = Some n <-> exists ind, ends lit em ind l /\ length ind = n).
Proof.
  intros NE. rewrite line_toks_read. split.
  - unfold end_of. destruct (T (as_read lit l)) as [|[v| |x] [|t r]] eqn:E; try discriminate.
    intros M. apply end_marker_iff in M. destruct M as [ind [-> [F Ln]]].
    apply T_single in E. exists ind. repeat split; tauto.
  - intros [ind [[E F] Ln]]. rewrite E, T_text by (destruct ind; [easy|discriminate]).
    cbn. apply end_marker_iff. exists ind. auto.
Qed.

Lemma no_end_of lit em l : em <> [] -> no_end lit em l -> end_of em (line_toks lit l) = None.
Proof.
  intros NE H. destruct (end_of em (line_toks lit l)) as [n|] eqn:E; [|reflexivity].
  apply end_of_ends in E; [|easy]. destruct E as [ind [E _]]. destruct (H _ E).
Qed.

(* ---- pre-parsing ---- *)
Definition flat lit (ls : list (list item)) : list tok :=
  concat (map (fun l => line_toks lit l ++ [N]) ls).

Lemma pre_lines_eq lit em l r :
  pre_lines lit em (l :: r) =
  match end_of em (line_toks lit l) with
  | Some n => match line_toks lit l with
              | [W v] => HOk ([W v; N], firstn n v, r)
              | _ => HMissing
              end
  | None => match pre_lines lit em r with
            | HOk (saved, sp, rest) => HOk (line_toks lit l ++ N :: saved, sp, rest)
            | f => f
            end
  end.
Proof.
  cbn [pre_lines]. unfold end_of.
  destruct (line_toks lit l) as [|[v| |x] [|t q]]; reflexivity.
Qed.

Lemma pre_end lit em ind ls e rest : em <> [] ->
  Forall (no_end lit em) ls -> ends lit em ind e ->
  pre_lines lit em (ls ++ e :: rest) = HOk (flat lit ls ++ [W (ind ++ em); N], ind, rest).
Proof.
  intros NE F En. induction F as [|l ls Hl F IH].
  - cbn [app flat map concat]. rewrite pre_lines_eq.
    rewrite (proj2 (end_of_ends lit em e (length ind) NE)); [|eauto].
    destruct En as [E Fb]. rewrite line_toks_read, E, T_text by (destruct ind; [easy|discriminate]).
    now rewrite firstn_app, firstn_all, Nat.sub_diag, firstn_O, app_nil_r.
  - cbn [app]. rewrite pre_lines_eq, no_end_of, IH by easy.
    unfold flat. cbn [map concat]. now rewrite <- !app_assoc.
Qed.

Lemma pre_none lit em ls : em <> [] -> Forall (no_end lit em) ls -> pre_lines lit em ls = HMissing.
Proof.
  intros NE. induction 1 as [|l ls Hl F IH]; [reflexivity|].
  now rewrite pre_lines_eq, no_end_of, IH.
Qed.

Lemma split_end lit em ls : em <> [] ->
  Forall (no_end lit em) ls \/
  exists a e r ind, ls = a ++ e :: r /\ Forall (no_end lit em) a /\ ends lit em ind e.
Proof.
  intros NE. induction ls as [|l ls IH]; [now left|].
  destruct (end_of em (line_toks lit l)) as [n|] eqn:E.
  - right. apply end_of_ends in E; [|easy]. destruct E as [ind [E _]].
    exists [], l, ls, ind. repeat split; [constructor| |]; apply E.
  - assert (no_end lit em l) as Hl.
    { intros ind En. assert (end_of em (line_toks lit l) = Some (length ind)) as C.
      { apply end_of_ends; eauto. }
      congruence. }
    destruct IH as [F|[a [e [r [ind [-> [F En]]]]]]].
    + left. now constructor.
    + right. exists (l :: a), e, r, ind. repeat split; [now constructor| |]; apply En.
Qed.

(* ---- the fix up ---- *)
Definition on_ok (r : list tok) (h : hres (list tok)) : hres (list tok) :=
  match h with HOk q => HOk (r ++ q) | f => f end.

Lemma fix_up_rest sp ts tl : ~ In N ts ->
  fix_up sp false (ts ++ N :: tl) = on_ok (ts ++ [N]) (fix_up sp true tl).
Proof.
  induction ts as [|t ts IH]; intros NI; cbn [app fix_up].
  - destruct (fix_up sp true tl); reflexivity.
  - destruct t as [v| |x]; [|destruct NI; now left|];
      rewrite IH by (intros I; apply NI; now right);
      destruct (fix_up sp true tl); reflexivity.
Qed.

Lemma T_sub_no_nl l t r : T l = t :: r -> ~ In N r.
Proof. intros E I. apply (T_no_nl l). rewrite E. now right. Qed.

Lemma fix_up_line sp m tl : sp <> [] ->
  fix_up sp true (T (map Ch sp ++ m) ++ N :: tl) = on_ok (T m ++ [N]) (fix_up sp true tl).
Proof.
  intros NE. rewrite T_app by easy.
  destruct (T m) as [|t r] eqn:E.
  - cbn [app fix_up]. rewrite firstn_all, beqb_refl, Nat.eqb_refl.
    destruct (fix_up sp true tl); reflexivity.
  - pose proof (T_sub_no_nl _ _ _ E) as NI.
    destruct t as [v| |x].
    + destruct (T_word _ _ _ E) as [_ [_ [_ [NV _]]]].
      cbn [app fix_up]. rewrite firstn_app, firstn_all, Nat.sub_diag, firstn_O, app_nil_r, beqb_refl.
      rewrite app_length.
      assert (length sp + length v =? length sp = false) as ->.
      { apply Nat.eqb_neq. destruct v; [easy|cbn; lia]. }
      rewrite skipn_app, skipn_all, Nat.sub_diag, skipn_O. cbn [app].
      rewrite fix_up_rest by easy. destruct (fix_up sp true tl); reflexivity.
    + exfalso. apply (T_no_nl m). rewrite E. now left.
    + cbn [app fix_up]. rewrite firstn_all, beqb_refl, Nat.eqb_refl.
      rewrite fix_up_rest by easy. destruct (fix_up sp true tl); reflexivity.
Qed.

Definition flatT (ms : list (list item)) : list tok := concat (map (fun m => T m ++ [N]) ms).

Lemma flat_cons lit l ls tl : flat lit (l :: ls) ++ tl = T (as_read lit l) ++ N :: flat lit ls ++ tl.
Proof. unfold flat. cbn [map concat]. rewrite line_toks_read, <- !app_assoc. reflexivity. Qed.

Lemma on_ok_app x y h : on_ok x (on_ok y h) = on_ok (x ++ y) h.
Proof. destruct h; cbn; [|reflexivity..]. now rewrite app_assoc. Qed.

Lemma fix_up_lines lit sp ls ms tl : sp <> [] -> unindent lit sp ls ms ->
  fix_up sp true (flat lit ls ++ tl) = on_ok (flatT ms) (fix_up sp true tl).
Proof.
  intros NE. induction 1 as [|l ls ms E U IH|l m ls ms E U IH].
  - cbn. destruct (fix_up sp true tl); reflexivity.
  - rewrite flat_cons, E. unfold T at 1. cbn [line_toks app fix_up]. rewrite IH.
    destruct (fix_up sp true tl); reflexivity.
  - rewrite flat_cons, E, fix_up_line, IH by easy. now rewrite on_ok_app.
Qed.

Lemma fix_up_bad lit sp l tl : sp <> [] -> as_read lit l <> [] ->
  (forall m, as_read lit l <> map Ch sp ++ m) ->
  fix_up sp true (T (as_read lit l) ++ tl) = HUnindented.
Proof.
  intros NE NB H. destruct (T (as_read lit l)) as [|[v| |x] r] eqn:E.
  - apply T_nil in E. destruct (NB E).
  - cbn [app fix_up]. destruct (beqb _ _) eqn:P; [|reflexivity]. apply beqb_eq in P.
    destruct (T_word _ _ _ E) as [l' [E' _]].
    destruct (H (map Ch (skipn (length sp) v) ++ l')).
    rewrite E', app_assoc, <- map_app. do 2 f_equal.
    transitivity (firstn (length sp) v ++ skipn (length sp) v);
      [symmetry; apply firstn_skipn|now rewrite P].
  - exfalso. apply (T_no_nl (as_read lit l)). rewrite E. now left.
  - reflexivity.
Qed.
