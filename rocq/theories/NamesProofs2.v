(* Proofs that the tokens of printed names are parsed back to the same names. *)
From Verif Require Import Base LexModel NameModel NamesModel LexProofs NamesProofs NameSpec.

Lemma last_index_none f s : last_index f s = None <-> forall c, In c s -> f c = false.
Proof.
  induction s as [|c s IH]; cbn [last_index]; [split; [intros _ ? []|reflexivity]|].
  destruct (last_index f s) as [k|] eqn:E.
  - split; [discriminate|]. intros H. assert (Some k = None) as K; [|discriminate K]. apply IH. intros x Hx. apply H. right. exact Hx.
  - destruct (f c) eqn:Ec.
    + split; [discriminate|]. intros H. rewrite (H c (or_introl eq_refl)) in Ec. discriminate.
    + split; [|reflexivity]. intros _ x [<-|Hx]; [exact Ec|]. apply IH; [reflexivity|exact Hx].
Qed.
Lemma last_index_some f s k : last_index f s = Some k -> exists x c y, s = x ++ c :: y /\ length x = k /\ f c = true /\ (forall d, In d y -> f d = false).
Proof.
  revert k. induction s as [|c s IH]; intros k H; [discriminate|]. cbn [last_index] in H. destruct (last_index f s) as [j|] eqn:E.
  - injection H as <-. destruct (IH j eq_refl) as [x [d [y [E1 [E2 [E3 E4]]]]]]. exists (c :: x), d, y. subst. repeat split; auto.
  - destruct (f c) eqn:Ec; [|discriminate]. injection H as <-. exists [], c, s. repeat split; auto. apply last_index_none. exact E.
Qed.
Lemma last_index_app f x c y : f c = true -> (forall d, In d y -> f d = false) -> last_index f (x ++ c :: y) = Some (length x).
Proof.
  intros Hc Hy. induction x as [|a x IH]; cbn [app last_index length].
  - apply last_index_none in Hy. rewrite Hy, Hc. reflexivity.
  - rewrite IH. reflexivity.
Qed.
Lemma firstn_len {A} (x y : list A) : firstn (length x) (x ++ y) = x.
Proof. rewrite firstn_app, Nat.sub_diag, firstn_O, app_nil_r. apply firstn_all. Qed.
Lemma skipn_len {A} (x : list A) c y : skipn (S (length x)) (x ++ c :: y) = y.
Proof. induction x; [reflexivity|exact IHx]. Qed.

Lemma pct_sep c : ceqb "%"%char c = true -> c = "%"%char.
Proof. intros H. apply ceqb_eq in H. congruence. Qed.

(* Quoting is noticed. *)
Definition is_quoted (q : qtype) : bool := match q with Unquoted => false | _ => true end.
Lemma special_pct v : In "%"%char v -> special_in AT v = true.
Proof.
  intros H. unfold special_in. apply orb_true_iff. left. apply existsb_exists. exists "%"%char. split; [exact H|]. reflexivity.
Qed.
Lemma quoted_pct curly v empty q : In "%"%char v -> is_quoted (qt (q_written AT curly v empty q)) = true.
Proof.
  intros H. unfold q_written. destruct (mem v SQ); [unfold q_double; destruct (qt q); reflexivity|].
  rewrite (special_pct v H). unfold q_single. destruct (qt q); reflexivity.
Qed.

Lemma not_pattern curly sep v : maybe_pattern curly None (wtok v sep (q_written AT curly v true q0)) v = false.
Proof.
  unfold maybe_pattern, wtok. cbn [tqfirst tq]. unfold q_written.
  destruct (mem v SQ) eqn:E1; [reflexivity|]. destruct (special_in AT v) eqn:E2; [reflexivity|].
  assert (existsb (mem (b "*?[")) v = false) as K.
  { unfold special_in in E2. apply orb_false_iff in E2. destruct E2 as [E2 E3]. apply not_true_is_false. intros K.
    apply existsb_exists in K. destruct K as [c [Hc K]]. apply mem_in in K. cbn in K. destruct K as [<-|[<-|[<-|[]]]].
    - enough (existsb (mem pc) v = true) by congruence. apply existsb_exists. eexists. split; [exact Hc|reflexivity].
    - enough (existsb (mem pc) v = true) by congruence. apply existsb_exists. eexists. split; [exact Hc|reflexivity].
    - enough (existsb (mem (nsc AT)) v = true) by congruence. apply existsb_exists. eexists. split; [exact Hc|reflexivity]. }
  destruct (needs_escape curly v) eqn:E3.
  - cbn [qt qfirst q0 orb negb andb]. rewrite K. reflexivity.
  - unfold needs_escape in E3. apply orb_false_iff in E3. destruct E3 as [E3 E4]. rewrite E4, andb_false_r.
    rewrite andb_comm in E3. destruct v; cbn [is_empty q0 nonempty_q qt qfirst negb andb orb]; rewrite ?K, E3; reflexivity.
Qed.

Section Parse.
Context (valid : bytes -> bool) (exact : bytes -> bool) (mkdir : bytes -> option bytes).
Local Notation loop := (loop valid exact mkdir).
Local Notation take_project := (take_project valid).

Lemma take_string quoted v : (In "%"%char v -> quoted = true) ->
  exists pp v' pos, take_project quoted None v = Some (pp, v', pos) /\ (match pp with Some p => p ++ b "%" ++ v' | None => v' end) = v.
Proof.
  intros Hq. unfold NamesModel.take_project. destruct (last_index is_name_sep v) as [k|] eqn:E1; [|do 3 eexists; split; reflexivity].
  destruct (last_index (ceqb "%"%char) v) as [q|] eqn:E2; [|do 3 eexists; split; reflexivity].
  destruct (last_index_some _ _ _ E2) as [x [c [y [Ev [El [Ec _]]]]]]. apply pct_sep in Ec. subst c.
  destruct (negb (is_empty (firstn q v)) && negb (valid (firstn q v))).
  - rewrite Hq; [|rewrite Ev; apply in_app_iff; right; left; reflexivity]. do 3 eexists. split; reflexivity.
  - do 3 eexists. split; [reflexivity|]. subst q v. rewrite firstn_len, skipn_len. reflexivity.
Qed.

(* What follows a name in the tokens. *)
Definition after (rest : list tok) : Prop :=
  match rest with t :: _ => tt t = TPair \/ is_end t \/ tsep t = true | [] => False end.
Lemma after_concat rest : after rest -> concat_next rest = false /\ group_next rest = false.
Proof.
  destruct rest as [|t rest]; [contradiction|]. cbn. unfold is_tt. intros [-> |[[-> | ->]| -> ]]; rewrite ?andb_false_r; auto.
Qed.

Lemma append_some ns p d t v : (d = [] -> v = [] -> t = []) -> append_name ns p d t v = Some (ns ++ [mkname p d t v NUL None]).
Proof.
  intros H. unfold append_name. destruct d; [|reflexivity]. destruct v; [|reflexivity]. rewrite (H eq_refl eq_refl). reflexivity.
Qed.

(* One string at the top level. *)
Lemma loop_string k first count v sep rest ns : no_nul v -> after rest ->
  exists n, to_string1 n = Some v /\ pair n = NUL /\
    loop (S k) first count false true 0 None None None (toks sep (simple_name v) ++ rest) ns = loop k false 1 false true 0 None None None rest (ns ++ [n]).
Proof.
  intros Hn Hr. destruct (after_concat _ Hr) as [Ha Hg].
  assert (exists q, toks sep (simple_name v) = [wtok v sep q] /\ (In "%"%char v -> is_quoted (qt q) = true) /\ maybe_pattern false None (wtok v sep q) v = false) as [q [Et [Hq Hm]]].
  { unfold toks, typed, word1, ptext, q_word1, q_proj, typed. cbn [simple_name type proj dir value is_empty negb app]. unfold name_empty. cbn [dir value simple_name is_empty andb].
    eexists. split; [reflexivity|]. destruct v as [|c v]; cbn [is_empty app].
    - split; [intros []|reflexivity].
    - split; [apply quoted_pct|apply not_pattern]. }
  rewrite Et. cbn [app NamesModel.loop]. change (is_tt TWord (wtok v sep q)) with true. cbn iota. rewrite Ha, Hg.
  destruct (take_string (is_quoted (qt q)) v Hq) as [pp [v' [pos [E1 E2]]]].
  change (match tq (wtok v sep q) with Unquoted => false | _ => true end) with (is_quoted (qt q)). change (tv (wtok v sep q)) with v.
  rewrite E1.
  assert (maybe_pattern false pp (wtok v sep q) v' = false) as Hm'.
  { destruct pp; [reflexivity|]. subst v'. exact Hm. }
  rewrite Hm'. unfold again. cbn [Nat.eqb negb andb].
  destruct (match pos with Some k0 => k0 =? length v' - 1 | None => false end && exact v' && negb (is_empty v')).
  - cbn [combine or_empty]. rewrite append_some by reflexivity.
    exists (mkname pp v' [] [] NUL None). split; [|split; reflexivity]. unfold to_string1. cbn. subst v. destruct pp, v'; cbn; rewrite ?app_nil_r; reflexivity.
  - cbn [or_empty]. rewrite append_some by reflexivity.
    exists (mkname pp [] [] v' NUL None). split; [|split; reflexivity]. unfold to_string1. cbn. subst v. destruct pp; reflexivity.
Qed.

Lemma last_pair_app ns n : last_pair (ns ++ [n]) = negb (ceqb (pair n) NUL).
Proof. unfold last_pair. rewrite rev_app_distr. reflexivity. Qed.

Lemma loop_end k count ns t rest : is_end t -> last_pair ns = false -> loop (S k) false count false true 0 None None None (t :: rest) ns = Some (ns, t :: rest).
Proof.
  intros Ht Hp. cbn [NamesModel.loop]. unfold is_tt. destruct Ht as [-> | ->]; cbn [orb negb]; rewrite Hp; reflexivity.
Qed.

Lemma after_strings vs sep t : is_end t -> sep = true -> after (ltoks sep (of_strings vs) ++ [t]).
Proof. intros Ht ->. destruct vs; cbn; [auto|]. right. right. reflexivity. Qed.

Lemma loop_strings : forall vs k first count sep ns t, Forall no_nul vs -> is_end t -> last_pair ns = false -> length vs < k -> (vs = [] -> first = false) ->
  exists ms, Forall2 (fun n v => to_string1 n = Some v /\ pair n = NUL) ms vs /\
    loop k first count false true 0 None None None (ltoks sep (of_strings vs) ++ [t]) ns = Some (ns ++ ms, [t]).
Proof.
  induction vs as [|v vs IH]; intros k first count sep ns t HF Ht Hp Hk Hf.
  - destruct k as [|k]; [cbn in Hk; lia|]. rewrite (Hf eq_refl). exists []. split; [constructor|]. cbn [ltoks of_strings map app]. rewrite app_nil_r. apply loop_end; assumption.
  - destruct k as [|k]; [cbn in Hk; lia|]. inversion HF; subst. cbn [of_strings map ltoks]. fold (of_strings vs). cbn [pair simple_name]. change (ceqb NUL NUL) with true. cbn iota.
    rewrite <- app_assoc. destruct (loop_string k first count v sep (ltoks true (of_strings vs) ++ [t]) ns ltac:(assumption) (after_strings vs true t Ht eq_refl)) as [n [E1 [E2 E3]]].
    rewrite E3. destruct (IH k false 1 true (ns ++ [n]) t ltac:(assumption) Ht) as [ms [K1 K2]]; [rewrite last_pair_app, E2; reflexivity|cbn in Hk; lia|reflexivity|].
    exists (n :: ms). rewrite K2, <- app_assoc. split; [|reflexivity]. constructor; [split; assumption|exact K1].
Qed.

Lemma printable_simple v : no_nul v -> printable (simple_name v).
Proof. intros H. repeat split; cbn; auto; try (intros []). Qed.
Lemma pairs_simple vs : pairs_ok (of_strings vs).
Proof. induction vs; cbn; auto. Qed.

Theorem strings_read vs base rest : Forall no_nul vs -> line_end rest ->
  exists ns, Forall2 (fun n v => to_string1 n = Some v /\ pair n = NUL) ns vs /\
  forall k, length (print_names QNormal AT false (of_strings vs)) < k ->
    (match lex_line k (value_lexer base (print_names QNormal AT false (of_strings vs) ++ rest)) with
     | Some ts => parse_value valid exact mkdir ts | None => None end) = Some ns.
Proof.
  intros HF Hr. assert (Forall printable (of_strings vs)) as HFp by (apply Forall_map; eapply Forall_impl; [|exact HF]; exact printable_simple).
  destruct (lex_value base (of_strings vs) rest HFp (pairs_simple vs) Hr) as [t [Ht Hl]].
  destruct vs as [|v vs].
  - exists []. split; [constructor|]. intros k Hk. rewrite (Hl k Hk). cbn [ltoks of_strings map app parse_value]. unfold is_tt. destruct Ht as [-> | ->]; reflexivity.
  - destruct (loop_strings (v :: vs) (S (length (ltoks false (of_strings (v :: vs)) ++ [t]))) true 0 false [] t HF Ht eq_refl) as [ms [K1 K2]]; [|discriminate|].
    { clear. rewrite app_length. enough (forall l s, length l <= length (ltoks s (of_strings l))) as K by (specialize (K (v :: vs) false); cbn [length] in *; lia).
      induction l as [|x l IH]; intros s; [cbn; lia|]. cbn [of_strings map ltoks pair simple_name length]. rewrite app_length. change (ceqb NUL NUL) with true. cbn iota.
      specialize (IH true). unfold toks. cbn [length]. unfold of_strings in IH. lia. }
    exists ms. split; [exact K1|]. intros k Hk. rewrite (Hl k Hk). unfold parse_value.
    remember (ltoks false (of_strings (v :: vs)) ++ [t]) as ts eqn:Ets.
    destruct ts as [|u ts]; [destruct (ltoks false (of_strings (v :: vs))); discriminate|].
    assert (is_tt TNewline u || is_tt TEos u = false) as Hu.
    { cbn in Ets. injection Ets as -> _. reflexivity. }
    rewrite Hu, K2. cbn [app]. unfold is_tt. destruct Ht as [-> | ->]; reflexivity.
Qed.

Lemma to_strings_all ns vs : Forall2 (fun n v => to_string1 n = Some v /\ pair n = NUL) ns vs -> to_strings ns = Some vs.
Proof.
  induction 1 as [|n v ns vs [E1 E2] _ IH]; [reflexivity|]. cbn [to_strings]. rewrite E2. change (ceqb NUL NUL) with true. cbn iota. rewrite E1, IH. reflexivity.
Qed.

(* Names. *)
Context (Hdir : forall d, clean_dir d -> exact d = true /\ mkdir d = Some d).

Lemma clean_ends d : clean_dir d -> exists d', d = d' ++ ["/"%char].
Proof.
  intros [a [cs [E [Hc Hne]]]].
  destruct cs as [|c0 cs0].
  - destruct a; [|contradiction]. exists []. exact E.
  - destruct (exists_last (l := c0 :: cs0) ltac:(discriminate)) as [cs' [c Ec]]. rewrite Ec in E.
    rewrite map_app, concat_app in E. cbn [map concat] in E. rewrite app_nil_r, !app_assoc in E. eexists. exact E.
Qed.

Lemma cut_last_clean c : ~ In "/"%char c -> forall d, d = [] \/ (exists d', d = d' ++ ["/"%char]) -> c <> [] -> cut_last (d ++ c ++ b "/") = (d, c ++ b "/").
Proof.
  intros Hc d Hd Hne.
  assert (cut_last (c ++ b "/") = ([], c ++ b "/")) as K.
  { clear Hd d Hne. induction c as [|x c IH]; [reflexivity|]. cbn [app cut_last]. rewrite IH by (intros A; apply Hc; right; exact A).
    assert (is_sepc x = false) as -> by (apply ceqb_neq; intros ->; apply Hc; left; reflexivity). reflexivity. }
  destruct Hd as [-> |[d' ->]]; [exact K|].
  rewrite <- app_assoc. cbn [app]. assert (cut_last ("/"%char :: c ++ b "/") = (["/"%char], c ++ b "/")) as K2.
  { cbn [cut_last]. rewrite K. destruct c; [contradiction|]. reflexivity. }
  clear K. induction d' as [|x d' IH]; [exact K2|]. cbn [app cut_last]. rewrite IH. destruct d'; reflexivity.
Qed.

Lemma clean_cut d : clean_dir d -> (directory d = [] \/ clean_dir (directory d)) /\ clean_dir (leaf d) /\ (directory d <> [] -> starts_with "/"%char (leaf d) = false).
Proof.
  intros [a [cs [E [Hc Hne]]]]. destruct cs as [|c0 cs0].
  - destruct a; [|contradiction]. cbn in E. subst d. split; [left; reflexivity|]. split; [|intros H; contradiction H; reflexivity]. exists true, []. repeat split; auto.
  - destruct (exists_last (l := c0 :: cs0) ltac:(discriminate)) as [cs [c Ec]]. rewrite Ec in *. clear c0 cs0 Ec. apply Forall_app in Hc. destruct Hc as [Hc1 Hc2].
    inversion Hc2 as [|? ? [Hc3 Hc4] _]; subst. rewrite map_app, concat_app. cbn [map concat]. rewrite app_nil_r, app_assoc.
    set (p := (if a then b "/" else []) ++ concat (map (fun c => c ++ b "/") cs)).
    assert (p = [] \/ clean_dir p) as Hp. { destruct p eqn:Ep; [left; reflexivity|right]. exists a, cs. repeat split; [symmetry; exact Ep|exact Hc1|discriminate]. }
    unfold directory, leaf. rewrite (cut_last_clean c Hc4 p); [|destruct Hp as [Hp|Hp]; [left; exact Hp|right; apply clean_ends; exact Hp]|exact Hc3]. cbn [fst snd].
    split; [exact Hp|]. split; [exists false, [c]; repeat split; [cbn; rewrite app_nil_r; reflexivity|constructor; [split; assumption|constructor]|destruct c; discriminate]|].
    intros _. destruct c as [|x c]; [contradiction|]. cbn. apply ceqb_neq. intros ->. apply Hc4. left. reflexivity.
Qed.

Lemma no_pct_index f v : (forall c, f c = is_name_sep c) -> no_char "%" v -> last_index f v = last_index is_sepc v.
Proof.
  intros Hf Hn. induction v as [|c v IH]; [reflexivity|]. cbn [last_index]. rewrite IH by (intros A; apply Hn; right; exact A). rewrite Hf. unfold is_name_sep.
  assert (ceqb c "%"%char = false) as -> by (apply ceqb_neq; intros ->; apply Hn; left; reflexivity). rewrite orb_false_r. reflexivity.
Qed.
Lemma no_pct v : no_char "%" v -> last_index (ceqb "%"%char) v = None.
Proof. intros H. apply last_index_none. intros c Hc. apply ceqb_neq. intros <-. contradiction. Qed.

(* The project of a word. *)
Lemma last_index_shift f p x v : last_index f v = None -> f x = true -> last_index f (p ++ x :: v) = Some (length p).
Proof. intros H Hx. apply last_index_app; [exact Hx|]. apply last_index_none. exact H. Qed.
Lemma last_index_shift2 f p v k : last_index f v = Some k -> last_index f (p ++ v) = Some (length p + k).
Proof. intros H. induction p as [|c p IH]; [exact H|]. cbn [app last_index length]. rewrite IH. reflexivity. Qed.

Lemma take_plain quoted pp v : no_char "%" v -> take_project quoted pp v = Some (pp, v, last_index is_sepc v).
Proof.
  intros H. unfold NamesModel.take_project. rewrite (no_pct_index is_name_sep v (fun _ => eq_refl) H), (no_pct v H).
  destruct (last_index is_sepc v); reflexivity.
Qed.
Lemma take_proj quoted p v : no_char "%" v -> p = [] \/ valid p = true -> take_project quoted None (p ++ b "%" ++ v) = Some (Some p, v, last_index is_sepc v).
Proof.
  intros H Hp. unfold NamesModel.take_project. cbn [b app].
  rewrite (last_index_shift (ceqb "%"%char) p "%"%char v (no_pct v H) eq_refl).
  assert (negb (is_empty (firstn (length p) (p ++ "%"%char :: v))) && negb (valid (firstn (length p) (p ++ "%"%char :: v))) = false) as Hv.
  { rewrite firstn_len. destruct Hp as [-> | ->]; [reflexivity|apply andb_false_r]. }
  pose proof (no_pct_index is_name_sep v (fun _ => eq_refl) H) as Ei.
  destruct (last_index is_sepc v) as [k|] eqn:E.
  - replace (p ++ "%"%char :: v) with ((p ++ ["%"%char]) ++ v) at 1 by (rewrite <- app_assoc; reflexivity).
    rewrite (last_index_shift2 is_name_sep (p ++ ["%"%char]) v k Ei). rewrite Hv, firstn_len, skipn_len. rewrite app_length. cbn [length].
    destruct (Nat.eqb_spec (length p + 1 + k) (length p)) as [A|A]; [lia|]. do 3 f_equal. lia.
  - rewrite (last_index_shift is_name_sep p "%"%char v Ei eq_refl), Hv, firstn_len, skipn_len, Nat.eqb_refl. reflexivity.
Qed.

Lemma take_word quoted n v : no_char "%" v -> match proj n with Some p => (p = [] \/ valid p = true) /\ no_char NUL p | None => True end ->
  take_project quoted None (ptext n ++ v) = Some (proj n, v, last_index is_sepc v).
Proof.
  intros H Hp. unfold ptext. destruct (proj n) as [p|].
  - rewrite <- app_assoc. apply take_proj; [exact H|apply Hp].
  - apply take_plain. exact H.
Qed.

Definition unpaired (n : name) : name := mkname (proj n) (dir n) (type n) (value n) NUL (pattern n).

Lemma no_char_app c x y : no_char c (x ++ y) <-> no_char c x /\ no_char c y.
Proof. unfold no_char. rewrite in_app_iff. tauto. Qed.
Lemma no_slash v : no_char "/" v -> last_index is_sepc v = None.
Proof. intros H. apply last_index_none. intros c Hc. apply ceqb_neq. intros ->. contradiction. Qed.

(* What is the last separator of a directory and of something that does not end with one. *)
Definition dir_like (v : bytes) : bool := match last_index is_sepc v with Some k => k =? length v - 1 | None => false end.
Lemma dir_like_clean d : clean_dir d -> dir_like d = true.
Proof.
  intros H. destruct (clean_ends d H) as [d' ->]. unfold dir_like. rewrite (last_index_app is_sepc d' "/"%char []); [|reflexivity|intros ? []].
  rewrite app_length. cbn. apply Nat.eqb_eq. lia.
Qed.
Lemma dir_like_not v : ~ ends_with "/" v -> dir_like v = false.
Proof.
  intros H. unfold dir_like. destruct (last_index is_sepc v) as [k|] eqn:E; [|reflexivity].
  destruct (last_index_some _ _ _ E) as [x [c [y [Ev [El [Ec _]]]]]]. apply Nat.eqb_neq. intros K. apply H. apply ceqb_eq in Ec. subst c v k.
  rewrite app_length in K. cbn [length] in K. destruct y as [|z y]; [exists x; reflexivity|cbn in K; lia].
Qed.

(* The name in a group. *)
Lemma loop_group n k sep rest : canonical valid n -> type n <> [] -> 
  loop (S (S k)) true 0 true false 0 (proj n) (if is_empty (pre_dir n) then None else Some (pre_dir n)) (Some (type n))
    (wtok (in_group n) sep (q_written AT true (in_group n) true q0) :: plain TRCBrace [] false :: rest) [] =
  Some ([unpaired n], plain TRCBrace [] false :: rest).
Proof.
  intros [Hpat Hproj Hnul [Hp1 [Hp2 Hp3]] Hty Hd Hv Hun Hemp] Ht.
  assert (name_empty n = false) as He.
  { unfold name_empty. destruct (dir n) eqn:E1; [|reflexivity]. destruct (value n) eqn:E2; [|reflexivity]. destruct (Hemp eq_refl eq_refl) as [_ K]. contradiction. }
  assert (no_char "%" (in_group n)) as Hg.
  { unfold in_group. destruct (is_empty (value n)); [|exact Hp3]. destruct (is_empty (directory (dir n))); [exact Hp1|].
    rewrite <- (directory_app (dir n)), no_char_app in Hp1. apply Hp1. }
  set (T := wtok (in_group n) sep (q_written AT true (in_group n) true q0)). remember (S k) as k1 eqn:Ek.
  cbn [NamesModel.loop]. change (is_tt TWord T) with true. change (concat_next (plain TRCBrace [] false :: rest)) with false. change (group_next (plain TRCBrace [] false :: rest)) with false. cbn iota.
  change (tv T) with (in_group n). rewrite (take_plain _ (proj n) (in_group n) Hg).
  assert (maybe_pattern true (proj n) T (in_group n) = false) as ->.
  { destruct (proj n); [reflexivity|]. apply not_pattern. }
  fold (dir_like (in_group n)). unfold again. cbn [Nat.eqb negb andb].
  assert (Some (type n) = Some (type n)) as _ by reflexivity. cbn [or_empty].
  assert (forall m, m = unpaired n ->
    NamesModel.loop valid exact mkdir k1 false 1 true false 0 (proj n) (if is_empty (pre_dir n) then None else Some (pre_dir n)) (Some (type n)) (plain TRCBrace [] false :: rest) ([] ++ [m]) =
    Some ([unpaired n], plain TRCBrace [] false :: rest)) as Hend.
  { intros m ->. rewrite Ek. cbn [NamesModel.loop]. reflexivity. }
  destruct (value n) as [|v0 v'] eqn:Ev.
  - assert (dir n <> []) as Hdn by (intros E; unfold name_empty in He; rewrite E, Ev in He; discriminate).
    destruct Hd as [Hd|Hd]; [contradiction|]. destruct (clean_cut _ Hd) as [Hc1 [Hc2 Hc3]].
    assert (clean_dir (in_group n)) as Hcg by (unfold in_group; rewrite Ev; cbn; destruct (is_empty (directory (dir n))); assumption).
    rewrite (dir_like_clean _ Hcg), (proj1 (Hdir _ Hcg)).
    pose proof (in_group_nonempty n He) as Hne. destruct (is_empty (in_group n)) eqn:Eg; [destruct (in_group n); [contradiction|discriminate]|]. cbn [negb andb].
    assert (NamesModel.combine (if is_empty (pre_dir n) then None else Some (pre_dir n)) (in_group n) = Some (dir n)) as ->.
    { unfold pre_dir, in_group. rewrite Ev. cbn [is_empty]. destruct (directory (dir n)) as [|x dd] eqn:Edd; cbn [is_empty NamesModel.combine]; [reflexivity|].
      rewrite Hc3 by discriminate. rewrite <- Edd, directory_app. reflexivity. }
    rewrite append_some; [|intros K; contradiction]. apply Hend. unfold unpaired. rewrite Ev, Hpat. reflexivity.
  - assert (in_group n = value n) as Eg by (unfold in_group; rewrite Ev; reflexivity).
    rewrite Eg, dir_like_not by (rewrite Ev; exact Hv). cbn [andb].
    assert (or_empty (if is_empty (pre_dir n) then None else Some (pre_dir n)) = dir n) as ->.
    { unfold pre_dir. rewrite Ev. cbn [is_empty]. destruct (dir n); reflexivity. }
    rewrite append_some; [|intros _ K; rewrite Ev in K; discriminate]. apply Hend. unfold unpaired. rewrite Hpat. reflexivity.
Qed.

Lemma canonical_printable n : canonical valid n -> printable n.
Proof.
  intros [Hpat Hproj [Hn1 [Hn2 Hn3]] _ _ _ _ _ Hemp]. repeat split; try assumption.
  - destruct (proj n); cbn; [apply Hproj|intros []].
  - unfold name_empty in H. apply andb_true_iff in H. destruct (dir n), (value n); try (destruct H; discriminate). apply Hemp; reflexivity.
  - unfold name_empty in H. apply andb_true_iff in H. destruct (dir n), (value n); try (destruct H; discriminate). apply Hemp; reflexivity.
Qed.

(* Adding the name that was read: possibly the second half of a pair. *)
Lemma set_last_nul ns n : pair n = NUL -> set_last_pair NUL (ns ++ [n]) = ns ++ [n].
Proof.
  intros H. unfold set_last_pair. rewrite rev_app_distr. cbn [rev app]. rewrite rev_involutive. destruct n. cbn in *. subst. reflexivity.
Qed.

Lemma unpaired_append ns n : canonical valid n -> append_name ns (proj n) (dir n) (type n) (value n) = Some (ns ++ [unpaired n]).
Proof.
  intros [Hpat _ _ _ _ _ _ _ Hemp]. rewrite append_some; [unfold unpaired; rewrite Hpat; reflexivity|]. intros A B. apply Hemp; assumption.
Qed.

Lemma loop_name k first count n sep rest ns : canonical valid n -> after rest ->
  loop (S (S (S k))) first count false true 0 None None None (toks sep n ++ rest) ns = loop (S (S k)) false 1 false true 0 None None None rest (ns ++ [unpaired n]).
Proof.
  intros HC Hr. destruct (after_concat _ Hr) as [Ha Hg]. pose proof HC as [Hpat Hproj Hnul [Hp1 [Hp2 Hp3]] Hty Hd Hv Hun Hemp].
  unfold toks. destruct (typed n) eqn:Ety; cbn [app].
  - (* dir/type{value} *)
    assert (type n <> []) as Ht by (unfold typed in Ety; destruct (type n); [discriminate|discriminate]).
    assert (word1 n = ptext n ++ pre_dir n ++ type n) as Ew by (unfold word1; rewrite Ety; reflexivity).
    set (T := wtok (word1 n) sep (q_word1 n)). set (G := wtok (in_group n) false (q_written AT true (in_group n) true q0)).
    set (R := plain TLCBrace [] false :: G :: plain TRCBrace [] false :: rest).
    remember (S (S k)) as k1 eqn:Ek. cbn [NamesModel.loop]. change (is_tt TWord T) with true. change (concat_next R) with false. change (group_next R) with true. cbn iota.
    change (tv T) with (word1 n). rewrite Ew.
    assert (pre_dir n = [] \/ clean_dir (pre_dir n)) as Hpd.
    { unfold pre_dir. destruct (is_empty (value n)); [|exact Hd]. destruct Hd as [-> |Hd]; [left; reflexivity|]. apply clean_cut. exact Hd. }
    assert (no_char "%" (pre_dir n)) as Hpp.
    { unfold pre_dir. destruct (is_empty (value n)); [|exact Hp1]. rewrite <- (directory_app (dir n)), no_char_app in Hp1. apply Hp1. }
    rewrite (take_word _ n (pre_dir n ++ type n)); [|apply no_char_app; auto|exact Hproj].
    rewrite andb_false_r. cbn [andb].
    assert (match last_index is_sepc (pre_dir n ++ type n) with
            | Some k2 => match mkdir (firstn (S k2) (pre_dir n ++ type n)) with
                         | Some d => match NamesModel.combine None d with
                                     | Some d' => Some (Some d', if dir_like (pre_dir n ++ type n) then None else Some (skipn (S k2) (pre_dir n ++ type n)))
                                     | None => None end
                         | None => None end
            | None => Some (None, Some (pre_dir n ++ type n)) end =
            Some ((if is_empty (pre_dir n) then None else Some (pre_dir n)), Some (type n))) as Hdt.
    { rewrite (dir_like_not (pre_dir n ++ type n)).
      2: { intros [x Ex]. destruct (exists_last Ht) as [t' [c Et]]. rewrite Et, app_assoc in Ex. apply app_inj_tail in Ex. destruct Ex as [_ ->].
           apply Hty. rewrite Et. apply in_app_iff. right. left. reflexivity. }
      destruct Hpd as [Epd|Hpd].
      - rewrite Epd. cbn [app is_empty]. rewrite (no_slash _ Hty). reflexivity.
      - destruct (clean_ends _ Hpd) as [p' Ep]. pose proof (proj2 (Hdir _ Hpd)) as Hmk. rewrite Ep in *. rewrite <- app_assoc. cbn [app].
        rewrite (last_index_app is_sepc p' "/"%char (type n)); [|reflexivity|apply last_index_none; apply no_slash; exact Hty].
        replace (firstn (S (length p')) (p' ++ "/"%char :: type n)) with (p' ++ ["/"%char]).
        2: { replace (S (length p')) with (length (p' ++ ["/"%char])) by (rewrite app_length; cbn; lia).
             replace (p' ++ "/"%char :: type n) with ((p' ++ ["/"%char]) ++ type n) by (rewrite <- app_assoc; reflexivity). symmetry. apply firstn_len. }
        rewrite Hmk. cbn [NamesModel.combine]. rewrite skipn_len. destruct p'; reflexivity. }
    fold (dir_like (pre_dir n ++ type n)). rewrite Hdt.
    subst R G. cbn [tl]. unfold group. pose proof (loop_group n k false rest HC Ht) as K. rewrite <- Ek in K. rewrite K.
    change (negb (is_tt TRCBrace (plain TRCBrace [] false))) with false. cbn iota. rewrite Hg. cbn [andb].
    unfold splice_names. destruct ((0 =? 0) && negb (length ns =? 0) && last_pair ns) eqn:Epair.
    + assert (ns <> []) as Hns by (destruct ns; [cbn in Epair; discriminate|discriminate]).
      destruct (length ns =? 0) eqn:El; [destruct ns; [contradiction|discriminate]|].
      unfold splice. rewrite El. unfold again. rewrite El, Nat.eqb_refl. cbn [negb andb]. change (pair (unpaired n)) with NUL. change (ceqb NUL NUL) with true. cbn [negb]. 
      change (proj (unpaired n)) with (proj n). change (dir (unpaired n)) with (dir n). change (type (unpaired n)) with (type n). change (value (unpaired n)) with (value n).
      rewrite (unpaired_append ns n HC), set_last_nul by reflexivity.
      rewrite app_length. replace (length ns + length [unpaired n] - length ns) with 1 by (cbn; lia). reflexivity.
    + cbn [Nat.eqb]. rewrite app_length. replace (length ns + length [unpaired n] - length ns) with 1 by (cbn; lia). reflexivity.
  - (* value or dir/ *)
    assert (type n = []) as Ht by (unfold typed in Ety; destruct (type n); [reflexivity|discriminate]).
    assert (word1 n = ptext n ++ dir n ++ value n) as Ew by (unfold word1; rewrite Ety; reflexivity).
    set (T := wtok (word1 n) sep (q_word1 n)).
    remember (S (S k)) as k1 eqn:Ek. cbn [NamesModel.loop]. change (is_tt TWord T) with true. rewrite Ha, Hg. cbn iota.
    change (tv T) with (word1 n). rewrite Ew.
    rewrite (take_word _ n (dir n ++ value n)); [|apply no_char_app; auto|exact Hproj].
    assert (maybe_pattern false (proj n) T (dir n ++ value n) = false) as ->.
    { destruct (proj n) as [p|] eqn:Ep; [reflexivity|]. subst T. rewrite Ew. unfold q_word1, ptext, q_proj. rewrite Ety, Ep. cbn [app].
      destruct (name_empty n) eqn:He; [|apply not_pattern]. unfold name_empty in He. apply andb_true_iff in He.
      destruct (dir n), (value n); try (destruct He; discriminate). reflexivity. }
    fold (dir_like (dir n ++ value n)). unfold again. cbn [Nat.eqb negb andb or_empty].
    destruct (Hun Ht) as [E|E].
    + rewrite E. cbn [app]. rewrite dir_like_not by exact Hv. cbn [andb].
      rewrite append_some by reflexivity. unfold unpaired. rewrite E, Ht, Hpat. reflexivity.
    + rewrite E, app_nil_r. destruct Hd as [Hd|Hd].
      * rewrite Hd. cbn [dir_like last_index andb]. rewrite append_some by reflexivity. unfold unpaired. rewrite E, Hd, Ht, Hpat. reflexivity.
      * rewrite (dir_like_clean _ Hd), (proj1 (Hdir _ Hd)). destruct (is_empty (dir n)) eqn:Ed.
        { destruct Hd as [? [? [? [? Hne]]]]. destruct (dir n); [contradiction|discriminate]. }
        cbn [andb negb NamesModel.combine]. rewrite append_some by reflexivity. unfold unpaired. rewrite E, Ht, Hpat. reflexivity.
Qed.

Lemma toks_count sep n : 1 <= length (toks sep n).
Proof. unfold toks. cbn [length]. lia. Qed.

Lemma set_last_at ns n : pair n = AT -> set_last_pair AT (ns ++ [unpaired n]) = ns ++ [n].
Proof.
  intros H. unfold set_last_pair. rewrite rev_app_distr. cbn [rev app]. rewrite rev_involutive. destruct n. cbn in *. subst. reflexivity.
Qed.
Lemma unpaired_nul n : pair n = NUL -> unpaired n = n.
Proof. destruct n. cbn. intros ->. reflexivity. Qed.

Lemma loop_pair k count ns n rest : pair n = AT -> count = 1 -> match rest with t :: _ => tsep t = false | [] => True end ->
  loop (S k) false count false true 0 None None None (plain TPair [AT] false :: rest) (ns ++ [unpaired n]) =
  loop k false 1 false true 0 None None None rest (ns ++ [n]).
Proof.
  intros Hp -> Hr. remember k as k1. cbn [NamesModel.loop]. change (is_tt TPair (plain TPair [AT] false)) with true.
  change (is_tt TWord (plain TPair [AT] false)) with false. change (is_tt TLCBrace (plain TPair [AT] false)) with false. change (is_tt TDollar (plain TPair [AT] false)) with false.
  change (is_tt TLParen (plain TPair [AT] false)) with false. cbn [orb Nat.eqb negb]. rewrite last_pair_app. change (negb (ceqb (pair (unpaired n)) NUL)) with false. cbn iota.
  change (tsep (plain TPair [AT] false)) with false. cbn [orb Nat.ltb Nat.leb]. change (hd NUL (tv (plain TPair [AT] false))) with AT. rewrite (set_last_at ns n Hp).
  destruct rest as [|t rest]; [reflexivity|]. rewrite Hr. reflexivity.
Qed.

Lemma loop_names : forall ns, well_paired ns -> forall k first count sep acc t, Forall (canonical valid) ns -> is_end t -> last_pair acc = false ->
  length (ltoks sep ns) + 2 <= k -> (ns = [] -> first = false) ->
  loop k first count false true 0 None None None (ltoks sep ns ++ [t]) acc = Some (acc ++ ns, [t]).
Proof.
  assert (forall ns t, is_end t -> after (ltoks true ns ++ [t])) as Haft.
  { intros ns t Ht. destruct ns; cbn; [auto|]. right. right. reflexivity. }
  induction 1 as [|n ns Hn Hw IH|n m ns Hn Hm Hw IH]; intros k first count sep acc t HF Ht Hp Hk Hf.
  - destruct k as [|k]; [cbn in Hk; lia|]. rewrite (Hf eq_refl), app_nil_r. apply loop_end; assumption.
  - inversion HF; subst. cbn [ltoks] in *. rewrite Hn in *. change (ceqb NUL NUL) with true in *. cbn iota in *.
    pose proof (toks_count sep n). rewrite app_length in Hk. destruct k as [|[|[|k]]]; [lia|lia|lia|]. rewrite <- app_assoc.
    rewrite loop_name; [|assumption|apply Haft; exact Ht]. rewrite (unpaired_nul n Hn).
    rewrite IH; [rewrite <- app_assoc; reflexivity|assumption|exact Ht|rewrite last_pair_app, Hn; reflexivity|lia|reflexivity].
  - inversion HF as [|? ? C1 HF1]; subst. inversion HF1 as [|? ? C2 HF2]; subst.
    cbn [ltoks] in *. change (pair n = AT) in Hn. rewrite Hn, Hm in *. change (ceqb AT NUL) with false in *. change (ceqb NUL NUL) with true in *. cbn iota in *.
    pose proof (toks_count sep n). pose proof (toks_count false m). rewrite app_length in Hk. cbn [length] in Hk. rewrite app_length in Hk.
    destruct k as [|[|[|[|k]]]]; [lia|lia|lia|lia|]. rewrite <- app_assoc. cbn [app].
    rewrite loop_name; [|assumption|left; reflexivity].
    rewrite loop_pair; [|exact Hn|reflexivity|reflexivity]. rewrite <- app_assoc.
    destruct k as [|k]; [lia|]. rewrite loop_name; [|assumption|apply Haft; exact Ht]. rewrite (unpaired_nul m Hm).
    rewrite IH; [rewrite <- !app_assoc; reflexivity|assumption|exact Ht|rewrite last_pair_app, Hm; reflexivity|lia|reflexivity].
Qed.

Lemma well_paired_ok ns : well_paired ns -> pairs_ok ns.
Proof.
  induction 1; cbn; auto. repeat split; auto. right. split; [assumption|discriminate].
Qed.

Theorem names_read ns base rest : Forall (canonical valid) ns -> well_paired ns -> line_end rest ->
  forall k, length (print_names QNormal AT false ns) < k ->
    (match lex_line k (value_lexer base (print_names QNormal AT false ns ++ rest)) with
     | Some ts => parse_value valid exact mkdir ts | None => None end) = Some ns.
Proof.
  intros HF HW Hr. assert (Forall printable ns) as HFp by (eapply Forall_impl; [|exact HF]; exact canonical_printable).
  destruct (lex_value base ns rest HFp (well_paired_ok ns HW) Hr) as [t [Ht Hl]]. intros k Hk. rewrite (Hl k Hk).
  destruct ns as [|n ns].
  - cbn [ltoks app parse_value]. unfold is_tt. destruct Ht as [-> | ->]; reflexivity.
  - unfold parse_value. pose proof (loop_names (n :: ns) HW (S (length (ltoks false (n :: ns) ++ [t]))) true 0 false [] t HF Ht eq_refl) as K.
    rewrite app_length in K. cbn [length] in K. specialize (K ltac:(lia) ltac:(discriminate)).
    remember (ltoks false (n :: ns) ++ [t]) as ts eqn:Ets. destruct ts as [|u ts]; [destruct (ltoks false (n :: ns)); discriminate|].
    assert (is_tt TNewline u || is_tt TEos u = false) as Hu.
    { cbn in Ets. injection Ets as -> _. reflexivity. }
    assert (length (u :: ts) = length (ltoks false (n :: ns)) + 1) as El by (rewrite Ets, app_length; reflexivity).
    rewrite Hu, El, K. cbn [app]. unfold is_tt. destruct Ht as [-> | ->]; reflexivity.
Qed.
End Parse.
