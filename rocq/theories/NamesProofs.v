(* Proofs about printing names and reading them back. *)
From Verif Require Import Base LexModel NameModel NamesModel LexProofs.

Definition AT : ascii := "@"%char.
Lemma ok_at : ok_pair AT.
Proof. intros H. cbn in H. repeat (destruct H as [H|H]; [discriminate|]). exact H. Qed.
Definition vmode := value_mode AT.

(* The first character starts a word. *)
Definition start_ok (s : bytes) : Prop :=
  match s with
  | [] => False
  | c :: s' => mem (b " $(){}[#@" ++ [TAB; NL]) c = false /\ (c = BSL -> hd_error s' <> Some NL)
  end.

Lemma advance_same l stk : advance stk (input l) l = mklex stk (bol l) (sepf l) (input l).
Proof. unfold advance. rewrite Nat.sub_diag. reflexivity. Qed.

(* After text whose last character is not a newline. *)
Definition inline (x : bytes) : Prop := last x NUL <> NL.
Lemma inline_app x y : inline x -> inline y -> inline (x ++ y).
Proof.
  unfold inline. intros Hx Hy. destruct y as [|c y]; [rewrite app_nil_r; exact Hx|].
  destruct (exists_last (l := c :: y) ltac:(discriminate)) as [y' [d E]]. rewrite E in *. rewrite app_assoc, last_last. rewrite last_last in Hy. exact Hy.
Qed.
Lemma inline_end x c : c <> NL -> inline (x ++ [c]).
Proof. unfold inline. rewrite last_last. exact (fun H => H). Qed.
Lemma advance_inline stk stk0 bo sf x rest : x <> [] -> inline x -> advance stk rest (mklex stk0 bo sf (x ++ rest)) = mklex stk false sf rest.
Proof.
  intros Hx Hi. destruct (exists_last Hx) as [x' [c ->]]. unfold inline in Hi. rewrite last_last in Hi.
  unfold advance. cbn [input bol sepf]. rewrite !app_length. cbn [length].
  replace (length x' + 1 + length rest - length rest) with (S (length x')) by lia.
  rewrite <- app_assoc, app_nth2, Nat.sub_diag by lia. cbn [app nth]. apply ceqb_neq in Hi. rewrite Hi. reflexivity.
Qed.

Lemma start_not s c s' x : start_ok s -> s = c :: s' -> In x (b " $(){}[#@" ++ [TAB; NL]) -> ceqb c x = false.
Proof.
  intros H -> Hx. destruct H as [H _]. apply ceqb_neq. intros ->. apply mem_not in H. contradiction.
Qed.

Lemma skip_start n nl r start s : start_ok s -> skip_loop (S n) nl r start s = Some (r, s).
Proof.
  intros H. destruct s as [|c s']; [contradiction|]. pose proof (fun x => start_not _ c s' x H eq_refl) as K.
  cbn [skip_loop]. rewrite (K SP), (K TAB), (K NL), (K "#"%char) by (cbn; auto 20). cbn [orb].
  destruct (ceqb c BSL) eqn:E; [|reflexivity]. apply ceqb_eq in E. destruct H as [_ H]. specialize (H E).
  destruct s' as [|d s'']; [reflexivity|]. destruct (ceqb d NL) eqn:E2; [|reflexivity]. apply ceqb_eq in E2. subst d. cbn in H. congruence.
Qed.

Lemma skip_space n nl r start s : skip_loop (S n) nl r start (SP :: s) = skip_loop n nl true start s.
Proof. reflexivity. Qed.

Definition plain_st (st : lst) : lst := set_lsb false (lsb_unsep st) st.
Lemma vmode_plain st : vmode st -> vmode (plain_st st).
Proof. intros H. exact H. Qed.
Lemma plain_plain st : lsb st = false -> plain_st st = st.
Proof. destruct st; cbn. intros ->. reflexivity. Qed.

(* Spaces that may separate the tokens here: none or one. *)
Definition gap (sp : bool) : bytes := if sp then [SP] else [].

Lemma next_starts st stk bo sf sp s : vmode st -> start_ok s ->
  exists bo', next (mklex (st :: stk) bo sf (gap sp ++ s)) =
    ret_word (mklex (st :: stk) bo' false s) (word (plain_st st :: stk) (plain_st st) (sf || sp) s).
Proof.
  intros H Hs. pose proof H as [E [Ee [Es [En Ep]]]]. unfold next. cbn [stack].
  assert (exists bo', skip_spaces st (mklex (st :: stk) bo sf (gap sp ++ s)) = Some (sf || sp, bo, mklex (st :: stk) bo' false s)) as [bo' K].
  { unfold skip_spaces. rewrite Es. cbn [negb input sepf bol stack]. destruct sp; cbn [gap app length].
    - rewrite skip_space, skip_start; [|exact Hs]. rewrite orb_true_r. eexists. reflexivity.
    - rewrite skip_start; [|exact Hs]. rewrite orb_false_r. eexists. rewrite (advance_same (mklex (st :: stk) bo false s)). reflexivity. }
  rewrite E, K. exists bo'. unfold next_simple. cbn [input stack tl]. destruct s as [|c s']; [contradiction|].
  pose proof (fun x => start_not _ c s' x Hs eq_refl) as Kc.
  rewrite E, Ep. fold (plain_st st).
  rewrite (Kc "["%char), (Kc AT), (Kc NL), (Kc "$"%char), (Kc ")"%char), (Kc "("%char), (Kc "{"%char), (Kc "}"%char) by (cbn; auto 20).
  rewrite !andb_false_r. cbn [andb among existsb lmode_eqb orb negb]. reflexivity.
Qed.

Lemma written_start pr curly v s : pr = AT -> v <> [] -> no_nul v -> start_ok (written pr curly v ++ s).
Proof.
  intros -> Hv Hn. unfold written. destruct (mem v SQ) eqn:E1; [split; [reflexivity|discriminate]|].
  destruct (special_in AT v) eqn:E2; [split; [reflexivity|discriminate]|].
  destruct v as [|c v]; [contradiction|].
  assert (mem (nsc AT) c = false) as K.
  { unfold special_in in E2. cbn [existsb] in E2. rewrite !orb_false_iff in E2. tauto. }
  destruct (needs_escape curly (c :: v)) eqn:E3.
  - split; [reflexivity|]. intros _. cbn. intros K2. injection K2 as ->. discriminate K.
  - cbn [app start_ok]. split.
    + apply mem_not. apply mem_not in K. intros Hi. apply K. clear - Hi. unfold nsc. change (ceqb AT NUL) with false. cbn in *. unfold AT. tauto.
    + intros ->. discriminate K.
Qed.

Lemma written_inline curly v : no_nul v -> inline (written AT curly v).
Proof.
  intros Hn. unfold written. destruct (mem v SQ) eqn:E1; [apply (inline_end (DQ :: dq_body v)); discriminate|].
  destruct (special_in AT v) eqn:E2; [apply (inline_end (SQ :: v)); discriminate|].
  assert (inline v) as K.
  { destruct v as [|c v]; [discriminate|]. destruct (exists_last (l := c :: v) ltac:(discriminate)) as [v' [d E]]. rewrite E in *.
    apply inline_end. intros ->. pose proof (special_plain AT _ NL E1 E2 ok_at Hn ltac:(apply in_app_iff; right; left; reflexivity)) as K. discriminate K. }
  destruct (needs_escape curly v) eqn:E3; [|exact K]. apply (inline_app [BSL] v); [discriminate|exact K].
Qed.

(* The tokens. *)
Definition q0 : quo := mkq Unquoted false false.
Definition wtok (v : bytes) (sep : bool) (q : quo) : tok := mktok TWord v sep (qt q) (qcomp q) (qfirst q).

(* The text before the name itself, and the first word of a name. *)
Definition ptext (n : name) : bytes := match proj n with Some p => p ++ b "%" | None => [] end.
Definition pre_dir (n : name) : bytes := if is_empty (value n) then directory (dir n) else dir n.
Definition in_group (n : name) : bytes := if is_empty (value n) then (if is_empty (directory (dir n)) then dir n else leaf (dir n)) else value n.
Definition typed (n : name) : bool := negb (is_empty (type n)).
Definition word1 (n : name) : bytes := ptext n ++ (if typed n then pre_dir n ++ type n else dir n ++ value n).

Definition emp (x : bytes) : bool := is_empty x.
Definition q_proj (n : name) : quo :=
  match proj n with Some p => nonempty_q (q_written AT false p true q0) | None => q0 end.
Definition q_word1 (n : name) : quo :=
  if name_empty n then mkq Single true true
  else if typed n then
    q_written AT false (type n) (emp (ptext n ++ pre_dir n)) (q_written AT false (pre_dir n) (emp (ptext n)) (q_proj n))
  else q_written AT false (dir n ++ value n) (emp (ptext n)) (q_proj n).
Definition toks (sep : bool) (n : name) : list tok :=
  wtok (word1 n) sep (q_word1 n) ::
  (if typed n then [plain TLCBrace [] false; wtok (in_group n) false (q_written AT true (in_group n) true q0); plain TRCBrace [] false] else []).

(* What can be printed and read back as far as the lexer is concerned. *)
Definition printable (n : name) : Prop :=
  pattern n = None /\ no_nul (or_empty (proj n)) /\ no_nul (dir n) /\ no_nul (type n) /\ no_nul (value n) /\
  (name_empty n = true -> proj n = None /\ type n = []).

Inductive lexes : lexer -> list tok -> lexer -> Prop :=
| lx_nil l : lexes l [] l
| lx_cons l t l1 ts l2 : next l = Some (t, l1) -> lexes l1 ts l2 -> lexes l (t :: ts) l2.
Lemma lexes_app l ts l1 us l2 : lexes l ts l1 -> lexes l1 us l2 -> lexes l (ts ++ us) l2.
Proof. intros H. revert us l2. induction H; intros us l3 K; [exact K|]. cbn. econstructor; eauto. Qed.

Lemma stop_at s : stop AT s = match s with [] => True | c :: _ => ceqb c AT || mem vseps c = true end.
Proof. reflexivity. Qed.

Lemma no_nul_app x y : no_nul (x ++ y) <-> no_nul x /\ no_nul y.
Proof. unfold no_nul. rewrite in_app_iff. tauto. Qed.

(* A word consisting of a number of pieces. *)
Definition piece := option bytes. (* None is % *)
Definition ptxt (p : piece) : bytes := match p with Some v => written AT false v | None => b "%" end.
Definition pval (p : piece) : bytes := match p with Some v => v | None => b "%" end.
Definition pq (p : piece) (empty : bool) (q : quo) : quo := match p with Some v => q_written AT false v empty q | None => nonempty_q q end.
Fixpoint pqs (ps : list piece) (acc : bytes) (q : quo) : quo :=
  match ps with
  | [] => q
  | p :: ps' => pqs ps' (rev (pval p) ++ acc) (pq p (match acc with [] => true | _ => false end) q)
  end.
Lemma word_pieces st stk sep s : vmode st -> forall ps acc q first, (forall p, In p ps -> no_nul (pval p)) ->
  word_loop (st :: stk) st false first acc q sep (concat (map ptxt ps) ++ s) =
  word_loop (st :: stk) st false false (rev (concat (map pval ps)) ++ acc) (pqs ps acc q) sep s.
Proof.
  intros H. induction ps as [|p ps IH]; intros acc q first Hn; [apply (word_first AT); exact H|].
  cbn [map concat]. rewrite <- app_assoc. destruct p as [v|]; cbn [ptxt pval pqs pq].
  - rewrite (word_written AT); [|exact H|exact ok_at|apply (Hn (Some v)); left; reflexivity].
    rewrite IH; [|intros p Hp; apply Hn; right; exact Hp]. rewrite rev_app_distr, <- app_assoc. reflexivity.
  - cbn [app b]. rewrite (word_plain1 AT); [|exact H|reflexivity].
    rewrite IH; [|intros p Hp; apply Hn; right; exact Hp]. cbn [rev]. rewrite <- app_assoc. reflexivity.
Qed.

Lemma ptxts_inline : forall ps, (forall p, In p ps -> no_nul (pval p)) -> inline (concat (map ptxt ps)).
Proof.
  induction ps as [|p ps IH]; intros H; [discriminate|]. cbn [map concat]. apply inline_app; [|apply IH; intros x Hx; apply H; right; exact Hx].
  destruct p as [v|]; [|discriminate]. apply written_inline. apply (H (Some v)). left. reflexivity.
Qed.
Lemma next_pieces st stk bo sf sp ps rest : vmode st -> (forall p, In p ps -> no_nul (pval p)) -> start_ok (concat (map ptxt ps) ++ rest) -> stop AT rest ->
  concat (map ptxt ps) <> [] ->
  next (mklex (st :: stk) bo sf (gap sp ++ concat (map ptxt ps) ++ rest)) =
    Some (wtok (concat (map pval ps)) (sf || sp) (pqs ps [] q0), mklex (plain_st st :: stk) false false rest).
Proof.
  intros H Hn Hs Hr Hne. destruct (next_starts st stk bo sf sp _ H Hs) as [bo' K]. rewrite K.
  unfold word. pose proof (vmode_plain _ H) as H'. rewrite (word_pieces _ stk _ _ H' ps [] _ true Hn).
  assert (among (md (plain_st st)) [Double_quoted] = false) as -> by (destruct H' as [-> _]; reflexivity).
  rewrite (word_stop AT); [|exact H'|exact ok_at|exact Hr]. cbn [ret_word ret]. unfold ret.
  rewrite advance_inline; [|exact Hne|apply ptxts_inline; exact Hn].
  rewrite app_nil_r, rev_involutive. reflexivity.
Qed.

Definition proj_pieces (n : name) : list piece := match proj n with Some p => [Some p; None] | None => [] end.
Definition pieces (n : name) : list piece :=
  proj_pieces n ++ (if typed n then [Some (pre_dir n); Some (type n)] else [Some (dir n ++ value n)]).
Definition group_text (n : name) : bytes := if typed n then b "{" ++ written AT true (in_group n) ++ b "}" else [].

Lemma written_nil curly : written AT curly [] = [].
Proof. reflexivity. Qed.

Lemma print_pieces n : pattern n = None -> name_empty n = false ->
  print_name QNormal AT false n = concat (map ptxt (pieces n)) ++ group_text n.
Proof.
  intros Hp He. unfold print_name. rewrite He, Hp. cbn [andb]. unfold pieces, group_text. rewrite map_app, concat_app, <- app_assoc.
  f_equal; [unfold proj_pieces; destruct (proj n); cbn [map concat ptxt]; rewrite ?write_string_normal, ?app_nil_r; reflexivity|].
  unfold typed, pre_dir, in_group. unfold name_empty in He. destruct (dir n) as [|d0 d] eqn:Ed, (value n) as [|v0 v] eqn:Ev, (type n) as [|t0 t] eqn:Et; cbn in He; try discriminate;
    cbn [is_empty negb andb orb map concat ptxt app]; rewrite ?write_string_normal, ?app_nil_r; try reflexivity.
  - change (directory []) with (@nil ascii). cbn [is_empty negb app]. rewrite ?write_string_normal, <- ?app_assoc. reflexivity.
  - rewrite ?write_string_normal. cbn [app]. destruct (directory (d0 :: d)) eqn:Epd; cbn [is_empty negb app]; rewrite <- ?app_assoc, ?write_string_normal; try reflexivity.
  - rewrite <- !app_assoc. reflexivity.
Qed.

Lemma cut_last_app s : fst (cut_last s) ++ snd (cut_last s) = s.
Proof.
  induction s as [|c s IH]; [reflexivity|]. cbn [cut_last]. destruct (cut_last s) as [d l] eqn:E. cbn [fst snd] in IH.
  destruct d as [|x d]; [destruct (is_sepc c && negb (is_empty s))|]; cbn [fst snd app] in *; congruence.
Qed.
Lemma leaf_nonempty s : s <> [] -> leaf s <> [].
Proof.
  unfold leaf. induction s as [|c s IH]; [contradiction|]. intros _. cbn [cut_last]. destruct (cut_last s) as [d l] eqn:E. cbn [fst snd] in IH.
  destruct d as [|x d]; [destruct (is_sepc c && negb (is_empty s)) eqn:Es|]; cbn [snd]; try discriminate.
  - apply IH. intros ->. rewrite andb_false_r in Es. discriminate.
  - apply IH. intros ->. discriminate E.
Qed.

Lemma next_char st stk bo c s : vmode st -> mem (b " #\" ++ [TAB; NL]) c = false ->
  next (mklex (st :: stk) bo false (c :: s)) = next_simple st false bo (mklex (st :: stk) bo false (c :: s)).
Proof.
  intros [E [Ee [Es [En Ep]]]] Hc. unfold next. cbn [stack]. rewrite E. unfold skip_spaces. rewrite Es. cbn [negb input length skip_loop sepf bol stack].
  unfold mem in Hc. cbn [existsb b app] in Hc. rewrite !orb_false_iff in Hc. destruct Hc as [K1 [K2 [K3 [K4 [K5 _]]]]].
  change (ceqb c SP) with (ceqb c " "%char). rewrite K1, K4, K5, K2. change (ceqb c BSL) with (ceqb c "\"%char). rewrite K3. cbn [orb].
  pose proof (advance_same (mklex (st :: stk) bo false (c :: s)) (st :: stk)) as A. cbn [input bol sepf] in A. rewrite A. reflexivity.
Qed.
Lemma next_lcbrace st stk bo s : vmode st ->
  next (mklex (st :: stk) bo false ("{"%char :: s)) = Some (plain TLCBrace [] false, mklex (plain_st st :: stk) false false s).
Proof.
  intros H. rewrite next_char; [|exact H|reflexivity]. destruct H as [E [Ee [Es [En Ep]]]]. unfold next_simple. rewrite E, Ep. cbn [input stack tl].
  change (ceqb "{"%char "["%char) with false. change (ceqb "{"%char AT) with false. rewrite andb_false_r. unfold ret.
  rewrite (advance_inline _ _ _ _ ["{"%char] s); [reflexivity|discriminate|discriminate].
Qed.
Lemma next_rcbrace st stk bo s : vmode st ->
  next (mklex (st :: stk) bo false ("}"%char :: s)) = Some (plain TRCBrace [] false, mklex (plain_st st :: stk) false false s).
Proof.
  intros H. rewrite next_char; [|exact H|reflexivity]. destruct H as [E [Ee [Es [En Ep]]]]. unfold next_simple. rewrite E, Ep. cbn [input stack tl].
  change (ceqb "}"%char "["%char) with false. change (ceqb "}"%char AT) with false. rewrite andb_false_r. unfold ret.
  rewrite (advance_inline _ _ _ _ ["}"%char] s); [reflexivity|discriminate|discriminate].
Qed.
Lemma next_pair st stk bo s : vmode st ->
  next (mklex (st :: stk) bo false (AT :: s)) = Some (plain TPair [AT] false, mklex (plain_st st :: stk) false false s).
Proof.
  intros H. rewrite next_char; [|exact H|reflexivity]. destruct H as [E [Ee [Es [En Ep]]]]. unfold next_simple. rewrite E, Ep. cbn [input stack tl].
  change (ceqb AT "["%char) with false. change (ceqb AT AT) with true. rewrite andb_false_r. unfold ret.
  rewrite (advance_inline _ _ _ _ [AT] s); [reflexivity|discriminate|discriminate].
Qed.

Lemma next_curly st stk bo v rest : vmode st -> v <> [] -> no_nul v -> stop AT rest ->
  next (mklex (st :: stk) bo false (written AT true v ++ rest)) =
    Some (wtok v false (q_written AT true v true q0), mklex (plain_st st :: stk) false false rest).
Proof.
  intros H Hv Hn Hr. destruct (next_starts st stk bo false false _ H (written_start AT true v rest eq_refl Hv Hn)) as [bo' K].
  cbn [gap app] in K. rewrite K. unfold word. pose proof (vmode_plain _ H) as H'.
  assert (among (md (plain_st st)) [Double_quoted] = false) as -> by (destruct H' as [-> _]; reflexivity).
  rewrite (word_written AT); [|exact H'|exact ok_at|exact Hn].
  rewrite (word_stop AT); [|exact H'|exact ok_at|exact Hr]. unfold ret_word, ret.
  rewrite advance_inline; [|intros E; pose proof (written_start AT true v [] eq_refl Hv Hn) as W; rewrite E in W; contradiction|apply written_inline; exact Hn].
  rewrite app_nil_r, rev_involutive. reflexivity.
Qed.

Lemma next_empty st stk bo sf sp rest : vmode st -> stop AT rest ->
  next (mklex (st :: stk) bo sf (gap sp ++ SQ :: SQ :: rest)) =
    Some (wtok [] (sf || sp) (mkq Single true true), mklex (plain_st st :: stk) false false rest).
Proof.
  intros H Hr. destruct (next_starts st stk bo sf sp (SQ :: SQ :: rest) H ltac:(split; [reflexivity|discriminate])) as [bo' K]. rewrite K.
  unfold word. pose proof (vmode_plain _ H) as H'. pose proof H' as [E _].
  assert (among (md (plain_st st)) [Double_quoted] = false) as -> by (rewrite E; reflexivity).
  assert (word_loop (plain_st st :: stk) (plain_st st) false true [] (mkq Unquoted false false) (sf || sp) (SQ :: SQ :: rest) =
          word_loop (plain_st st :: stk) (plain_st st) false false [] (mkq Single true true) (sf || sp) rest) as ->.
  { cbn [word_loop]. rewrite !(among_value _ _ E). cbn [among existsb lmode_eqb orb]. rewrite !andb_false_r.
    change (ceqb SQ BSL) with false. cbn [andb]. rewrite (value_is_sep AT _ SQ _ H'). reflexivity. }
  rewrite (word_stop AT); [|exact H'|exact ok_at|exact Hr]. unfold ret_word, ret.
  rewrite (advance_inline _ _ _ _ [SQ; SQ] rest); [reflexivity|discriminate|discriminate].
Qed.

Lemma directory_app d : directory d ++ leaf d = d.
Proof. apply cut_last_app. Qed.

Lemma pval_pieces n : concat (map pval (pieces n)) = word1 n.
Proof.
  unfold pieces, word1, proj_pieces, ptext. destruct (proj n), (typed n); cbn [map concat app pval]; rewrite ?app_nil_r, <- ?app_assoc; reflexivity.
Qed.
Lemma rev_app_nil (x y : bytes) : match rev x ++ y with [] => true | _ => false end = is_empty x && is_empty y.
Proof. destruct x as [|c x]; [destruct y; reflexivity|]. cbn [rev is_empty andb]. rewrite <- app_assoc. destruct (rev x); reflexivity. Qed.
Lemma pqs_pieces n : name_empty n = false -> pqs (pieces n) [] q0 = q_word1 n.
Proof.
  intros He. unfold q_word1. rewrite He. unfold pieces, proj_pieces, q_proj, ptext. destruct (proj n) as [p|], (typed n); cbn [app pqs pq pval];
    rewrite ?rev_app_nil; unfold emp; cbn [is_empty].
  - destruct p, (pre_dir n); reflexivity.
  - destruct p; reflexivity.
  - rewrite andb_true_r. reflexivity.
  - reflexivity.
Qed.

Lemma in_group_nonempty n : name_empty n = false -> in_group n <> [].
Proof.
  unfold name_empty, in_group. intros H. destruct (value n) eqn:Ev; [|discriminate]. cbn [is_empty].
  assert (dir n <> []) as Hd by (intros E; rewrite E in H; discriminate).
  destruct (is_empty (directory (dir n))); [exact Hd|]. apply leaf_nonempty. exact Hd.
Qed.
Lemma no_nul_cut d : no_nul d -> no_nul (directory d) /\ no_nul (leaf d).
Proof. intros H. rewrite <- (directory_app d), no_nul_app in H. exact H. Qed.
Lemma printable_group n : printable n -> no_nul (in_group n) /\ no_nul (pre_dir n).
Proof.
  intros [_ [_ [Hd [_ [Hv _]]]]]. unfold in_group, pre_dir. pose proof (no_nul_cut _ Hd) as [K1 K2].
  destruct (is_empty (value n)); [|auto]. destruct (is_empty (directory (dir n))); auto.
Qed.
Lemma printable_pieces n p : printable n -> In p (pieces n) -> no_nul (pval p).
Proof.
  intros H. pose proof (printable_group n H) as [_ K]. destruct H as [_ [Hp [Hd [Ht [Hv _]]]]]. unfold pieces, proj_pieces.
  rewrite in_app_iff. intros [Hi|Hi].
  - destruct (proj n) as [pr|]; [|contradiction]. cbn in Hi. destruct Hi as [<-|[<-|[]]]; cbn; [exact Hp|]. intros [A|[]]. discriminate A.
  - destruct (typed n); cbn in Hi.
    + destruct Hi as [<-|[<-|[]]]; cbn; assumption.
    + destruct Hi as [<-|[]]. cbn. apply no_nul_app. auto.
Qed.

Lemma start_pieces : forall ps s, (forall p, In p ps -> no_nul (pval p)) -> concat (map pval ps) <> [] -> start_ok (concat (map ptxt ps) ++ s).
Proof.
  induction ps as [|p ps IH]; intros s Hn H; [contradiction|]. cbn [map concat] in *. rewrite <- app_assoc.
  destruct p as [[|c v]|]; cbn [ptxt pval] in *.
  - apply IH; [|exact H]. intros p Hp. apply Hn. right. exact Hp.
  - apply written_start; [reflexivity|discriminate|]. apply (Hn (Some (c :: v))). left. reflexivity.
  - split; [reflexivity|discriminate].
Qed.
Lemma word1_nonempty n : name_empty n = false -> word1 n <> [].
Proof.
  unfold word1, ptext, typed, name_empty. intros H E. apply app_eq_nil in E. destruct E as [_ E].
  destruct (type n); cbn [is_empty negb] in E.
  - apply app_eq_nil in E. destruct E as [E1 E2]. rewrite E1, E2 in H. discriminate.
  - apply app_eq_nil in E. destruct E as [_ E]. discriminate.
Qed.

Theorem lex_name st stk bo sf sp n rest : vmode st -> printable n -> stop AT rest ->
  lexes (mklex (st :: stk) bo sf (gap sp ++ print_name QNormal AT false n ++ rest)) (toks (sf || sp) n) (mklex (plain_st st :: stk) false false rest).
Proof.
  intros H Hp Hr. destruct (name_empty n) eqn:He.
  - destruct Hp as [_ [_ [_ [_ [_ Hp]]]]]. destruct (Hp He) as [E1 E2].
    assert (print_name QNormal AT false n = [SQ; SQ]) as -> by (unfold print_name; rewrite He; reflexivity).
    assert (toks (sf || sp) n = [wtok [] (sf || sp) (mkq Single true true)]) as ->.
    { unfold toks, q_word1, word1, ptext, typed. rewrite He, E1, E2. cbn [is_empty negb app].
      unfold name_empty in He. apply andb_true_iff in He. destruct (dir n), (value n); cbn in He; try (destruct He; discriminate). reflexivity. }
    econstructor; [exact (next_empty st stk bo sf sp rest H Hr)|constructor].
  - rewrite (print_pieces n); [|apply Hp|exact He].
    assert (forall p, In p (pieces n) -> no_nul (pval p)) as Hn by (intros p; apply printable_pieces; exact Hp).
    assert (forall s, start_ok (concat (map ptxt (pieces n)) ++ s)) as Hs.
    { intros s. apply start_pieces; [exact Hn|]. rewrite pval_pieces. apply word1_nonempty. exact He. }
    assert (concat (map ptxt (pieces n)) <> []) as Hne by (intros E; specialize (Hs []); rewrite E in Hs; exact Hs).
    rewrite <- app_assoc. unfold group_text, toks. destruct (typed n) eqn:Et.
    + pose proof (next_pieces st stk bo sf sp (pieces n) (b "{" ++ written AT true (in_group n) ++ b "}" ++ rest) H Hn (Hs _) ltac:(reflexivity) Hne) as K1.
      rewrite pval_pieces, pqs_pieces in K1 by exact He.
      pose proof (vmode_plain _ H) as H1.
      pose proof (next_lcbrace (plain_st st) stk false (written AT true (in_group n) ++ b "}" ++ rest) H1) as K2.
      pose proof (next_curly (plain_st st) stk false (in_group n) (b "}" ++ rest) H1 (in_group_nonempty n He) (proj1 (printable_group n Hp)) ltac:(reflexivity)) as K3.
      pose proof (next_rcbrace (plain_st st) stk false rest H1) as K4. 
      econstructor; [rewrite <- !app_assoc; exact K1|]. econstructor; [exact K2|]. econstructor; [exact K3|]. econstructor; [exact K4|]. constructor.
    + pose proof (next_pieces st stk bo sf sp (pieces n) rest H Hn (Hs _) Hr Hne) as K1.
      rewrite pval_pieces, pqs_pieces in K1 by exact He. econstructor; [exact K1|constructor].
Qed.

(* The whole line. *)
Fixpoint ltoks (sep : bool) (ns : list name) : list tok :=
  match ns with
  | [] => []
  | n :: ns' => toks sep n ++ (if ceqb (pair n) NUL then ltoks true ns' else plain TPair [AT] false :: ltoks false ns')
  end.
Fixpoint pairs_ok (ns : list name) : Prop :=
  match ns with
  | [] => True
  | n :: ns' => (pair n = NUL \/ (pair n = AT /\ ns' <> [])) /\ pairs_ok ns'
  end.

(* What follows the last name: the end of input or of the line. *)
Definition line_end (s : bytes) : Prop := match s with [] => True | c :: _ => c = NL end.
Lemma line_end_stop s : line_end s -> stop AT s.
Proof. destruct s as [|c s]; [exact (fun x => x)|]. intros ->. reflexivity. Qed.

Lemma lex_names stk rest : line_end rest -> forall ns st bo sf sp, vmode st -> Forall printable ns -> pairs_ok ns -> ns <> [] ->
  lexes (mklex (st :: stk) bo sf (gap sp ++ print_names QNormal AT false ns ++ rest)) (ltoks (sf || sp) ns) (mklex (plain_st st :: stk) false false rest).
Proof.
  intros Hr. induction ns as [|n ns IH]; intros st bo sf sp H HF HP Hne; [contradiction|]. clear Hne.
  inversion HF as [|? ? Hn HF']; subst. destruct HP as [Hpair HP]. cbn [print_names ltoks]. rewrite <- !app_assoc.
  pose proof (vmode_plain _ H) as H'. 
  destruct Hpair as [Hpair|[Hpair Hne]]; rewrite Hpair.
  - change (ceqb NUL NUL) with true. cbn [negb].
    destruct ns as [|m ns].
    + cbn [print_names app ltoks]. rewrite app_nil_r. apply lex_name; [exact H|exact Hn|apply line_end_stop; exact Hr].
    + pose proof (lex_name st stk bo sf sp n ([SP] ++ print_names QNormal AT false (m :: ns) ++ rest) H Hn ltac:(reflexivity)) as K1.
      pose proof (IH (plain_st st) false false true H' HF' HP ltac:(discriminate)) as K2. eapply lexes_app; [exact K1|exact K2].
  - change (ceqb AT NUL) with false. cbn [negb].
    pose proof (lex_name st stk bo sf sp n ([AT] ++ print_names QNormal AT false ns ++ rest) H Hn ltac:(reflexivity)) as K1.
    pose proof (next_pair (plain_st st) stk false (print_names QNormal AT false ns ++ rest) H') as K2.
    pose proof (IH (plain_st st) false false false H' HF' HP Hne) as K3. eapply lexes_app; [exact K1|].
    econstructor; [exact K2|]. exact K3.
Qed.

Lemma lexes_line l ts l' : lexes l ts l' -> forall k t l2, (forall t, In t ts -> tt t <> TNewline /\ tt t <> TEos) ->
  next l' = Some (t, l2) -> tt t = TNewline \/ tt t = TEos -> length ts < k -> lex_line k l = Some (ts ++ [t]).
Proof.
  intros H. induction H as [l|l t l1 ts l2 E H IH]; intros k u l3 Hts Hn Hu Hk.
  - destruct k as [|k]; [lia|]. cbn [lex_line]. rewrite Hn. destruct Hu as [-> | ->]; reflexivity.
  - destruct k as [|k]; [cbn in Hk; lia|]. cbn [lex_line]. rewrite E.
    rewrite (IH k u l3); [|intros x Hx; apply Hts; right; exact Hx|exact Hn|exact Hu|cbn in Hk; lia].
    destruct (Hts t (or_introl eq_refl)) as [K1 K2]. cbn [app]. destruct (tt t); congruence.
Qed.

Lemma toks_kind sep n t : In t (toks sep n) -> tt t <> TNewline /\ tt t <> TEos.
Proof.
  unfold toks. intros [<-|H]; [split; discriminate|]. destruct (typed n); [|contradiction].
  cbn in H. destruct H as [<-|[<-|[<-|[]]]]; split; discriminate.
Qed.
Lemma ltoks_kind : forall ns sep t, In t (ltoks sep ns) -> tt t <> TNewline /\ tt t <> TEos.
Proof.
  induction ns as [|n ns IH]; intros sep t H; [contradiction|]. cbn [ltoks] in H. apply in_app_iff in H. destruct H as [H|H]; [eapply toks_kind; exact H|].
  destruct (ceqb (pair n) NUL); [eapply IH; exact H|]. destruct H as [<-|H]; [split; discriminate|eapply IH; exact H].
Qed.
Lemma start_length s : start_ok s -> 1 <= length s.
Proof. destruct s; [contradiction|]. cbn. lia. Qed.
Lemma toks_length sep n : printable n -> length (toks sep n) <= length (print_name QNormal AT false n).
Proof.
  intros Hp. destruct (name_empty n) eqn:He.
  - unfold print_name. rewrite He. cbn. unfold toks, typed. destruct Hp as [_ [_ [_ [_ [_ Hp]]]]]. destruct (Hp He) as [_ ->]. cbn. lia.
  - rewrite (print_pieces n); [|apply Hp|exact He]. rewrite app_length.
    assert (1 <= length (concat (map ptxt (pieces n)))) as K.
    { rewrite <- (app_nil_r (concat _)). apply start_length. apply start_pieces; [intros p; apply printable_pieces; exact Hp|]. rewrite pval_pieces. apply word1_nonempty. exact He. }
    unfold toks, group_text. destruct (typed n); [|cbn; lia].
    pose proof (start_length _ (written_start AT true (in_group n) [] eq_refl (in_group_nonempty n He) (proj1 (printable_group n Hp)))) as K2.
    rewrite app_nil_r in K2. rewrite !app_length. cbn. lia.
Qed.
Lemma ltoks_length : forall ns sep, Forall printable ns -> length (ltoks sep ns) <= length (print_names QNormal AT false ns).
Proof.
  induction ns as [|n ns IH]; intros sep H; [cbn; lia|]. inversion H; subst. cbn [ltoks print_names]. rewrite !app_length.
  pose proof (toks_length sep n ltac:(assumption)). pose proof (fun s => IH s ltac:(assumption)) as IH'.
  destruct (ceqb (pair n) NUL); cbn [negb length].
  - specialize (IH' true). lia.
  - specialize (IH' false). lia.
Qed.

Lemma vmode_value : vmode value_state.
Proof. repeat split. Qed.
Definition is_end (t : tok) : Prop := tt t = TNewline \/ tt t = TEos.

Lemma next_end st base rest : vmode st -> line_end rest -> exists t l, next (mklex (st :: base) false false rest) = Some (t, l) /\ is_end t.
Proof.
  intros [E [Ee [Es [En Ep]]]] Hr. unfold next. cbn [stack]. rewrite E. unfold skip_spaces. rewrite Es, En. cbn [negb input sepf bol stack].
  destruct rest as [|c rest].
  - cbn [length skip_loop]. do 2 eexists. split; [reflexivity|]. right. reflexivity.
  - cbn [line_end] in Hr. subst c. cbn [length].
    assert (skip_loop (S (S (length rest))) true false false (NL :: rest) = Some (false, NL :: rest)) as -> by reflexivity.
    unfold next_simple. cbn [advance input]. rewrite E, Ep. change (ceqb NL "["%char) with false. change (ceqb NL AT) with false. rewrite andb_false_r.
    do 2 eexists. split; [reflexivity|]. left. reflexivity.
Qed.

Theorem lex_value base ns rest : Forall printable ns -> pairs_ok ns -> line_end rest ->
  exists t, is_end t /\
    forall k, length (print_names QNormal AT false ns) < k -> lex_line k (value_lexer base (print_names QNormal AT false ns ++ rest)) = Some (ltoks false ns ++ [t]).
Proof.
  intros HF HP Hr. destruct ns as [|n ns].
  - destruct (next_end value_state base rest vmode_value Hr) as [t [l [K1 K2]]]. exists t. split; [exact K2|]. intros k Hk. cbn [ltoks app print_names] in *.
    eapply (lexes_line _ [] _ (lx_nil _)); [intros ? []|exact K1|exact K2|exact Hk].
  - pose proof (lex_names base rest Hr (n :: ns) value_state false false false vmode_value HF HP ltac:(discriminate)) as K.
    destruct (next_end (plain_st value_state) base rest (vmode_plain _ vmode_value) Hr) as [t [l [K1 K2]]]. exists t. split; [exact K2|]. intros k Hk.
    eapply lexes_line; [exact K|apply ltoks_kind|exact K1|exact K2|]. pose proof (ltoks_length (n :: ns) false HF). cbn [orb] in *. lia.
Qed.
