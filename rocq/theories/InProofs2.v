(* Updating: what is recorded and what is skipped. *)
From Coq Require Import DecimalNat.
From Verif Require Import Base DepdbModel DepdbSpec DepdbProofs DepdbProofs2 InModel InSpec InProofs.

(* Two runs over the same text with different values. *)
Notation subs := (list (nat * bytes * bytes)) (only parsing).
Inductive rel (e : setup) : subs * option bytes -> subs * option bytes -> Prop :=
| r_same x : rel e x x
| r_value l ln n v0 v r0 r o0 o : lookup e n = Some v -> v <> v0 -> rel e (l ++ (ln, n, v0) :: r0, o0) (l ++ (ln, n, v) :: r, o)
| r_fail l ln n v0 r0 o0 : lookup e n = None -> rel e (l ++ (ln, n, v0) :: r0, o0) (l, None)
| r_beyond l r o : rel e (l, None) (l ++ r, o).
Definition tag (ln : nat) (p : list (bytes * bytes) * option bytes) : subs * option bytes := (map (fun '(n, v) => (ln, n, v)) (fst p), snd p).
Definition more (l : subs) (f : option bytes -> option bytes) (p : subs * option bytes) : subs * option bytes := (l ++ fst p, f (snd p)).
Lemma rel_more e l f x y : f None = None -> rel e x y -> rel e (more l f x) (more l f y).
Proof.
  intros F H. destruct H as [x|l' ln n v0 v r0 r o0 o Hv N|l' ln n v0 r0 o0 Hv|l' r o]; unfold more; cbn [fst snd]; rewrite ?app_assoc, ?F.
  - apply r_same.
  - apply r_value; assumption.
  - apply r_fail; assumption.
  - apply r_beyond.
Qed.
Lemma tag_put ln t p : tag ln (put_text t p) = more [] (fun o => match o with Some o => Some (t ++ o) | None => None end) (tag ln p).
Proof. destruct p; reflexivity. Qed.
Lemma process_rel e e0 nl ln : sym e = sym e0 -> strict e = strict e0 -> forall k s, rel e (tag ln (process k e0 nl s)) (tag ln (process k e nl s)).
Proof.
  intros Es Em. induction k as [|k IH]; intros s; [apply r_same|]. cbn [process]. rewrite <- Es, <- Em. destruct s as [|c r]; [apply r_same|]. destruct (ceqb c (sym e)).
  - destruct (other_end (strict e) (sym e) [] r) as [nm [r'|]]; [|destruct nm; apply r_same]. destruct nm as [|x nm]; [rewrite !tag_put; apply rel_more; [reflexivity|apply IH]|].
    set (n := rev (x :: nm)). unfold substitute. rewrite <- Em. destruct (negb (strict e) && negb (variable_name true n)); [rewrite !tag_put; apply rel_more; [reflexivity|apply IH]|].
    destruct (lookup e0 n) as [v0|] eqn:L0.
    + destruct (lookup e n) as [v|] eqn:L.
      * destruct (list_eq_dec ascii_dec v v0) as [->|N].
        -- assert (X : forall p, tag ln (let '(l, o) := put_text (replace_newlines nl v0) p in ((n, v0) :: l, o)) = more [(ln, n, v0)] (fun o => match o with Some o => Some (replace_newlines nl v0 ++ o) | None => None end) (tag ln p)) by (intros [? ?]; reflexivity).
           rewrite !X. apply rel_more; [reflexivity|apply IH].
        -- destruct (put_text (replace_newlines nl v0) (process k e0 nl r')) as [l0 o0], (put_text (replace_newlines nl v) (process k e nl r')) as [l1 o1]. apply (r_value e [] ln n v0 v); assumption.
      * destruct (put_text (replace_newlines nl v0) (process k e0 nl r')) as [l0 o0]. apply (r_fail e [] ln n v0); assumption.
    + destruct (lookup e n) as [v|] eqn:L; [|apply r_same]. destruct (put_text (replace_newlines nl v) (process k e nl r')) as [l1 o1]. apply (r_beyond e []).
  - rewrite !tag_put. apply rel_more; [reflexivity|apply IH].
Qed.
Lemma rel_bind e (x y : subs * option bytes) (g0 g : subs * option bytes) (f : bytes -> option bytes -> option bytes) : rel e x y -> rel e g0 g -> (forall o, f o None = None) ->
  rel e (let (s, o) := x in match o with None => (s, None) | Some o => let (s', o') := g0 in (s ++ s', f o o') end) (let (s, o) := y in match o with None => (s, None) | Some o => let (s', o') := g in (s ++ s', f o o') end).
Proof.
  intros H G F. destruct H as [[s [o|]]|l ln n v0 v r0 r o0 o Hv N|l ln n v0 r0 o0 Hv|l r o].
  - pose proof (rel_more e s (f o) g0 g (F o) G) as M. destruct g0, g. exact M.
  - apply r_same.
  - destruct o0 as [o0|], o as [o|], g0 as [s0 p0], g as [s1 p1]; rewrite <- ?app_assoc; cbn [app]; apply r_value; assumption.
  - destruct o0 as [o0|], g0 as [s0 p0]; rewrite <- ?app_assoc; cbn [app]; apply r_fail; assumption.
  - destruct o as [o|]; [|apply r_beyond]. destruct g as [s1 p1]. rewrite <- app_assoc. apply r_beyond.
Qed.
Lemma process_lines_rel e e0 : sym e = sym e0 -> strict e = strict e0 -> forall k ln nl s, rel e (process_lines k e0 ln nl s) (process_lines k e ln nl s).
Proof.
  intros Es Em. induction k as [|k IH]; intros ln nl s; [apply r_same|]. cbn [process_lines]. destruct s as [|c0 s0]; [apply r_same|]. destruct (to_newline (c0 :: s0)) as [l r]. destruct (ending l) as [m nl'].
  pose proof (process_rel e e0 nl' ln Es Em (S (length m)) m) as P. pose proof (IH (S ln) nl' (match r with Some r => r | None => [] end)) as Q.
  pose proof (rel_bind e _ _ _ _ (fun o o' => match o' with Some o' => Some ((if ln =? 1 then [] else nl) ++ o ++ o') | None => None end) P Q ltac:(reflexivity)) as B.
  unfold tag in B. destruct (process (S (length m)) e0 nl' m) as [s1 o1], (process (S (length m)) e nl' m) as [s2 o2]. cbn [fst snd] in B. exact B.
Qed.
Lemma process_file_rel e e0 s : sym e = sym e0 -> strict e = strict e0 -> rel e (process_file e0 s) (process_file e s).
Proof. intros. apply process_lines_rel; assumption. Qed.

(* What is substituted. *)
Definition good (e : setup) (x : nat * bytes * bytes) : Prop := let '(ln, n, v) := x in n <> [] /\ ~ In NL n /\ (strict e = false -> variable_name true n = true) /\ lookup e n = Some v.
Lemma other_end_in st y s : forall acc nm r, other_end st y acc s = (nm, Some r) -> (forall c, In c nm -> In c s \/ In c acc) /\ (forall c, In c r -> In c s).
Proof.
  assert (G : forall k s, length s <= k -> forall acc nm r, other_end st y acc s = (nm, Some r) -> (forall c, In c nm -> In c s \/ In c acc) /\ (forall c, In c r -> In c s)).
  { clear s. induction k as [|k IH]; intros [|c s] L acc nm r E; try discriminate E; [cbn in L; lia|]. cbn [other_end] in E. destruct (ceqb c y) eqn:C.
    - apply ceqb_eq in C. subst c. destruct s as [|c2 s2]; [injection E as <- <-; split; [intros c H; right; exact H|intros c []]|]. destruct (st && ceqb c2 y).
      + apply IH in E; [|cbn in L; lia]. destruct E as [E1 E2]. split; intros c H; [destruct (E1 c H) as [X|[->|X]]|]; cbn; auto.
      + injection E as <- <-. split; intros c H; [right; exact H|right; exact H].
    - apply IH in E; [|cbn in L; lia]. destruct E as [E1 E2]. split; intros d H; [destruct (E1 d H) as [X|[->|X]]|]; cbn; auto. }
  apply (G (length s)). apply Nat.le_refl.
Qed.
Lemma process_good e nl : forall k s, ~ In NL s -> forall n v, In (n, v) (fst (process k e nl s)) -> n <> [] /\ ~ In NL n /\ (strict e = false -> variable_name true n = true) /\ lookup e n = Some v.
Proof.
  induction k as [|k IH]; intros s N n v; cbn [process]; [intros []|]. destruct s as [|c r]; [intros []|]. assert (Nr : ~ In NL r) by (intros X; apply N; right; exact X). destruct (ceqb c (sym e)) eqn:C.
  - apply ceqb_eq in C. subst c. destruct (other_end (strict e) (sym e) [] r) as [nm [r'|]] eqn:O; [|destruct nm, (strict e); intros []]. apply other_end_in in O. destruct O as [O1 O2]. assert (Nr' : ~ In NL r') by (intros X; apply Nr, O2; exact X).
    destruct nm as [|x nm].
    + cbn [put_text fst]. apply IH. destruct (strict e); [exact Nr'|]. intros [X|X]; [|contradiction]. apply N. left. exact X.
    + set (nn := rev (x :: nm)). assert (Nn : ~ In NL nn) by (intros X; apply in_rev in X; destruct (O1 _ X) as [Y|[]]; contradiction). assert (Ne : nn <> []) by (unfold nn; cbn [rev]; intros X; apply app_eq_nil in X; destruct X as [_ X]; discriminate X).
      unfold substitute. destruct (negb (strict e) && negb (variable_name true nn)) eqn:V; [cbn [put_text fst]; apply IH; exact Nr'|]. destruct (lookup e nn) as [w|] eqn:L; [|intros []].
      cbn [put_text fst]. intros [E|H]; [|exact (IH _ Nr' _ _ H)]. injection E as <- <-. split; [exact Ne|]. split; [exact Nn|]. split; [|exact L]. intros St. rewrite St in V. destruct (variable_name true nn); [reflexivity|discriminate V].
  - cbn [put_text fst]. apply IH. exact Nr.
Qed.
Lemma process_lines_good e : forall k ln nl s, Forall (good e) (fst (process_lines k e ln nl s)).
Proof.
  induction k as [|k IH]; intros ln nl s; cbn [process_lines]; [constructor|]. destruct s as [|c0 s0]; [constructor|]. destruct (to_newline (c0 :: s0)) as [l r] eqn:T. apply to_newline_sound in T. destruct T as [Nl _]. destruct (ending l) as [m nl'] eqn:En.
  assert (Nm : ~ In NL m) by (destruct (ending_cases l) as [(m' & El & X)|[_ X]]; rewrite X in En; injection En as <- <-; [|exact Nl]; intros H; apply Nl; rewrite El; apply in_app_iff; left; exact H).
  pose proof (process_good e nl' (S (length m)) m Nm) as P. destruct (process (S (length m)) e nl' m) as [sb o]. cbn [fst] in P.
  assert (G : Forall (good e) (map (fun '(n, v) => (ln, n, v)) sb)) by (apply Forall_forall; intros x H; apply in_map_iff in H; destruct H as ([n v] & <- & H); exact (P n v H)).
  destruct o as [o|]; [|exact G]. specialize (IH (S ln) nl' (match r with Some r => r | None => [] end)). destruct (process_lines k e (S ln) nl' (match r with Some r => r | None => [] end)) as [sb' o']. cbn [fst] in IH |- *. apply Forall_app. split; assumption.
Qed.
Lemma process_file_good e s : Forall (good e) (fst (process_file e s)).
Proof. apply process_lines_good. Qed.

(* Agreement of the first values. *)
Definition agrees (e : setup) (x : nat * bytes * bytes) : Prop := let '(ln, n, v) := x in lookup e n = Some v.
Lemma rel_firstn e s0 o0 s o j : rel e (s0, o0) (s, o) -> Forall (agrees e) (firstn j s0) -> j <= length s0 -> firstn j s = firstn j s0.
Proof.
  intros H A L. remember (s0, o0) as x0 eqn:X0. remember (s, o) as x eqn:X. destruct H as [x1|l ln n v0 v r0 r o1 o2 Hv N|l ln n v0 r0 o1 Hv|l r o1].
  - congruence.
  - injection X0 as <- <-. injection X as <- <-. destruct (le_lt_dec j (length l)) as [J|J]; [rewrite !firstn_app, (proj2 (Nat.sub_0_le _ _) J); reflexivity|].
    exfalso. rewrite firstn_app in A. apply Forall_app in A. destruct A as [_ A]. destruct (j - length l) as [|i] eqn:I; [lia|]. cbn in A. inversion A as [|? ? A1 _]; subst. cbn in A1. congruence.
  - injection X0 as <- <-. injection X as <- <-. destruct (le_lt_dec j (length l)) as [J|J]; [rewrite !firstn_app, (proj2 (Nat.sub_0_le _ _) J); cbn; rewrite app_nil_r; reflexivity|].
    exfalso. rewrite firstn_app in A. apply Forall_app in A. destruct A as [_ A]. destruct (j - length l) as [|i] eqn:I; [lia|]. cbn in A. inversion A as [|? ? A1 _]; subst. cbn in A1. congruence.
  - injection X0 as <- <-. injection X as <- <-. rewrite firstn_app, (proj2 (Nat.sub_0_le _ _) L). cbn. apply app_nil_r.
Qed.
Lemma rel_all e s0 o0 s o : rel e (s0, Some o0) (s, o) -> Forall (agrees e) s0 -> (s, o) = (s0, Some o0).
Proof.
  intros H A. remember (s0, Some o0) as x0 eqn:X0. remember (s, o) as x eqn:X. destruct H as [x1|l ln n v0 v r0 r o1 o2 Hv N|l ln n v0 r0 o1 Hv|l r o1]; [reflexivity| | |discriminate X0];
    injection X0 as Y _; subst s0; apply Forall_app in A; destruct A as [_ A]; inversion A as [|? ? A1 _]; subst; cbn in A1; congruence.
Qed.
Lemma rel_fails e s0 o0 s o j ln n v r : rel e (s0, o0) (s, o) -> Forall (agrees e) s -> s0 = j ++ (ln, n, v) :: r -> Forall (agrees e) j -> lookup e n = None -> o = None.
Proof.
  intros H G E A Hn. assert (Not : ~ In (ln, n, v) s) by (intros I; rewrite Forall_forall in G; specialize (G _ I); cbn in G; congruence).
  remember (s0, o0) as x0 eqn:X0. remember (s, o) as x eqn:X. destruct H as [x1|l ln1 n1 v0 v1 r0 r1 o1 o2 Hv N|l ln1 n1 v0 r0 o1 Hv|l r1 o1].
  - exfalso. rewrite X0 in X. injection X as <- <-. apply Not. rewrite E. apply in_app_iff. right. left. reflexivity.
  - exfalso. injection X0 as <- <-. injection X as <- <-. apply app_eq_app in E. destruct E as (l' & [[-> E]|[-> E]]).
    + destruct l' as [|y l']; [injection E as <- <- <- <-; congruence|]. injection E as <- _. apply Not. rewrite <- app_assoc. apply in_app_iff. right. left. reflexivity.
    + destruct l' as [|y l']; [injection E as -> -> -> _; congruence|]. injection E as <- _. apply Forall_app in A. destruct A as [_ A]. inversion A as [|? ? A1 _]; subst. cbn in A1. congruence.
  - congruence.
  - exfalso. injection X0 as <- <-. injection X as <- <-. apply Not. apply in_app_iff. left. rewrite E. apply in_app_iff. right. left. reflexivity.
Qed.
Lemma good_agrees e l : Forall (good e) l -> Forall (agrees e) l.
Proof. apply Forall_impl. intros [[ln n] v] (_ & _ & _ & H). exact H. Qed.

(* A record. *)
Definition digit (c : ascii) : Prop := is_digit c = true.
Lemma dec_digits n : Forall digit (dec n) /\ dec n <> [].
Proof.
  unfold dec. split.
  - generalize (Nat.to_uint n). intros u. induction u; cbn; constructor; try reflexivity; assumption.
  - intros E. assert (U : Nat.to_uint n = Decimal.Nil) by (destruct (Nat.to_uint n); try discriminate E; reflexivity). pose proof (DecimalNat.Unsigned.of_to n) as O. rewrite U in O. cbn in O. subst n. discriminate U.
Qed.
Lemma skip_digits_app x c s : Forall digit x -> is_digit c = false -> skip_digits (x ++ c :: s) = c :: s.
Proof. intros D N. induction D as [|d x Hd D IH]; cbn [app skip_digits]; [rewrite N; reflexivity|]. rewrite Hd. exact IH. Qed.
Lemma last_space_none h : ~ In SP h -> last_space h = None.
Proof. induction h as [|c h IH]; intros N; [reflexivity|]. cbn [last_space]. rewrite IH by (intros X; apply N; right; exact X). rewrite ceqb_diff by (intros ->; apply N; left; reflexivity). reflexivity. Qed.
Lemma last_space_app n h : ~ In SP h -> last_space (n ++ SP :: h) = Some (n, h).
Proof. intros N. induction n as [|c n IH]; cbn [app last_space]; [rewrite last_space_none by exact N; rewrite ceqb_same; reflexivity|]. rewrite IH. reflexivity. Qed.
Lemma digit_not c : digit c -> c <> NL /\ c <> NUL.
Proof. intros H. split; intros ->; discriminate H. Qed.

Lemma holds_length f ls cl : holds f ls cl -> length ls <= length f.
Proof. intros H. induction H; cbn; rewrite ?app_length; cbn in *; lia. Qed.

Section Update.
Context (id : bytes) (hash : bytes -> bytes) (used : bytes -> Prop).
Context (Hid : line_ok (id ++ b " 1")) (Hhash : good_hash hash used).
Notation record := (record hash).
Notation head := (head id).
Notation check := (check hash).
Notation perform_update := (perform_update id hash).

Lemma parse_record_correct e x : good e x -> parse_record (record x) = Some (snd (fst x), hash (snd x)).
Proof.
  destruct x as [[ln n] v]. intros (N & _). unfold parse_record, InModel.record. rewrite skip_digits_app by (apply dec_digits || reflexivity). rewrite ceqb_same, last_space_app by apply (proj1 Hhash). destruct n; [contradiction|reflexivity].
Qed.
Lemma record_ok e x : good e x -> line_ok (record x).
Proof.
  destruct x as [[ln n] v]. intros (_ & N & _). destruct (dec_digits ln) as [D E]. split; unfold InModel.record.
  - intros H. apply in_app_iff in H. destruct H as [H|[H|H]]; [rewrite Forall_forall in D; apply D, digit_not in H; tauto|discriminate H|]. apply in_app_iff in H. destruct H as [H|[H|H]]; [contradiction|discriminate H|]. exact (proj1 (proj1 Hhash v) H).
  - destruct (dec ln) as [|c d]; [contradiction|]. cbn. inversion D as [|? ? Dc _]; subst. apply digit_not in Dc. intros X. injection X as ->. tauto.
Qed.
Lemma records_ok e l : Forall (good e) l -> Forall line_ok (map record l).
Proof. intros G. apply Forall_map. revert G. apply Forall_impl. apply record_ok. Qed.
Lemma head_ok e path : storable_setup used e path -> Forall line_ok (head e path).
Proof. intros (H1 & H2 & _). unfold InModel.head, mode. repeat constructor; try exact Hid || exact (proj1 Hid); try apply H1; try apply H2; try apply Hid; destruct (strict e); try discriminate; cbn; intuition discriminate. Qed.

(* The functions of the model in terms of the sessions. *)
Lemma expects_is_run vs : forall d d' outs, run d (map OExpect vs) = Some (d', outs) -> expects vs d = Some d'.
Proof.
  induction vs as [|v vs IH]; intros d d' outs H; cbn [map run expects] in *; [congruence|]. cbn [DepdbModel.step] in H. destruct (expect v d) as [[l d1]|]; [|discriminate H].
  destruct (run d1 (map OExpect vs)) as [[d2 vs2]|] eqn:R; [|discriminate H]. injection H as <- _. exact (IH _ _ _ R).
Qed.
Lemma writes_run ls : forall d done, R d (AWriting done []) -> exists d', writes ls d = Some d' /\ R d' (AWriting (done ++ ls) []).
Proof.
  induction ls as [|l ls IH]; intros d done H; cbn [writes]; [exists d; rewrite app_nil_r; auto|]. destruct (write_refines l true _ _ H) as (d1 & E & H1). rewrite E. cbn in H1. destruct (IH _ _ H1) as (d' & E' & H'). exists d'. split; [exact E'|]. rewrite <- app_assoc in H'. exact H'.
Qed.

(* Checking. *)
Lemma R_state d a : R d a -> match a with AReading _ _ rest cl => (st d = Read /\ (rest = [] -> cl = false)) \/ (st d = ReadEof /\ rest = [] /\ cl = true) | ASkipped _ _ => st d = ReadEof | AWriting _ _ => st d = Write end.
Proof.
  intros H. destruct H as [f kept cur c s ls cl w wb p Ef Hc Hok Hne Hh Hp| | |]; auto. left. split; [reflexivity|]. intros ->. remember (c :: s) as q eqn:Q. inversion Hh; reflexivity.
Qed.
Definition checked (e : setup) (n : nat) (kept : list bytes) (rs : subs) (cl : bool) (r : option (nat * db)) : Prop :=
  (exists j ln nm v tl, rs = j ++ (ln, nm, v) :: tl /\ Forall (agrees e) j /\ lookup e nm = None /\ r = None) \/
  (exists j d, j <= length rs /\ Forall (agrees e) (firstn j rs) /\ r = Some (n + j, d) /\ R d (AWriting (kept ++ map record (firstn j rs)) []) /\ (cl = true -> exists x, In x rs /\ ~ agrees e x)) \/
  (exists d kept' cur', Forall (agrees e) rs /\ cl = true /\ r = Some (n + length rs, d) /\ st d = ReadEof /\ R d (AReading kept' cur' [] true) /\ accept kept' cur' = kept ++ map record rs).
Lemma check_run e e0 : strict e = strict e0 -> (forall n v, value_of e n v -> used v) -> (forall n v, value_of e0 n v -> used v) ->
  forall rs k n d kept cur cl, Forall (good e0) rs -> length rs < k -> R d (AReading kept cur (map record rs) cl) -> checked e n (accept kept cur) rs cl (check k e n d).
Proof.
  intros Em U U0. induction rs as [|x rs IH]; intros k n d kept cur cl G K H; (destruct k as [|k]; [lia|]); cbn [InModel.check]; pose proof (R_state _ _ H) as S0; cbn [map] in S0.
  - destruct S0 as [[S0 C]|(S0 & _ & ->)]; rewrite S0.
    + rewrite (C eq_refl) in H. destruct (read_refines _ _ H None (AWriting (accept kept cur) []) eq_refl) as (d1 & E & H1). rewrite E. right; left. exists 0, d1. cbn. rewrite Nat.add_0_r, app_nil_r. repeat split; [lia|constructor|exact H1|rewrite (C eq_refl); discriminate].
    + right; right. exists d, kept, cur. cbn. rewrite Nat.add_0_r, app_nil_r. repeat split; [constructor|exact S0|exact H].
  - destruct S0 as [[S0 _]|(_ & X & _)]; [|discriminate X]. rewrite S0. inversion G as [|? ? Gx Gr]; subst. destruct (read_refines _ _ H (Some (record x)) (AReading (accept kept cur) (Some (record x)) (map record rs) cl) eq_refl) as (d1 & E & H1). rewrite E.
    rewrite (parse_record_correct e0 x Gx). destruct x as [[ln nm] v]. cbn [fst snd]. destruct Gx as (N1 & N2 & N3 & N4).
    assert (Sb : substitute e nm = match lookup e nm with Some v => Value v | None => Fail end) by (unfold substitute; destruct (strict e) eqn:St; [reflexivity|]; rewrite N3 by congruence; reflexivity). rewrite Sb.
    destruct (lookup e nm) as [w|] eqn:L.
    + destruct (beqb (hash w) (hash v)) eqn:B.
      * apply beqb_eq in B. assert (w = v) as -> by (apply (proj2 Hhash); [apply (U nm), lookup_value; exact L|apply (U0 nm), lookup_value; exact N4|exact B]).
        destruct (IH k (S n) d1 _ _ cl Gr ltac:(cbn in K; lia) H1) as [(j & ln' & nm' & v' & tl & -> & A & Ln & Er)|[(j & d' & J & A & Er & H' & Nt)|(d' & kept' & cur' & A & C & Er & S' & H' & Ac)]].
        -- left. exists ((ln, nm, v) :: j), ln', nm', v', tl. repeat split; [constructor; [exact L|exact A]|exact Ln|exact Er].
        -- right; left. exists (S j), d'. cbn [firstn map length]. split; [lia|]. split; [constructor; [exact L|exact A]|]. split; [rewrite Er, Nat.add_succ_r; reflexivity|]. cbn [accept] in H'. rewrite <- app_assoc in H'. split; [exact H'|]. intros Ct. destruct (Nt Ct) as (x & Ix & Nx). exists x. split; [right; exact Ix|exact Nx].
        -- right; right. exists d', kept', cur'. cbn [map length]. split; [constructor; [exact L|exact A]|]. split; [exact C|]. split; [rewrite Er, Nat.add_succ_r; reflexivity|]. split; [exact S'|]. split; [exact H'|]. rewrite Ac. cbn [accept]. rewrite <- app_assoc. reflexivity.
      * right; left. exists 0, (mark d1). cbn [firstn map]. rewrite Nat.add_0_r, app_nil_r. repeat split; [cbn; lia|constructor|pose proof (to_write_R _ _ H1) as M; unfold mark; exact M|]. intros _. exists (ln, nm, v). split; [left; reflexivity|]. cbn. intros X. rewrite L in X. injection X as ->. rewrite beqb_refl in B. discriminate B.
    + left. exists [], ln, nm, v, rs. repeat split; [constructor|exact L].
Qed.

(* An update given what the database has been written for. *)
Definition full (e : setup) (path : bytes) (sb : subs) : list bytes := head e path ++ map record sb.
Definition from (f : bytes) (e0 : setup) (path0 c0 : bytes) : Prop :=
  forall ls cl, holds f (version :: ls) cl -> storable_setup used e0 path0 /\
    if cl then ls = full e0 path0 (fst (process_file e0 c0)) /\ snd (process_file e0 c0) <> None else prefix ls (full e0 path0 (fst (process_file e0 c0))).
Lemma head_inj e path e0 path0 x y : head e path ++ x = head e0 path0 ++ y -> sym e = sym e0 /\ strict e = strict e0 /\ path = path0 /\ x = y.
Proof.
  unfold InModel.head. cbn [app]. intros E. injection E as E1 E2 E3 E4. repeat split; auto. unfold mode in E2. destruct (strict e), (strict e0); try reflexivity; discriminate E2.
Qed.
Lemma read_mark d kept cur rest cl : R d (AReading kept cur rest cl) -> R (mark (snd (read d))) (AWriting (accept kept cur) []).
Proof.
  intros H. assert (X : exists l a', aread (AReading kept cur rest cl) = Some (l, a') /\ akeep a' = (accept kept cur, [])) by (destruct rest as [|l rest]; [destruct cl|]; cbn; do 2 eexists; split; reflexivity).
  destruct X as (l & a' & A & K). destruct (read_refines _ _ H _ _ A) as (d1 & E & H1). rewrite E. cbn [snd]. pose proof (to_write_R _ _ H1) as M. rewrite K in M. exact M.
Qed.
Lemma record_inj e e0 ln n v v0 : (forall n v, value_of e n v -> used v) -> (forall n v, value_of e0 n v -> used v) -> lookup e n = Some v -> lookup e0 n = Some v0 -> record (ln, n, v) = record (ln, n, v0) -> v = v0.
Proof.
  intros U U0 L L0 E. unfold InModel.record in E. apply app_inv_head in E. injection E as E. apply app_inv_head in E. injection E as E. apply (proj2 Hhash); [apply (U n), lookup_value; exact L|apply (U0 n), lookup_value; exact L0|exact E].
Qed.
Lemma rel_records e e0 s0 o0 s o : (forall n v, value_of e n v -> used v) -> (forall n v, value_of e0 n v -> used v) -> rel e (s0, Some o0) (s, o) -> Forall (good e0) s0 -> Forall (good e) s -> map record s0 = map record s -> Forall (agrees e) s0.
Proof.
  intros U U0 H G0 G M. remember (s0, Some o0) as x0 eqn:X0. remember (s, o) as x eqn:X. destruct H as [x1|l ln1 n1 v0 v1 r0 r1 o1 o2 Hv N|l ln1 n1 v0 r0 o1 Hv|l r1 o1]; [| | |discriminate X0].
  - rewrite X0 in X. injection X as <- <-. apply good_agrees. exact G.
  - exfalso. injection X0 as Y _. injection X as Z _. subst s0 s. rewrite !map_app in M. apply app_inv_head in M. cbn [map] in M. injection M as M _. apply Forall_app in G0, G. destruct G0 as [_ G0], G as [_ G]. destruct (Forall_inv G0) as (_ & _ & _ & K0), (Forall_inv G) as (_ & _ & _ & K).
    apply N. exact (record_inj e e0 ln1 n1 v1 v0 U U0 K K0 (eq_sym M)).
  - exfalso. injection X0 as Y _. injection X as Z _. subst s0 s. apply (f_equal (@length _)) in M. rewrite !map_length, app_length in M. cbn in M. lia.
Qed.
Definition performed (e : setup) (path : bytes) (f : option bytes) (nw : bool) (s : bytes) (e0 : setup) (c0 : bytes) (r : outcome) : Prop :=
  match r with
  | Failed => snd (process_file e s) = None
  | UpToDate d => nw = false /\ process_file e0 c0 = process_file e s /\ snd (process_file e s) <> None /\ (exists c, f = Some c /\ holds c (version :: full e path (fst (process_file e s))) true) /\ holds (close_db TNone d) (version :: full e path (fst (process_file e s))) true
  | Updating d o => o = snd (process_file e s) /\ R d (AWriting (version :: full e path (fst (process_file e s))) []) /\ (nw = false -> forall c, f = Some c -> ~ holds c (version :: full e path (fst (process_file e s))) true)
  end.
Lemma perform_run e path f nw s e0 path0 c0 : storable_setup used e path -> (forall c, f = Some c -> from c e0 path0 c0) -> (nw = false -> path = path0 -> s = c0) -> performed e path f nw s e0 c0 (perform_update e path f nw s).
Proof.
  intros Sp Fr Sm. unfold InModel.perform_update. destruct (open_refines f) as (a0 & Ho & H0). destruct (expects_run (head e path) _ _ H0 (open_not_writing_part _ _ Ho) (aopen_not_skipped _ _ Ho)) as (d & outs & a & Er & H & Ns & Pt & Al & Cm & Rd & Cv).
  rewrite (expects_is_run _ _ _ _ Er). rewrite (open_lines _ _ Ho) in Al. pose proof (process_file_good e s) as Ge. pose proof (process_file_good e0 c0) as Ge0.
  assert (Upd : forall n d', R d' (AWriting (version :: head e path ++ map record (firstn n (fst (process_file e s)))) []) -> (nw = false -> forall c, f = Some c -> ~ holds c (version :: full e path (fst (process_file e s))) true) ->
    performed e path f nw s e0 c0 (let (sb, o) := process_file e s in match writes (map record (skipn n sb)) d' with Some d'' => Updating d'' o | None => Failed end)).
  { intros n d' H' Nh. destruct (process_file e s) as [sb o] eqn:P. cbn [fst] in H', Nh. destruct (writes_run (map record (skipn n sb)) _ _ H') as (d2 & W & H2). rewrite W. unfold performed. rewrite P. cbn [fst snd]. split; [reflexivity|].
    cbn [app] in H2. rewrite <- app_assoc, <- map_app, firstn_skipn in H2. split; [exact H2|exact Nh]. }
  pose proof (R_state _ _ H) as St. destruct a as [kept cur rest cl|kept rest|done part].
  2: exfalso; apply Ns; exact I.
  2: { unfold writing. rewrite St, orb_true_r. apply (Upd 0).
       - cbn [firstn map]. rewrite app_nil_r. rewrite (Pt _ _ eq_refl) in H. cbn [alines] in Al. rewrite Al in H. exact H.
       - intros _ c -> Hc. inversion Ho as [|f0 ls0 cl0 Hh E1 E2|f0 ls0 cl0 Hh Hn]; subst.
         + destruct (holds_det _ _ _ _ _ Hc Hh) as [E <-]. injection E as <-. destruct (Cv _ _ _ _ eq_refl) as (? & ? & X & _). discriminate X.
         + destruct (holds_det _ _ _ _ _ Hc Hh) as [<- _]. apply Hn. reflexivity. }
  assert (Wr : writing d = false) by (unfold writing; destruct St as [[-> _]|(-> & _)]; reflexivity). cbn [alines] in Al. rewrite Wr. destruct nw; cbn [orb].
  { apply (Upd 0). cbn [firstn map]. rewrite app_nil_r. pose proof (read_mark _ _ _ _ _ H) as M. rewrite Al in M. exact M. discriminate. }
  destruct (Rd _ _ _ _ eq_refl) as (k0 & c1 & ->). inversion Ho as [|f0 ls0 cl0 Hh E1 E2|]; subst. destruct (Fr f0 eq_refl _ _ Hh) as (Sp0 & Hl).
  destruct (process_file e0 c0) as [s0 o0] eqn:P0. cbn [fst snd] in Hl, Ge0.
  assert (Z : exists z, full e0 path0 s0 = (head e path ++ rest) ++ z /\ (cl = true -> z = [] /\ o0 <> None)).
  { destruct cl; [exists []; rewrite app_nil_r; split; [symmetry; tauto|tauto]|]. destruct Hl as (z & Hl). exists z. split; [exact Hl|discriminate]. }
  destruct Z as (z & Hz & Hcl). unfold full in Hz. rewrite <- app_assoc in Hz. apply head_inj in Hz. destruct Hz as (Es & Em & Ep & Hz). assert (s = c0) as -> by (apply Sm; auto).
  destruct (map_eq_app _ _ _ _ Hz) as (rs & rz & -> & <- & <-). pose proof Ge0 as Grs. apply Forall_app in Grs. destruct Grs as [Grs _].
  assert (Len : length rs < S (length f0)) by (apply holds_length in Hh; cbn [length] in Hh; rewrite map_length in Hh; lia).
  pose proof (process_file_rel e e0 c0 (eq_sym Es) (eq_sym Em)) as Rl. rewrite P0 in Rl.
  pose proof (check_run e e0 (eq_sym Em) (proj2 (proj2 Sp)) (proj2 (proj2 Sp0)) rs (S (length f0)) 0 d kept cur cl Grs Len H) as C. rewrite Al in C.
  destruct C as [(j & ln & nm & v & tl & -> & A & L & ->)|[(j & d' & J & A & -> & H' & Nt)|(d' & kept' & cur' & A & C & -> & S' & H' & Ac)]].
  - unfold performed. destruct (process_file e c0) as [sb o] eqn:P. cbn [snd]. eapply rel_fails; [exact Rl|apply good_agrees; exact Ge| |exact A|exact L]. rewrite <- app_assoc. reflexivity.
  - pose proof (R_state _ _ H') as S'. unfold writing. cbn iota in S'. rewrite S'. cbn [Nat.add]. apply Upd.
    2: { intros _ c E Hc. injection E as <-. destruct (holds_det _ _ _ _ _ Hc Hh) as [E <-]. injection E as E. destruct (Hcl eq_refl) as [Hz0 Ho0]. apply map_eq_nil in Hz0. subst rz. rewrite app_nil_r in *.
         destruct (Nt eq_refl) as (x & Ix & Nx). destruct o0 as [o0|]; [|contradiction]. destruct (process_file e c0) as [sb o] eqn:P. cbn [fst] in E. pose proof (rel_records e e0 _ _ _ _ (proj2 (proj2 Sp)) (proj2 (proj2 Sp0)) Rl Grs Ge (eq_sym E)) as Ag.
         rewrite Forall_forall in Ag. exact (Nx (Ag _ Ix)). }
    destruct (process_file e c0) as [sb o] eqn:P. cbn [fst].
    assert (F : firstn j sb = firstn j (rs ++ rz)).
    { apply (rel_firstn e _ _ _ _ _ Rl); [|rewrite app_length; lia]. rewrite firstn_app, (proj2 (Nat.sub_0_le _ _) J). cbn. rewrite app_nil_r. exact A. }
    rewrite F, firstn_app, (proj2 (Nat.sub_0_le _ _) J). cbn [firstn]. rewrite app_nil_r. exact H'.
  - destruct (Hcl C) as [Hz0 Ho0]. apply map_eq_nil in Hz0. subst rz. rewrite app_nil_r in *. unfold writing. rewrite S'. unfold performed. destruct (process_file e c0) as [sb o] eqn:P. destruct o0 as [o0|]; [|contradiction].
    apply rel_all in Rl; [|exact A]. injection Rl as -> ->. cbn [fst snd]. split; [reflexivity|]. split; [exact P0|]. split; [discriminate|]. split; [exists f0; rewrite C in Hh; split; [reflexivity|exact Hh]|]. pose proof (close_holds _ _ TNone H' I) as Cl. cbn [alines] in Cl. rewrite Ac in Cl. apply Cl. discriminate.
Qed.

(* Histories. *)
Definition times (w : world) : Prop := (forall p c m, ins w p = Some (c, m) -> m <= clock w) /\ (forall x m, tgt w = Some (x, m) -> m <= clock w) /\ (forall f m, dd w = Some (f, m) -> m <= clock w).
Definition written (w : world) : Prop := forall f md, dd w = Some (f, md) -> exists e0 path0 c0, from f e0 path0 c0 /\
  (forall ls, holds f (version :: ls) true -> forall x mt, tgt w = Some (x, mt) -> md <= mt -> snd (process_file e0 c0) = Some x) /\
  (forall x mt, tgt w = Some (x, mt) -> forall c m, ins w path0 = Some (c, m) -> m <= mt -> c = c0).
Definition inv (w : world) : Prop := times w /\ written w.

Definition contents_of (w : world) : option bytes := match dd w with Some (f, _) => Some f | None => None end.
Lemma performing e path w s m : inv w -> storable_setup used e path -> ins w path = Some (s, m) ->
  exists e0 c0, performed e path (contents_of w) (newer w m) s e0 c0 (perform_update e path (contents_of w) (newer w m) s) /\
    forall f md, dd w = Some (f, md) -> (forall ls, holds f (version :: ls) true -> forall x mt, tgt w = Some (x, mt) -> md <= mt -> snd (process_file e0 c0) = Some x).
Proof.
  intros [T W] Sp Hi. unfold contents_of. destruct (dd w) as [[f md]|] eqn:Dd.
  - destruct (W f md Dd) as (e0 & path0 & c0 & Fr & Ht & Hin). exists e0, c0. split.
    + apply (perform_run e path (Some f) (newer w m) s e0 path0 c0 Sp); [intros c E; injection E as <-; exact Fr|]. intros Nw <-. unfold newer, older in Nw. rewrite Dd in Nw. destruct (tgt w) as [[x mt]|] eqn:Tg; [|discriminate Nw].
      apply orb_false_iff in Nw. destruct Nw as [Nw _]. apply Nat.ltb_ge in Nw. exact (Hin x mt eq_refl s m Hi Nw).
    + intros f' md' E. injection E as <- <-. exact Ht.
  - exists e, s. split; [|discriminate]. apply (perform_run e path None (newer w m) s e path s Sp); [discriminate|reflexivity].
Qed.
Lemma from_closed f e path s : storable_setup used e path -> snd (process_file e s) <> None -> holds f (version :: full e path (fst (process_file e s))) true -> from f e path s.
Proof. intros Sp N H ls cl H'. destruct (holds_det _ _ _ _ _ H H') as [E <-]. injection E as <-. auto. Qed.
Lemma from_prefix f e path s ls0 : storable_setup used e path -> holds f ls0 false -> prefix ls0 (version :: full e path (fst (process_file e s))) -> from f e path s.
Proof. intros Sp H (z & P) ls cl H'. destruct (holds_det _ _ _ _ _ H H') as [-> <-]. split; [exact Sp|]. injection P as P. exists z. exact P. Qed.
Lemma full_ok e path sb : storable_setup used e path -> Forall (good e) sb -> Forall line_ok (version :: full e path sb).
Proof. intros Sp G. constructor; [exact version_ok|]. apply Forall_app. split; [apply head_ok; exact Sp|apply (records_ok e); exact G]. Qed.

Lemma update_correct e path w w' : inv w -> storable_setup used e path -> update id hash e path w = Some w' ->
  inv w' /\ ins w' = ins w /\ exists s m o mt, ins w path = Some (s, m) /\ snd (process_file e s) = Some o /\ tgt w' = Some (o, mt) /\ m <= mt /\
    exists f md, dd w' = Some (f, md) /\ md <= mt /\ holds f (version :: full e path (fst (process_file e s))) true.
Proof.
  intros Hv Sp E. unfold update in E. destruct (ins w path) as [[s m]|] eqn:Hi; [|discriminate E]. destruct (performing e path w s m Hv Sp Hi) as (e0 & c0 & P & Ht). fold (contents_of w) in E.
  pose proof Hv as [(T1 & T2 & T3) _]. destruct (perform_update e path (contents_of w) (newer w m) s) as [|d|d o] eqn:Pu; [discriminate E| |].
  - destruct P as (Nw & Ep & Nn & (fc & Hf & Fh) & Hh). injection E as <-. unfold newer in Nw. destruct (dd w) as [[f md]|] eqn:Dd; [|rewrite orb_true_r in Nw; discriminate Nw]. unfold older in Nw. destruct (tgt w) as [[x mt]|] eqn:Tg; [|discriminate Nw].
    apply orb_false_iff in Nw. destruct Nw as [N1 N2]. apply Nat.ltb_ge in N1, N2.
    unfold contents_of in Hf. rewrite Dd in Hf. injection Hf as <-. assert (Hx : snd (process_file e s) = Some x) by (rewrite <- Ep; exact (Ht f md eq_refl _ Fh x mt eq_refl N2)).
    split; [|split; [reflexivity|]].
    + split; [split; [exact T1|split; [cbn; intros ? ? X; apply (T2 _ _ X)|cbn; intros ? ? X; injection X as <- <-; exact (T3 f md eq_refl)]]|].
      intros f' md' X. cbn in X. injection X as <- <-. exists e, path, s. split; [apply from_closed; assumption|]. cbn [tgt ins]. split; [intros ls' _ x' mt' X _; congruence|]. intros x' mt' X c m' Y _. congruence.
    + exists s, m, x, mt. split; [reflexivity|]. split; [exact Hx|]. split; [reflexivity|]. split; [exact N1|]. eexists _, md. cbn [dd]. split; [reflexivity|]. split; [exact N2|exact Hh].
  - destruct P as (Eo & H & _). destruct o as [o|]; [|discriminate E]. injection E as <-. assert (Hh : holds (close_db TNone d) (version :: full e path (fst (process_file e s))) true).
    { apply (close_holds _ _ TNone H); [split; [apply full_ok; [exact Sp|apply process_file_good]|reflexivity]|discriminate]. }
    split; [|split; [reflexivity|]].
    + split; [split; [cbn; intros p c m' X; specialize (T1 _ _ _ X); lia|split; cbn; intros ? ? X; injection X as <- <-; lia]|].
      intros f' md' X. cbn in X. injection X as <- <-. exists e, path, s. split; [apply from_closed; [exact Sp|congruence|exact Hh]|]. cbn [tgt ins]. split; [intros ls' _ x' mt' X _; congruence|]. intros x' mt' X c m' Y _. congruence.
    + specialize (T1 _ _ _ Hi). exists s, m, o, (S (S (clock w))). split; [reflexivity|]. split; [symmetry; exact Eo|]. split; [reflexivity|]. split; [lia|]. eexists _, _. cbn [dd]. split; [reflexivity|]. split; [lia|exact Hh].
Qed.
Lemma older_le t m : older t (S m) = true -> forall x mt, t = Some (x, mt) -> mt <= m.
Proof. intros O x mt ->. cbn in O. apply Nat.leb_le in O. exact O. Qed.
Lemma interrupted_inv e path w w' : inv w -> storable_setup used e path -> interrupted id hash e path w w' -> inv w'.
Proof.
  intros Hv Sp H. pose proof Hv as [(T1 & T2 & T3) _]. destruct H as [s m d o k t Hi E O|s m d o k t Hi E O]; destruct (performing e path w s m Hv Sp Hi) as (e0 & c0 & P & _); unfold contents_of in P; rewrite E in P; destruct P as (Eo & H & _);
    pose proof (full_ok e path _ Sp (process_file_good e s)) as Ok.
  - split; [split; [cbn; intros p c m' X; specialize (T1 _ _ _ X); lia|split; cbn; [intros x mt X; exact (older_le _ _ O _ _ X)|intros ? ? X; injection X as <- <-; lia]]|].
    intros f md X. cbn in X. injection X as <- <-. pose proof (R_state _ _ H) as S'. destruct (crash_holds d _ k H) as (ls' & Hh & Pr); [split; [exact Ok|split; [intros []|discriminate]]|exact S'|].
    exists e, path, s. split; [eapply from_prefix; [exact Sp|exact Hh|exact Pr]|]. cbn [tgt ins]. split; [|intros x mt X c m' Y _; congruence]. intros ls Hc. destruct (holds_det _ _ _ _ _ Hh Hc) as [_ Z]. discriminate Z.
  - split; [split; [cbn; intros p c m' X; specialize (T1 _ _ _ X); lia|split; cbn; [intros x mt X; pose proof (older_le _ _ O _ _ X); lia|intros ? ? X; injection X as <- <-; lia]]|].
    intros f md X. cbn in X. injection X as <- <-. exists e, path, s. split; [|cbn [tgt ins]; split; [intros ls _ x mt X L; pose proof (older_le _ _ O _ _ X); lia|intros x mt X c m' Y _; congruence]].
    destruct (crash_close_any d _ k TNone H) as [(ls' & Hh & Pr)|Hh]; [split; [exact Ok|reflexivity]|discriminate|eapply from_prefix; [exact Sp|exact Hh|exact Pr]|apply from_closed; [exact Sp|congruence|exact Hh]].
Qed.
Lemma step_inv w w' : step id hash (storable_setup used) w w' -> inv w -> inv w'.
Proof.
  intros H Hv. destruct H as [p s w|p w|w|w|e path w w' Sp E|e path w w' Sp E]; [| | | |apply (update_correct e path w w' Hv Sp E)|exact (interrupted_inv e path w w' Hv Sp E)]; destruct Hv as [(T1 & T2 & T3) W].
  - split; [split; [|split]|]; cbn.
    + intros q c m. destruct (beqb q p); [intros E; injection E as <- <-; lia|]. intros X. specialize (T1 _ _ _ X). lia.
    + intros x m X. specialize (T2 _ _ X). lia.
    + intros x m X. specialize (T3 _ _ X). lia.
    + intros f md Dd. destruct (W f md Dd) as (e0 & path0 & c0 & Fr & Ht & Hi). exists e0, path0, c0. split; [exact Fr|]. split; [exact Ht|]. cbn. intros x mt Tg c m. destruct (beqb path0 p); [|exact (Hi x mt Tg c m)]. intros E L. injection E as <- <-. specialize (T2 _ _ Tg). lia.
  - split; [split; [|split]|]; cbn.
    + intros q c m. destruct (beqb q p); [discriminate|]. intros X. specialize (T1 _ _ _ X). lia.
    + intros x m X. specialize (T2 _ _ X). lia.
    + intros x m X. specialize (T3 _ _ X). lia.
    + intros f md Dd. destruct (W f md Dd) as (e0 & path0 & c0 & Fr & Ht & Hi). exists e0, path0, c0. split; [exact Fr|]. split; [exact Ht|]. cbn. intros x mt Tg c m. destruct (beqb path0 p); [discriminate|exact (Hi x mt Tg c m)].
  - split; [split; [exact T1|split; [discriminate|exact T3]]|]. intros f md Dd. destruct (W f md Dd) as (e0 & path0 & c0 & Fr & Ht & Hi). exists e0, path0, c0. split; [exact Fr|]. split; [intros ? ? ? ? X; discriminate X|intros ? ? X; discriminate X].
  - split; [split; [exact T1|split; [exact T2|discriminate]]|]. intros f md X. discriminate X.
Qed.
Lemma steps_inv w w' : steps id hash (storable_setup used) w w' -> inv w -> inv w'.
Proof. intros H. induction H as [|w w1 w2 H IH S]; [auto|]. intros Hv. exact (step_inv _ _ S (IH Hv)). Qed.

(* At first there is no database. *)
Definition fresh (w : world) : Prop := dd w = None /\ (forall p c m, ins w p = Some (c, m) -> m <= clock w) /\ (forall x m, tgt w = Some (x, m) -> m <= clock w).
Lemma fresh_inv w : fresh w -> inv w.
Proof. intros (D & T1 & T2). split; [split; [exact T1|split; [exact T2|rewrite D; discriminate]]|]. intros f md X. rewrite D in X. discriminate X. Qed.

Theorem updated w0 w e path w' : fresh w0 -> steps id hash (storable_setup used) w0 w -> storable_setup used e path -> update id hash e path w = Some w' ->
  ins w' = ins w /\ exists s m o mt, ins w path = Some (s, m) /\ output e s o /\ tgt w' = Some (o, mt).
Proof.
  intros F H Sp E. destruct (update_correct e path w w' (steps_inv _ _ H (fresh_inv _ F)) Sp E) as (_ & Hi & s & m & o & mt & H1 & H2 & H3 & _). split; [exact Hi|]. exists s, m, o, mt. split; [exact H1|]. split; [|exact H3].
  apply process_file_correct. destruct (process_file e s) as [sb o']. cbn in H2. subst o'. eexists. reflexivity.
Qed.
Theorem updates w0 w e path s m o : fresh w0 -> steps id hash (storable_setup used) w0 w -> storable_setup used e path -> ins w path = Some (s, m) -> output e s o -> exists w', update id hash e path w = Some w'.
Proof.
  intros F H Sp Hi Ho. apply process_file_correct in Ho. destruct Ho as (sb & P). pose proof (steps_inv _ _ H (fresh_inv _ F)) as Hv. destruct (performing e path w s m Hv Sp Hi) as (e0 & c0 & Pf & _). unfold update. rewrite Hi. fold (contents_of w).
  destruct (perform_update e path (contents_of w) (newer w m) s) as [|d|d o']; [|eexists; reflexivity|]; unfold performed in Pf; rewrite P in Pf; cbn in Pf; [discriminate Pf|]. destruct Pf as [-> _]. eexists. reflexivity.
Qed.
(* The same values again. *)
Lemma process_file_same e e2 s o : sym e2 = sym e -> strict e2 = strict e -> (forall n v, value_of e2 n v <-> value_of e n v) -> snd (process_file e s) = Some o -> process_file e2 s = process_file e s.
Proof.
  intros E1 E2 E3 Ho. pose proof (process_file_rel e2 e s E1 E2) as Rl. pose proof (process_file_good e s) as G. destruct (process_file e s) as [s0 o0], (process_file e2 s) as [s2 o2]. cbn in Ho, G. subst o0. apply rel_all in Rl; [exact Rl|].
  apply good_agrees in G. revert G. apply Forall_impl. intros [[ln n] v]. cbn. rewrite !lookup_value. apply E3.
Qed.
Theorem updated_again w0 w e path w1 e2 w2 : fresh w0 -> steps id hash (storable_setup used) w0 w -> storable_setup used e path -> update id hash e path w = Some w1 ->
  sym e2 = sym e -> strict e2 = strict e -> (forall n v, value_of e2 n v <-> value_of e n v) -> update id hash e2 path w1 = Some w2 -> ins w2 = ins w1 /\ tgt w2 = tgt w1 /\ clock w2 = clock w1.
Proof.
  intros F H Sp E E1 E2 E3 U2. assert (Sp2 : storable_setup used e2 path) by (destruct Sp as (S1 & S2 & S3); rewrite <- E1 in S1; split; [exact S1|]; split; [exact S2|]; intros n v X; apply (S3 n), E3; exact X).
  destruct (update_correct e path w w1 (steps_inv _ _ H (fresh_inv _ F)) Sp E) as (Hv & Hi & s & m & o & mt & H1 & H2 & H3 & H4 & f & md & H5 & H6 & H7).
  rewrite <- Hi in H1. destruct (performing e2 path w1 s m Hv Sp2 H1) as (e0 & c0 & P & _). unfold update in U2. rewrite H1 in U2. fold (contents_of w1) in U2.
  assert (Nw : newer w1 m = false) by (unfold newer, older; rewrite H3, H5; apply orb_false_iff; split; apply Nat.ltb_ge; assumption). assert (Hd : head e2 path = head e path) by (unfold InModel.head, mode; rewrite E1, E2; reflexivity).
  pose proof (process_file_same e e2 s o E1 E2 E3 H2) as Ps. destruct (perform_update e2 path (contents_of w1) (newer w1 m) s) as [|d|d o']; [discriminate U2|injection U2 as <-; auto|].
  exfalso. destruct P as (_ & _ & Nh). apply (Nh Nw f); [unfold contents_of; rewrite H5; reflexivity|]. unfold full. rewrite Hd, Ps. exact H7.
Qed.
End Update.
