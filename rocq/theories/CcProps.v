(* C51, C52 and C53: the checksum of a C/C++ translation unit. *)
From Verif Require Import Base CcModel CcSpec CcProofs CcProofs5 CcProofs6 CcProofs10 CcProofs11.
Local Open Scope N_scope.

(* C51: what is accepted consists of tokens, white space, comments and preprocessor directives
   with nothing left out: all the tokens are returned (except for those in directives) and the
   line and the text of each is hashed. *)
Theorem C51_nothing_ignored pp name s ts h : lex pp name s = Some (ts, h) ->
  exists items, reads pp Plain (begin name) s items (map seen ts) /\ h = bytes_of items.
Proof. apply lex_reads. Qed.

(* The characters that these are made of and the lines that they are on. *)
Definition letters : bytes := b "abcdefghijklmnopqrstuvwxyzABCDEFGHIJKLMNOPQRSTUVWXYZ".
Definition digits : bytes := b "0123456789".
Theorem C51_characters c :
  (digit c = true <-> In c digits) /\ (letter c = true <-> In c (letters ++ b "_")) /\ (ident c = true <-> In c (letters ++ digits ++ b "_")) /\
  (blank c = true <-> In c [SP; TAB; "013"%char; "012"%char; "011"%char]) /\ (exponent c = true <-> In c (b "eEpP")) /\
  (* What is in a number: also what is not printable but is not white space. *)
  (ends_number c = false <-> In c (letters ++ digits ++ b "_.'") \/ ((N_of_ascii c < 32 \/ 126 < N_of_ascii c) /\ ~ In c [NL; TAB; "013"%char; "012"%char; "011"%char])).
Proof.
  assert (I : forall c l, In c l <-> existsb (ceqb c) l = true).
  { intros x l. rewrite existsb_exists. split; [intros H; exists x; split; [exact H|apply ceqb_eq; reflexivity]|intros (y & H & E); apply ceqb_eq in E; subst; exact H]. }
  assert (J : forall c l, ~ In c l <-> existsb (ceqb c) l = false) by (intros x l; rewrite I; destruct (existsb (ceqb x) l); split; congruence).
  rewrite J, !I, <- (N.ltb_lt (N_of_ascii c) 32), <- (N.ltb_lt 126 (N_of_ascii c)), <- orb_true_iff.
  destruct c as [[] [] [] [] [] [] [] []]; vm_compute; intuition congruence.
Qed.
Theorem C51_lines s p : cur p + newlines s < 2 ^ 64 -> cur (adv s p) = cur p + newlines s.
Proof.
  revert p. induction s as [|c s IH]; intros p L; [cbn; lia|]. change (adv (c :: s) p) with (adv s (adv1 p c)). assert (N1 : newlines (c :: s) = (if ceqb c NL then 1 else 0) + newlines s).
  { unfold newlines. cbn [count_occ]. destruct (ascii_dec c NL) as [-> | D]; [rewrite (proj2 (ceqb_eq NL NL) eq_refl); lia|]. destruct (ceqb c NL) eqn:E; [apply ceqb_eq in E; contradiction|lia]. }
  rewrite N1 in *. assert (A : cur (adv1 p c) = cur p + (if ceqb c NL then 1 else 0)).
  { unfold adv1. destruct (ceqb c NL); [|lia]. unfold cur in *. cbn. destruct (plog p); cbn; [apply N.mod_small; unfold u64; lia|reflexivity]. }
  rewrite IH; rewrite A; lia.
Qed.
Example ex_lines : cur (adv (b "a" ++ NL :: b "b" ++ [NL]) (mkpos 3 (Some 7) (b "f", false))) = 9.
Proof. reflexivity. Qed.

Theorem C51_numbers : number_of [] = 0 /\ forall s k c, nth_error digits k = Some c -> number_of (s ++ [c]) = 10 * number_of s + N.of_nat k.
Proof.
  split; [reflexivity|]. intros s k c E. unfold number_of. rewrite fold_left_app. cbn [fold_left]. set (n := fold_left _ s 0). assert (V : N_of_ascii c - 48 = N.of_nat k) by (do 10 (destruct k as [|k]; [injection E as <-; reflexivity|]); destruct k; discriminate E). rewrite V. lia.
Qed.
(* File names in line directives. Directories are without the trailing slashes. *)
Theorem C51_files s :
  (special s = true <-> exists m, s = "<"%char :: m ++ [">"%char]) /\
  ((forall m, s <> m ++ ["/"%char]) -> to_path s = (s, false)) /\
  (forall m k, s = m ++ repeat "/"%char (S k) -> (forall m', m <> m' ++ ["/"%char]) -> to_path s = (match m with [] => b "/" | _ => m end, true)).
Proof.
  split; [|split].
  - unfold special. destruct s as [|c s]; [split; [discriminate|intros (m & E); discriminate E]|]. rewrite andb_true_iff, !ceqb_eq. split.
    + intros [-> L]. destruct s as [|d s] using rev_ind; [discriminate L|]. change ("<"%char :: s ++ [d]) with (("<"%char :: s) ++ [d]) in L. rewrite last_last in L. subst d. exists s. reflexivity.
    + intros (m & E). injection E as -> ->. split; [reflexivity|]. change ("<"%char :: m ++ [">"%char]) with (("<"%char :: m) ++ [">"%char]). apply last_last.
  - intros N. unfold to_path. destruct s as [|d s] using rev_ind; [reflexivity|]. rewrite rev_app_distr. cbn. destruct (ceqb d "/") eqn:E; [|reflexivity]. apply ceqb_eq in E. subst d. destruct (N s eq_refl).
  - intros m k -> N. unfold to_path. rewrite rev_app_distr. assert (R : forall n, rev (repeat "/"%char n) = repeat "/"%char n).
    { intros n. induction n as [|n IH]; [reflexivity|]. cbn. rewrite IH. clear IH. induction n as [|n IH]; [reflexivity|]. cbn. rewrite IH. reflexivity. }
    rewrite R. cbn [repeat app]. replace (ceqb "/" "/") with true by reflexivity. assert (Z : strip (repeat "/"%char k ++ rev m) = rev m).
    { induction k as [|k IH]; [|exact IH]. cbn. destruct m as [|d m] using rev_ind; [reflexivity|]. rewrite rev_app_distr. cbn. destruct (ceqb d "/") eqn:E; [|reflexivity]. apply ceqb_eq in E. subst d. destruct (N m eq_refl). }
    rewrite Z. destruct (rev m) as [|d r] eqn:E; assert (M : m = rev (rev m)) by (symmetry; apply rev_involutive); rewrite E in M; [subst; reflexivity|]. rewrite <- M. destruct m as [|e m]; [|reflexivity]. cbn in E. discriminate E.
Qed.

(* C52: sources with the same checksum have the same tokens on the same lines. *)
Theorem C52_same_records pp n1 n2 s1 s2 i1 i2 ts1 ts2 :
  reads pp Plain (begin n1) s1 i1 ts1 -> reads pp Plain (begin n2) s2 i2 ts2 -> texty s1 -> texty s2 -> fits i1 -> fits i2 ->
  bytes_of i1 = bytes_of i2 -> snd (records i1) = snd (records i2).
Proof. apply same_records. Qed.
Theorem C52_same_tokens pp n1 n2 s1 s2 ts1 ts2 h :
  lex pp n1 s1 = Some (ts1, h) -> lex pp n2 s2 = Some (ts2, h) -> texty s1 -> texty s2 -> ~ In "#"%char s1 -> ~ In "#"%char s2 ->
  N.of_nat (length s1) + 1 < 2 ^ 32 -> N.of_nat (length s2) + 1 < 2 ^ 32 ->
  map seen ts1 = map seen ts2 /\ exists items, reads pp Plain (begin n1) s1 items (map seen ts1) /\ reads pp Plain (begin n2) s2 items (map seen ts1).
Proof. apply same_tokens. Qed.

(* C53: everything (without line splices) that consists of tokens is accepted. *)
Theorem C53_accepted pp name s items ts : unspliced s = true -> reads pp Plain (begin name) s items ts ->
  exists l, lex pp name s = Some (l, bytes_of items) /\ map seen l = ts.
Proof. apply reads_lex. Qed.
Theorem C53_one_reading pp name s i1 i2 ts1 ts2 : unspliced s = true -> reads pp Plain (begin name) s i1 ts1 -> reads pp Plain (begin name) s i2 ts2 ->
  bytes_of i1 = bytes_of i2 /\ ts1 = ts2.
Proof.
  intros U R1 R2. destruct (C53_accepted _ _ _ _ _ U R1) as (l1 & E1 & M1). destruct (C53_accepted _ _ _ _ _ U R2) as (l2 & E2 & M2).
  rewrite E1 in E2. injection E2 as <- <-. split; congruence.
Qed.
(* Changing white space and comments but not the lines of tokens does not affect the
   checksum. *)
Theorem C53_layout pp n1 n2 ps1 g1 ps2 g2 : laid ps1 g1 -> laid ps2 g2 -> unspliced (source ps1 g1) = true -> unspliced (source ps2 g2) = true ->
  placed 1 ps1 = placed 1 ps2 ->
  exists l1 l2 h, lex pp n1 (source ps1 g1) = Some (l1, h) /\ lex pp n2 (source ps2 g2) = Some (l2, h) /\ map seen l1 = map seen l2.
Proof.
  intros L1 L2 U1 U2 E. destruct (lex_laid pp n1 _ _ L1 U1) as (k1 & E1 & M1). destruct (lex_laid pp n2 _ _ L2 U2) as (k2 & E2 & M2).
  exists k1, k2. eexists. split; [exact E1|]. rewrite E. split; [exact E2|]. rewrite M1, M2, E. reflexivity.
Qed.
(* And any other change does. *)
Theorem C53_layout_only pp n1 n2 ps1 g1 ps2 g2 l1 l2 h1 h2 :
  laid ps1 g1 -> laid ps2 g2 -> texty (source ps1 g1) -> texty (source ps2 g2) -> newlines (source ps1 g1) + 1 < 2 ^ 32 -> newlines (source ps2 g2) + 1 < 2 ^ 32 ->
  unspliced (source ps1 g1) = true -> unspliced (source ps2 g2) = true ->
  lex pp n1 (source ps1 g1) = Some (l1, h1) -> lex pp n2 (source ps2 g2) = Some (l2, h2) ->
  (h1 = h2 <-> placed 1 ps1 = placed 1 ps2).
Proof. apply laid_checksum. Qed.

(* Examples. *)
Definition ex_name : bytes := b "hello.cxx".
Definition lines (l : list bytes) : bytes := concat (map (fun s => s ++ [NL]) l).
Definition ex_source : bytes :=
  lines [b "# 1 ""hello.h"""; b "import foo; // comment"; b "/* another"; b "*/ int f (char c) { return c==u8'\''; }"; b "#pragma once"; b "const char* s = R""x(a)""b)x"" L""c"";"; b "double d = .5e+3 ...+1'000\"; b ";"].
Example ex_tokens : option_map (fun r => map (fun t => (value t, tline t)) (fst r)) (lex true ex_name ex_source) =
  Some [(b "import", 1); (b "foo", 1); ([], 1); (b "int", 3); (b "f", 3); ([], 3); (b "char", 3); (b "c", 3); ([], 3); ([], 3); (b "return", 3); (b "c", 3); ([], 3); ([], 3); ([], 3); ([], 3);
        (b "const", 5); (b "char", 5); ([], 5); (b "s", 5); ([], 5); ([], 5); ([], 5); ([], 5);
        (b "double", 6); (b "d", 6); ([], 6); ([], 6); ([], 6); ([], 6); ([], 6); ([], 7)].
Proof. vm_compute. reflexivity. Qed.
(* The hypotheses of C51 hold for it and those of C53 for what C51 gives for a source without
   line splices. *)
Example ex_reads : exists ts h items, lex true ex_name ex_source = Some (ts, h) /\ reads true Plain (begin ex_name) ex_source items (map seen ts) /\ length ts = 32%nat.
Proof.
  destruct (lex true ex_name ex_source) as [[ts h]|] eqn:E; [|exfalso; revert E; vm_compute; discriminate]. destruct (C51_nothing_ignored _ _ _ _ _ E) as (items & R & _).
  exists ts, h, items. split; [reflexivity|]. split; [exact R|]. revert E. vm_compute. intros E. injection E as <- _. reflexivity.
Qed.
Definition ex_source2 : bytes := lines [b "#line 7 ""a.h"" // file"; b "int x = 0x1p-3;"; b "#"; b "# 9"; b "x->*y"].
Example ex_reads2 : unspliced ex_source2 = true /\ exists items ts, reads true Plain (begin ex_name) ex_source2 items ts /\ length ts = 8%nat.
Proof.
  split; [reflexivity|]. destruct (lex true ex_name ex_source2) as [[ts h]|] eqn:E; [|exfalso; revert E; vm_compute; discriminate]. destruct (C51_nothing_ignored _ _ _ _ _ E) as (items & R & _).
  exists items, (map seen ts). split; [exact R|]. rewrite map_length. revert E. vm_compute. intros E. injection E as <- _. reflexivity.
Qed.
(* int a;  and  int/*x*/a ; // b *)
Definition ex_ps1 : list (bytes * (ttype * bytes)) := [([], (Identifier, b "int")); (b " ", (Identifier, b "a")); ([], (Semi, b ";"))].
Definition ex_ps2 : list (bytes * (ttype * bytes)) := [([TAB], (Identifier, b "int")); (b "/*x*/", (Identifier, b "a")); (b " ", (Semi, b ";"))].
Example ex_laid : laid ex_ps1 [NL] /\ laid ex_ps2 (b " // b" ++ [NL]) /\ placed 1 ex_ps1 = placed 1 ex_ps2.
Proof.
  assert (St : forall t s c S, longer t s c = false -> t <> Dot -> ceqb c BS = false -> match t with Semi | LBrace | RBrace | Scope | Other => True | _ => ends t s (c :: S) end).
  { intros t s c S L D B. assert (H : exists o src', continues (c :: S) o src' /\ match o with None => True | Some c => longer t s c = false /\ (t = Dot -> c = "."%char -> exists o' src'', continues (tl src') o' src'' /\ o' <> Some "."%char) end).
    { exists (Some c), (c :: S). split; [exists []; split; [constructor|split; reflexivity]|]. split; [exact L|congruence]. }
    destruct t; exact H || exact I. }
  assert (Id : forall c s, ident c = true -> digit c = false -> forallb ident s = true -> is_token Identifier (c :: s)).
  { intros c s H1 H2 H3. constructor; [exact H1|exact H2|]. intros x Hx. rewrite forallb_forall in H3. apply H3. exact Hx. }
  split; [|split; [|reflexivity]]; cbn [laid ex_ps1 ex_ps2 source app].
  - split; [constructor|]. split; [apply Id; reflexivity|]. split; [discriminate|]. split; [apply (St Identifier); reflexivity || discriminate|].
    split; [apply ly_blank; [reflexivity|constructor]|]. split; [apply Id; reflexivity|]. split; [discriminate|]. split; [apply (St Identifier); reflexivity || discriminate|].
    split; [constructor|]. split; [constructor|]. split; [discriminate|]. split; [exact I|]. apply ly_newline. constructor.
  - split; [apply ly_blank; [reflexivity|constructor]|]. split; [apply Id; reflexivity|]. split; [discriminate|]. split; [apply (St Identifier); reflexivity || discriminate|].
    split; [apply (ly_block (b "x") []); [|constructor]|].
    { intros [|x1 [|x2 [|x3 u]]] y E; cbn in E; try discriminate E; injection E as E; subst; auto; destruct u; discriminate. }
    split; [apply Id; reflexivity|]. split; [discriminate|]. split; [apply (St Identifier); reflexivity || discriminate|].
    split; [apply ly_blank; [reflexivity|constructor]|]. split; [constructor|]. split; [discriminate|]. split; [exact I|]. apply ly_blank; [reflexivity|]. apply (ly_line (b " b") []); [|constructor].
    intros [H|[H|[]]]; discriminate H.
Qed.
Example ex_layout : option_map snd (lex true ex_name (source ex_ps1 [NL])) = option_map snd (lex true ex_name (source ex_ps2 (b " // b" ++ [NL]))).
Proof. vm_compute. reflexivity. Qed.
Example ex_texty : forall c, In c (source ex_ps2 (b " // b" ++ [NL])) -> c <> NUL /\ c <> "255"%char.
Proof. intros c H. vm_compute in H. repeat (destruct H as [<-|H]; [split; discriminate|]). destruct H. Qed.
(* The line matters and the text of a literal, too. *)
Example ex_differ : option_map snd (lex true ex_name (lines [b "int a;"])) <> option_map snd (lex true ex_name (lines [b "int"; b "a;"])) /\
  option_map snd (lex true ex_name (lines [b "f (""a"");"])) <> option_map snd (lex true ex_name (lines [b "f (""b"");"])).
Proof. split; vm_compute; discriminate. Qed.

(* C52_same_tokens does not extend to sources with directives, where the end of a directive is
   not hashed: what is in the directive and what is after it can change. *)
Theorem C52_directive_refuted : exists s1 s2 ts1 ts2 h,
  lex false ex_name s1 = Some (ts1, h) /\ lex false ex_name s2 = Some (ts2, h) /\ ts1 = [] /\ ts2 <> [].
Proof.
  exists (lines [b "#define X \"; b "int a;"]), (lines [b "#define X"; b "int a;"]).
  eexists _, _, _. split; [vm_compute; reflexivity|]. split; [vm_compute; reflexivity|]. split; [reflexivity|discriminate].
Qed.
(* The same without line splices. *)
Theorem C52_directive_comment_refuted : exists s1 s2 ts1 ts2 h, unspliced s1 = true /\ unspliced s2 = true /\
  lex false ex_name s1 = Some (ts1, h) /\ lex false ex_name s2 = Some (ts2, h) /\ ts1 = [] /\ ts2 <> [].
Proof.
  exists (lines [b "#define X /*"; b "*/ int a;"]), (lines [b "#define X //"; b "int a;"]).
  eexists _, _, _. split; [reflexivity|]. split; [reflexivity|]. split; [vm_compute; reflexivity|]. split; [vm_compute; reflexivity|]. split; [reflexivity|discriminate].
Qed.
(* The file of a line directive is not separated from the token before it. *)
Example ex_file : lex false ex_name (lines [b "#line 2 ""foo"""; b "x"]) = lex false ex_name (lines [b "#linefoo"; b "x"]) /\
  lex false ex_name (lines [b "#line 2 ""foo"""; b "x"]) <> None.
Proof. split; vm_compute; [reflexivity|discriminate]. Qed.
(* Line 0 in a line directive wraps around. *)
Example ex_zero : option_map (fun r => map tline (fst r)) (lex false ex_name (lines [b "# 0"; b "x"; b "y"])) = Some [0; 1] /\
  option_map (fun r => firstn 22 (snd r)) (lex false ex_name (lines [b "# 0 ""f"" 1"; b "x"])) = Some (le 8 1 ++ b "#f" ++ le 8 (u64 - 1) ++ b "1" ++ le 3 0).
Proof. split; vm_compute; reflexivity. Qed.

Print Assumptions C51_nothing_ignored.
Print Assumptions C51_characters.
Print Assumptions C51_lines.
Print Assumptions C51_numbers.
Print Assumptions C51_files.
Print Assumptions C52_same_records.
Print Assumptions C52_same_tokens.
Print Assumptions C53_accepted.
Print Assumptions C53_one_reading.
Print Assumptions C53_layout.
Print Assumptions C53_layout_only.
Print Assumptions C52_directive_refuted.
Print Assumptions C52_directive_comment_refuted.
