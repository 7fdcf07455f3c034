(* Lemmas about here-documents: the second stage. *)
From Verif Require Import Base HereModel HereSpec HereProofs.

Section Val.
Context (val : bytes -> option (list bytes)).

Lemma concat_put c ts : concat_toks val (put c ts) = option_map (cons c) (concat_toks val ts).
Proof.
  destruct ts as [|[v| |x] r]; cbn; [reflexivity| | |].
  - destruct (concat_toks val r); reflexivity.
  - destruct (concat_toks val r); reflexivity.
  - destruct (val x) as [[|? [|]]|]; try reflexivity;
      destruct (concat_toks val r); reflexivity.
Qed.

Lemma concat_mixed l s : concat_toks val (T l) = Some s <-> mixed val l s.
Proof.
  unfold T. revert s. induction l as [|[c|e] l IH]; intros s; cbn [line_toks].
  - cbn. split; [injection 1 as <-; constructor|inversion 1; reflexivity].
  - rewrite concat_put. split.
    + destruct (concat_toks val (line_toks false l)) as [q|]; [|discriminate].
      cbn. injection 1 as <-. constructor. now apply IH.
    + inversion 1; subst. rewrite (proj2 (IH _)) by eassumption. reflexivity.
  - cbn [concat_toks]. split.
    + destruct (val e) as [[|v [|w r]]|] eqn:V; try discriminate.
      * intros H. apply mx_none; [easy|now apply IH].
      * destruct (concat_toks val (line_toks false l)) as [q|]; [|discriminate].
        cbn. injection 1 as <-. apply mx_one; [easy|now apply IH].
    + inversion 1; subst.
      * match goal with H : val e = _ |- _ => rewrite H end. now apply IH.
      * match goal with H : val e = _ |- _ => rewrite H end.
        rewrite (proj2 (IH _)) by eassumption. reflexivity.
Qed.

Lemma join_spaced ns s : join ns = s <-> spaced ns s.
Proof.
  revert s. induction ns as [|n [|m r] IH]; intros s.
  - split; [intros <-; constructor|inversion 1; reflexivity].
  - split; [intros <-; constructor|inversion 1; reflexivity].
  - change (join (n :: m :: r)) with (n ++ [SP] ++ join (m :: r)). split.
    + intros <-. constructor. now apply IH.
    + inversion 1; subst. do 2 f_equal. now apply IH.
Qed.

Lemma expand_alone e : expand val (T [Ex e]) = option_map join (val e).
Proof. reflexivity. Qed.

Lemma expand_mixed l : (forall e, l <> [Ex e]) -> expand val (T l) = concat_toks val (T l).
Proof.
  intros H. destruct l as [|[c|e] l]; [reflexivity| |].
  - unfold T. cbn [line_toks]. destruct (line_toks false l) as [|[v| |x] r]; reflexivity.
  - destruct (T l) as [|t r] eqn:E.
    + apply T_nil in E. subst l. destruct (H e eq_refl).
    + unfold T in *. cbn [line_toks]. rewrite E. reflexivity.
Qed.

Lemma alone_dec l : {e | l = [Ex e]} + {forall e, l <> [Ex e]}.
Proof.
  destruct l as [|[c|e] [|x r]]; try (right; discriminate). left. now exists e.
Qed.

Lemma expand_value l s : expand val (T l) = Some s <-> line_value val l s.
Proof.
  destruct (alone_dec l) as [[e ->]|H].
  - rewrite expand_alone. split.
    + destruct (val e) as [ns|] eqn:V; [|discriminate]. cbn. injection 1 as <-.
      apply (lv_alone val e ns); [easy|now apply join_spaced].
    + inversion 1 as [e' ns s' V S|l' s' NA M]; subst.
      * rewrite V. cbn. f_equal. now apply join_spaced.
      * destruct (NA e eq_refl).
  - rewrite expand_mixed by easy. rewrite concat_mixed. split.
    + intros M. now apply lv_mixed.
    + inversion 1 as [e' ns s' V S|l' s' NA M]; subst; [|easy].
      destruct (H e' eq_refl).
Qed.

(* ---- replaying ---- *)
Lemma play_line em nonl cur rs ts tl : ~ In N ts ->
  play val em nonl cur rs (ts ++ N :: tl) = play val em nonl (cur ++ ts) rs (N :: tl).
Proof.
  revert cur. induction ts as [|t ts IH]; intros cur NI.
  - now rewrite app_nil_r.
  - cbn [app]. assert (~ In N ts) as NI' by (intros I; apply NI; now right).
    specialize (IH (cur ++ [t]) NI'). rewrite <- app_assoc in IH. cbn [app] in IH.
    destruct t as [v| |x]; [exact IH|destruct NI; now left|exact IH].
Qed.

Lemma play_nl em nonl cur rs tl : 
  play val em nonl cur rs (N :: tl) =
  match end_of em cur with
  | Some 0 => HOk (finish nonl rs)
  | Some _ => HAssert
  | None => match expand val cur with
            | Some s => play val em nonl [] (add_line rs s) tl
            | None => HExpand
            end
  end.
Proof. destruct cur as [|[v| |x] [|t r]]; reflexivity. Qed.

Definition values (ms : list (list item)) (vs : list bytes) := Forall2 (line_value val) ms vs.

Lemma flatT_cons m ms tl : flatT (m :: ms) ++ tl = T m ++ N :: flatT ms ++ tl.
Proof. unfold flatT. cbn [map concat]. now rewrite <- !app_assoc. Qed.

Lemma play_end em nonl rs tl :
  play val em nonl [] rs (W em :: N :: tl) = HOk (finish nonl rs).
Proof.
  change (W em :: N :: tl) with ([W em] ++ N :: tl).
  rewrite play_line by (intros [E|[]]; discriminate). cbn [app]. rewrite play_nl.
  cbn [end_of]. rewrite (proj2 (end_marker_iff em em 0)); [reflexivity|]. now exists [].
Qed.

Lemma play_values em nonl ms vs rs :
  Forall (fun m => end_of em (T m) = None) ms -> values ms vs ->
  play val em nonl [] rs (flatT ms ++ [W em; N]) = HOk (finish nonl (fold_left add_line vs rs)).
Proof.
  intros F V. revert rs. induction V as [|m v ms vs Hv V IH]; intros rs.
  - apply play_end.
  - inversion F as [|? ? Fm F']; subst.
    rewrite flatT_cons, play_line by apply T_no_nl. cbn [app].
    rewrite play_nl, Fm, (proj2 (expand_value m v)) by easy.
    now apply IH.
Qed.

Lemma play_no_value em nonl ms rs m :
  Forall (fun m => end_of em (T m) = None) ms -> In m ms -> (forall v, ~ line_value val m v) ->
  play val em nonl [] rs (flatT ms ++ [W em; N]) = HExpand.
Proof.
  intros F I NV. revert rs. induction F as [|m' ms Fm F IH]; [destruct I|]. intros rs.
  rewrite flatT_cons, play_line by apply T_no_nl. cbn [app]. rewrite play_nl, Fm.
  destruct (expand val (T m')) as [s|] eqn:E; [|reflexivity].
  destruct I as [->|I]; [|now apply IH].
  apply expand_value in E. destruct (NV _ E).
Qed.

Lemma values_dec ms : (exists vs, values ms vs) \/ exists m, In m ms /\ forall v, ~ line_value val m v.
Proof.
  induction ms as [|m ms IH]; [left; exists []; constructor|].
  destruct (expand val (T m)) as [v|] eqn:E.
  - apply expand_value in E. destruct IH as [[vs V]|[q [I NV]]].
    + left. exists (v :: vs). now constructor.
    + right. exists q. split; [now right|easy].
  - right. exists m. split; [now left|]. intros v Hv. apply expand_value in Hv. congruence.
Qed.
End Val.

(* ---- the text ---- *)
Lemma fold_add x y vs nonl :
  finish nonl (fold_left add_line vs (Some (x ++ y))) = x ++ finish nonl (fold_left add_line vs (Some y)).
Proof.
  revert y. induction vs as [|v vs IH]; intros y; cbn.
  - destruct nonl; cbn [finish]; [reflexivity|now rewrite app_assoc].
  - rewrite <- app_assoc. cbn. apply IH.
Qed.

Lemma text_one nonl v vs t :
  text_of nonl (v :: vs) t <-> t = finish nonl (fold_left add_line vs (Some v)).
Proof.
  revert v t. induction vs as [|w vs IH]; intros v t.
  - split.
    + inversion 1; subst. destruct nonl; cbn; [now rewrite app_nil_r|reflexivity].
    + intros ->. cbn. pose proof (tx_last nonl v) as H. destruct nonl; [|exact H].
      now rewrite app_nil_r in H.
  - cbn [fold_left add_line].
    change (v ++ NL :: w) with (v ++ [NL] ++ w). rewrite app_assoc, fold_add, <- app_assoc. split.
    + inversion 1; subst. do 2 f_equal. now apply IH.
    + intros ->. constructor. now apply IH.
Qed.

Lemma text_iff nonl vs t : text_of nonl vs t <-> t = finish nonl (fold_left add_line vs None).
Proof.
  destruct vs as [|v vs].
  - split.
    + inversion 1 as [n q H0| |]; subst. apply text_one in H0. subst t. now destruct nonl.
    + intros ->. constructor. apply text_one. now destruct nonl.
  - apply text_one.
Qed.

(* ---- lines without the indentation ---- *)
Lemma unindent_len lit ind ls ms : unindent lit ind ls ms -> length ls = length ms.
Proof. induction 1; cbn; congruence. Qed.

Lemma starts_dec p (l : list item) : (exists m, l = map Ch p ++ m) \/ forall m, l <> map Ch p ++ m.
Proof.
  revert l. induction p as [|c p IH]; intros l; [left; now exists l|].
  destruct l as [|[d|e] l]; [right; discriminate| |right; discriminate].
  destruct (ascii_dec c d) as [<-|ND].
  - destruct (IH l) as [[m ->]|H]; [left; now exists m|right].
    intros m E. injection E as E. destruct (H m E).
  - right. intros m E. injection E as E _. congruence.
Qed.

Lemma unindent_dec lit ind ls :
  (exists ms, unindent lit ind ls ms) \/
  exists a l r ms, ls = a ++ l :: r /\ unindent lit ind a ms /\ unindented lit ind l.
Proof.
  induction ls as [|l ls IH]; [left; exists []; constructor|].
  assert (as_read lit l = [] \/ (as_read lit l <> [] /\ exists m, as_read lit l = map Ch ind ++ m) \/
          unindented lit ind l) as D.
  { destruct (as_read lit l) as [|i q] eqn:E; [now left|right].
    destruct (starts_dec ind (as_read lit l)) as [[m Hm]|H].
    - left. split; [easy|]. exists m. congruence.
    - right. split; [congruence|easy]. }
  destruct D as [E|[[_ [m E]]|U]].
  - destruct IH as [[ms U]|[a [x [r [ms [-> [U B]]]]]]].
    + left. exists ([] :: ms). now apply ui_blank.
    + right. exists (l :: a), x, r, ([] :: ms). repeat split; [now apply ui_blank|apply B..].
  - destruct IH as [[ms U]|[a [x [r [ms [-> [U B]]]]]]].
    + left. exists (m :: ms). now apply ui_line.
    + right. exists (l :: a), x, r, (m :: ms). repeat split; [now apply ui_line|apply B..].
  - right. exists [], l, ls, []. repeat split; [constructor|apply U..].
Qed.

Lemma unindent_not lit ind ls ms : unindent lit ind ls ms -> forall l, In l ls -> ~ unindented lit ind l.
Proof.
  induction 1 as [|l ls ms E U IH|l m ls ms E U IH]; intros x I [B H]; [easy| |].
  - destruct I as [<-|I]; [easy|]. now apply (IH x I).
  - destruct I as [<-|I]; [destruct (H m E)|]. now apply (IH x I).
Qed.

Lemma unindent_fun lit ind ls ms ms' : unindent lit ind ls ms -> unindent lit ind ls ms' -> ms = ms'.
Proof.
  intros U. revert ms'. induction U as [|l ls ms E U IH|l m ls ms E U IH]; intros ms' U';
    inversion U' as [|? ? ms2 E2 U2|? m2 ? ms2 E2 U2]; subst.
  - reflexivity.
  - f_equal. auto.
  - rewrite E in E2. symmetry in E2. apply app_eq_nil in E2. destruct E2 as [_ ->]. f_equal. auto.
  - rewrite E in E2. apply app_eq_nil in E2. destruct E2 as [_ ->]. f_equal. auto.
  - rewrite E in E2. apply app_inv_head in E2. subst. f_equal. auto.
Qed.

Lemma unindent_nil lit ls ms : unindent lit [] ls ms -> ms = map (as_read lit) ls.
Proof. induction 1 as [|l ls ms E U IH|l m ls ms E U IH]; cbn; [easy|congruence|]. cbn in E. congruence. Qed.

Lemma flat_flatT lit ls : flat lit ls = flatT (map (as_read lit) ls).
Proof.
  unfold flat, flatT. rewrite map_map. f_equal. apply map_ext. intros l. now rewrite line_toks_read.
Qed.

Lemma strip_ok lit em ind ls ms : em <> [] -> unindent lit ind ls ms ->
  strip_saved ind (flat lit ls ++ [W (ind ++ em); N]) = HOk (flatT ms ++ [W em; N]).
Proof.
  intros NE U. destruct ind as [|c ind].
  - cbn [strip_saved app]. rewrite flat_flatT. now rewrite (unindent_nil _ _ _ U).
  - unfold strip_saved. rewrite (fix_up_lines lit (c :: ind) ls ms) by easy.
    set (p := c :: ind) in *. assert (p <> []) as NP by easy. clearbody p.
    replace [W (p ++ em); N] with (T (map Ch p ++ map Ch em) ++ [N]).
    + rewrite fix_up_line by easy. cbn [fix_up on_ok]. rewrite T_text by easy.
      reflexivity.
    + rewrite <- map_app, T_text; [reflexivity|]. destruct p; [easy|discriminate].
Qed.

Lemma strip_bad lit ind a l r ms tl : unindent lit ind a ms -> unindented lit ind l ->
  strip_saved ind (flat lit (a ++ l :: r) ++ tl) = HUnindented.
Proof.
  intros U [B H]. destruct ind as [|c ind]; [destruct (H (as_read lit l) eq_refl)|].
  unfold strip_saved.
  assert (flat lit (a ++ l :: r) ++ tl = flat lit a ++ (flat lit (l :: r) ++ tl)) as ->.
  { unfold flat. rewrite map_app, concat_app. now rewrite <- app_assoc. }
  rewrite (fix_up_lines lit (c :: ind) a ms) by easy. rewrite flat_cons.
  now rewrite (fix_up_bad lit (c :: ind) l).
Qed.

Lemma unindent_no_end lit em ind ls ms : em <> [] -> Forall blank ind ->
  Forall (no_end lit em) ls -> unindent lit ind ls ms ->
  Forall (fun m => end_of em (T m) = None) ms.
Proof.
  intros NE Fb F U. induction U as [|l ls ms E U IH|l m ls ms E U IH].
  - constructor.
  - inversion F; subst. constructor; [reflexivity|auto].
  - inversion F as [|? ? Nl F']; subst. constructor; [|auto].
    unfold end_of. destruct (T m) as [|[v| |x] [|t r]] eqn:Em; try reflexivity.
    destruct (end_marker em v) as [n|] eqn:M; [|reflexivity].
    apply end_marker_iff in M. destruct M as [i2 [-> [F2 _]]].
    apply T_single in Em. destruct Em as [-> _].
    destruct (Nl (ind ++ i2)). split.
    + rewrite E, <- map_app. now rewrite app_assoc.
    + apply Forall_app. auto.
Qed.
