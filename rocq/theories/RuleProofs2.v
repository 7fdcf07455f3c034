From Coq Require Import Sorting.Permutation Sorting.Sorted.
From Verif Require Import Base RuleModel RuleSpec RuleProofs.

(* The search as one through a list of places. *)
Definition entry : Type := place * (bytes * nat * nat * name_map).
Fixpoint first_some {A B} (f : A -> option B) (l : list A) : option B :=
  match l with [] => None | x :: l => match f x with Some r => Some r | None => first_some f l end end.
Lemma first_some_app {A B} (f : A -> option B) l m : first_some f (l ++ m) = match first_some f l with Some r => Some r | None => first_some f m end.
Proof. induction l as [|x l IH]; [reflexivity|]. cbn. destruct (f x); [reflexivity|exact IH]. Qed.
Lemma first_some_none {A B} (f : A -> option B) l : first_some f l = None <-> forall x, In x l -> f x = None.
Proof.
  induction l as [|x l IH]; cbn; [split; [intros _ x []|reflexivity]|]. destruct (f x) eqn:E.
  - split; [discriminate|]. intros H. rewrite (H x (or_introl eq_refl)) in E. discriminate E.
  - rewrite IH. split; [intros H y [<-|I]; auto|auto].
Qed.
Lemma first_some_some {A B} (f : A -> option B) l r : first_some f l = Some r -> exists l1 x l2, l = l1 ++ x :: l2 /\ f x = Some r /\ forall y, In y l1 -> f y = None.
Proof.
  induction l as [|x l IH]; cbn; [discriminate|]. destruct (f x) eqn:E.
  - intros X. injection X as ->. exists [], x, l. split; [reflexivity|]. split; [exact E|intros y []].
  - intros H. destruct (IH H) as (l1 & y & l2 & -> & Hy & N). exists (x :: l1), y, l2. split; [reflexivity|]. split; [exact Hy|]. intros z [<-|I]; auto.
Qed.

Lemma before_trans x y z : before x y -> before y z -> before x z.
Proof. intros H1 H2. destruct H1; inversion H2; subst; try (constructor; lia); try (constructor; assumption). Qed.
Lemma before_irrefl x : ~ before x x.
Proof. intros H. inversion H; subst; lia. Qed.

Section Match.
Context (matches : nat -> nat -> bytes -> bool -> bool -> bool) (adhoc : nat -> bool) (fallback : nat -> option (list rmatch)) (reverse : nat -> nat -> nat -> nat -> bool) (ordered : name_map -> name_map) (global : scope).
Context (Hordered : forall l, Permutation l (ordered l)).

Section Place.
Context (t : target) (mo o : nat) (locked : bool) (skip : option nat) (Ho : o <> 0).
Notation try := (try matches adhoc fallback reverse t mo o locked skip).
Notation try_all := (try_all matches adhoc fallback reverse t mo o locked skip).
Definition look (e : entry) : option result := let '(_, (h, ty, oi, rs)) := e in try_all h oi ty (filter (fun r => sub h (rname r)) (ordered rs)).
Definition pl_scope (r : bool) (u s : nat) (h : bytes) (ty : nat) (sc : scope) : list entry :=
  [(mkplace r u s false, (h, ty, o, find_rules mo o ty (rules sc))); (mkplace r u s true, (h, ty, 0, find_rules mo 0 ty (rules sc)))].
Fixpoint pl_scopes (r : bool) (u s : nat) (h : bytes) (ty : nat) (ss : list scope) : list entry :=
  match ss with
  | [] => []
  | sc :: ss => pl_scope r u s h ty sc ++ (if root sc then pl_scope r u (S s) h ty global else pl_scopes r u (S s) h ty ss)
  end.
Fixpoint pl_types (r : bool) (u : nat) (h : bytes) (ts : list nat) (ss : list scope) : list entry :=
  match ts with
  | [] => []
  | ty :: ts => pl_scopes r u 0 h ty ss ++ pl_types r (S u) h ts ss
  end.
Definition places : list entry :=
  pl_types false 0 (target_hint t o) (types t) (chain t) ++
  (if (mo =? perform) || beqb (target_hint t o) [] then [] else pl_types true 0 [] (types t) (from_root (chain t))).

Lemma ordered_nil : ordered [] = [].
Proof. apply Permutation_nil, Hordered. Qed.
Lemma in_scope_places r u s h ty sc : in_scope matches adhoc fallback reverse ordered t mo o locked skip h ty sc = first_some look (pl_scope r u s h ty sc).
Proof.
  unfold in_scope, pl_scope. cbn [first_some look]. unfold find_rules, in_op. destruct (find_meta mo (rules sc)) as [om|]; [|rewrite ordered_nil; reflexivity].
  assert (K : forall oi, match find_op oi om with None => None | Some tm => try_all h oi ty (filter (fun r => sub h (rname r)) (ordered (find_type ty tm))) end = try_all h oi ty (filter (fun r => sub h (rname r)) (ordered (match find_op oi om with None => [] | Some tm => find_type ty tm end)))).
  { intros oi. destruct (find_op oi om); [reflexivity|]. rewrite ordered_nil. reflexivity. }
  rewrite !K. destruct (try_all h o ty _); [reflexivity|]. destruct (try_all h 0 ty _); reflexivity.
Qed.
Lemma in_scopes_places r u h ty ss : forall s, in_scopes matches adhoc fallback reverse ordered global t mo o locked skip h ty ss = first_some look (pl_scopes r u s h ty ss).
Proof.
  induction ss as [|sc ss IH]; intros s; [reflexivity|]. cbn [in_scopes pl_scopes]. rewrite first_some_app, <- in_scope_places. destruct (in_scope _ _ _ _ _ _ _ _ _ _ h ty sc); [reflexivity|]. destruct (root sc); [apply in_scope_places|apply IH].
Qed.
Lemma in_types_places r h ts ss : forall u, in_types matches adhoc fallback reverse ordered global t mo o locked skip h ts ss = first_some look (pl_types r u h ts ss).
Proof.
  induction ts as [|ty ts IH]; intros u; [reflexivity|]. cbn [in_types pl_types]. rewrite first_some_app, <- (in_scopes_places r u h ty ss 0). destruct (in_scopes _ _ _ _ _ _ _ _ _ _ _ h ty ss); [reflexivity|apply IH].
Qed.
Lemma search_places : search matches adhoc fallback reverse ordered global t mo o locked skip = first_some look places.
Proof.
  unfold search, places. rewrite first_some_app, <- in_types_places. destruct (in_types _ _ _ _ _ _ _ _ _ _ _ (target_hint t o) _ _); [reflexivity|]. destruct (_ || _); [reflexivity|apply in_types_places].
Qed.

(* The places are in order. *)
Notation lt := (fun x y : entry => before (fst x) (fst y)).
Lemma ss_app {A} (R : A -> A -> Prop) l m : StronglySorted R l -> StronglySorted R m -> (forall x y, In x l -> In y m -> R x y) -> StronglySorted R (l ++ m).
Proof.
  intros Sl Sm H. induction Sl as [|x l Sl IH F]; [exact Sm|]. cbn. constructor; [apply IH; intros; apply H; [right|]; assumption|]. apply Forall_app. split; [exact F|]. apply Forall_forall. intros y I. apply H; [left; reflexivity|exact I].
Qed.
Lemma pl_scope_in r u s h ty sc e : In e (pl_scope r u s h ty sc) -> exists w, fst e = mkplace r u s w.
Proof. intros [<-|[<-|[]]]; cbn; eauto. Qed.
Lemma pl_scopes_in r u h ty ss : forall s e, In e (pl_scopes r u s h ty ss) -> exists s' w, s <= s' /\ fst e = mkplace r u s' w.
Proof.
  induction ss as [|sc ss IH]; intros s e I; [destruct I|]. cbn [pl_scopes] in I. apply in_app_iff in I. destruct I as [I|I]; [apply pl_scope_in in I; destruct I as (w & E); exists s, w; auto|]. destruct (root sc); [apply pl_scope_in in I; destruct I as (w & E); exists (S s), w; auto|]. destruct (IH _ _ I) as (s' & w & L & E). exists s', w. split; [lia|exact E].
Qed.
Lemma pl_types_in r h ts ss : forall u e, In e (pl_types r u h ts ss) -> exists u' s w, u <= u' /\ fst e = mkplace r u' s w.
Proof.
  induction ts as [|ty ts IH]; intros u e I; [destruct I|]. cbn [pl_types] in I. apply in_app_iff in I. destruct I as [I|I]; [apply pl_scopes_in in I; destruct I as (s & w & _ & E); exists u, s, w; auto|]. destruct (IH _ _ I) as (u' & s & w & L & E). exists u', s, w. split; [lia|exact E].
Qed.
Lemma pl_scope_sorted r u s h ty sc : StronglySorted lt (pl_scope r u s h ty sc).
Proof. unfold pl_scope. constructor; [constructor; [constructor|constructor]|]. constructor; [apply b_any|constructor]. Qed.
Lemma pl_scopes_sorted r u h ty ss : forall s, StronglySorted lt (pl_scopes r u s h ty ss).
Proof.
  induction ss as [|sc ss IH]; intros s; [constructor|]. cbn [pl_scopes]. apply ss_app; [apply pl_scope_sorted|destruct (root sc); [apply pl_scope_sorted|apply IH]|]. intros x y Ix Iy. apply pl_scope_in in Ix. destruct Ix as (w & ->). destruct (root sc); [apply pl_scope_in in Iy; destruct Iy as (w' & ->)|apply pl_scopes_in in Iy; destruct Iy as (s' & w' & L & ->)]; constructor; lia.
Qed.
Lemma pl_types_sorted r h ts ss : forall u, StronglySorted lt (pl_types r u h ts ss).
Proof.
  induction ts as [|ty ts IH]; intros u; [constructor|]. cbn [pl_types]. apply ss_app; [apply pl_scopes_sorted|apply IH|]. intros x y Ix Iy. apply pl_scopes_in in Ix. destruct Ix as (s & w & _ & ->). apply pl_types_in in Iy. destruct Iy as (u' & s' & w' & L & ->). constructor. lia.
Qed.
Lemma places_sorted : StronglySorted lt places.
Proof.
  unfold places. apply ss_app; [apply pl_types_sorted|destruct (_ || _); [constructor|apply pl_types_sorted]|]. intros x y Ix Iy. apply pl_types_in in Ix. destruct Ix as (u & s & w & _ & ->). destruct (_ || _); [destruct Iy|]. apply pl_types_in in Iy. destruct Iy as (u' & s' & w' & _ & ->). constructor.
Qed.
Lemma sorted_before l1 (e : entry) l2 q : StronglySorted lt (l1 ++ e :: l2) -> In q (l1 ++ e :: l2) -> before (fst q) (fst e) -> In q l1.
Proof.
  intros S I B. apply in_app_iff in I. destruct I as [I|[->|I]]; [exact I|destruct (before_irrefl _ B)|]. exfalso. induction l1 as [|x l1 IH]; cbn in S; apply StronglySorted_inv in S; destruct S as [S F]; [|exact (IH S)]. rewrite Forall_forall in F. exact (before_irrefl _ (before_trans _ _ _ B (F q I))).
Qed.

(* The places are those of the specification. *)
Lemma in_pl_scope r u s h ty sc p h' ty' oi rs : In (p, (h', ty', oi, rs)) (pl_scope r u s h ty sc) <-> exists w, p = mkplace r u s w /\ h' = h /\ ty' = ty /\ oi = (if w then 0 else o) /\ rs = find_rules mo oi ty (rules sc).
Proof.
  unfold pl_scope. cbn [In]. split.
  - intros [E|[E|[]]]; injection E as <- <- <- <- <-; [exists false|exists true]; auto.
  - intros ([] & -> & -> & -> & -> & ->); auto.
Qed.
Lemma in_pl_scopes r u h ty ss : forall s p h' ty' oi rs, In (p, (h', ty', oi, rs)) (pl_scopes r u s h ty ss) <-> exists k w sc, nth_scope global ss k sc /\ p = mkplace r u (s + k) w /\ h' = h /\ ty' = ty /\ oi = (if w then 0 else o) /\ rs = find_rules mo oi ty (rules sc).
Proof.
  induction ss as [|sc ss IH]; intros s p h' ty' oi rs; cbn [pl_scopes]; [split; [intros []|intros (k & w & sc & H & _); inversion H]|]. rewrite in_app_iff, in_pl_scope. split.
  - intros [(w & -> & H)|I].
    + exists 0, w, sc. rewrite Nat.add_0_r. split; [constructor|auto].
    + destruct (root sc) eqn:R; [apply in_pl_scope in I; destruct I as (w & -> & H); exists 1, w, global; split; [apply ns_global, R|]; split; [f_equal; lia|exact H]|]. apply IH in I. destruct I as (k & w & sc' & H & -> & H'). exists (S k), w, sc'. split; [apply ns_outer; assumption|]. split; [f_equal; lia|exact H'].
  - intros (k & w & sc' & H & -> & H'). inversion H as [|s0 ss0 k0 x R N|s0 ss0 R]; subst.
    + left. exists w. rewrite Nat.add_0_r. auto.
    + right. rewrite R. apply IH. exists k0, w, sc'. split; [exact N|]. split; [f_equal; lia|exact H'].
    + right. rewrite R. apply in_pl_scope. exists w. split; [f_equal; lia|exact H'].
Qed.
Lemma in_pl_types r h ts ss : forall u p h' ty' oi rs, In (p, (h', ty', oi, rs)) (pl_types r u h ts ss) <-> exists i k w sc, nth_error ts i = Some ty' /\ nth_scope global ss k sc /\ p = mkplace r (u + i) k w /\ h' = h /\ oi = (if w then 0 else o) /\ rs = find_rules mo oi ty' (rules sc).
Proof.
  induction ts as [|ty ts IH]; intros u p h' ty' oi rs; cbn [pl_types]; [split; [intros []|intros ([|i] & k & w & sc & H & _); discriminate H]|]. rewrite in_app_iff, in_pl_scopes. split.
  - intros [(k & w & sc & H & -> & -> & -> & H')|I].
    + exists 0, k, w, sc. rewrite Nat.add_0_r. split; [reflexivity|]. auto.
    + apply IH in I. destruct I as (i & k & w & sc & H & H' & -> & H2). exists (S i), k, w, sc. split; [exact H|]. split; [exact H'|]. split; [f_equal; lia|exact H2].
  - intros ([|i] & k & w & sc & H & H' & -> & -> & H2); cbn in H.
    + injection H as ->. left. exists k, w, sc. rewrite Nat.add_0_r. auto.
    + right. apply IH. exists i, k, w, sc. split; [exact H|]. split; [exact H'|]. split; [f_equal; lia|auto].
Qed.
Lemma from_root_scopes ss k sc : nth_scope global (from_root ss) k sc <-> exists r (s : bool), root_of ss r /\ k = (if s then 1 else 0) /\ sc = (if s then global else r).
Proof.
  induction ss as [|x ss IH]; cbn [from_root]; [split; [intros H; inversion H|intros (r & s & H & _); inversion H]|]. destruct (root x) eqn:R.
  - split.
    + intros H. inversion H as [|s0 ss0 k0 y R' N|s0 ss0 R']; subst; [exists sc, false|congruence|exists x, true]; (split; [constructor; assumption|auto]).
    + intros (r & s & H & -> & ->). inversion H as [s0 ss0 R'|s0 ss0 r0 R' H']; subst; [|congruence]. destruct s; [apply ns_global, R|constructor].
  - rewrite IH. split; intros (r & s & H & E); exists r, s; (split; [|exact E]); [apply ro_outer; assumption|inversion H; subst; [congruence|assumption]].
Qed.
Lemma in_places p h ty oi rs : In (p, (h, ty, oi, rs)) places <-> at_place global t mo o p h ty rs /\ oi = (if any p then 0 else o).
Proof.
  unfold places. rewrite in_app_iff, in_pl_types. split.
  - intros [(i & k & w & sc & H & H' & -> & -> & -> & ->)|I]; [split; [apply ap_hint; assumption|reflexivity]|].
    destruct ((mo =? perform) || beqb (target_hint t o) []) eqn:C; [destruct I|]. apply orb_false_iff in C. destruct C as [C1 C2]. apply Nat.eqb_neq in C1. assert (C3 : target_hint t o <> []) by (intros X; apply beqb_eq in X; congruence). apply in_pl_types in I. destruct I as (i & k & w & sc & H & H' & -> & -> & -> & ->). apply from_root_scopes in H'. destruct H' as (r & s & Hr & -> & ->). split; [|reflexivity]. exact (ap_again _ _ _ _ i w ty _ s r C1 C3 H Hr eq_refl).
  - intros (H & ->). inversion H as [u s w ty' sc H1 H2|u w ty' sc s r C1 C2 H1 H2 H3]; subst.
    + left. exists u, s, w, sc. split; [exact H1|]. split; [exact H2|]. repeat split.
    + right. apply Nat.eqb_neq in C1. assert (C3 : beqb (target_hint t o) [] = false) by (destruct (beqb (target_hint t o) []) eqn:X; [apply beqb_eq in X; contradiction|reflexivity]). rewrite C1, C3. cbn [orb]. apply in_pl_types. exists u, (if s then 1 else 0), w, (if s then global else r). split; [exact H1|]. split; [apply from_root_scopes; exists r, s; auto|]. repeat split.
Qed.

(* Trying the rules of a place. *)
Lemma stands_for_correct (w : bool) ty r x : stands_for fallback reverse mo o (if w then 0 else o) ty r = Some x <-> stands fallback reverse mo o w ty r x.
Proof.
  unfold stands_for. destruct w; cbn [Nat.eqb].
  - destruct (fallback (rule r)) as [rs|] eqn:F.
    + split; [intros H; apply (st_fallback _ _ _ _ ty r rs x F H)|]. intros H. inversion H as [w ty' r' [E|E]|ty' r' rs' x' E1 E2]; subst; [discriminate E|congruence|congruence].
    + split; [intros E; injection E as <-; constructor; auto|]. intros H. inversion H; subst; [reflexivity|congruence].
  - replace (o =? 0) with false by (symmetry; apply Nat.eqb_neq; exact Ho). split; [intros E; injection E as <-; constructor; auto|]. intros H. inversion H; subst; reflexivity.
Qed.
Definition tries (first : bool) (h : bytes) (w : bool) (ty : nat) (r x : rmatch) : Prop :=
  stands fallback reverse mo o w ty r x /\ (locked = true \/ adhoc (rule x) = true) /\ (first = true -> allowed skip x) /\ matches (tid t) (rule x) h w locked = true.
Lemma try_correct f h (w : bool) ty r x : try f h (if w then 0 else o) ty r = Some x <-> tries f h w ty r x.
Proof.
  assert (W : ((if w then 0 else o) =? 0) = w) by (destruct w; [reflexivity|apply Nat.eqb_neq; exact Ho]). unfold RuleModel.try, tries. rewrite W. clear W. destruct (stands_for fallback reverse mo o (if w then 0 else o) ty r) as [y|] eqn:E.
  - assert (S := proj1 (stands_for_correct w ty r y) E). split.
    + destruct (negb locked && negb (adhoc (rule y))) eqn:L; [discriminate|]. destruct (f && skipped skip y) eqn:K; [discriminate|]. destruct (matches (tid t) (rule y) h w locked) eqn:M; [|discriminate]. intros X. injection X as <-. split; [exact S|]. split; [destruct locked, (adhoc (rule y)); auto; discriminate L|]. split; [|exact M]. intros ->. unfold allowed. unfold skipped in K. destruct skip as [s|]; [|discriminate]. cbn [andb] in K. apply Nat.eqb_neq in K. congruence.
    + intros (S' & L & K & M). apply stands_for_correct in S'. rewrite E in S'. injection S' as ->. replace (negb locked && negb (adhoc (rule x))) with false by (destruct L as [L|L]; rewrite L; [reflexivity|symmetry; apply andb_false_r]). replace (f && skipped skip x) with false; [rewrite M; reflexivity|]. destruct f; [|reflexivity]. specialize (K eq_refl). unfold allowed in K. unfold skipped. destruct skip as [s|]; [|reflexivity]. cbn [andb]. symmetry. apply Nat.eqb_neq. congruence.
  - split; [discriminate|]. intros (S & _). apply stands_for_correct in S. congruence.
Qed.
Lemma try_all_correct h (w : bool) ty rs : NoDup rs ->
  match try_all h (if w then 0 else o) ty rs with
  | None => forall r x, In r rs -> ~ tries true h w ty r x
  | Some (Found x) => exists r, In r rs /\ tries true h w ty r x /\ forall r' x', In r' rs -> tries true h w ty r' x' -> r' = r
  | Some Ambiguous => exists r x r' x', In r rs /\ In r' rs /\ r <> r' /\ tries true h w ty r x /\ tries false h w ty r' x'
  end.
Proof.
  intros Nd. induction Nd as [|r rs N Nd IH]; [intros r x []|]. cbn [RuleModel.try_all]. destruct (try true h (if w then 0 else o) ty r) as [x|] eqn:T.
  - apply try_correct in T. destruct (existsb _ rs) eqn:X.
    + apply existsb_exists in X. destruct X as (r' & I & X). destruct (try false h (if w then 0 else o) ty r') as [x'|] eqn:T'; [|discriminate X]. apply try_correct in T'. exists r, x, r', x'. split; [left; reflexivity|]. split; [right; exact I|]. split; [intros ->; contradiction|auto].
    + exists r. split; [left; reflexivity|]. split; [exact T|]. intros r' x' [<-|I] T'; [reflexivity|]. exfalso. assert (Y : existsb (fun r1 => match try false h (if w then 0 else o) ty r1 with Some _ => true | None => false end) rs = true); [|congruence]. apply existsb_exists. exists r'. split; [exact I|]. assert (T2 : tries false h w ty r' x') by (destruct T' as (A & B & _ & D); split; [exact A|]; split; [exact B|]; split; [discriminate|exact D]). apply try_correct in T2. rewrite T2. reflexivity.
  - assert (T' : forall x, ~ tries true h w ty r x) by (intros x X; apply try_correct in X; congruence). destruct (try_all h (if w then 0 else o) ty rs) as [[x|]|].
    + destruct IH as (r' & I & Tr & U). exists r'. split; [right; exact I|]. split; [exact Tr|]. intros r2 x2 [<-|I2] T2; [destruct (T' _ T2)|eauto].
    + destruct IH as (r1 & x1 & r2 & x2 & I1 & I2 & H). exists r1, x1, r2, x2. split; [right; exact I1|]. split; [right; exact I2|exact H].
    + intros r2 x2 [<-|I2]; [apply T'|apply IH, I2].
Qed.

(* Names are unique. *)
Context (Hchain : Forall (fun s => exists gs, rules s = rules_of gs) (chain t)) (Hglobal : exists gs, rules global = rules_of gs).
Lemma at_place_nodup p h ty rs : at_place global t mo o p h ty rs -> NoDup rs.
Proof.
  assert (K : forall s oi ty, (exists gs, rules s = rules_of gs) -> NoDup (find_rules mo oi ty (rules s))) by (intros s oi ty' (gs & ->); eapply NoDup_map_inv, rules_of_nodup).
  rewrite Forall_forall in Hchain. assert (C : forall ss k sc, (forall s, In s ss -> exists gs, rules s = rules_of gs) -> nth_scope global ss k sc -> exists gs, rules sc = rules_of gs).
  { intros ss k sc H N. induction N; [apply H; left; reflexivity|apply IHN; intros s' I; apply H; right; exact I|exact Hglobal]. }
  assert (R : forall ss r, (forall s, In s ss -> exists gs, rules s = rules_of gs) -> root_of ss r -> exists gs, rules r = rules_of gs).
  { intros ss r H N. induction N; [apply H; left; reflexivity|apply IHN; intros s' I; apply H; right; exact I]. }
  intros H. inversion H as [u s w ty' sc H1 H2|u w ty' sc s r C1 C2 H1 H2 H3]; subst; apply K.
  - exact (C _ _ _ Hchain H2).
  - destruct s; [exact Hglobal|exact (R _ _ Hchain H2)].
Qed.
Notation match_at := (match_at matches adhoc fallback reverse global t mo o locked).
Lemma look_spec e : In e places ->
  match look e with
  | None => forall r x, match_at (fst e) r x -> ~ allowed skip x
  | Some (Found x) => exists r, match_at (fst e) r x /\ allowed skip x /\ forall r' x', match_at (fst e) r' x' -> allowed skip x' -> r' = r
  | Some Ambiguous => exists r x r' x', r <> r' /\ match_at (fst e) r x /\ match_at (fst e) r' x' /\ allowed skip x
  end.
Proof.
  destruct e as [p [[[h ty] oi] rs]]. intros I. pose proof I as I0. apply in_places in I. destruct I as (A & ->). unfold look. cbn [fst].
  assert (Nd : NoDup (filter (fun r => sub h (rname r)) (ordered rs))) by (apply NoDup_filter; apply (Permutation_NoDup (Hordered rs)); exact (at_place_nodup _ _ _ _ A)).
  assert (In_rs : forall r, In r (filter (fun r => sub h (rname r)) (ordered rs)) <-> In r rs /\ hint_for h (rname r)) by (intros r; rewrite filter_In, sub_correct; split; intros (X & Y); (split; [|exact Y]); [apply (Permutation_in r (Permutation_sym (Hordered rs))), X|apply (Permutation_in r (Hordered rs)), X]).
  (* What is at the place is unique. *)
  assert (Uq : forall h' ty' rs', at_place global t mo o p h' ty' rs' -> h' = h /\ ty' = ty /\ rs' = rs).
  { intros h' ty' rs' A'. pose proof (proj2 (in_places p h' ty' _ rs') (conj A' eq_refl)) as I'. apply in_split in I0. destruct I0 as (l1 & l2 & E). pose proof places_sorted as Sp. rewrite E in Sp, I'. clear - Sp I'. apply in_app_iff in I'. destruct I' as [I'|[X|I']].
    - exfalso. induction l1 as [|y l1 IH]; [destruct I'|]. cbn in Sp. apply StronglySorted_inv in Sp. destruct Sp as [Sp F]. destruct I' as [->|I']; [|exact (IH I' Sp)]. rewrite Forall_forall in F. assert (X := F (p, (h, ty, if any p then 0 else o, rs)) ltac:(apply in_or_app; right; left; reflexivity)). exact (before_irrefl _ X).
    - injection X as <- <- <-. auto.
    - exfalso. induction l1 as [|y l1 IH]; cbn in Sp; apply StronglySorted_inv in Sp; destruct Sp as [Sp F]; [|exact (IH Sp)]. rewrite Forall_forall in F. exact (before_irrefl _ (F _ I')). }
  assert (M : forall r x, match_at p r x <-> In r (filter (fun r => sub h (rname r)) (ordered rs)) /\ tries false h (any p) ty r x).
  { intros r x. rewrite In_rs. unfold RuleSpec.match_at, tries. split.
    - intros (h' & ty' & rs' & A' & Ir & Hh & St & L & Mt). destruct (Uq _ _ _ A') as (-> & -> & ->). split; [split; assumption|]. split; [exact St|]. split; [exact L|]. split; [discriminate|exact Mt].
    - intros ((Ir & Hh) & St & L & _ & Mt). exists h, ty, rs. repeat (split; [assumption|]). exact Mt. }
  assert (Tf : forall r x, tries true h (any p) ty r x <-> tries false h (any p) ty r x /\ allowed skip x) by (intros r x; unfold tries; intuition).
  pose proof (try_all_correct h (any p) ty _ Nd) as T. cbn [snd]. destruct (try_all h (if any p then 0 else o) ty (filter (fun r => sub h (rname r)) (ordered rs))) as [[x|]|].
  - destruct T as (r & Ir & T & U). apply Tf in T. exists r. split; [apply M; tauto|]. split; [tauto|]. intros r' x' M' A'. apply M in M'. destruct M' as [I' T']. apply (U r' x' I'). apply Tf. auto.
  - destruct T as (r & x & r' & x' & Ir & Ir' & N & T & T'). apply Tf in T. exists r, x, r', x'. split; [exact N|]. split; [apply M; tauto|]. split; [apply M; auto|tauto].
  - intros r x M' A'. apply M in M'. destruct M' as [I' T']. apply (T r x I'). apply Tf. auto.
Qed.
Lemma match_at_place p r x : match_at p r x -> exists e, In e places /\ fst e = p.
Proof. intros (h & ty & rs & A & _). eexists. split; [apply in_places; split; [exact A|reflexivity]|reflexivity]. Qed.

Lemma search_correct :
  match search matches adhoc fallback reverse ordered global t mo o locked skip with
  | None => no_rule matches adhoc fallback reverse global t mo o locked skip
  | Some (Found x) => the_rule matches adhoc fallback reverse global t mo o locked skip x
  | Some Ambiguous => exists p r x r' x', first_at matches adhoc fallback reverse global t mo o locked skip p /\ match_at p r x /\ match_at p r' x' /\ allowed skip x /\ r <> r'
  end.
Proof.
  rewrite search_places. destruct (first_some look places) as [res|] eqn:E.
  - apply first_some_some in E. destruct E as (l1 & e & l2 & E & L & N). assert (Ie : In e places) by (rewrite E; apply in_or_app; right; left; reflexivity). pose proof (look_spec e Ie) as S. rewrite L in S.
    assert (F : forall q r x, before q (fst e) -> match_at q r x -> ~ allowed skip x).
    { intros q r x B M. destruct (match_at_place q r x M) as (e' & I' & <-). pose proof I' as I2. rewrite E in I'. pose proof places_sorted as Sp. rewrite E in Sp. assert (I1 := sorted_before _ _ _ _ Sp I' B). pose proof (look_spec e' I2) as S'. rewrite (N e' I1) in S'. exact (S' r x M). }
    destruct res as [x|].
    + destruct S as (r & M & A & U). exists (fst e), r. split; [split; [exists r, x; auto|exact F]|]. auto.
    + destruct S as (r & x & r' & x' & Nr & M & M' & A). exists (fst e), r, x, r', x'. split; [split; [exists r, x; auto|exact F]|]. auto.
  - intros p r x M. destruct (match_at_place p r x M) as (e & I & <-). pose proof (look_spec e I) as S. rewrite (proj1 (first_some_none look places) E e I) in S. exact (S r x M).
Qed.
End Place.

(* The specification is consistent. *)
Section Consistent.
Context (t : target) (mo o : nat) (locked : bool) (skip : option nat).
Notation match_at := (match_at matches adhoc fallback reverse global t mo o locked).
Notation first_at := (first_at matches adhoc fallback reverse global t mo o locked skip).
Lemma before_total x y : x = y \/ before x y \/ before y x.
Proof.
  destruct x as [r u s w], y as [r' u' s' w']. destruct r, r'; try (solve [right; left; constructor]); try (solve [right; right; constructor]).
  all: destruct (Nat.lt_total u u') as [L|[->|L]]; [right; left; constructor; exact L| |right; right; constructor; exact L].
  all: destruct (Nat.lt_total s s') as [L|[->|L]]; [right; left; constructor; exact L| |right; right; constructor; exact L].
  all: destruct w, w'; auto; [right; right|right; left]; apply b_any.
Qed.
Lemma first_at_unique p q : first_at p -> first_at q -> p = q.
Proof.
  intros ((r & x & M & A) & F) ((r' & x' & M' & A') & F'). destruct (before_total p q) as [E|[B|B]]; [exact E|destruct (F' p r x B M A)|destruct (F q r' x' B M' A')].
Qed.
Lemma stands_unique w ty r x y : stands fallback reverse mo o w ty r x -> stands fallback reverse mo o w ty r y -> x = y.
Proof. intros H1 H2. inversion H1 as [w1 ty1 r1 E1|ty1 r1 rs1 x1 E1 F1]; inversion H2 as [w2 ty2 r2 E2|ty2 r2 rs2 x2 E2 F2]; subst; try reflexivity; try congruence; destruct E1 as [E1|E1] || destruct E2 as [E2|E2]; congruence. Qed.
Lemma place_type p h ty rs h' ty' rs' : at_place global t mo o p h ty rs -> at_place global t mo o p h' ty' rs' -> ty = ty'.
Proof. intros H1 H2. inversion H1; inversion H2; subst; congruence. Qed.
Lemma match_at_fun p r x y : match_at p r x -> match_at p r y -> x = y.
Proof. intros (h & ty & rs & A & _ & _ & S & _) (h' & ty' & rs' & A' & _ & _ & S' & _). assert (X := place_type _ _ _ _ _ _ _ A A'). subst. exact (stands_unique _ _ _ _ _ S S'). Qed.
Notation the_rule := (the_rule matches adhoc fallback reverse global t mo o locked skip).
Notation several_rules := (several_rules matches adhoc fallback reverse global t mo o locked skip).
Notation no_rule := (no_rule matches adhoc fallback reverse global t mo o locked skip).
Lemma the_rule_unique x y : the_rule x -> the_rule y -> x = y.
Proof.
  intros (p & r & F & M & A & U) (p' & r' & F' & M' & A' & U'). assert (E := first_at_unique _ _ F F'). subst p'. assert (E := U r' y M' A'). subst r'. exact (match_at_fun _ _ _ _ M M').
Qed.
Lemma the_rule_several x : the_rule x -> several_rules -> False.
Proof.
  intros (p & r & F & M & A & U) (p' & r1 & x1 & r2 & x2 & F' & M1 & M2 & A1 & A2 & N). assert (E := first_at_unique _ _ F F'). subst p'. apply N. rewrite (U _ _ M1 A1), (U _ _ M2 A2). reflexivity.
Qed.
Lemma the_rule_none x : the_rule x -> no_rule -> False.
Proof. intros (p & r & F & M & A & U) N. exact (N _ _ _ M A). Qed.
Lemma several_none : several_rules -> no_rule -> False.
Proof. intros (p & r1 & x1 & r2 & x2 & F' & M1 & M2 & A1 & A2 & N) N'. exact (N' _ _ _ M1 A1). Qed.
End Consistent.

Section Iff.
Context (t : target) (mo o : nat) (locked : bool) (Ho : o <> 0).
Context (Hchain : Forall (fun s => exists gs, rules s = rules_of gs) (chain t)) (Hglobal : exists gs, rules global = rules_of gs).
Notation search := (search matches adhoc fallback reverse ordered global t mo o locked).
Lemma search_iff x : search None = Some (Found x) <-> the_rule matches adhoc fallback reverse global t mo o locked None x.
Proof.
  pose proof (search_correct t mo o locked None Ho Hchain Hglobal) as C. destruct (search None) as [[y|]|].
  - split; [intros E; injection E as <-; exact C|intros T; rewrite (the_rule_unique _ _ _ _ _ _ _ T C); reflexivity].
  - split; [discriminate|]. intros T. exfalso. destruct C as (p & r & x1 & r' & x2 & F & M & M' & A & N). apply (the_rule_several _ _ _ _ _ _ T). exists p, r, x1, r', x2. repeat (split; [assumption|]). split; [discriminate|exact N].
  - split; [discriminate|]. intros T. destruct (the_rule_none _ _ _ _ _ _ T C).
Qed.
Lemma search_several : search None = Some Ambiguous <-> several_rules matches adhoc fallback reverse global t mo o locked None.
Proof.
  pose proof (search_correct t mo o locked None Ho Hchain Hglobal) as C. destruct (search None) as [[y|]|].
  - split; [discriminate|]. intros T. destruct (the_rule_several _ _ _ _ _ _ C T).
  - split; [intros _|reflexivity]. destruct C as (p & r & x1 & r' & x2 & F & M & M' & A & N). exists p, r, x1, r', x2. repeat (split; [assumption|]). split; [discriminate|exact N].
  - split; [discriminate|]. intros T. destruct (several_none _ _ _ _ _ T C).
Qed.
Lemma search_none skip : search skip = None <-> no_rule matches adhoc fallback reverse global t mo o locked skip.
Proof.
  pose proof (search_correct t mo o locked skip Ho Hchain Hglobal) as C. destruct (search skip) as [[y|]|].
  - split; [discriminate|]. intros T. destruct (the_rule_none _ _ _ _ _ _ C T).
  - split; [discriminate|]. intros T. destruct C as (p & r & x1 & r' & x2 & F & M & M' & A & N). destruct (T _ _ _ M A).
  - split; auto.
Qed.
Lemma search_skip skip x : the_rule matches adhoc fallback reverse global t mo o locked skip x -> search skip = Some (Found x) \/ (search skip = Some Ambiguous /\ exists p r r' x', match_at matches adhoc fallback reverse global t mo o locked p r x /\ match_at matches adhoc fallback reverse global t mo o locked p r' x' /\ r <> r' /\ skip = Some (rule x')).
Proof.
  intros T. pose proof (search_correct t mo o locked skip Ho Hchain Hglobal) as C. destruct (search skip) as [[y|]|].
  - left. rewrite (the_rule_unique _ _ _ _ _ _ _ T C). reflexivity.
  - right. split; [reflexivity|]. destruct T as (p & r & F & M & A & U). destruct C as (p' & r1 & x1 & r2 & x2 & F' & M1 & M2 & A1 & N). assert (E := first_at_unique _ _ _ _ _ _ _ F F'). subst p'. assert (E := U _ _ M1 A1). subst r1. assert (E := match_at_fun _ _ _ _ _ _ _ _ M M1). subst x1. exists p, r, r2, x2. split; [exact M|]. split; [exact M2|]. split; [exact N|]. destruct skip as [s|].
    + destruct (Nat.eq_dec s (rule x2)) as [-> | D]; [reflexivity|]. exfalso. apply N. symmetry. apply (U _ _ M2). unfold allowed. congruence.
    + exfalso. apply N. symmetry. apply (U _ _ M2). discriminate.
  - destruct (the_rule_none _ _ _ _ _ _ T C).
Qed.
End Iff.

(* Recipes. *)
Notation reverse_for := (reverse_for reverse).
Notation own_recipe := (own_recipe matches reverse).
Notation the_recipe := (the_recipe matches reverse).
Lemma has_action_correct mo o r : has_action (mo, o) r = true <-> In (mo, o) (ractions r).
Proof.
  unfold has_action. rewrite existsb_exists. split.
  - intros ((a & c) & I & E). apply andb_true_iff in E. destruct E as [E1 E2]. apply Nat.eqb_eq in E1, E2. cbn in E1, E2. subst. exact I.
  - intros I. exists (mo, o). split; [exact I|]. cbn. rewrite !Nat.eqb_refl. reflexivity.
Qed.
Lemma find_match_correct t locked mo o : at_most_one (recipe_for t mo o) -> at_most_one (reverse_for t mo o) ->
  (forall r, fst (find_match matches reverse t locked (mo, o)) = Some r <-> own_recipe t locked mo o r) /\
  (snd (find_match matches reverse t locked (mo, o)) = false <-> (forall x, ~ recipe_for t mo o x) /\ (forall x, ~ reverse_for t mo o x)).
Proof.
  intros U1 U2. unfold find_match. cbn [fst snd]. destruct (List.find (has_action (mo, o)) (recipes t)) as [r|] eqn:E.
  - apply find_some in E. destruct E as [I A]. apply has_action_correct in A. assert (R : recipe_for t mo o r) by (split; assumption). split; [|split; [discriminate|intros (N & _); destruct (N r R)]]. intros x. split.
    + destruct (matches _ _ _ _ _) eqn:M; [|discriminate]. intros X. injection X as <-. exact (or_recipe _ _ _ _ _ _ _ R M).
    + intros H. inversion H as [r' R' M|r' N _ _]; subst; [|destruct (N r R)]. rewrite <- (U1 _ _ R R') in *. rewrite M. reflexivity.
  - assert (N : forall x, ~ recipe_for t mo o x) by (intros x (I & A); apply has_action_correct in A; apply (find_none _ _ E) in I; congruence). clear E.
    destruct (List.find (fun r => reverse (rule (rrule r)) mo o (hd 0 (types t))) (recipes t)) as [r|] eqn:E.
    + apply find_some in E. destruct E as [I A]. assert (R : reverse_for t mo o r) by (split; assumption). split; [|split; [discriminate|intros (_ & N'); destruct (N' r R)]]. intros x. split.
      * destruct (matches _ _ _ _ _) eqn:M; [|discriminate]. intros X. injection X as <-. exact (or_reverse _ _ _ _ _ _ _ N R M).
      * intros H. inversion H as [r' R' M|r' _ R' M]; subst; [destruct (N r' R')|]. rewrite <- (U2 _ _ R R') in *. rewrite M. reflexivity.
    + assert (N' : forall x, ~ reverse_for t mo o x) by (intros x (I & A); apply (find_none _ _ E) in I; congruence). split; [|split; auto]. intros x. split; [discriminate|]. intros H. inversion H as [r' R' M|r' _ R' M]; subst; [destruct (N r' R')|destruct (N' r' R')].
Qed.
Lemma match_recipe_correct t locked mo o r : (forall m, at_most_one (recipe_for t m o)) -> (forall m, at_most_one (reverse_for t m o)) ->
  match_recipe matches reverse t locked mo o = Some r <-> the_recipe t locked mo o r.
Proof.
  intros U1 U2. destruct (find_match_correct t locked mo o (U1 mo) (U2 mo)) as [F1 F2]. destruct (find_match_correct t locked perform o (U1 perform) (U2 perform)) as [G1 _]. unfold match_recipe. destruct (find_match matches reverse t locked (mo, o)) as [[x|] f]; cbn [fst snd] in F1, F2.
  - assert (O : own_recipe t locked mo o x) by (apply F1; reflexivity). split.
    + intros E. injection E as <-. apply tr_own, O.
    + intros H. inversion H as [r' R|r' _ N1 N2 _]; subst; [apply F1 in R; congruence|]. exfalso. inversion O as [r' R' M|r' _ R' M]; subst; [destruct (N1 r' R')|destruct (N2 r' R')].
  - assert (O : forall x, ~ own_recipe t locked mo o x) by (intros x X; apply F1 in X; discriminate X). destruct f.
    + split; [discriminate|]. intros H. inversion H as [r' R|r' _ N1 N2 _]; subst; [destruct (O _ R)|]. assert (X := proj2 F2 (conj N1 N2)). discriminate X.
    + destruct (proj1 F2 eq_refl) as [N1 N2]. destruct ((mo =? configure) || (mo =? dist)) eqn:C.
      * rewrite G1. apply orb_true_iff in C. rewrite !Nat.eqb_eq in C. split; [intros R; apply tr_perform; assumption|]. intros H. inversion H as [r' R|r' _ _ _ R]; subst; [destruct (O _ R)|exact R].
      * split; [discriminate|]. intros H. exfalso. apply orb_false_iff in C. rewrite !Nat.eqb_neq in C. inversion H as [r' R|r' E _ _ R]; subst; [destruct (O _ R)|tauto].
Qed.

(* The whole. *)
Lemma target_ind' (P : target -> Prop) : (forall t, (forall g, group t = Some g -> P g) -> P t) -> forall t, P t.
Proof.
  intros H. fix F 1. intros t. apply H. destruct t as [id ts ss hs mh rs [g|] d ig m]; cbn; intros g' E; [injection E as <-; apply F|discriminate E].
Qed.
Notation well_formed := (well_formed reverse).
Notation outcome := (outcome matches adhoc fallback reverse global).
Notation own := (own matches adhoc fallback reverse global).
Definition rest (t : target) (a : action) (locked : bool) : option result :=
  match match_recipe matches reverse t locked (meta_operation a) (operation_of a) with
  | Some r => Some (Found r)
  | None => search matches adhoc fallback reverse ordered global t (meta_operation a) (operation_of a) locked None
  end.
Lemma match_rule_eq t a locked : match_rule matches adhoc fallback reverse ordered global t a locked None =
  match group t with
  | None => rest t a locked
  | Some g => match (if dyn_members g then matched g else None) with
      | Some r => Some (Found r)
      | None => if is_group g then match match_rule matches adhoc fallback reverse ordered global g a false None with Some r => Some r | None => rest t a locked end else rest t a locked
      end
  end.
Proof. destruct t as [id ts ss hs mh rs [g|] d ig m]; reflexivity. Qed.
Lemma own_correct t a locked res : operation_of a <> 0 -> well_formed (operation_of a) t -> (exists gs, rules global = rules_of gs) -> own a t locked res <-> rest t a locked = res.
Proof.
  intros Ho Hw Hg. inversion Hw as [t' Hc U1 U2 _]; subst. unfold rest. assert (R := fun r => match_recipe_correct t locked (meta_operation a) (operation_of a) r U1 U2). assert (S1 := fun x => search_iff t (meta_operation a) (operation_of a) locked Ho Hc Hg x). assert (S2 := search_several t (meta_operation a) (operation_of a) locked Ho Hc Hg). assert (S3 := search_none t (meta_operation a) (operation_of a) locked Ho Hc Hg None).
  destruct (match_recipe matches reverse t locked (meta_operation a) (operation_of a)) as [r|].
  - assert (T := proj1 (R r) eq_refl). split.
    + intros O. inversion O as [t1 l1 mo o r1 Em Eo T1|t1 l1 mo o r1 Em Eo N|t1 l1 mo o Em Eo N|t1 l1 mo o Em Eo N]; subst; [apply R in T1; congruence|destruct (N _ T)..].
    + intros <-. eapply w_recipe; [reflexivity|reflexivity|exact T].
  - assert (N0 : forall x, ~ the_recipe t locked (meta_operation a) (operation_of a) x) by (intros x X; apply R in X; discriminate X). split.
    + intros O. inversion O as [t1 l1 mo o r1 Em Eo T1|t1 l1 mo o r1 Em Eo N T|t1 l1 mo o Em Eo N T|t1 l1 mo o Em Eo N T]; subst; [destruct (N0 _ T1)|apply S1, T|apply S2, T|apply S3, T].
    + intros <-. destruct (search matches adhoc fallback reverse ordered global t (meta_operation a) (operation_of a) locked None) as [[x|]|]; [eapply w_rule|eapply w_several|eapply w_none]; try reflexivity; try exact N0; [apply S1|apply S2|apply S3]; reflexivity.
Qed.
Theorem match_rule_correct a : operation_of a <> 0 -> (exists gs, rules global = rules_of gs) -> forall t, well_formed (operation_of a) t -> forall locked res, match_rule matches adhoc fallback reverse ordered global t a locked None = res <-> outcome a t locked res.
Proof.
  intros Ho Hg t. induction t as [t IH] using target_ind'. intros Hw locked res. rewrite match_rule_eq. assert (Oc := fun r => own_correct t a locked r Ho Hw Hg). inversion Hw as [t' _ _ _ Hgw]; subst.
  assert (GM : forall r, group_matched t r <-> exists g, group t = Some g /\ (if dyn_members g then matched g else None) = Some r).
  { intros r. unfold group_matched. split; intros (g & E & H); exists g; (split; [exact E|]); [destruct H as [-> ->]; reflexivity|]. destruct (dyn_members g); [auto|discriminate H]. }
  destruct (group t) as [g|] eqn:G.
  - specialize (IH g eq_refl (Hgw g eq_refl) false). destruct (if dyn_members g then matched g else None) as [r|] eqn:Gm.
    + assert (M : group_matched t r) by (apply GM; exists g; auto). split.
      * intros <-. apply o_matched, M.
      * intros O. inversion O as [t1 l1 r1 M1|t1 l1 g1 res1 (_ & _ & N)|t1 l1 res1 N]; subst; [|destruct (N r M)..]. apply GM in M1. destruct M1 as (g1 & E & M1). injection E as <-. congruence.
    + assert (NM : forall r, ~ group_matched t r) by (intros r M; apply GM in M; destruct M as (g1 & E & M1); injection E as <-; congruence). destruct (is_group g) eqn:Ig.
      * assert (GF : group_first t g) by (split; [exact G|split; assumption]). assert (GF1 : forall g1, group_first t g1 -> g1 = g) by (intros g1 (E & _); congruence). destruct (match_rule matches adhoc fallback reverse ordered global g a false None) as [x|].
        -- assert (O : outcome a g false (Some x)) by (apply IH; reflexivity). split.
           ++ intros <-. exact (o_group _ _ _ _ _ _ _ _ _ _ GF O).
           ++ intros O'. inversion O' as [t1 l1 r1 M1|t1 l1 g1 res1 F1 O1|t1 l1 res1 N F1]; subst; [destruct (NM _ M1)| |]; [rewrite (GF1 _ F1) in O1; apply IH in O1; exact O1|]. assert (X := F1 g GF). apply IH in X. discriminate X.
        -- assert (O : outcome a g false None) by (apply IH; reflexivity). rewrite <- Oc. split.
           ++ intros W. apply o_own; [exact NM|intros g1 F1; rewrite (GF1 _ F1); exact O|exact W].
           ++ intros O'. inversion O' as [t1 l1 r1 M1|t1 l1 g1 res1 F1 O1|t1 l1 res1 N F1 W]; subst; [destruct (NM _ M1)| |exact W]. rewrite (GF1 _ F1) in O1. apply IH in O1. discriminate O1.
      * assert (GF1 : forall g1, ~ group_first t g1) by (intros g1 (E & X & _); congruence). rewrite <- Oc. split.
        -- intros W. apply o_own; [exact NM|intros g1 F1; destruct (GF1 _ F1)|exact W].
        -- intros O'. inversion O' as [t1 l1 r1 M1|t1 l1 g1 res1 F1 O1|t1 l1 res1 N F1 W]; subst; [destruct (NM _ M1)|destruct (GF1 _ F1)|exact W].
  - assert (NM : forall r, ~ group_matched t r) by (intros r M; apply GM in M; destruct M as (g1 & E & M1); discriminate E). assert (GF1 : forall g1, ~ group_first t g1) by (intros g1 (E & X & _); congruence). rewrite <- Oc. split.
    + intros W. apply o_own; [exact NM|intros g1 F1; destruct (GF1 _ F1)|exact W].
    + intros O'. inversion O' as [t1 l1 r1 M1|t1 l1 g1 res1 F1 O1|t1 l1 res1 N F1 W]; subst; [destruct (NM _ M1)|destruct (GF1 _ F1)|exact W].
Qed.
End Match.
