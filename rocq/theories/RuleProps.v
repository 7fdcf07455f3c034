(* C59: which rule a target is matched to. C60: delegation. *)
From Coq Require Import Sorting.Permutation.
From Verif Require Import Base RuleModel RuleSpec RuleProofs RuleProofs2.

(* What is registered, the first of each name, and nothing else is found. *)
Theorem C59_registered : forall gs mo o ty r,
  In r (find_rules mo o ty (rules_of gs)) <-> registered gs (mkreg mo o ty (rname r) (rule r)).
Proof. intros. apply find_rules_registered. Qed.
Print Assumptions C59_registered.
Theorem C59_names_unique : forall gs mo o ty r r', In r (find_rules mo o ty (rules_of gs)) -> In r' (find_rules mo o ty (rules_of gs)) -> rname r = rname r' -> r = r'.
Proof.
  intros gs mo o ty r r' I I' E. apply find_rules_registered in I, I'. destruct I as (l & m & -> & N), I' as (l' & m' & E' & N'). unfold key_of in *.
  assert (K : same_key (mkreg mo o ty (rname r) (rule r)) (mkreg mo o ty (rname r') (rule r'))) by (repeat split; cbn; auto).
  revert l' E' N'. induction l as [|x l IH]; intros l' E' N'.
  - destruct l' as [|y l']; injection E' as E1 E2; [destruct r, r'; cbn in *; congruence|]. subst y. destruct (N' _ (or_introl eq_refl) K).
  - destruct l' as [|y l']; injection E' as E1 E2.
    + subst x. assert (K' : same_key (mkreg mo o ty (rname r') (rule r')) (mkreg mo o ty (rname r) (rule r))) by (repeat split; cbn; auto). destruct (N _ (or_introl eq_refl) K').
    + subst y. apply (IH (fun z I => N z (or_intror I)) l' E2 (fun z I => N' z (or_intror I))).
Qed.
Print Assumptions C59_names_unique.
Example C59_registered_ex : find_rules 2 2 7 (rules_of [mkreg 2 2 7 (b "c.link") 1; mkreg 2 0 7 (b "any") 2; mkreg 2 2 7 (b "c.link") 3; mkreg 2 2 7 (b "cxx.link") 4; mkreg 6 2 7 (b "dist") 5; mkreg 2 9 7 (b "test") 6]) = [mkrmatch (b "c.link") 1; mkrmatch (b "cxx.link") 4].
Proof. reflexivity. Qed.

(* Hints. *)
Theorem C59_hint_name : forall h n, sub h n = true <-> hint_for h n.
Proof. exact sub_correct. Qed.
Print Assumptions C59_hint_name.
Theorem C59_hint : forall t o hs gs v,
  hints t = hints_of hs -> (forall g, group t = Some g -> hints g = hints_of gs) ->
  target_hint t o = v <-> hint_for_target t hs (match group t with Some g => Some (g, gs) | None => None end) o v.
Proof.
  intros t o hs gs v Eh Eg. unfold target_hint.
  assert (K : forall ut l ls, l = hints_of ls -> forall v, match l with [] => [] | _ => find_hint (types t) o ut None l end = v <-> hint_is (types t) o ut ls v).
  { intros ut l ls -> w. rewrite <- find_hint_correct. destruct (hints_of ls); reflexivity. }
  assert (K1 := K (negb (member_hint t)) _ _ Eh).
  destruct (match hints t with [] => [] | _ => find_hint (types t) o (negb (member_hint t)) None (hints t) end) as [|c h].
  - assert (N := proj1 (K1 []) eq_refl). destruct (group t) as [g|].
    + rewrite (K (member_hint g) _ _ (Eg g eq_refl)). split; [intros H; exact (ht_group _ _ _ _ g gs v N eq_refl H)|]. intros H. inversion H as [v' Nv Hv|t' gs' v' _ E Hv|_ E]; subst; [apply K1 in Hv; congruence|injection E as <- <-; exact Hv|discriminate E].
    + split; [intros <-; apply ht_none; auto|]. intros H. inversion H as [v' Nv Hv|t' gs' v' _ E Hv|_ E]; subst; [apply K1 in Hv; congruence|discriminate E|reflexivity].
  - assert (N := proj1 (K1 _) eq_refl). split; [intros <-; apply ht_own; [discriminate|exact N]|]. intros H. inversion H as [v' Nv Hv|t' gs' v' Hn E Hv|Hn E]; subst; [apply K1, Hv|apply K1 in Hn; discriminate Hn|apply K1 in Hn; discriminate Hn].
Qed.
Print Assumptions C59_hint.
(* A default hint, overridden; for testing there is none. *)
Example C59_hint_ex :
  let t g hs := Target 1 [7; 1; 0] [] (hints_of hs) false [] g false false None in
  let hs := [mkhint None default (b "c"); mkhint (Some 1) update (b "cxx"); mkhint None default (b "cc")] in
  target_hint (t None hs) update = b "cxx" /\ target_hint (t None hs) clean = b "cc" /\ target_hint (t None hs) 5 = [] /\
  target_hint (t (Some (t None hs)) []) update = b "cxx" /\ target_hint (t (Some (t None hs)) []) clean = [].
Proof. repeat split. Qed.

Section Match.
Context (matches : nat -> nat -> bytes -> bool -> bool -> bool) (adhoc : nat -> bool) (fallback : nat -> option (list rmatch)) (reverse : nat -> nat -> nat -> nat -> bool) (ordered : name_map -> name_map) (global : scope).

(* The rule, several rules or none, of those registered. *)
Theorem C59_rule : forall t mo o locked,
  (forall l, Permutation l (ordered l)) -> (exists gs, rules global = rules_of gs) -> Forall (fun s => exists gs, rules s = rules_of gs) (chain t) -> o <> 0 ->
  (forall x, search matches adhoc fallback reverse ordered global t mo o locked None = Some (Found x) <-> the_rule matches adhoc fallback reverse global t mo o locked None x) /\
  (search matches adhoc fallback reverse ordered global t mo o locked None = Some Ambiguous <-> several_rules matches adhoc fallback reverse global t mo o locked None) /\
  (search matches adhoc fallback reverse ordered global t mo o locked None = None <-> no_rule matches adhoc fallback reverse global t mo o locked None).
Proof. intros t mo o locked P G C O. split; [intros x; apply search_iff; assumption|]. split; [apply search_several; assumption|apply search_none; assumption]. Qed.

(* Delegating from a rule, which is then skipped. What is missing is that the rule is found whenever
   there is one, see below. *)
Theorem C60_delegate_partial : forall t mo o locked s,
  (forall l, Permutation l (ordered l)) -> (exists gs, rules global = rules_of gs) -> Forall (fun s => exists gs, rules s = rules_of gs) (chain t) -> o <> 0 ->
  (forall x, search matches adhoc fallback reverse ordered global t mo o locked (Some s) = Some (Found x) -> the_rule matches adhoc fallback reverse global t mo o locked (Some s) x) /\
  (forall x, the_rule matches adhoc fallback reverse global t mo o locked (Some s) x ->
     search matches adhoc fallback reverse ordered global t mo o locked (Some s) = Some (Found x) \/
     (search matches adhoc fallback reverse ordered global t mo o locked (Some s) = Some Ambiguous /\
      exists p r r' x', match_at matches adhoc fallback reverse global t mo o locked p r x /\ match_at matches adhoc fallback reverse global t mo o locked p r' x' /\ r <> r' /\ rule x' = s)) /\
  (search matches adhoc fallback reverse ordered global t mo o locked (Some s) = None <-> no_rule matches adhoc fallback reverse global t mo o locked (Some s)).
Proof.
  intros t mo o locked s P G C O. split; [|split; [|apply search_none; assumption]].
  - intros x E. pose proof (search_correct matches adhoc fallback reverse ordered global P t mo o locked (Some s) O C G) as H. rewrite E in H. exact H.
  - intros x T. destruct (search_skip matches adhoc fallback reverse ordered global P t mo o locked O C G (Some s) x T) as [E|(E & p & r & r' & x' & M & M' & N & E')]; [left; exact E|right]. split; [exact E|]. injection E' as ->. exists p, r, r', x'. auto.
Qed.

(* Recipes. *)
Theorem C59_recipe : forall t locked mo o r,
  (forall m, at_most_one (recipe_for t m o)) -> (forall m, at_most_one (reverse_for reverse t m o)) ->
  match_recipe matches reverse t locked mo o = Some r <-> the_recipe matches reverse t locked mo o r.
Proof. intros. apply match_recipe_correct; assumption. Qed.

(* The whole. *)
Theorem C59_outcome : forall a t locked res,
  (forall l, Permutation l (ordered l)) -> (exists gs, rules global = rules_of gs) -> well_formed reverse (operation_of a) t -> operation_of a <> 0 ->
  match_rule matches adhoc fallback reverse ordered global t a locked None = res <-> outcome matches adhoc fallback reverse global a t locked res.
Proof. intros a t locked res P G W O. apply match_rule_correct; assumption. Qed.
End Match.
Print Assumptions C59_rule.
Print Assumptions C60_delegate_partial.
Print Assumptions C59_recipe.
Print Assumptions C59_outcome.

(* The order in which names are does not matter. *)
Theorem C59_order_irrelevant : forall matches adhoc fallback reverse ordered ordered' global a t locked,
  (forall l, Permutation l (ordered l)) -> (forall l, Permutation l (ordered' l)) -> (exists gs, rules global = rules_of gs) -> well_formed reverse (operation_of a) t -> operation_of a <> 0 ->
  match_rule matches adhoc fallback reverse ordered global t a locked None = match_rule matches adhoc fallback reverse ordered' global t a locked None.
Proof.
  intros matches adhoc fallback reverse ordered ordered' global a t locked P P' G W O. apply (C59_outcome matches adhoc fallback reverse ordered global a t locked _ P G W O). apply (C59_outcome matches adhoc fallback reverse ordered' global a t locked _ P' G W O). reflexivity.
Qed.
Print Assumptions C59_order_irrelevant.

(* An executable (types 7, 1 and 0) in a directory of a project. *)
Definition ex_global := mkscope (rules_of [mkreg perform update 1 (b "build.file") 10; mkreg perform clean 1 (b "build.file") 10; mkreg configure 0 0 (b "noop") 11]) false.
Definition ex_root := mkscope (rules_of [mkreg perform update 7 (b "c.link") 1; mkreg perform update 7 (b "cxx.link") 2; mkreg perform update 0 (b "alias") 3]) true.
Definition ex_dir := mkscope (rules_of [mkreg perform update 1 (b "adhoc") 4]) false.
Definition ex_target (hs : list hint) (rs : list recipe) (g : option target) (dyn grp : bool) (m : option rmatch) (id : nat) := Target id [7; 1; 0] [ex_dir; ex_root; mkscope new_map false] (hints_of hs) false rs g dyn grp m.
Definition ex_match (t : target) (mo o : nat) (which : nat -> bool) := match_rule (fun _ r _ _ _ => which r) (fun r => r =? 4) (fun _ => None) (fun r m o _ => (r =? 20) && (m =? perform) && (o =? clean)) (fun l => l) ex_global t (make_action mo o 0) true None.
Example C59_well_formed_ex : well_formed (fun r m o _ => (r =? 20) && (m =? perform) && (o =? clean)) update (ex_target [] [mkrecipe (mkrmatch (b "r") 20) [(perform, update)]] (Some (ex_target [] [] None true true None 1)) false false None 2).
Proof.
  assert (C : Forall (fun s => exists gs, rules s = rules_of gs) [ex_dir; ex_root; mkscope new_map false]) by (apply Forall_cons; [eexists; reflexivity|]; apply Forall_cons; [eexists; reflexivity|]; apply Forall_cons; [exists []; reflexivity|apply Forall_nil]).
  constructor.
  - exact C.
  - intros mo x y ([<-|[]] & _) ([<-|[]] & _). reflexivity.
  - intros mo x y ([<-|[]] & _) ([<-|[]] & _). reflexivity.
  - intros g E. injection E as <-. constructor.
    + exact C.
    + intros mo x y ([] & _).
    + intros mo x y ([] & _).
    + discriminate.
Qed.
Example C59_match_ex :
  let t hs rs := ex_target hs rs None false false None 2 in
  (* The most derived type, in the outer scope, over the base in the inner. *)
  ex_match (t [] []) perform update (fun r => negb (r =? 2)) = Some (Found (mkrmatch (b "c.link") 1)) /\
  ex_match (t [] []) perform update (fun _ => true) = Some Ambiguous /\
  ex_match (t [mkhint None default (b "cxx")] []) perform update (fun _ => true) = Some (Found (mkrmatch (b "cxx.link") 2)) /\
  ex_match (t [] []) perform update (fun r => 2 <? r) = Some (Found (mkrmatch (b "adhoc") 4)) /\
  ex_match (t [] []) perform update (fun r => 4 <? r) = Some (Found (mkrmatch (b "build.file") 10)) /\
  ex_match (t [] []) perform update (fun r => 10 <? r) = None /\
  (* For configure without the hint. *)
  ex_match (t [mkhint None default (b "cxx")] []) configure update (fun _ => true) = Some (Found (mkrmatch (b "noop") 11)) /\
  (* A recipe for updating, also cleans. *)
  ex_match (t [] [mkrecipe (mkrmatch (b "r") 20) [(perform, update)]]) perform clean (fun _ => true) = Some (Found (mkrmatch (b "r") 20)) /\
  ex_match (t [] [mkrecipe (mkrmatch (b "r") 20) [(perform, update)]]) configure update (fun _ => true) = Some (Found (mkrmatch (b "r") 20)) /\
  (* The group. *)
  ex_match (ex_target [] [] (Some (ex_target [] [] None true true (Some (mkrmatch (b "g") 30)) 1)) false false None 2) perform update (fun _ => true) = Some (Found (mkrmatch (b "g") 30)) /\
  ex_match (ex_target [] [] (Some (ex_target [] [] None true true None 1)) false false None 2) perform update (fun _ => true) = Some (Found (mkrmatch (b "adhoc") 4)).
Proof. repeat split. Qed.

(* Delegation is to another rule: the one to skip is not considered. This is so if it is before the
   other by name but not if it is after: then the match is ambiguous. *)
Theorem C60_delegate_refuted : exists matches adhoc fallback reverse ordered global t s x y,
  (forall l, Permutation l (ordered l)) /\ rules global = rules_of [] /\
  chain t = [mkscope (rules_of [mkreg perform update 1 (b "a") 1; mkreg perform update 1 (b "b") 2]) true] /\
  the_rule matches adhoc fallback reverse global t perform update true (Some s) x /\
  search matches adhoc fallback reverse ordered global t perform update true (Some s) = Some Ambiguous /\
  the_rule matches adhoc fallback reverse global t perform update true (Some (rule x)) y /\
  search matches adhoc fallback reverse ordered global t perform update true (Some (rule x)) = Some (Found y).
Proof.
  set (t := Target 1 [1] [mkscope (rules_of [mkreg perform update 1 (b "a") 1; mkreg perform update 1 (b "b") 2]) true] [] false [] None false false None).
  set (g := mkscope (rules_of []) false).
  assert (M : forall p r x, match_at (fun _ _ _ _ _ => true) (fun _ => true) (fun _ => None) (fun _ _ _ _ => true) g t perform update true p r x <-> p = mkplace false 0 0 false /\ r = x /\ (r = mkrmatch (b "a") 1 \/ r = mkrmatch (b "b") 2)).
  { intros p r x. split.
    - intros (h & ty & rs & A & I & _ & S & _). inversion A as [u s w ty' sc H1 H2|u w ty' sc s r' C1]; subst; [|contradiction C1; reflexivity]. assert (E : r = x) by (inversion S as [|? ? ? ? E]; [reflexivity|discriminate E]). destruct u as [|[|u]]; cbn in H1; [|discriminate H1..]. injection H1 as <-. inversion H2 as [| ? ? ? ? R|]; subst; [|discriminate R|destruct w; destruct I]. destruct w; [destruct I|]. cbn in I. split; [reflexivity|]. split; [reflexivity|]. destruct I as [<-|[<-|[]]]; auto.
    - intros (-> & <- & H). exists [], 1, [mkrmatch (b "a") 1; mkrmatch (b "b") 2]. split; [apply (ap_hint g t perform update 0 0 false 1 (mkscope (rules_of [mkreg perform update 1 (b "a") 1; mkreg perform update 1 (b "b") 2]) true)); [reflexivity|constructor]|]. split; [destruct H as [-> | ->]; cbn; auto|]. split; [left; reflexivity|]. split; [constructor; auto|auto]. }
  exists (fun _ _ _ _ _ => true), (fun _ => true), (fun _ => None), (fun _ _ _ _ => true), (fun l => l), g, t, 2, (mkrmatch (b "a") 1), (mkrmatch (b "b") 2).
  assert (K : forall s x z, In x [mkrmatch (b "a") 1; mkrmatch (b "b") 2] -> In z [mkrmatch (b "a") 1; mkrmatch (b "b") 2] -> s = rule z -> rule x <> rule z -> the_rule (fun _ _ _ _ _ => true) (fun _ => true) (fun _ => None) (fun _ _ _ _ => true) g t perform update true (Some s) x).
  { intros s x z Ix Iz -> N. exists (mkplace false 0 0 false), x.
    assert (Mx : match_at (fun _ _ _ _ _ => true) (fun _ => true) (fun _ => None) (fun _ _ _ _ => true) g t perform update true (mkplace false 0 0 false) x x) by (apply M; split; [reflexivity|]; split; [reflexivity|]; destruct Ix as [<-|[<-|[]]]; auto).
    assert (Ax : allowed (Some (rule z)) x) by (unfold allowed; congruence).
    split; [split; [exists x, x; auto|]|split; [exact Mx|split; [exact Ax|]]].
    - intros q r y B Mq. apply M in Mq. destruct Mq as (-> & _). destruct (before_irrefl _ B).
    - intros r y Mr Ar. apply M in Mr. destruct Mr as (_ & <- & H). unfold allowed in Ar. destruct Ix as [<-|[<-|[]]], Iz as [<-|[<-|[]]], H as [-> | ->]; cbn in *; congruence. }
  split; [intros l; apply Permutation_refl|]. split; [reflexivity|]. split; [reflexivity|]. split; [apply (K 2 _ (mkrmatch (b "b") 2)); cbn; auto|]. split; [reflexivity|]. split; [apply (K 1 _ (mkrmatch (b "a") 1)); cbn; auto|]. reflexivity.
Qed.
Print Assumptions C60_delegate_refuted.

(* Actions. *)
Theorem C59_action : forall m i o, i < 16 -> o < 16 ->
  let a := make_action m i o in meta_operation a = m /\ operation a = i /\ (0 < m -> outer_operation a = o /\ (inner a = true <-> o = 0)).
Proof.
  intros m i o Hi Ho a. unfold a, meta_operation, operation, outer_operation, inner, make_action, action_id. cbn [inner_id outer_id]. clear a. assert (D : forall x, x < 16 -> (m * 16 + x) / 16 = m /\ (m * 16 + x) mod 16 = x).
  { intros x L. split; [rewrite Nat.div_add_l by discriminate; rewrite Nat.div_small by exact L; lia|rewrite Nat.add_comm, Nat.mod_add by discriminate; apply Nat.mod_small, L]. }
  split; [apply D, Hi|]. split; [apply D, Hi|]. intros Hm. destruct (Nat.eqb_spec o 0) as [-> | N]; [split; [reflexivity|split; reflexivity]|]. split; [apply D, Ho|]. split; [|intros ->; contradiction]. intros E. apply Nat.eqb_eq in E. lia.
Qed.
Print Assumptions C59_action.
Theorem C59_action_eq : forall m i o m' i' o', i < 16 -> o < 16 -> i' < 16 -> o' < 16 -> 0 < m -> 0 < m' ->
  (action_eqb (make_action m i o) (make_action m' i' o') = true <-> m = m' /\ i = i' /\ o = o') /\
  (ne (make_action m i o) (make_action m' i' o') = true <-> ~ (m = m' /\ i = i' /\ o = o')) /\
  (eq_id (make_action m i o) (action_id m' i') = true <-> m = m' /\ i = i' /\ o = 0) /\
  (ne_id (make_action m i o) (action_id m' i') = true <-> ~ (m = m' /\ i = i' /\ o = 0)) /\
  (id_eq (action_id m i) (make_action m' i' o') = true <-> m = m' /\ i = i' /\ o' = 0).
Proof.
  assert (K : forall m i o m' i' o', i < 16 -> o < 16 -> i' < 16 -> o' < 16 -> 0 < m -> 0 < m' -> action_eqb (make_action m i o) (make_action m' i' o') = true <-> m = m' /\ i = i' /\ o = o').
  { intros m i o m' i' o' Hi Ho Hi' Ho' Hm Hm'. unfold action_eqb, make_action, action_id. cbn [inner_id outer_id]. rewrite andb_true_iff, !Nat.eqb_eq. split.
    - intros [E1 E2]. assert (m = m') by lia. assert (i = i') by lia. destruct (Nat.eqb_spec o 0), (Nat.eqb_spec o' 0); lia.
    - intros (-> & -> & ->). auto. }
  assert (O : forall m i, i < 16 -> of_id (action_id m i) = make_action m i 0).
  { intros m i L. unfold of_id, action_id. rewrite Nat.div_add_l by discriminate. rewrite Nat.div_small by exact L. rewrite Nat.add_0_r, Nat.add_comm, Nat.mod_add by discriminate. rewrite Nat.mod_small by exact L. reflexivity. }
  intros m i o m' i' o' Hi Ho Hi' Ho' Hm Hm'. assert (Z : 0 < 16) by lia. unfold eq_id, ne_id, id_eq, ne. rewrite !O by assumption. rewrite !negb_true_iff, <- !not_true_iff_false. rewrite (K m i o m' i' o') by assumption. rewrite (K m i o m' i' 0) by assumption. rewrite (K m i 0 m' i' o') by assumption.
  split; [reflexivity|]. split; [reflexivity|]. split; [reflexivity|]. split; [reflexivity|]. split; intros (A & B & C); auto.
Qed.
Print Assumptions C59_action_eq.
(* Except for comparing an id to an action for inequality. *)
Theorem C59_action_ne_refuted : exists m i, id_ne (action_id m i) (make_action m i 0) = true /\ forall m' i', id_ne (action_id m i) (make_action m' i' 0) = id_eq (action_id m i) (make_action m' i' 0).
Proof. exists perform, update. split; reflexivity. Qed.
Print Assumptions C59_action_ne_refuted.
