(* Which rule a target is to be matched to. *)
From Verif Require Import Base RuleModel.

(* A registration: the meta-operation, the operation (0 is any), the target type, the name and the
   rule. The first registration of a name stays. *)
Record registration := mkreg { gmeta : nat; gop : nat; gtype : nat; gname : bytes; grule : nat }.
Definition register (m : rule_map) (g : registration) : rule_map := insert_rule (gmeta g) (gop g) (gtype g) (mkrmatch (gname g) (grule g)) m.
Definition rules_of (gs : list registration) : rule_map := fold_left register gs new_map.
Definition same_key (x y : registration) : Prop := gmeta x = gmeta y /\ gop x = gop y /\ gtype x = gtype y /\ gname x = gname y.
Definition registered (gs : list registration) (g : registration) : Prop :=
  exists before after, gs = before ++ g :: after /\ forall x, In x before -> ~ same_key x g.

(* A hint is for a rule if it is the name of the rule or the beginning of it, up to a dot. *)
Definition hint_for (h name : bytes) : Prop := h = [] \/ h = name \/ exists x, name = h ++ DOT :: x.

(* Hints are given one by one, the later ones for the same type and operation override those before. *)
Definition hints_of (hs : list hint) : list hint := fold_left (fun m h => insert_hint (htype h) (hoperation h) (hvalue h) m) hs [].
Definition for_type (ts : list nat) (untyped : bool) (h : hint) : Prop := match htype h with None => untyped = true | Some t => In t ts end.
Definition same_hint (x y : hint) : Prop := htype x = htype y /\ hoperation x = hoperation y.
(* The value of the first hint of those that satisfy P, overridden by the last one like it. *)
Definition hint_of (P : hint -> Prop) (hs : list hint) (v : bytes) : Prop :=
  exists before h after h', hs = before ++ h :: after /\ P h /\ (forall x, In x before -> ~ P x) /\
    same_hint h' h /\ v = hvalue h' /\ exists b' a', hs = b' ++ h' :: a' /\ forall x, In x a' -> ~ same_hint x h'.
Definition applicable (ts : list nat) (o : nat) (untyped : bool) (h : hint) : Prop := for_type ts untyped h /\ hoperation h = o.
(* The default one is for updating and cleaning. *)
Inductive hint_is (ts : list nat) (o : nat) (untyped : bool) (hs : list hint) : bytes -> Prop :=
| hi_given v : hint_of (applicable ts o untyped) hs v -> hint_is ts o untyped hs v
| hi_default v : (forall h, In h hs -> ~ applicable ts o untyped h) -> o = update \/ o = clean -> hint_of (applicable ts default untyped) hs v -> hint_is ts o untyped hs v
| hi_none : (forall h, In h hs -> ~ applicable ts o untyped h) -> (o = update \/ o = clean -> forall h, In h hs -> ~ applicable ts default untyped h) -> hint_is ts o untyped hs [].

(* The scopes that are looked in: outwards up to the root of the project, then the global. *)
Inductive nth_scope (global : scope) : list scope -> nat -> scope -> Prop :=
| ns_here s ss : nth_scope global (s :: ss) 0 s
| ns_outer s ss k x : root s = false -> nth_scope global ss k x -> nth_scope global (s :: ss) (S k) x
| ns_global s ss : root s = true -> nth_scope global (s :: ss) 1 global.
(* The root of the project itself. *)
Inductive root_of : list scope -> scope -> Prop :=
| ro_here s ss : root s = true -> root_of (s :: ss) s
| ro_outer s ss r : root s = false -> root_of ss r -> root_of (s :: ss) r.

(* Where a rule is found: first with the hint and then without, for a type before its base, in a scope
   before those it is in and for the operation before any operation. *)
Record place := mkplace { again : bool; up : nat; out : nat; any : bool }.
Inductive before : place -> place -> Prop :=
| b_again u s w u' s' w' : before (mkplace false u s w) (mkplace true u' s' w')
| b_up r u s w u' s' w' : u < u' -> before (mkplace r u s w) (mkplace r u' s' w')
| b_out r u s w s' w' : s < s' -> before (mkplace r u s w) (mkplace r u s' w')
| b_any r u s : before (mkplace r u s false) (mkplace r u s true).

Section Match.
Context (matches : nat -> nat -> bytes -> bool -> bool -> bool) (adhoc : nat -> bool) (fallback : nat -> option (list rmatch)) (reverse : nat -> nat -> nat -> nat -> bool) (global : scope).

Section Place.
Context (t : target) (mo o : nat) (locked : bool) (skip : option nat).
(* The rules registered at a place. Rules without the hint are for meta-operations other than perform,
   of the project itself or the global ones. *)
Inductive at_place : place -> bytes -> nat -> name_map -> Prop :=
| ap_hint u s w ty sc : nth_error (types t) u = Some ty -> nth_scope global (chain t) s sc ->
    at_place (mkplace false u s w) (target_hint t o) ty (find_rules mo (if w then 0 else o) ty (rules sc))
| ap_again u w ty sc (s : bool) r : mo <> perform -> target_hint t o <> [] -> nth_error (types t) u = Some ty -> root_of (chain t) r -> sc = (if s then global else r) ->
    at_place (mkplace true u (if s then 1 else 0) w) [] ty (find_rules mo (if w then 0 else o) ty (rules sc)).
(* What matches at a place: the name and the rule. *)
Inductive stands : bool -> nat -> rmatch -> rmatch -> Prop :=
| st_rule w ty r : w = false \/ fallback (rule r) = None -> stands w ty r r
| st_fallback ty r rs x : fallback (rule r) = Some rs -> List.find (fun x => reverse (rule x) mo o ty) rs = Some x -> stands true ty r x.
Definition match_at (p : place) (r x : rmatch) : Prop :=
  exists h ty rs, at_place p h ty rs /\ In r rs /\ hint_for h (rname r) /\ stands (any p) ty r x /\ (locked = true \/ adhoc (rule x) = true) /\ matches (tid t) (rule x) h (any p) locked = true.
Definition allowed (x : rmatch) : Prop := skip <> Some (rule x).
Definition first_at (p : place) : Prop := (exists r x, match_at p r x /\ allowed x) /\ forall q r x, before q p -> match_at q r x -> ~ allowed x.
(* The rule for the target. *)
Definition the_rule (x : rmatch) : Prop := exists p r, first_at p /\ match_at p r x /\ allowed x /\ forall r' x', match_at p r' x' -> allowed x' -> r' = r.
Definition several_rules : Prop := exists p r x r' x', first_at p /\ match_at p r x /\ match_at p r' x' /\ allowed x /\ allowed x' /\ r <> r'.
Definition no_rule : Prop := forall p r x, match_at p r x -> ~ allowed x.
End Place.

(* Recipes. There is one for an action, or else one for its reverse, or else, for configuring and
   distributing, that for performing the operation. *)
Definition recipe_for (t : target) (mo o : nat) (r : recipe) : Prop := In r (recipes t) /\ In (mo, o) (ractions r).
Definition reverse_for (t : target) (mo o : nat) (r : recipe) : Prop := In r (recipes t) /\ reverse (rule (rrule r)) mo o (hd 0 (types t)) = true.
Definition at_most_one {A} (P : A -> Prop) : Prop := forall x y, P x -> P y -> x = y.
Inductive own_recipe (t : target) (locked : bool) (mo o : nat) : rmatch -> Prop :=
| or_recipe r : recipe_for t mo o r -> matches (tid t) (rule (rrule r)) [] false locked = true -> own_recipe t locked mo o (rrule r)
| or_reverse r : (forall x, ~ recipe_for t mo o x) -> reverse_for t mo o r -> matches (tid t) (rule (rrule r)) [] true locked = true -> own_recipe t locked mo o (rrule r).
Inductive the_recipe (t : target) (locked : bool) (mo o : nat) : rmatch -> Prop :=
| tr_own r : own_recipe t locked mo o r -> the_recipe t locked mo o r
| tr_perform r : mo = configure \/ mo = dist -> (forall x, ~ recipe_for t mo o x) -> (forall x, ~ reverse_for t mo o x) -> own_recipe t locked perform o r -> the_recipe t locked mo o r.

(* A target as it comes out of the parser: rules are registered and there are no two recipes for the
   same action. *)
Inductive well_formed (o : nat) : target -> Prop :=
| wf_target t : Forall (fun s => exists gs, rules s = rules_of gs) (chain t) -> (forall mo, at_most_one (recipe_for t mo o)) -> (forall mo, at_most_one (reverse_for t mo o)) -> (forall g, group t = Some g -> well_formed o g) -> well_formed o t.
(* The operation that rules are for. *)
Definition operation_of (a : action) : nat := if inner a then operation a else outer_operation a.

(* The whole. A member of a group is matched to what the group is if the group has been matched and
   its members are dynamic, or if the group can be matched to something ad hoc. *)
Definition group_matched (t : target) (r : rmatch) : Prop := exists g, group t = Some g /\ dyn_members g = true /\ matched g = Some r.
Definition group_first (t g : target) : Prop := group t = Some g /\ is_group g = true /\ forall r, ~ group_matched t r.
Inductive outcome (a : action) : target -> bool -> option result -> Prop :=
| o_matched t locked r : group_matched t r -> outcome a t locked (Some (Found r))
| o_group t locked g res : group_first t g -> outcome a g false (Some res) -> outcome a t locked (Some res)
| o_own t locked res : (forall r, ~ group_matched t r) -> (forall g, group_first t g -> outcome a g false None) -> own a t locked res -> outcome a t locked res
with own (a : action) : target -> bool -> option result -> Prop :=
| w_recipe t locked mo o r : mo = meta_operation a -> o = operation_of a -> the_recipe t locked mo o r -> own a t locked (Some (Found r))
| w_rule t locked mo o r : mo = meta_operation a -> o = operation_of a -> (forall x, ~ the_recipe t locked mo o x) -> the_rule t mo o locked None r -> own a t locked (Some (Found r))
| w_several t locked mo o : mo = meta_operation a -> o = operation_of a -> (forall x, ~ the_recipe t locked mo o x) -> several_rules t mo o locked None -> own a t locked (Some Ambiguous)
| w_none t locked mo o : mo = meta_operation a -> o = operation_of a -> (forall x, ~ the_recipe t locked mo o x) -> no_rule t mo o locked None -> own a t locked None.
End Match.

(* The hint for a target: its own or, if there is none, that of its group for its type. *)
Inductive hint_for_target (t : target) (hs : list hint) (g : option (target * list hint)) (o : nat) : bytes -> Prop :=
| ht_own v : v <> [] -> hint_is (types t) o (negb (member_hint t)) hs v -> hint_for_target t hs g o v
| ht_group t' gs v : hint_is (types t) o (negb (member_hint t)) hs [] -> g = Some (t', gs) -> hint_is (types t) o (member_hint t') gs v -> hint_for_target t hs g o v
| ht_none : hint_is (types t) o (negb (member_hint t)) hs [] -> g = None -> hint_for_target t hs g o [].
