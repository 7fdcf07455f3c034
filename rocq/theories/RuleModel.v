(* Model of matching a target to a rule, libbuild2/algorithm.cxx (match_rule_impl and
   match_adhoc_recipe), of registering rules, libbuild2/rule-map.hxx, and of rule hints,
   libbuild2/target.ixx.

   Not modelled: what rules match (an oracle, without side effects), match options and other data in
   match_extra, the project environment, diagnostics. *)
From Verif Require Import Base.

(* action, action.hxx:61-98: the ids are combined into one. *)
Definition action_id (m o : nat) : nat := m * 16 + o.
Record action := mkaction { inner_id : nat; outer_id : nat }.
(* 69-71 *)
Definition make_action (m inner outer : nat) : action := mkaction (action_id m inner) (if outer =? 0 then 0 else action_id m outer).
(* 73-83 *)
Definition meta_operation (a : action) : nat := inner_id a / 16.
Definition operation (a : action) : nat := inner_id a mod 16.
Definition outer_operation (a : action) : nat := outer_id a mod 16.
Definition inner (a : action) : bool := outer_id a =? 0.
(* 65: from action_id *)
Definition of_id (x : nat) : action := make_action (x / 16) (x mod 16) 0.
(* 100-112: the comparisons. *)
Definition action_eqb (x y : action) : bool := (inner_id x =? inner_id y) && (outer_id x =? outer_id y).
Definition ne (x y : action) : bool := negb (action_eqb x y).
Definition eq_id (x : action) (y : nat) : bool := action_eqb x (of_id y).
Definition ne_id (x : action) (y : nat) : bool := ne x (of_id y).
Definition id_eq (x : nat) (y : action) : bool := action_eqb (of_id x) y.
Definition id_ne (x : nat) (y : action) : bool := action_eqb (of_id x) y.

(* The ids, those used, further down in action.hxx. *)
Definition perform : nat := 2.
Definition configure : nat := 3.
Definition dist : nat := 6.
Definition default : nat := 1.
Definition update : nat := 2.
Definition clean : nat := 3.

(* A rule and its name, rule_match, target.hxx:138-140. Rules are identified by numbers. *)
Record rmatch := mkrmatch { rname : bytes; rule : nat }.

(* Registration, rule-map.hxx. name_rule_map: 36-52, the order of names is up to ordered below. *)
Definition name_map := list rmatch.
(* target_type_rule_map, 54 *)
Definition type_map := list (nat * name_map).
(* operation_rule_map, 61-98: indexed by the operation. *)
Definition op_map := list type_map.
(* rule_map, 110-198: a list of nodes, the first of which is for perform (188-190). *)
Definition rule_map := list (nat * op_map).
Definition new_map : rule_map := [(perform, [])].

(* map::emplace () *)
Definition insert_name (r : rmatch) (m : name_map) : name_map := if existsb (fun x => beqb (rname x) (rname r)) m then m else m ++ [r].
Fixpoint insert_type (t : nat) (r : rmatch) (m : type_map) : type_map :=
  match m with
  | [] => [(t, insert_name r [])]
  | (t', ns) :: m => if t =? t' then (t', insert_name r ns) :: m else (t', ns) :: insert_type t r m
  end.
(* 75-76: vector::resize () *)
Definition resize (n : nat) (m : op_map) : op_map := m ++ repeat [] (n - length m).
Fixpoint update_nth (n : nat) (f : type_map -> type_map) (m : op_map) : op_map :=
  match m, n with
  | [], _ => []
  | x :: m, 0 => f x :: m
  | x :: m, S n => x :: update_nth n f m
  end.
(* operation_rule_map::insert (), 66-79 *)
Definition insert_op (o t : nat) (r : rmatch) (m : op_map) : op_map :=
  let m := if length m <=? o then resize (S (if o <? 3 then 3 else o)) m else m in
  update_nth o (insert_type t r) m.
(* rule_map::insert (), 143-160 *)
Fixpoint insert_rule (mo o t : nat) (r : rmatch) (m : rule_map) : rule_map :=
  match m with
  | [] => [(mo, insert_op o t r [])] (* next_ == nullptr *)
  | (mid, om) :: next => if mid =? mo then (mid, insert_op o t r om) :: next else (mid, om) :: insert_rule mo o t r next
  end.
(* operator[], 83-87 and 180-184; map::find () *)
Fixpoint find_meta (mo : nat) (m : rule_map) : option op_map :=
  match m with [] => None | (mid, om) :: next => if mo =? mid then Some om else find_meta mo next end.
Definition find_op (o : nat) (m : op_map) : option type_map := nth_error m o.
Fixpoint find_type (t : nat) (m : type_map) : name_map :=
  match m with [] => [] | (t', ns) :: m => if t =? t' then ns else find_type t m end.
Definition find_rules (mo o t : nat) (m : rule_map) : name_map :=
  match find_meta mo m with
  | None => []
  | Some om => match find_op o om with None => [] | Some tm => find_type t tm end
  end.

(* prefix_map::find_sub () and name_rule_map::sub (), 46-50: the hint is what a name starts with, up to
   a dot. The comparison is that of libbutl. *)
Definition DOT : ascii := "."%char.
Fixpoint starts (x y : bytes) : bool :=
  match x, y with
  | [], _ => true
  | c :: x, d :: y => ceqb c d && starts x y
  | _ :: _, [] => false
  end.
Definition sub (hint name : bytes) : bool := beqb hint [] || beqb hint name || starts (hint ++ [DOT]) name.

(* rule_hints, target.hxx:151-174, target.ixx:56-95. *)
Record hint := mkhint { htype : option nat; hoperation : nat; hvalue : bytes }.
Definition otype_eqb (x y : option nat) : bool := match x, y with None, None => true | Some x, Some y => x =? y | _, _ => false end.
Fixpoint insert_hint (t : option nat) (o : nat) (h : bytes) (m : list hint) : list hint :=
  match m with
  | [] => [mkhint t o h]
  | v :: m => if (hoperation v =? o) && otype_eqb (htype v) t then mkhint (htype v) (hoperation v) h :: m else v :: insert_hint t o h m
  end.
(* find (), 58-80. f is the fallback so far. types: the type and its bases (for is_a ()). *)
Fixpoint find_hint (types : list nat) (o : nat) (untyped : bool) (f : option hint) (m : list hint) : bytes :=
  match m with
  | [] => match f with Some v => hvalue v | None => [] end
  | v :: m =>
      if negb (match htype v with None => untyped | Some t => existsb (Nat.eqb t) types end) then find_hint types o untyped f m
      else if hoperation v =? o then hvalue v
      else find_hint types o untyped (match f with None => if (hoperation v =? default) && ((o =? update) || (o =? clean)) then Some v else None | Some _ => f end) m
  end.

(* A scope: its rules and whether this is a root scope. *)
Record scope := mkscope { rules : rule_map; root : bool }.
(* An ad hoc recipe: the rule and its actions. *)
Record recipe := mkrecipe { rrule : rmatch; ractions : list (nat * nat) }.
(* A target: an identity (for oracles), its type followed by the bases, its base scope followed by the
   parents, the hints, whether the type has the member_hint flag, the ad hoc recipes, the group. Of the
   group: whether the type has the dyn_members flag, whether it is group{}-based and the rule it has
   been matched to for this action. *)
Inductive target := Target (id : nat) (types : list nat) (chain : list scope) (hints : list hint) (member_hint : bool) (recipes : list recipe) (group : option target) (dyn_members is_group : bool) (matched : option rmatch).
Definition tid (t : target) : nat := let (id, _, _, _, _, _, _, _, _, _) := t in id.
Definition types (t : target) : list nat := let (_, ts, _, _, _, _, _, _, _, _) := t in ts.
Definition chain (t : target) : list scope := let (_, _, ss, _, _, _, _, _, _, _) := t in ss.
Definition hints (t : target) : list hint := let (_, _, _, hs, _, _, _, _, _, _) := t in hs.
Definition member_hint (t : target) : bool := let (_, _, _, _, mh, _, _, _, _, _) := t in mh.
Definition recipes (t : target) : list recipe := let (_, _, _, _, _, rs, _, _, _, _) := t in rs.
Definition group (t : target) : option target := let (_, _, _, _, _, _, g, _, _, _) := t in g.
Definition dyn_members (t : target) : bool := let (_, _, _, _, _, _, _, d, _, _) := t in d.
Definition is_group (t : target) : bool := let (_, _, _, _, _, _, _, _, ig, _) := t in ig.
Definition matched (t : target) : option rmatch := let (_, _, _, _, _, _, _, _, _, m) := t in m.

(* target::find_hint (), target.ixx:97-134 *)
Definition target_hint (t : target) (o : nat) : bytes :=
  let h := match hints t with [] => [] | _ => find_hint (types t) o (negb (member_hint t)) None (hints t) end in
  match h with
  | _ :: _ => h
  | [] =>
      match group t with
      | Some g => match hints g with [] => [] | _ => find_hint (types t) o (member_hint g) None (hints g) end
      | None => []
      end
  end.

(* None is no rule. *)
Inductive result := Found (r : rmatch) | Ambiguous.

Section Match.
(* Whether the rule matches the target (with this hint, as a fallback and with the target locked or
   not). *)
Context (matches : nat -> nat -> bytes -> bool -> bool -> bool).
(* Whether this is an ad hoc rule, the rules of a fallback rule (the rule of the pattern each is for,
   adhoc_rule_pattern::fallback_rule, rule.hxx:397-413) and adhoc_rule::reverse_fallback () for the
   meta-operation, operation and type. *)
Context (adhoc : nat -> bool) (fallback : nat -> option (list rmatch)) (reverse : nat -> nat -> nat -> nat -> bool).
(* The order of a name map. *)
Context (ordered : name_map -> name_map).
Context (global : scope).

(* match_adhoc_recipe (), algorithm.cxx:521-628. The outcome of find_match (), 554-605: the recipe and
   whether it was found. The type is that of the target. *)
Definition has_action (c : nat * nat) (r : recipe) : bool := existsb (fun x => (fst x =? fst c) && (snd x =? snd c)) (ractions r).
Definition find_match (t : target) (locked : bool) (c : nat * nat) : option rmatch * bool :=
  match List.find (has_action c) (recipes t) with
  | Some r => (if matches (tid t) (rule (rrule r)) [] false locked then Some (rrule r) else None, true)
  | None =>
      match List.find (fun r => reverse (rule (rrule r)) (fst c) (snd c) (hd 0 (types t))) (recipes t) with
      | Some r => (if matches (tid t) (rule (rrule r)) [] true locked then Some (rrule r) else None, true)
      | None => (None, false)
      end
  end.
Definition match_recipe (t : target) (locked : bool) (mo o : nat) : option rmatch :=
  match find_match t locked (mo, o) with
  | (None, false) => if (mo =? configure) || (mo =? dist) then fst (find_match t locked (perform, o)) else None
  | (r, _) => r
  end.

Section Place.
(* What is the same for all places: the target, the meta-operation, the operation, whether the target
   is locked and the rule to skip. *)
Context (t : target) (mo o : nat) (locked : bool) (skip : option nat).
(* 826-844, 881-889: what the rule stands for *)
Definition stands_for (oi ty : nat) (r : rmatch) : option rmatch :=
  if oi =? 0 then
    match fallback (rule r) with
    | Some rs => List.find (fun x => reverse (rule x) mo o ty) rs
    | None => Some r
    end
  else Some r.
Definition skipped (r : rmatch) : bool := match skip with Some s => rule r =? s | None => false end.
(* 836-870, 879-914: whether an entry matches; skip is only considered for the first one. *)
Definition try (first : bool) (hint : bytes) (oi ty : nat) (r : rmatch) : option rmatch :=
  match stands_for oi ty r with
  | None => None
  | Some r =>
      if negb locked && negb (adhoc (rule r)) then None
      else if first && skipped r then None
      else if matches (tid t) (rule r) hint (oi =? 0) locked then Some r
      else None
  end.
(* 810-935: the loop over the entries. *)
Fixpoint try_all (hint : bytes) (oi ty : nat) (rs : name_map) : option result :=
  match rs with
  | [] => None
  | r :: rs =>
      match try true hint oi ty r with
      | None => try_all hint oi ty rs
      | Some r =>
          (* The ambiguity test. *)
          if existsb (fun r1 => match try false hint oi ty r1 with Some _ => true | None => false end) rs then Some Ambiguous
          else Some (Found r)
      end
  end.
(* 787-808: one operation *)
Definition in_op (hint : bytes) (ty : nat) (om : op_map) (oi : nat) : option result :=
  match find_op oi om with
  | None => None
  | Some tm => try_all hint oi ty (filter (fun r => sub hint (rname r)) (ordered (find_type ty tm)))
  end.
(* 779-936: one scope *)
Definition in_scope (hint : bytes) (ty : nat) (s : scope) : option result :=
  match find_meta mo (rules s) with
  | None => None
  | Some om => match in_op hint ty om o with Some r => Some r | None => in_op hint ty om 0 end
  end.
(* 772-777: the loop over the scopes *)
Fixpoint in_scopes (hint : bytes) (ty : nat) (ss : list scope) : option result :=
  match ss with
  | [] => None
  | s :: ss =>
      match in_scope hint ty s with
      | Some r => Some r
      | None => if root s then in_scope hint ty global else in_scopes hint ty ss
      end
  end.
(* 770: the loop over the types *)
Fixpoint in_types (hint : bytes) (ts : list nat) (ss : list scope) : option result :=
  match ts with
  | [] => None
  | ty :: ts => match in_scopes hint ty ss with Some r => Some r | None => in_types hint ts ss end
  end.
(* scope::root_scope () and what is outside of it *)
Fixpoint from_root (ss : list scope) : list scope :=
  match ss with [] => [] | s :: ss' => if root s then ss else from_root ss' end.
(* 763-940 *)
Definition search : option result :=
  let hint := target_hint t o in
  match in_types hint (types t) (chain t) with
  | Some r => Some r
  | None => if (mo =? perform) || beqb hint [] then None else in_types [] (types t) (from_root (chain t))
  end.
End Place.

(* match_rule_impl (), 632-1013 *)
Fixpoint match_rule (t : target) (a : action) (locked : bool) (skip : option nat) : option result :=
  let rest (_ : unit) :=
    let mo := meta_operation a in
    let o := if inner a then operation a else outer_operation a in
    match match_recipe t locked mo o with
    | Some r => Some (Found r)
    | None => search t mo o locked skip
    end in
  match t with
  | Target _ _ _ _ _ _ None _ _ _ => rest tt
  | Target _ _ _ _ _ _ (Some g) _ _ _ =>
      match (if dyn_members g then matched g else None) with
      | Some r => Some (Found r)
      | None =>
          if is_group g then
            match match_rule g a false skip with
            | Some r => Some r
            | None => rest tt
            end
          else rest tt
      end
  end.
End Match.
