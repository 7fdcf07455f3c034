(* Model of looking up variables: scope::lookup_original () in
   libbuild2/scope.cxx, target::lookup_original () in libbuild2/target.cxx and
   variable_type_map::find () in libbuild2/variable.cxx.

   There is one variable, without aliases, and its type does not change. The
   caching of the values that are made by target type/pattern-specific append and
   prepend is not modelled here (but see OvrModel.v). *)
From Verif Require Import Base NameModel.

(* variable.hxx:145-160 *)
Inductive visibility := VGlobal | VProject | VScope | VTarget | VPrereq.

(* The variable maps: scope::vars, one of the maps in scope::target_vars, and
   target::vars or target::opstate::vars. *)
Inductive mapid := MScope (s : nat) | MPattern (s p : nat) | MTarget (t : nat).

(* The values and what they are modified with (names). copy: the value in the
   cache before anything is prepended or appended to it, scope.cxx:115-129: either
   the copy of the stem or, if there is none, NULL, and then typified. *)
Record vops (V N : Type) := mkvops { null : V -> bool; copy : option V -> V; prepend : V -> N -> V; append : V -> N -> V }.
Arguments null {V N}. Arguments copy {V N}. Arguments prepend {V N}. Arguments append {V N}.

(* A value in target_vars: value::extra is 0, 1 or 2, see variable.hxx:335-345.
   The last two can be NULL. *)
Inductive pvalue (V N : Type) := PAssign (v : V) | PPrepend (n : option N) | PAppend (n : option N).
Arguments PAssign {V N}. Arguments PPrepend {V N}. Arguments PAppend {V N}.

Section Lookup.
Context {V N K : Type} (w : vops V N).

(* scope: identity, root (), what vars has, and what target_vars.find () finds for
   a target key, see find below. *)
Record scope := mkscope { sid : nat; root : bool; svars : option V; sfind : K -> option (nat * pvalue V N) }.

(* pre_app, scope.cxx:66-151, and that it is only called if extra is not 0. *)
Definition pre_app (p : pvalue V N) (stem : option V) : V :=
  match p with
  | PAssign v => v
  | PPrepend n => match n with Some n => prepend w (copy w stem) n | None => copy w stem end
  | PAppend n => match n with Some n => append w (copy w stem) n | None => copy w stem end
  end.

Definition found : Type := option (V * mapid).
Definition value_of (f : found) : option V := option_map fst f.

(* scope.cxx:222-235: whether there is no next scope because of the visibility. *)
Definition stops (vis : visibility) (s : scope) : bool :=
  match vis with VScope => true | VTarget | VProject => root s | VGlobal | VPrereq => false end.
Definition is_target (vis : visibility) : bool := match vis with VTarget => true | _ => false end.

Notation keys := (option (K * list K)).
(* scope.cxx:211-220, the variables of the scope itself. next: the rest. *)
Definition in_scope (vis : visibility) (s : scope) (next : keys -> bool -> nat -> nat -> found * option nat) (ks : keys) (limit : bool) (start d : nat) : found * option nat :=
  if (start <=? S d) && negb limit && negb (is_target vis) then
    match svars s with Some v => (Some (v, MScope (sid s)), Some (S d)) | None => next ks limit start (S d) end
  else next ks limit start (S d).
(* scope.cxx:183-207, target type/pattern-specific for the groups. d is already
   incremented, rem are the groups still to be tried. For the stem, see 84-87: its
   start_d is 2. *)
Fixpoint in_groups (vis : visibility) (s : scope) (next : keys -> bool -> nat -> nat -> found * option nat)
    (tk : K) (gs rem : list K) (limit : bool) (start d : nat) {struct rem} : found * option nat :=
  match rem with
  | [] => in_scope vis s next (Some (tk, gs)) limit start d
  | g :: rem' =>
      match sfind s g with
      | Some (m, p) => (Some (pre_app p (value_of (fst (in_groups vis s next g rem' rem' false 2 2))), MPattern (sid s) m), Some d)
      | None => in_groups vis s next tk gs rem' limit start d
      end
  end.

(* scope::lookup_original (), scope.cxx:46-239, from the loop on. chain: this scope
   and then those that parent_scope () gives, the last being the global one. ks:
   the target and its groups, if looking for a target (the code allows up to two
   groups). limit: lookup_limit::target_type. The second part of the result is the
   depth, None being ~0. *)
Fixpoint look (vis : visibility) (ks : keys) (limit : bool) (start d : nat) (chain : list scope) {struct chain} : found * option nat :=
  match chain with
  | [] => (None, None)
  | s :: outer =>
      let next ks limit start d := if stops vis s then (None, None) else look vis ks limit start d outer in
      match ks with
      | None => in_scope vis s next None limit start d
      | Some (tk, gs) => (* 160-207 *)
          match (if start <=? S d then sfind s tk else None) with
          | Some (m, p) => (Some (pre_app p (value_of (fst (in_groups vis s next tk gs gs false 2 2))), MPattern (sid s) m), Some (S d))
          | None => in_groups vis s next tk gs (if start <=? S (S d) then gs else []) limit start (S (S d))
          end
      end
  end.
Definition lookup_scope (vis : visibility) (ks : keys) (limit : bool) (chain : list scope) : found * option nat :=
  match vis with VPrereq => (None, Some 0) | _ => look vis ks limit 1 0 chain end.

(* target: identity, its own variable, its group (if any, and if ad hoc then its
   group) with its variable, the keys and the base scope and so on. *)
Record target := mktarget { tid : nat; tvars : option V; group : option (nat * option V); key : K; group_key : list K; base : list scope }.

(* lookup::operator bool () *)
Definition set_ (f : found) : bool := match f with Some (v, _) => negb (null w v) | None => false end.

(* lookup_limit *)
Inductive limit := LNone | LTarget | LTargetType.

(* target::lookup_original (), target.cxx:141-233 *)
Definition lookup_target (vis : visibility) (l : limit) (t : target) : found * option nat :=
  let r := match tvars t with Some v => Some (v, MTarget (tid t)) | None => None end in
  if set_ r then (r, Some 1)
  else
    let r := match group t with Some (g, Some v) => Some (v, MTarget g) | _ => r end in
    if set_ r then (r, Some 2)
    else match l with
         | LTarget => (r, None)
         | _ =>
             let p := lookup_scope vis (Some (key t, match group t with Some _ => group_key t | None => [] end)) (match l with LTargetType => true | _ => false end) (base t) in
             (fst p, if set_ (fst p) then option_map (fun d => 2 + d) (snd p) else snd p)
         end.

End Lookup.
Arguments scope : clear implicits. Arguments target : clear implicits. Arguments found : clear implicits.

(* variable_pattern_map, variable.hxx:2176-2250. regex: the type is not path. The
   compiled regex and the match_ext flag are not modelled (see matches). *)
Record pattern := mkpattern { regex : bool; text : bytes }.
(* pattern_compare, variable.hxx:2206-2215 *)
Definition pattern_less (x y : pattern) : bool :=
  if negb (Bool.eqb (regex x) (regex y)) then negb (regex x)
  else if negb (length (text x) =? length (text y)) then length (text x) <? length (text y)
  else match scompare (text x) (text y) with Lt => true | _ => false end.

Section Patterns.
Context {X : Type}.
(* std::map::emplace () and then assignment of the value *)
Fixpoint pattern_insert (p : pattern) (x : X) (m : list (pattern * X)) : list (pattern * X) :=
  match m with
  | [] => [(p, x)]
  | (q, y) :: m' =>
      if pattern_less p q then (p, x) :: m
      else if pattern_less q p then (q, y) :: pattern_insert p x m'
      else (q, x) :: m'
  end.
(* variable_type_map::find (), variable.cxx:3267-3365: hier is the type of the
   target, its base and so on; maps is map_.find (); matches: whether the effective
   name of the target matches, see 3306-3330; value: what the variable map has. *)
Context {Y : Type} (matches : pattern -> bool) (value : X -> option Y).
Fixpoint find_in (m : list (pattern * X)) : option Y :=
  match m with
  | [] => None
  | (p, x) :: m' => if matches p then match value x with Some y => Some y | None => find_in m' end else find_in m'
  end.
Fixpoint find (hier : list nat) (maps : nat -> option (list (pattern * X))) : option Y :=
  match hier with
  | [] => None
  | t :: hier' =>
      match maps t with
      | None => find hier' maps
      | Some m => match find_in (rev m) with Some y => Some y | None => find hier' maps end
      end
  end.
End Patterns.
