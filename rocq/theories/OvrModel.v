(* Model of overriding variables from the command line:
   scope::lookup_override_info () in libbuild2/scope.cxx and
   variable_cache::insert () in libbuild2/variable.txx.

   There is one variable and its type does not change. Rule-specific lookup
   (rule is true) is not modelled. *)
From Verif Require Import Base VarModel.

(* The overrides of the variable. Their visibility, see parse_variable_override () in
   context.cxx, is never target or prereq. kind: __override, __prefix, or __suffix. *)
Inductive ovisibility := OGlobal | OProject | OScope.
Inductive okind := KAssign | KPrefix | KSuffix.

(* The values. of_names: an untyped value that is NULL or names. Only the override
   values are such. *)
Record oops (V N : Type) := mkoops { ops :> vops V N; of_names : option N -> V }.
Arguments ops {V N}. Arguments of_names {V N}.

(* A scope in the chain: its identity and root_scope (). *)
Record oscope := mkoscope { osid : nat; oroot : option nat }.

Section Override.
Context {V N : Type} (w : oops V N).

(* An override: what vars of each scope has for it, if anything. *)
Record override := mkoverride { kind : okind; ovis : ovisibility; oval : nat -> option (option N) }.

(* The original: value, location, version (value_data::version), and depth. *)
Record orig := mkorig { value : V; vars : mapid; version : nat; depth : nat }.

(* sub p q: scope::sub_root () (scope.ixx:133-146), whether the project with root q is
   a subproject of that with root p. *)
Context (sub : nat -> nat -> bool).
(* All of these are as in the function: overrides in the order of the command line
   (so var.overrides is the last one), the original, and whether it's for a target. *)
Context (ovrs : list override) (o : option orig) (target : bool).

Definition mapid_eqb (x y : mapid) : bool :=
  match x, y with
  | MScope a, MScope c => a =? c
  | MPattern a p, MPattern c q => (a =? c) && (p =? q)
  | MTarget a, MTarget c => a =? c
  | _, _ => false
  end.

(* applies, scope.cxx:291-332. None: undefined behavior (proj is NULL). *)
Definition applies (s : oscope) (v : override) (m : mapid) (proj : option nat) : option bool :=
  match ovis v with
  | OScope => Some (mapid_eqb m (MScope (osid s)))
  | OProject =>
      match oroot s with
      | None => Some true
      | Some rs => match proj with None => None | Some p => Some (negb (sub rs p)) end
      end
  | OGlobal => Some true
  end.
(* belongs, scope.cxx:354-366 *)
Definition belongs (s : oscope) (m : mapid) : bool :=
  match m with MScope x => x =? osid s | MPattern x _ => target && (x =? osid s) | MTarget _ => false end.
(* scope.cxx:272-284 *)
Definition targetspec : bool :=
  match o with Some x => target && ((depth x =? 1) || (depth x =? 2)) | None => false end.

(* A location: the variable map and the project it is from. *)
Notation loc := (mapid * option nat)%type.

(* scope.cxx:389-411: whether there is an override in s that applies (to at, if
   any). vs: the overrides, the last on the command line first. *)
Fixpoint any_applies (s : oscope) (at_ : option loc) (vs : list override) : option bool :=
  match vs with
  | [] => Some false
  | v :: vs' =>
      match match at_ with Some (m, p) => applies s v m p | None => Some true end with
      | None => None
      | Some false => any_applies s at_ vs'
      | Some true => match oval v (osid s) with Some _ => Some true | None => any_applies s at_ vs' end
      end
  end.
(* scope.cxx:368-417: the location of the innermost value if at least one override
   applies. The outer option: undefined behavior. *)
Fixpoint inner_loop (chain : list oscope) (inner : option loc) : option (option loc) :=
  match chain with
  | [] => Some None
  | s :: outer =>
      let inner := match inner, o with
                   | None, Some x => if belongs s (vars x) then Some (vars x, oroot s) else None
                   | _, _ => inner
                   end in
      match any_applies s inner (rev ovrs) with
      | None => None
      | Some true => Some (Some (match inner with Some i => i | None => (MScope (osid s), oroot s) end))
      | Some false => inner_loop outer inner
      end
  end.

(* The stem: the value, location, version, depth, project, and the number of the
   override if it is one. *)
Record stem := mkstem { st_value : V; st_vars : mapid; st_version : nat; st_depth : nat; st_proj : option nat; st_ovr : option nat }.
Definition orig_stem (x : orig) (p : option nat) : stem := mkstem (value x) (vars x) (version x) (depth x) p None.

(* scope.cxx:473-496. n: the number of the first of vs, plus 1. The version of the
   override value is overs. *)
Context (overs : nat -> nat -> nat).
Fixpoint find_assign (s : oscope) (st : option stem) (d : nat) (vs : list override) (n : nat) : option (option stem) :=
  match vs with
  | [] => Some None
  | v :: vs' =>
      match match st with Some x => applies s v (st_vars x) (st_proj x) | None => Some true end with
      | None => None
      | Some false => find_assign s st d vs' (n - 1)
      | Some true =>
          match kind v, oval v (osid s) with
          | KAssign, Some x => Some (Some (mkstem (of_names w x) (MScope (osid s)) (overs (n - 1) (osid s)) d (oroot s) (Some (n - 1))))
          | _, _ => find_assign s st d vs' (n - 1)
          end
      end
  end.
(* scope.cxx:448-500 *)
Fixpoint stem_loop (chain : list oscope) (d : nat) (st : option stem) : option (option stem) :=
  match chain with
  | [] => Some st
  | s :: outer =>
      let st := match o with Some x => if belongs s (vars x) then Some (orig_stem x (oroot s)) else st | None => st end in
      match find_assign s st (S d) (rev ovrs) (length ovrs) with
      | None => None
      | Some (Some r) => Some (Some r)
      | Some None => stem_loop outer (S d) st
      end
  end.

(* What is being changed by the last loop, 556-562. *)
Record acc := mkacc { cv : V; a_depth : nat; a_vars : option mapid; a_proj : option nat }.
(* scope.cxx:579-630, for one scope. n: the number of the first of vs; skip: the number
   of __override if skipping. *)
Fixpoint affixes (s : oscope) (d : nat) (skip : option nat) (vs : list override) (n : nat) (a : acc) : option acc :=
  match vs with
  | [] => Some a
  | v :: vs' =>
      match skip with
      | Some k => affixes s d (if k =? n then None else skip) vs' (S n) a
      | None =>
          match match a_vars a with Some m => applies s v m (a_proj a) | None => Some true end with
          | None => None
          | Some false => affixes s d None vs' (S n) a
          | Some true =>
              match kind v, oval v (osid s) with
              | KAssign, _ | _, None => affixes s d None vs' (S n) a
              | k, Some x =>
                  let c := match x with
                           | None => cv a
                           | Some x => match k with KPrefix => prepend w (cv a) x | _ => append w (cv a) x end
                           end in
                  affixes s d None vs' (S n)
                    (match a_vars a with
                     | None => mkacc c d (Some (MScope (osid s))) (oroot s)
                     | Some _ => if d <? a_depth a then mkacc c d (Some (MScope (osid s))) (a_proj a) else mkacc c (a_depth a) (a_vars a) (a_proj a)
                     end)
              end
          end
      end
  end.
(* scope.cxx:564-631 *)
Fixpoint affix_loop (st : option stem) (chain : list oscope) (d : nat) (a : acc) : option acc :=
  match chain with
  | [] => Some a
  | s :: outer =>
      let skip := match st with Some x => if st_depth x =? S d then st_ovr x else None | None => None end in
      match affixes s (S d) skip ovrs 0 a with
      | None => None
      | Some a => affix_loop st outer (S d) a
      end
  end.

(* The whole function, without the cache. Undefined: undefined behavior. Original:
   no override applies. Overridden: the result, its location and depth, whether the
   original has contributed, and then what is used by the cache: inner_vars,
   inner_proj and the stem. *)
Inductive result :=
| Undefined
| Original
| Overridden (v : V) (m : option mapid) (d : nat) (original : bool) (inner : mapid) (proj : option nat) (st : option stem).
Definition lookup_override (chain : list oscope) : result :=
  let base := match chain with s :: _ => oroot s | [] => None end in
  let inner := match o with Some x => if targetspec then Some (vars x, base) else None | None => None end in
  match inner_loop chain inner with
  | None => Undefined
  | Some None => Original
  | Some (Some (m, p)) =>
      let d := if target then 2 else 0 in
      match stem_loop chain d (match o with Some x => if targetspec then Some (orig_stem x base) else None | None => None end) with
      | None => Undefined
      | Some st =>
          let a := match st with
                   | Some x => mkacc (copy w (Some (st_value x))) (st_depth x) (Some (st_vars x)) (st_proj x)
                   | None => mkacc (copy w None) 0 None None
                   end in
          match affix_loop st chain d a with
          | None => Undefined
          | Some a => Overridden (cv a) (a_vars a) (a_depth a) (match st with Some x => match st_ovr x with None => true | _ => false end | None => false end) m p st
          end
      end
  end.

(* The override cache: variable_cache::insert (), variable.txx:1432-1518, for the
   variable whose type does not change. The entries are keyed by the project (whose
   cache it is) and inner_vars. The assertion that the versions do not decrease is
   not modelled. *)
Record entry := mkentry { e_value : V; e_stem : option (mapid * nat) }.
Definition cache : Type := list ((option nat * mapid) * entry).
Definition key_eqb (x y : option nat * mapid) : bool :=
  match fst x, fst y with
  | None, None => mapid_eqb (snd x) (snd y)
  | Some p, Some q => (p =? q) && mapid_eqb (snd x) (snd y)
  | _, _ => false
  end.
Fixpoint cache_find (k : option nat * mapid) (c : cache) : option entry :=
  match c with [] => None | (j, e) :: c' => if key_eqb k j then Some e else cache_find k c' end.
Definition stem_eqb (x y : option (mapid * nat)) : bool :=
  match x, y with
  | None, None => true
  | Some (m, v), Some (m', v') => mapid_eqb m m' && (v =? v')
  | _, _ => false
  end.
(* The value is only changed if cl (scope.cxx:525 and 602). *)
Definition cached (c : cache) (r : result) : result * cache :=
  match r with
  | Overridden v m d f i p st =>
      let sk := match st with Some x => Some (st_vars x, st_version x) | None => None end in
      match cache_find (p, i) c with
      | Some e => if stem_eqb (e_stem e) sk then (Overridden (e_value e) m d f i p st, c) else (r, ((p, i), mkentry v sk) :: c)
      | None => (r, ((p, i), mkentry v sk) :: c)
      end
  | _ => (r, c)
  end.
End Override.
Arguments override : clear implicits. Arguments orig : clear implicits. Arguments stem : clear implicits. Arguments acc : clear implicits.
Arguments result : clear implicits. Arguments cache : clear implicits. Arguments entry : clear implicits.
