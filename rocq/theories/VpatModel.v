(* Model of variable patterns: variable_patterns in libbuild2/variable.hxx and
   libbuild2/variable.cxx. *)
From Verif Require Import Base VarModel.

(* variable_patterns::pattern, variable.hxx:1772-1781. Types are pointers that can be
   NULL (None). *)
Record vpat (T : Type) := mkvpat {
  pfx : bytes; sfx : bytes; multi : bool; must_match : bool;
  ptype : option (option T); pvis : option visibility; povr : option bool }.
Arguments mkvpat {T}. Arguments pfx {T}. Arguments sfx {T}. Arguments multi {T}. Arguments must_match {T}. Arguments ptype {T}. Arguments pvis {T}. Arguments povr {T}.

Definition DOT : ascii := "."%char.
Definition STAR : ascii := "*"%char.

Section Patterns.
Context {T : Type}.
Notation vpat := (vpat T).

(* operator<, variable.hxx:1783-1795 *)
Definition less (x y : vpat) : bool :=
  if length (pfx x) + length (sfx x) <? length (pfx y) + length (sfx y) then true
  else if beqb (pfx x) (pfx y) && beqb (sfx x) (sfx y) then multi x && negb (multi y)
  else false.

(* std::multiset: a search tree. Inserting goes to the left if the new element is less
   and to the right otherwise. The tree can then be rebalanced, which does not change
   the order of the elements. *)
Inductive tree := Leaf | Node (l : tree) (x : vpat) (r : tree).
Fixpoint elements (t : tree) : list vpat := match t with Leaf => [] | Node l x r => elements l ++ x :: elements r end.
Fixpoint tree_insert (p : vpat) (t : tree) : tree :=
  match t with
  | Leaf => Node Leaf p Leaf
  | Node l x r => if less p x then Node (tree_insert p l) x r else Node l x (tree_insert p r)
  end.
(* The patterns after inserting some, in this order. *)
Inductive inserted : list vpat -> list vpat -> Prop :=
| ins_none : inserted [] []
| ins_more ps p t : inserted ps (elements t) -> inserted (ps ++ [p]) (elements (tree_insert p t)).

(* match_pattern (), variable.cxx:2740-2765 *)
Definition match_pattern (n p s : bytes) (m : bool) : bool :=
  let nn := length n in let pn := length p in let sn := length s in
  if nn <? pn + sn + 1 then false
  else if negb (pn =? 0) && negb (beqb (firstn pn n) p) then false
  else if negb (sn =? 0) && negb (beqb (firstn sn (skipn (nn - sn) n)) s) then false
  else m || negb (existsb (ceqb DOT) (firstn (nn - pn - sn) (skipn pn n))).

(* variable_pool::insert (), variable.cxx:2867-2890, when there are patterns: the
   one that applies. *)
Definition applicable (n : bytes) (ps : list vpat) : option vpat :=
  if existsb (ceqb DOT) n then List.find (fun p => match_pattern n (pfx p) (sfx p) (multi p)) (rev ps) else None.

(* Inserting a pattern into a tree: what comes before it and what comes after it. *)
Fixpoint tree_place (p : vpat) (t : tree) : list vpat * list vpat :=
  match t with
  | Leaf => ([], [])
  | Node l x r =>
      if less p x then let (b, a) := tree_place p l in (b, a ++ x :: elements r)
      else let (b, a) := tree_place p r in (elements l ++ x :: b, a)
  end.
(* variable_patterns::insert (), variable.cxx:3013-3025: whether a new pattern is applied
   to an existing variable. *)
Definition applied_retro (n : bytes) (p : vpat) (t : tree) : bool :=
  match_pattern n (pfx p) (sfx p) (multi p) && negb (existsb (fun q => match_pattern n (pfx q) (sfx q) (multi q)) (snd (tree_place p t))).

(* variable_patterns::insert (), variable.cxx:2975-2999: the prefix, suffix and
   whether it is multi. None: assertion. *)
Fixpoint find_star (p : bytes) (i : nat) : option nat :=
  match p with [] => None | c :: p' => if ceqb c STAR then Some i else find_star p' (S i) end.
Definition parse_pattern (p : bytes) : option (bytes * bytes * bool) :=
  match find_star p 0 with
  | None => None
  | Some w =>
      let m := negb (w + 1 =? length p) && ceqb (nth (w + 1) p NUL) STAR in
      if negb (w =? 0) && negb (ceqb (nth (w - 1) p NUL) DOT && negb (w =? 1)) then None
      else
        let f := w + (if m then 2 else 1) in
        let sn := length p - f in
        if negb (sn =? 0) && negb (ceqb (nth f p NUL) DOT && negb (sn =? 1)) then None
        else Some (firstn w p, skipn f p, m)
  end.

(* variable_visibility as a number. *)
Definition rank (v : visibility) : nat := match v with VGlobal => 0 | VProject => 1 | VScope => 2 | VTarget => 3 | VPrereq => 4 end.

(* merge_pattern (), variable.cxx:2767-2810. None: assertion. teq: whether the types are
   the same. *)
Context (teq : T -> T -> bool).
Definition merge_type (p : vpat) (t : option T) : option (option T) :=
  match ptype p with
  | None => Some t
  | Some ty =>
      match t with
      | None => Some ty
      | Some x => if must_match p then (if match ty with Some y => teq x y | None => false end then Some t else None) else Some t
      end
  end.
Definition merge_vis (p : vpat) (v : option visibility) : option (option visibility) :=
  match pvis p with
  | None => Some v
  | Some y =>
      match v with
      | None => Some (Some y)
      | Some x =>
          if must_match p then (if rank x <? rank y then Some (Some y) else if rank x =? rank y then Some v else None) else Some v
      end
  end.
Definition merge_ovr (p : vpat) (o : option bool) : option (option bool) :=
  match povr p with
  | None => Some o
  | Some y =>
      match o with
      | None => Some (Some y)
      | Some x => if must_match p then (if x then Some (Some y) else if Bool.eqb x y then Some o else None) else Some o
      end
  end.
Definition merge (p : vpat) (t : option T) (v : option visibility) (o : option bool) : option (option T * option visibility * option bool) :=
  match merge_type p t, merge_vis p v, merge_ovr p o with Some t, Some v, Some o => Some (t, v, o) | _, _, _ => None end.

(* A variable and variable_pool::update (), variable.cxx:2670-2738, for the public pool and
   variables without aliases. overridden: var.overrides is not NULL. *)
Record var := mkvar { vtype : option T; vvis : visibility; overridden : bool }.
Inductive outcome := Done (x : var) | Assertion | CannotOverride.
Definition update (x : var) (t : option T) (v : option visibility) (o : option bool) : outcome :=
  if match o with Some false => overridden x | _ => false end then CannotOverride
  else
    let ty := match t, vtype x with
              | None, y => Some y
              | Some t, Some y => if teq y t then Some (Some y) else None
              | Some t, None => Some (Some t)
              end in
    let vi := match v with
              | None => Some (vvis x)
              | Some v => if rank v =? rank (vvis x) then Some (vvis x) else if rank (vvis x) <? rank v then Some v else None
              end in
    match ty, vi with Some ty, Some vi => Done (mkvar ty vi (overridden x)) | _, _ => Assertion end.
(* variable_pool::insert (), variable.cxx:2867-2931, for the public pool, with pat.
   old: the variable, if it exists. *)
Definition pool_insert (ps : list vpat) (n : bytes) (old : option var) (t : option T) (v : option visibility) (o : option bool) : outcome :=
  let pa := applicable n ps in
  match match pa with Some p => merge p t v o | None => Some (t, v, o) end with
  | None => Assertion
  | Some (pt, pv, po) =>
      match old with
      | None => Done (mkvar pt (match pv with Some v => v | None => VProject end) false)
      | Some x =>
          let again := match pa with
                       | Some p =>
                           if must_match p then Some (pt, pv, po)
                           else merge p (match t with Some _ => t | None => vtype x end) (match v with Some _ => v | None => Some (vvis x) end) (match o with Some _ => o | None => Some true end)
                       | None => Some (pt, pv, po)
                       end in
          match again with
          | None => Assertion
          | Some (pt, pv, po) => update x pt pv (match po with None => Some false | _ => po end)
          end
      end
  end.
End Patterns.
Arguments tree : clear implicits. Arguments var : clear implicits. Arguments outcome : clear implicits.
