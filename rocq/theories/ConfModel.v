(* Model of saving the configuration: libbuild2/config/operation.cxx and
   libbuild2/config/module.{hxx,cxx}.

   Variables are identified with their names. The values and what is printed for them are
   abstract. *)
From Verif Require Import Base.

(* path_match () of libbutl. *)
Section Conf.
Context (path_match : bytes -> bytes -> bool).

(* c.compare (p, s.size (), s) == 0 *)
Definition at_is (c : bytes) (p : nat) (s : bytes) : bool := beqb (firstn (length s) (skipn p c)) s.

(* save_config_variable (), operation.cxx:168-236. *)
Inductive decision := Invalid | Decided (save warn : bool).
Definition action (c : bytes) (p : nat) : decision :=
  let go r := if p + 4 =? length c then Decided r false
              else if beqb (skipn (p + 4) c) (b "+warn") then Decided r true else Invalid in
  if at_is c p (b "save") then go true
  else if at_is c p (b "drop") then go false
  else Invalid.
Fixpoint persisted (name : bytes) (inherited unused : bool) (rules : list (bytes * bytes)) : option decision :=
  match rules with
  | [] => None
  | (pat, c) :: rules' =>
      let next := persisted name inherited unused rules' in
      if negb (path_match name pat) then next
      else if at_is c 0 (b "unused=") then if negb unused || inherited then next else Some (action c 7)
      else if at_is c 0 (b "inherited=") then if negb inherited then next else Some (action c 10)
      else if at_is c 0 (b "inherited-used=") then if negb inherited || unused then next else Some (action c 15)
      else if at_is c 0 (b "inherited-unused=") then if negb inherited || negb unused then next else Some (action c 17)
      else Some Invalid
  end.
Definition save_config_variable (name : bytes) (persist : option (list (bytes * bytes))) (inherited unused : bool) : decision :=
  match match persist with Some l => persisted name inherited unused (rev l) | None => None end with
  | Some d => d
  | None => if negb inherited then Decided false true else if unused then Decided true true else Decided false false
  end.

(* utility.hxx:84-89 *)
Record flags := mkflags { default_commented : bool; default_omitted : bool; null_omitted : bool; empty_omitted : bool; false_omitted : bool; use_base : bool }.
Definition no_flags := mkflags false false false false false false.
Definition flags_eqb (x y : flags) : bool :=
  Bool.eqb (default_commented x) (default_commented y) && Bool.eqb (default_omitted x) (default_omitted y) && Bool.eqb (null_omitted x) (null_omitted y) &&
  Bool.eqb (empty_omitted x) (empty_omitted y) && Bool.eqb (false_omitted x) (false_omitted y) && Bool.eqb (use_base x) (use_base y).

Context {V N : Type} (vnull vempty vfalse : V -> bool) (nempty : N -> bool) (names_of : V -> N).

(* saved_variable, saved_modules, module.hxx:31-71. A custom save function gets the value
   and its base and returns names and the operator. The modules are in the order of
   insertion. *)
Record saved := mksaved { svar : bytes; sflags : option flags; custom : option (V -> option V -> N * bytes) }.
Record smodule := mksmodule { mname : bytes; prio : Z; svars : list saved }.
Definition DOT : ascii := "."%char.
(* prefix_map::find_sup () of libbutl: the longest module name that is a prefix of k, if at
   the end or before a dot. *)
Definition is_sup (m k : bytes) : bool := beqb m k || (length m =? 0) || (at_is k 0 m && ceqb (nth (length m) k NUL) DOT).
Fixpoint find_sup (k : bytes) (ms : list smodule) : option bytes :=
  match ms with
  | [] => None
  | m :: ms' =>
      let r := find_sup k ms' in
      if is_sup (mname m) k then match r with Some q => if length (mname m) <? length q then r else Some (mname m) | None => Some (mname m) end else r
  end.
Definition find_module (n : bytes) (ms : list smodule) : option smodule := find (fun m => beqb (mname m) n) ms.
Definition find_saved (v : bytes) (l : list saved) : option saved := find (fun s => beqb (svar s) v) l.
(* saved_modules::insert (), module.hxx:61-70 *)
Definition insert_module (n : bytes) (p : Z) (ms : list smodule) : list smodule :=
  match find_module n ms with Some _ => ms | None => ms ++ [mksmodule n p []] end.
Fixpoint add_saved (n : bytes) (s : saved) (ms : list smodule) : list smodule :=
  match ms with
  | [] => []
  | m :: ms' => if beqb (mname m) n then mksmodule (mname m) (prio m) (svars m ++ [s]) :: ms' else m :: add_saved n s ms'
  end.
(* module::save_module (), module.cxx:74-78 *)
Definition save_module (n : bytes) (p : Z) (ms : list smodule) : list smodule := insert_module (b "config." ++ n) p ms.
(* string::find ('.', 7) *)
Fixpoint find_dot (s : bytes) (i : nat) : option nat := match s with [] => None | c :: s' => if ceqb c DOT then Some i else find_dot s' (S i) end.
Definition module_name (v : bytes) : bytes := match find_dot (skipn 7 v) 7 with Some i => firstn i v | None => v end.
(* module::save_variable (), module.cxx:14-49. None: assertion. *)
Definition save_variable (s : saved) (ms : list smodule) : option (list smodule) :=
  let '(n, ms) := match find_sup (svar s) ms with Some n => (n, ms) | None => let n := module_name (svar s) in (n, insert_module n 0 ms) end in
  match find_module n ms with
  | None => Some ms (* not reached *)
  | Some m =>
      match find_saved (svar s) (svars m) with
      | Some t =>
          match sflags t, sflags s with
          | None, None => Some ms
          | Some x, Some y => if flags_eqb x y then Some ms else None
          | _, _ => None
          end
      | None => Some (add_saved n s ms)
      end
  end.
(* module::find_variable (), module.hxx:133-144 *)
Definition find_variable (v : bytes) (ms : list smodule) : option saved :=
  match find_sup v ms with
  | Some n => match find_module n ms with Some m => find_saved v (svars m) | None => None end
  | None => None
  end.
(* saved_modules::order, a multimap: stable sort by the priority. *)
Fixpoint insert_prio (m : smodule) (l : list smodule) : list smodule :=
  match l with [] => [m] | x :: l' => if (prio m <? prio x)%Z then m :: l else x :: insert_prio m l' end.
Definition order (ms : list smodule) : list smodule := fold_left (fun l m => insert_prio m l) ms [].

(* save_config (), operation.cxx:302-400: marking unused variables. rvars: the names of
   config.* variables of the root scope, those of overrides being already replaced with
   that of the overridden variable. The result is the modules and the warnings (true:
   saving). Whether a warning about saving is suppressed for an overridden variable
   (373-381) is quiet. None: fail. *)
Fixpoint rfind_dot (s : bytes) (i : nat) (r : nat) : nat := match s with [] => r | c :: s' => rfind_dot s' (S i) (if ceqb c DOT then i else r) end.
Definition special (n : bytes) : bool :=
  beqb n (b "config.build.booted") || beqb n (b "config.build.loaded") || beqb n (b "config.build.configured") || at_is n 0 (b "config.config.").
Definition develop (n : bytes) : bool := let p := rfind_dot n 0 0 in negb (p =? 6) && beqb (skipn (p + 1) n) (b "develop").
Fixpoint mark_unused (persist : option (list (bytes * bytes))) (quiet : bytes -> bool) (rvars : list bytes) (ms : list smodule) : option (list smodule * list (bytes * bool)) :=
  match rvars with
  | [] => Some (ms, [])
  | v :: rvars' =>
      let next ms warning := match mark_unused persist quiet rvars' ms with Some (ms, w) => Some (ms, warning ++ w) | None => None end in
      if special v then next ms []
      else match find_variable v ms with
           | Some _ => next ms []
           | None =>
               if develop v then next ms []
               else match save_config_variable v persist false true with
                    | Invalid => None
                    | Decided true w =>
                        match save_variable (mksaved v (Some no_flags) None) ms with
                        | Some ms => next ms (if w && negb (quiet v) then [(v, true)] else [])
                        | None => None
                        end
                    | Decided false w => next ms (if w then [(v, false)] else [])
                    end
           end
  end.

(* lookup: the value, where it is and value::extra == 1. The outer projects (root scopes) are
   numbered. *)
Inductive place := Own | Outer (n : nat) | Global | Elsewhere.
Record lookup := mklookup { lvalue : V; lplace : place; ldefault : bool }.
(* What lookup_original () and lookup_override () return and whether this is the same. *)
Record looked := mklooked { org : option lookup; ovr : option lookup; same : bool }.
(* An outer project: its config module, if any, and whether it is in projects. *)
Record project := mkproject { pmodules : option (list smodule * option (list (bytes * bytes))); configured : bool }.

(* find_inherited (), operation.cxx:459-587. *)
Inductive inheritance := Inherited | NotInherited (warn : bool) | Broken.
Definition belongs (p : place) (i : nat) : bool := match p with Outer n => n =? i | _ => false end.
(* 486-555: found, checked and whether r is NULL. None: fail. *)
Fixpoint outer_loop (sname v : bytes) (p : place) (same global : bool) (i : nat) (rs : list project) : option (bool * bool * bool) :=
  match rs with
  | [] => Some (false, true, true)
  | r :: rs' =>
      let next := outer_loop sname v p same global (S i) rs' in
      if global || belongs p i then
        match pmodules r with
        | Some (ms, persist) =>
            match find_module sname ms with
            | Some m =>
                let found := match find_saved v (svars m) with
                             | Some _ => Some true
                             | None => match persist with
                                       | Some _ => match save_config_variable v persist false true with Decided s _ => Some s | Invalid => None end
                                       | None => Some false
                                       end
                             end in
                match found with
                | None => None
                | Some true => if (global || negb same) && negb (configured r) then Some (false, true, false) else Some (true, true, false)
                | Some false => if global then next else Some (false, true, false)
                end
            | None => if global then next else Some (false, true, false)
            end
        | None => if global then next else Some (false, false, false)
        end
      else next
  end.
Definition find_inherited (sname v : bytes) (p : place) (same global : bool) (rs : list project) : inheritance :=
  match outer_loop sname v p same global 0 rs with
  | None => Broken
  | Some (true, _, _) => Inherited
  | Some (false, checked, null) => if global then NotInherited false else if null then Broken else NotInherited (checked && same)
  end.

(* save_config (), operation.cxx:421-674, for one variable. outer: what is looked up in the
   outer root scope (if any), for save_base, 598-616. only: svars.size () == 1. *)
Inductive outcome := Omit | Inherit | Comment | Line (op : bytes) (text : option N) | Null | Fail.
Definition ends_with (n s : bytes) : bool := (length s <? length n) && beqb (skipn (length n - length s) n) s.
Definition write (inherit : bool) (rs : list project) (sname : bytes) (only : bool) (s : saved) (l : looked) (outer : option looked) : outcome :=
  match sflags s with
  | None => Omit
  | Some f =>
      match ovr l with
      | None => Omit
      | Some x =>
          let v := lvalue x in
          if (if vnull v then null_omitted f else if vempty v then empty_omitted f else false_omitted f && vfalse v) then Omit
          else
            let write_it (base : option V) :=
              if ends_with (svar s) (b ".build.configured") && (negb (vfalse v) || negb only) then Omit
              else if match org l with Some o => ldefault o | None => false end && same l && (default_commented f || default_omitted f)
              then (if default_commented f then Comment else Omit)
              else if vnull v then Null
              else
                let '(t, op) := match custom s with Some g => g v base | None => (names_of v, b "=") end in
                if nempty t && empty_omitted f then Omit else Line op (if nempty t then None else Some t) in
            if inherit then
              match (match lplace x with Own => NotInherited false | p => find_inherited sname (svar s) p (same l) (match p with Global => true | _ => false end) rs end) with
              | Broken => Fail
              | Inherited => Inherit
              | NotInherited _ =>
                  if use_base f then
                    match match outer with Some o => option_map (fun y => (y, same o)) (ovr o) | None => None end with
                    | Some (y, sm) =>
                        if vnull (lvalue y) || vempty (lvalue y) then write_it None
                        else match find_inherited sname (svar s) (lplace y) sm false rs with
                             | Broken => Fail
                             | Inherited => write_it (Some (lvalue y))
                             | NotInherited _ => write_it None
                             end
                    | None => write_it None
                    end
                  else write_it None
              end
            else write_it None
      end
  end.
(* The whole: what is written, in order, for each variable. *)
Definition save_config (inherit : bool) (rs : list project) (look : bytes -> looked) (look_outer : bytes -> option looked) (ms : list smodule) : list (bytes * outcome) :=
  flat_map (fun m => map (fun s => (svar s, write inherit rs (mname m) (length (svars m) =? 1) s (look (svar s)) (look_outer (svar s)))) (svars m)) (order ms).
End Conf.
