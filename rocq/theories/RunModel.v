(* Model of the execution of a buildspec: b/b.cxx, main (): 896-1938, the loop over meta-operations and operations.

   Meta-operations and operations are identified by their names (the empty one is the default) since tables map names to ids one
   to one. Targets are numbers. What projects support is given by parameters. Simplified: roots, bases and buildfiles of targets,
   project overrides, dumping, --load-only and --match-only are left out, and so are pre-processing of the
   buildspec by meta-operations (954-964), checks of parameters and load generations. Callbacks that are not specified are events
   that do nothing. *)
From Verif Require Import Base.

(* libbuild2/buildspec.hxx 17-56. Parameters are a number, 0 if there are none. *)
Record opspec := mkop { oname : bytes; oparams : nat; targets : list nat }.
Record metaopspec := mkmeta { mname : bytes; mparams : nat; ops : list opspec }.

(* operation_info and meta_operation_info (libbuild2/operation.hxx). The implementation stands for the address. *)
Record opinfo := mkopinfo { oid : bytes; oimpl : nat; outer : bytes; pre : bytes -> bytes; post : bytes -> bytes }.
Record metainfo := mkmetainfo { mimpl : nat; translate : bytes -> bytes }.

(* Meta-operation, operation, outer operation. *)
Definition action := (bytes * bytes * bytes)%type.
Inductive event :=
| Fresh                                       (* new context *)
| MetaPre (m : bytes) (p : nat) | MetaPost (m : bytes)
| OpPre (m o : bytes) | OpPost (m o : bytes)  (* callbacks of the meta-operation *)
| Current (o outer : bytes)                   (* current operation *)
| Enter (o : bytes) (p : nat) (inner : bool) | Leave (o : bytes) (inner : bool)
| Load (t : nat)
| Match (a : action) (ts : list nat) | Execute (a : action) (ts : list nat).

Definition perform : bytes := b "perform".
Definition default : bytes := b "default".
Definition is_empty (s : bytes) : bool := match s with [] => true | _ => false end.

Section Run.
Context (builtin : bytes -> bool)                   (* meta-operations that are always known *)
        (defines_meta : nat -> bytes -> bool)       (* meta-operations that bootstrapping the project of the target makes known *)
        (defines_op : nat -> bytes -> bool)
        (builtin_op : bytes -> bool)
        (meta_of : nat -> bytes -> option metainfo) (* root_extra->meta_operations of the project of the target *)
        (op_of : nat -> bytes -> option opinfo)     (* root_extra->operations *)
        (here : nat).                               (* the default target *)

(* Tables of the context after bootstrapping projects of these targets. *)
Definition known_meta (boot : list nat) (n : bytes) : bool := builtin n || existsb (fun t => defines_meta t n) boot.
Definition known_op (boot : list nat) (n : bytes) : bool := builtin_op n || existsb (fun t => defines_op t n) boot.

(* The meta-operation of the batch, 941-942 *)
Definition batch := (bytes * metainfo)%type.
(* oid, orig_oid, oif, outer_oif, orig_pre_oid, pre_oif, orig_post_oid and post_oif, 989-997. pre_oid and post_oid are ids of the
   last two. *)
Record operation := mkoperation { id : bytes; orig : bytes; info : opinfo; outer_info : option opinfo;
  orig_pre : bytes; pre_info : option opinfo; orig_post : bytes; post_info : option opinfo }.

Definition lookup (t : nat) (o : bytes) : option (option opinfo) :=
  if is_empty o then Some None else match op_of t o with Some i => Some (Some i) | None => None end.
(* The first target in the operation batch, 1464-1550. None: unsupported operation. *)
Definition first_target (m : bytes) (mi : metainfo) (t : nat) (o : bytes) : option (list event * operation) :=
  let o := if is_empty o then default else o in
  match op_of t o with
  | None => None
  | Some i0 =>
      let o1 := translate mi (oid i0) in
      match (if beqb (oid i0) o1 then Some (o, i0) else match op_of t o1 with Some i => Some (o1, i) | None => None end) with
      | None => None
      | Some (orig, i) =>
          match lookup t (outer i), lookup t (pre i m), lookup t (post i m) with
          | Some oi, Some pi, Some qi => Some ([OpPre m (oid i0)], mkoperation (oid i) orig i oi (pre i m) pi (post i m) qi)
          | _, _, _ => None
          end
      end
  end.
(* Other targets, 1555-1581 *)
Definition same (t : nat) (o : bytes) (i : option opinfo) : bool :=
  match i with
  | None => true
  | Some i => match op_of t o with Some j => oimpl j =? oimpl i | None => false end
  end.
Definition other_target (t : nat) (x : operation) : bool :=
  same t (orig x) (Some (info x)) && same t (outer (info x)) (outer_info x) && same t (orig_pre x) (pre_info x) && same t (orig_post x) (post_info x).

(* Bootstrapping projects of targets, 1045-1655. BAssert: the assertion at 1653 fails. *)
Inductive booted := BFail (es : list event) | BAssert | BLift (boot : list nat) | BOk (boot : list nat) (mb : batch) (x : operation) (es : list event).
Fixpoint bootstrap (mn : bytes) (mp : nat) (on : bytes) (boot : list nat) (mb : option batch) (x : option operation) (es : list event) (ts : list nat) : booted :=
  match ts with
  | [] => match mb, x with Some mb, Some x => BOk boot mb x es | _, _ => BFail es end
  | t :: ts =>
      let boot := t :: boot in
      if negb (is_empty on) && known_meta boot on then (if is_empty mn then (match x with None => BLift boot | Some _ => BAssert end) else BFail es)
      else if negb (is_empty mn) && negb (known_meta boot mn) then BFail es
      else if negb (is_empty on) && negb (known_op boot on) then BFail es
      else
        let m := if is_empty mn then perform else mn in
        match (match mb with
               | None => match meta_of t m with Some mi => Some ((m, mi), [MetaPre m mp]) | None => None end
               | Some (m, mi) => match meta_of t m with Some mj => if mimpl mj =? mimpl mi then Some ((m, mi), []) else None | None => None end
               end) with
        | None => BFail es
        | Some (mb, e1) =>
            match x with
            | None =>
                match first_target (fst mb) (snd mb) t on with
                | None => BFail (es ++ e1)
                | Some (e2, x) => bootstrap mn mp on boot (Some mb) (Some x) (es ++ e1 ++ e2) ts
                end
            | Some x => if other_target t x then bootstrap mn mp on boot (Some mb) (Some x) (es ++ e1) ts else BFail (es ++ e1)
            end
        end
  end.

(* Loading, matching and executing, 1663-1921. *)
Definition main_enter (x : operation) (p : nat) : list event :=
  [Current (id x) (outer (info x))] ++
  match outer_info x with
  | Some oi => [Enter (oid oi) p false; Enter (id x) 0 true]
  | None => [Enter (id x) p true]
  end.
Definition main_leave (x : operation) : list event :=
  [Leave (id x) true] ++ match outer_info x with Some oi => [Leave (oid oi) false] | None => [] end.
Definition act (a : action) (ts : list nat) : list event := [Match a ts; Execute a ts].
Definition perform_op (m : bytes) (x : operation) (p : nat) (ts : list nat) : list event :=
  (match pre_info x with
   | Some pi => [OpPre m (oid pi); Current (oid pi) (id x); Enter (id x) p false; Enter (oid pi) 0 true]
   | None => main_enter x p
   end) ++
  map Load ts ++
  (match pre_info x with
   | Some pi => act (m, oid pi, id x) ts ++ [Leave (oid pi) true; Leave (id x) false; OpPost m (oid pi)] ++ main_enter x p
   | None => []
   end) ++
  act (m, id x, outer (info x)) ts ++ main_leave x ++
  (match post_info x with
   | Some qi => [OpPre m (oid qi); Current (oid qi) (id x); Enter (id x) p false; Enter (oid qi) 0 true] ++
                act (m, oid qi, id x) ts ++ [Leave (oid qi) true; Leave (id x) false; OpPost m (oid qi)]
   | None => []
   end) ++
  [OpPost m (id x)].

(* The loop over operations, 972-1925. n: the position of the first one in the meta-operation. *)
Inductive done := OFail (es : list event) | OAssert | OLift (os : opspec) (skip : nat) (boot : list nat) (mb : option batch) (es : list event)
                | ODone (boot : list nat) (mb : option batch) (es : list event).
Fixpoint run_ops (lifted : bool) (mn : bytes) (mp : nat) (n : nat) (boot : list nat) (mb : option batch) (es : list event) (os : list opspec) : done :=
  match os with
  | [] => ODone boot mb es
  | o :: os =>
      let p := if lifted then 0 else oparams o in
      let on := if lifted then [] else oname o in
      let ts := match targets o with [] => [here] | ts => ts end in
      (* Lift early. *)
      if negb (is_empty on) && known_meta boot on then
        if is_empty mn then OLift (mkop (oname o) (oparams o) ts) (n + 1) boot mb es else OFail es
      else
        match bootstrap mn mp on boot mb None [] ts with
        | BFail e => OFail (es ++ e)
        | BAssert => OAssert
        | BLift boot => OLift (mkop (oname o) (oparams o) ts) (n + 1) boot mb es
        | BOk boot mb x e => run_ops false mn mp (n + 1) boot (Some mb) (es ++ e ++ perform_op (fst mb) x p ts) os
        end
  end.

(* The loop over meta-operations, 896-1938. fuel: its iterations. *)
Inductive result := RFail (es : list event) | RAssert | RDone (es : list event) | RMore.
Definition meta_end (mb : option batch) : list event := match mb with Some mb => [MetaPost (fst mb)] | None => [] end.
Fixpoint run (fuel : nat) (lifted : option opspec) (skip : nat) (dirty : bool) (boot : list nat) (es : list event) (ms : list metaopspec) : result :=
  match fuel with
  | 0 => RMore
  | S fuel =>
      match ms with
      | [] => RDone es
      | m :: ms' =>
          let all := match ops m with [] => [mkop [] 0 []] | os => os end in
          let os := match lifted with None => skipn skip all | Some o => [o] end in
          let n := match lifted with None => skip | Some _ => 0 end in
          let skip := match lifted with None => 0 | Some _ => skip end in
          if match lifted, os with None, [] => true | _, _ => false end then run fuel None 0 dirty boot es ms'
          else
            let es := if dirty then es ++ [Fresh] else es in
            let boot := if dirty then [] else boot in
            let mn := match lifted with None => mname m | Some o => oname o end in
            let mp := match lifted with None => mparams m | Some o => oparams o end in
            match run_ops (match lifted with None => false | Some _ => true end) mn mp n boot None es os with
            | OFail es => RFail es
            | OAssert => RAssert
            | OLift o skip' boot mb es => run fuel (Some o) skip' (match mb with Some _ => true | None => false end) boot (es ++ meta_end mb) ms
            | ODone boot mb es =>
                let dirty := match mb with Some _ => true | None => false end in
                let es := es ++ meta_end mb in
                if skip =? 0 then run fuel None 0 dirty boot es ms' else run fuel None skip dirty boot es ms
            end
      end
  end.
(* The empty buildspec is the default meta-operation, 679-680. *)
Definition run_buildspec (fuel : nat) (ms : list metaopspec) : result :=
  run fuel None 0 false [] [] (match ms with [] => [mkmeta [] 0 []] | _ => ms end).
End Run.
