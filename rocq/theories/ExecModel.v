(* Model of target states and of the sequential part of executing members and
   prerequisites: libbuild2/target-state.hxx and libbuild2/algorithm.cxx.

   What running a member does is an oracle, one per array slot: the value
   returned by execute_impl() and the target's state after the wait. *)
From Verif Require Import Base.

(* target-state.hxx:28-38 *)
Inductive tstate :=
| uninitialized | unknown | unchanged | postponed | busy | changed | failed | group.

Definition tval (s : tstate) : nat :=
  match s with
  | uninitialized => 0 | unknown => 1 | unchanged => 2 | postponed => 3
  | busy => 4 | changed => 5 | failed => 6 | group => 7
  end.

Definition tstate_eqb (x y : tstate) : bool := tval x =? tval y.

(* target-state.hxx:40-47: operator|= *)
Definition merge (l r : tstate) : tstate := if tval l <? tval r then r else l.

(* One element of the members array (const target* or prerequisite_target). *)
Record member := mkmember {
  m_adhoc : bool;           (* prerequisite_target::adhoc () *)
  m_impl  : tstate;         (* what execute_impl () returns for it *)
  m_final : tstate;         (* executed_state_impl () once it is executed *)
  m_type  : bool;           (* pt.is_a () of the requested type *)
  m_mtime : option Z;       (* mtime () if this is an mtime_target *)
  m_pass  : bool            (* execute filter: ef (pt, i) *)
}.

Definition slot := option member.   (* None: null pointer, skipped *)

(* algorithm.ixx:892-903, fail = true; None: throws failed. *)
Definition execute_async (keep_going : bool) (m : member) : option tstate :=
  if tstate_eqb (m_impl m) failed && negb keep_going then None else Some (m_impl m).

(* algorithm.ixx:905-920 with target.ixx:387-398; None: throws failed. The
   wait itself is modelled in the scheduler. executed_state_impl () has already
   translated postponed to unchanged (target.ixx:346-357). *)
Definition executed_state (m : member) : tstate :=
  match m_final m with postponed => unchanged | s => s end.

Definition execute_complete (m : member) : option tstate :=
  match executed_state m with failed => None | s => Some s end.

Definition get (ts : list slot) (i : nat) : slot := nth i ts None.

Fixpoint set (ts : list slot) (i : nat) (x : slot) : list slot :=
  match ts, i with
  | [], _ => []
  | _ :: ts', 0 => x :: ts'
  | y :: ts', S i' => y :: set ts' i' x
  end.

(* Loop bodies, algorithm.cxx:4244-4257 and 4264-4275. *)
Definition start_one (kg : bool) (r : tstate) (ts : list slot) (i : nat)
  : option (tstate * list slot) :=
  match get ts i with
  | None => Some (r, ts)
  | Some m =>
      match execute_async kg m with
      | None => None
      | Some s => if tstate_eqb s postponed then Some (merge r s, set ts i None) else Some (r, ts)
      end
  end.

Definition finish_one (r : tstate) (ts : list slot) (i : nat) : option (tstate * list slot) :=
  match get ts i with
  | None => Some (r, ts)
  | Some m =>
      match execute_complete m with
      | None => None
      | Some s => Some (merge r s, if m_adhoc m then set ts i None else ts)
      end
  end.

(* Run a loop body over the indexes in order. *)
Fixpoint loop {S} (f : S -> list slot -> nat -> option (S * list slot))
         (r : S) (ts : list slot) (is : list nat) : option (S * list slot) :=
  match is with
  | [] => Some (r, ts)
  | i :: is' => match f r ts i with None => None | Some (r', ts') => loop f r' ts' is' end
  end.

(* algorithm.cxx:4229-4279: members [p, p + n). *)
Definition straight_execute_members (kg : bool) (ts : list slot) (n p : nat)
  : option (tstate * list slot) :=
  match loop (start_one kg) unchanged ts (seq p n) with
  | None => None
  | Some (r, ts1) => loop finish_one r ts1 (seq p n)
  end.

(* algorithm.cxx:4281-4322: members [p - n, p) from the last to the first. *)
Definition reverse_execute_members (kg : bool) (ts : list slot) (n p : nat)
  : option (tstate * list slot) :=
  match loop (start_one kg) unchanged ts (rev (seq (p - n) n)) with
  | None => None
  | Some (r, ts1) => loop finish_one r ts1 (rev (seq (p - n) n))
  end.

(* libbutl timestamp.hxx: timestamp_nonexistent is 0, real ones are greater. *)
Definition timestamp_nonexistent : Z := 0%Z.

(* target.ixx:802-815 *)
Definition newer (mp mt : Z) (s : tstate) : bool :=
  (mt <? mp)%Z || ((mt =? mp)%Z && tstate_eqb s changed).

(* State of the second loop of execute_prerequisites (): rs, e, rt. *)
Record pstate := mkp { p_rs : tstate; p_e : bool; p_rt : option nat }.

(* algorithm.cxx:4392-4424 (straight) and 4482-4516 (reverse). [last] selects
   between the first and the last target of the requested type. *)
Definition prereq_one (mt : Z) (tt ef last : bool) (x : pstate) (ts : list slot) (i : nat)
  : option (pstate * list slot) :=
  match get ts i with
  | None => Some (x, ts)
  | Some m =>
      match execute_complete m with
      | None => None
      | Some s =>
          let rs := merge (p_rs x) s in
          let e :=
            if negb (p_e x) && (m_adhoc m || negb ef || m_pass m) then
              match m_mtime m with
              | Some mp => newer mp mt s
              | None => tstate_eqb s changed
              end
            else p_e x in
          let rt :=
            if m_adhoc m then p_rt x
            else if tt then
              (if m_type m then
                 (if last then Some i
                  else match p_rt x with None => Some i | o => o end)
               else p_rt x)
            else p_rt x in
          Some (mkp rs e rt, if m_adhoc m then set ts i None else ts)
      end
  end.

(* algorithm.cxx:4343-4431 and 4433-4523; ef = false: no filter, tt = false:
   no target type requested. The result is None for "failed", otherwise None
   for "out of date" or the merged state, and the target of the requested
   type. The assertion tt == nullptr || rt != nullptr is not checked. *)
Definition execute_prerequisites_gen (rv kg : bool) (ts : list slot) (mt : Z) (tt ef : bool) (n0 : nat)
  : option ((option tstate * option nat) * list slot) :=
  let n := if n0 =? 0 then length ts else n0 in
  let is := if rv then rev (seq 0 n) else seq 0 n in
  match loop (start_one kg) unchanged ts is with
  | None => None
  | Some (r, ts1) =>
      match loop (prereq_one mt tt ef rv) (mkp r (mt =? timestamp_nonexistent)%Z None) ts1 is with
      | None => None
      | Some (x, ts2) => Some ((if p_e x then None else Some (p_rs x), p_rt x), ts2)
      end
  end.

Definition execute_prerequisites := execute_prerequisites_gen false.
Definition reverse_execute_prerequisites := execute_prerequisites_gen true.

(* algorithm.cxx:2003-2108: execute_recipe (). The recipe and the callbacks are
   oracles (None: throws failed); [gs] is the group's state. The result is the
   value returned and the state stored in the target; None is the failed
   assertion. *)
Fixpoint merge_all (ts : tstate) (steps : list (option tstate)) : option tstate :=
  match steps with
  | [] => Some ts
  | None :: _ => None
  | Some s :: r => merge_all (merge ts s) r
  end.

Definition execute_recipe (pre : list (option tstate)) (recipe : option (option tstate))
           (post : list (option tstate)) (gs : tstate) : option (tstate * tstate) :=
  let steps := pre ++ match recipe with Some x => [x] | None => [] end ++ post in
  match merge_all unchanged steps with
  | None => Some (failed, failed)
  | Some ts =>
      match ts with
      | changed | unchanged => Some (ts, ts)
      | postponed => Some (unchanged, ts)
      | group => Some (gs, ts)
      | _ => None
      end
  end.

(* --- Actions, libbuild2/action.hxx:61-126 --- *)

(* meta_operation_id, operation_id and action_id are uint8_t: arithmetic is
   done in int and truncated on conversion. *)
Definition u8 (n : N) : N := N.modulo n 256.

Record action := mkaction { inner_id : N; outer_id : N }.

Definition act (m inner outer : N) : action :=
  mkaction (u8 (N.lor (N.shiftl m 4) inner))
           (if (outer =? 0)%N then 0%N else u8 (N.lor (N.shiftl m 4) outer)).

Definition act_of_id (a : N) : action := act (u8 (N.shiftr a 4)) (u8 (N.land a 15)) 0.

Definition meta_operation (a : action) : N := N.shiftr (inner_id a) 4.
Definition operation (a : action) : N := N.land (inner_id a) 15.
Definition outer_operation (a : action) : N := N.land (outer_id a) 15.
Definition is_inner (a : action) : bool := (outer_id a =? 0)%N.
Definition inner_action (a : action) : action := act (meta_operation a) (operation a) 0.
Definition to_id (a : action) : N := inner_id a.

Definition act_eq (x y : action) : bool :=
  ((inner_id x =? inner_id y) && (outer_id x =? outer_id y))%N.
Definition act_ne (x y : action) : bool := negb (act_eq x y).
Definition act_eq_id (x : action) (y : N) : bool := act_eq x (act_of_id y).
Definition act_ne_id (x : action) (y : N) : bool := act_ne x (act_of_id y).
Definition id_eq_act (x : N) (y : action) : bool := act_eq (act_of_id x) y.
Definition id_ne_act (x : N) (y : action) : bool := act_eq (act_of_id x) y.   (* sic *)
