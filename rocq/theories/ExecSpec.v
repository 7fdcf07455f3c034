(* What executing a set of members or prerequisites should report. *)
From Verif Require Import Base.
From Verif Require Import ExecModel.    (* for the data types only *)

(* Severity, from best to worst. *)
Definition severity (s : tstate) : nat :=
  match s with
  | uninitialized => 0 | unknown => 1 | unchanged => 2 | postponed => 3
  | busy => 4 | changed => 5 | failed => 6 | group => 7
  end.

Definition worst (r : tstate) (l : list tstate) : Prop :=
  In r l /\ forall x, In x l -> severity x <= severity r.

(* The state of an executed member: a postponed one is reported as unchanged. *)
Definition state_of (m : member) : tstate :=
  match m_final m with postponed => unchanged | s => s end.

(* What a member contributes and when it makes the whole thing fail. *)
Definition contribution (m : member) : tstate :=
  match m_impl m with postponed => postponed | _ => state_of m end.

Definition fails (keep_going : bool) (m : member) : Prop :=
  (m_impl m = failed /\ keep_going = false) \/ (m_impl m <> postponed /\ state_of m = failed).

Definition slice (ts : list slot) (p n : nat) : list slot := firstn n (skipn p ts).

Fixpoint present (l : list slot) : list member :=
  match l with
  | [] => []
  | Some m :: l' => m :: present l'
  | None :: l' => present l'
  end.

(* Slots are blanked once postponed or, for ad hoc prerequisites, used. *)
Definition blanked (s : slot) : slot :=
  match s with
  | Some m => match m_impl m with postponed => None | _ => if m_adhoc m then None else Some m end
  | None => None
  end.

(* A prerequisite makes a target with modification time [mt] out of date. *)
Definition outdates (mt : Z) (m : member) : Prop :=
  match m_mtime m with
  | Some mp => (mt < mp)%Z \/ (mt = mp /\ state_of m = changed)
  | None => state_of m = changed
  end.

Definition considered (ef : bool) (m : member) : Prop :=
  m_adhoc m = true \/ ef = false \/ m_pass m = true.

(* Index of the first usable prerequisite of the requested type. *)
Definition is_first_of_type (ts : list slot) (n : nat) (i : nat) : Prop :=
  let ok k := exists m, k < n /\ nth k ts None = Some m /\ m_impl m <> postponed /\
                        m_adhoc m = false /\ m_type m = true in
  ok i /\ forall k, k < i -> ~ ok k.
