(* The path and the modification time of a target, which any number of threads
   set and query at the same time.

   libbuild2/target.ixx 772-800, 826-881 (path_target::path(),
   path_target::path_mtime(), mtime_target::mtime(), load_mtime()),
   libbuild2/target.hxx 2215-2372.

   Simplification: atomic operations are sequentially consistent (the release
   and acquire orders are not modelled); the plain assignment of a path takes
   two steps with a torn value in between. *)
From Verif Require Import Base.

(* The path_ member: half written or with a value. *)
Inductive cell := Torn | Val (p : bytes).

(* The calls: path (), path (p), mtime (m), mtime (), load_mtime ().
   path_mtime (p, m) (868-881) is SetPath p followed by SetTime m. *)
Inductive op := GetPath | SetPath (p : bytes) | SetTime (m : nat) | GetTime | LoadTime.

(* Where in a call a thread is. *)
Inductive pc :=
| Ready
| Read                    (* 833, path_state_ was 2 *)
| Claimed (p : bytes)     (* 845, compare_exchange succeeded *)
| Writing (p : bytes)     (* in the midst of 846 *)
| Wrote (p : bytes)       (* before 847 *)
| Spin (p : bytes)        (* 853, e is 1 *)
| Check (e : nat) (p : bytes) (* 856 *)
| Ret (p : bytes)         (* 859 *)
| LPath (set : bool)      (* 865, the argument: path_ or empty_path *)
| LStore (m : nat)        (* 797-798 *)
| Dead.                   (* a failed assertion *)

(* What a call returns: the path if it is set, the path after
   setting it to p, a
   failed assertion on a path or (load_mtime()) on the lack of one, a time. *)
Inductive event :=
| EGet (i : nat) (r : option cell)
| ESet (i : nat) (p : bytes) (r : cell)
| EFail (i : nat) (p : option bytes)
| ETime (i : nat) (r : option nat).

Record state := St {
  pst : nat;                       (* path_state_ *)
  pval : cell;                     (* path_ *)
  mt : option nat;                 (* mtime_, None is timestamp_unknown *)
  thr : nat -> pc * list op;       (* threads: where they are, calls to come *)
  log : list event }.              (* last first *)

Definition upd {A} (f : nat -> A) (i : nat) (x : A) : nat -> A :=
  fun j => if j =? i then x else f j.

(* Initial values: target.hxx 2371 and the default path. *)
Definition start (prog : nat -> list op) : state :=
  St 0 (Val []) None (fun i => (Ready, prog i)) [].

Section Files.
(* The modification time of a file. *)
Context (fs : bytes -> nat).

Definition go (s : state) (i : nat) (c : pc) (r : list op) : state :=
  St (pst s) (pval s) (mt s) (upd (thr s) i (c, r)) (log s).

Definition emit (s : state) (i : nat) (c : pc) (r : list op) (e : event) : state :=
  St (pst s) (pval s) (mt s) (upd (thr s) i (c, r)) (e :: log s).

(* One step of thread i. *)
Definition step (i : nat) (s : state) : state :=
  let (c, r) := thr s i in
  match c with
  | Ready =>
      match r with
      | [] => s
      (* 827-834 *)
      | GetPath :: r' =>
          if pst s =? 2 then go s i Read r' else emit s i Ready r' (EGet i None)
      (* 837-853 *)
      | SetPath p :: r' =>
          if pst s =? 0
          then St 1 (pval s) (mt s) (upd (thr s) i (Claimed p, r')) (log s)
          else if pst s =? 1 then go s i (Spin p) r'
          else go s i (Check (pst s) p) r'
      (* 774-778 *)
      | SetTime m :: r' => St (pst s) (pval s) (Some m) (upd (thr s) i (Ready, r')) (log s)
      | GetTime :: r' => emit s i Ready r' (ETime i (mt s))
      (* 862-866: the argument first *)
      | LoadTime :: r' => go s i (LPath (pst s =? 2)) r'
      end
  | Read => emit s i Ready r (EGet i (Some (pval s)))
  | Claimed p => St (pst s) Torn (mt s) (upd (thr s) i (Writing p, r)) (log s)
  | Writing p => St (pst s) (Val p) (mt s) (upd (thr s) i (Wrote p, r)) (log s)
  | Wrote p => St (S (pst s)) (pval s) (mt s) (upd (thr s) i (Ret p, r)) (log s)
  | Spin p => if pst s =? 1 then s else go s i (Check (pst s) p) r
  | Check e p =>
      if (e =? 2) && (match pval s with Val q => beqb q p | Torn => false end)
      then go s i (Ret p) r
      else emit s i Dead r (EFail i (Some p))
  | Ret p => emit s i Ready r (ESet i p (pval s))
  (* 780-801 *)
  | LPath set =>
      match mt s with
      | Some m => emit s i Ready r (ETime i (Some m))
      | None =>
          match (if set then pval s else Val []) with
          | Val (c :: q) => go s i (LStore (fs (c :: q))) r
          | _ => emit s i Dead r (EFail i None)
          end
      end
  | LStore m =>
      St (pst s) (pval s) (Some m) (upd (thr s) i (Ready, r)) (ETime i (Some m) :: log s)
  | Dead => s
  end.

(* An execution: which thread takes each step. *)
Fixpoint exec (sched : list nat) (s : state) : state :=
  match sched with
  | [] => s
  | i :: r => exec r (step i s)
  end.
End Files.
