(* Model of the set of targets being used by several threads: target_set::find (), insert_locked () and
   target::ext (), libbuild2/target.cxx:713-895 and 84-108, and of the equality of target keys,
   libbuild2/target-key.hxx:55-86.

   Simplified: the type, directory, out directory and name are a number (base). Sections under the mutex
   (shared or exclusive) are atomic; in the load phase, where there is no other thread, the mutex is not
   used, which is a special case. What fails is that operation only. A target is referred to by its
   position, targets being in the order of insertion. The hash table can give any of the targets that are
   equal to the key (if there are several). *)
From Verif Require Import Base.

Definition ext_t := option bytes.
Definition ext_eqb (x y : ext_t) : bool :=
  match x, y with Some x, Some y => beqb x y | None, None => true | _, _ => false end.

(* target_type::fixed_extension: none, one that depends on the type and the name (for example,
   target_extension_fix ()) and target_extension_must (), target.cxx:1201-1208. *)
Inductive fixing := Free | Fixed (e : bytes) | Must.

(* A target with its extension and whether its declaration is real. *)
Record entry := mkentry { base : nat; ext : ext_t; real : bool }.

Inductive op :=
| Find (k : nat) (e : ext_t)
| Insert (k : nat) (e : ext_t) (decl_real skip_find : bool)
| Brand (i : nat) (v : bytes). (* target::ext (string) *)
Inductive result := Null | Found (i : nat) | Inserted (i : nat) | Failed.
(* Where a thread is: before taking the shared lock in find () (again: after someone has set the
   extension), before taking the exclusive one with what has been found and before taking it to insert. *)
Inductive pc := Shared (again : bool) | Locked (i : nat) | Inserting.

Section Set_.
Context (fixed : nat -> fixing).

(* operator== (target_key, target_key), for the same base. None: fails. *)
Definition key_eqb (k : nat) (x y : ext_t) : option bool :=
  match fixed k with
  | Free => Some (match x, y with Some x, Some y => beqb x y | _, _ => true end)
  | Fixed f =>
      let of e := match e with Some e => e | None => f end in
      Some (beqb (of x) (of y))
  | Must => match x, y with Some x, Some y => Some (beqb x y) | _, _ => None end
  end.
(* map_.find () and map_.emplace (): all that are equal, from position n on. *)
Fixpoint lookup (ts : list entry) (n : nat) (k : nat) (e : ext_t) : option (list nat) :=
  match ts with
  | [] => Some []
  | t :: ts =>
      if base t =? k then
        match key_eqb k (ext t) e, lookup ts (S n) k e with
        | Some true, Some r => Some (n :: r)
        | Some false, r => r
        | _, _ => None
        end
      else lookup ts (S n) k e
  end.
Fixpoint update (ts : list entry) (i : nat) (f : entry -> entry) : list entry :=
  match ts, i with
  | [], _ => []
  | t :: ts, O => f t :: ts
  | t :: ts, S i => t :: update ts i f
  end.
Definition set_ext (e : ext_t) (t : entry) : entry := mkentry (base t) e (real t).
(* The end of insert_locked (), 882-892 *)
Definition upgrade (o : op) (t : entry) : entry :=
  match o with Insert _ _ true _ => mkentry (base t) (ext t) true | _ => t end.

Definition start (o : op) : pc :=
  match o with Find _ _ => Shared false | Insert _ _ _ skip => if skip then Inserting else Shared false | Brand i _ => Locked i end.

Definition key_of (o : op) : nat * ext_t := match o with Find k e | Insert k e _ _ => (k, e) | Brand _ v => (0, Some v) end.
(* find (), 716-772 up to taking the exclusive lock *)
Definition shared (ts : list entry) (o : op) (choice : nat) : option (list entry * (pc + result)) :=
  let (k, e) := key_of o in
  match lookup ts 0 k e with
  | None => Some (ts, inr Failed)
  | Some [] => Some (ts, match o with Insert _ _ _ _ => inl Inserting | _ => inr Null end)
  | Some is =>
      match nth_error is choice with
      | Some i =>
          match nth_error ts i with
          | Some t =>
              if ext_eqb (ext t) e || ext_eqb e None then Some (update ts i (upgrade o), inr (Found i))
              else Some (ts, inl (Locked i))
          | None => None
          end
      | None => None
      end
  end.
(* 738-772 *)
Definition locked (ts : list entry) (o : op) (i : nat) : option (list entry * (pc + result)) :=
  let (_, e) := key_of o in
  match nth_error ts i with
  | Some t =>
      match ext t with
      | Some _ => Some (ts, inl (Shared true))
      | None => Some (update ts i (fun t => upgrade o (set_ext e t)), inr (Found i))
      end
  | None => None
  end.
(* insert_locked (), 789-895 *)
Definition inserting (ts : list entry) (o : op) (choice : nat) : option (list entry * (pc + result)) :=
  let (k, e) := key_of o in
  match (match fixed k with Free => Some e | Fixed f => Some (Some f) | Must => match e with Some _ => Some e | None => None end end) with
  | None => Some (ts, inr Failed)
  | Some e =>
      match lookup ts 0 k e with
      | None => Some (ts, inr Failed)
      | Some [] => Some (ts ++ [mkentry k e (match o with Insert _ _ r _ => r | _ => false end)], inr (Inserted (length ts)))
      | Some is =>
          match nth_error is choice with
          | Some i => Some (update ts i (fun t => upgrade o (if negb (ext_eqb (ext t) e) && negb (ext_eqb e None) then set_ext e t else t)), inr (Found i))
          | None => None
          end
      end
  end.
(* target::ext (), 84-108 *)
Definition brand (ts : list entry) (i : nat) (v : bytes) : option (list entry * (pc + result)) :=
  match nth_error ts i with
  | Some t =>
      match ext t with
      | None => Some (update ts i (set_ext (Some v)), inr (Found i))
      | Some e => Some (ts, inr (if beqb e v then Found i else Failed))
      end
  | None => None
  end.
Definition step (ts : list entry) (o : op) (p : pc) (choice : nat) : option (list entry * (pc + result)) :=
  match o, p with
  | Brand i v, _ => brand ts i v
  | _, Shared _ => shared ts o choice
  | _, Locked i => locked ts o i
  | _, Inserting => inserting ts o choice
  end.

(* Threads: what each is doing. The log is what has been done, the last first. *)
Record state := mkstate { targets : list entry; threads : nat -> option (op * pc); log : list (op * result) }.
Definition set_thread (f : nat -> option (op * pc)) (t : nat) (x : option (op * pc)) : nat -> option (op * pc) := fun u => if u =? t then x else f u.
(* A thread begins an operation or takes the next step. *)
Inductive action := Begin (t : nat) (o : op) | Step (t : nat) (choice : nat).
Definition act (s : state) (a : action) : option state :=
  match a with
  | Begin t o => match threads s t with None => Some (mkstate (targets s) (set_thread (threads s) t (Some (o, start o))) (log s)) | Some _ => None end
  | Step t c =>
      match threads s t with
      | Some (o, p) =>
          match step (targets s) o p c with
          | Some (ts, inl p) => Some (mkstate ts (set_thread (threads s) t (Some (o, p))) (log s))
          | Some (ts, inr r) => Some (mkstate ts (set_thread (threads s) t None) ((o, r) :: log s))
          | None => None
          end
      | None => None
      end
  end.
Definition initial : state := mkstate [] (fun _ => None) [].
Fixpoint run (s : state) (xs : list action) : option state :=
  match xs with
  | [] => Some s
  | x :: xs => match act s x with Some s => run s xs | None => None end
  end.
End Set_.
