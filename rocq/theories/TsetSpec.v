(* What the operations on the set of targets do, one at a time. *)
From Verif Require Import Base TsetModel.

Section Spec.
Context (fixed : nat -> fixing).

(* The extension a target is created with when this one is specified. *)
Definition effective (k : nat) (e : ext_t) : ext_t := match fixed k with Free | Must => e | Fixed f => Some f end.
(* Whether t is what k (with the extension e, if specified) refers to. *)
Definition refers (k : nat) (e : ext_t) (t : entry) : Prop :=
  base t = k /\ (e = None \/ ext t = e \/ (ext t = None /\ fixed k = Free)).
(* An extension that is required but not specified. *)
Definition lacking (k : nat) (e : ext_t) : Prop := fixed k = Must /\ e = None.
Definition known (e f : ext_t) : ext_t := match e with Some _ => e | None => f end.
(* ts' is ts with the target i, which is t, being t'. *)
Definition replaced (ts : list entry) (i : nat) (t t' : entry) (ts' : list entry) : Prop :=
  exists l1 l2, ts = l1 ++ t :: l2 /\ length l1 = i /\ ts' = l1 ++ t' :: l2.

Inductive does (ts : list entry) : op -> result -> list entry -> Prop :=
(* Something is not found if there is nothing this refers to. *)
| not_found k e : (forall t, In t ts -> ~ refers k e t) -> does ts (Find k e) Null ts
(* Otherwise what is found is what it refers to. Its extension is now known. *)
| found k e i t ts' : ~ lacking k e -> refers k e t -> replaced ts i t (mkentry k (known (ext t) e) (real t)) ts' -> does ts (Find k e) (Found i) ts'
| find_failed k t : lacking k None -> In t ts -> base t = k -> does ts (Find k None) Failed ts
| inserted k e r s : ~ lacking k e -> (forall t, In t ts -> ~ refers k (effective k e) t) ->
    does ts (Insert k e r s) (Inserted (length ts)) (ts ++ [mkentry k (effective k e) r])
| existing k e r s i t ts' : ~ lacking k e -> refers k (effective k e) t -> replaced ts i t (mkentry k (known (ext t) (effective k e)) (real t || r)) ts' -> does ts (Insert k e r s) (Found i) ts'
| insert_failed k r s : lacking k None -> does ts (Insert k None r s) Failed ts
| branded i v t ts' : ext t = None \/ ext t = Some v -> replaced ts i t (mkentry (base t) (Some v) (real t)) ts' -> does ts (Brand i v) (Found i) ts'
| conflict i v e t : nth_error ts i = Some t -> ext t = Some e -> e <> v -> does ts (Brand i v) Failed ts.

(* Operations that have been performed one at a time, the last first, and the resulting targets. *)
Inductive history : list (op * result) -> list entry -> Prop :=
| h_none : history [] []
| h_more log ts o r ts' : history log ts -> does ts o r ts' -> history ((o, r) :: log) ts'.

(* What several threads can get to. *)
Definition gets_to (s : state) : Prop := exists xs, run fixed initial xs = Some s.
End Spec.

(* The target an operation has returned. *)
Definition target_of (r : result) : option nat := match r with Found i | Inserted i => Some i | _ => None end.
(* What an operation asks for: this key, with this extension, if specified. *)
Inductive asks (fixed : nat -> fixing) : op -> nat -> ext_t -> Prop :=
| asks_find k e : asks fixed (Find k e) k (effective fixed k e)
| asks_insert k e r s : asks fixed (Insert k e r s) k (effective fixed k e).
(* The number of steps thread t has taken since it has begun its current operation. *)
Fixpoint taken (t : nat) (n : nat) (xs : list action) : nat :=
  match xs with
  | [] => n
  | Begin u _ :: xs => taken t (if u =? t then 0 else n) xs
  | Step u _ :: xs => taken t (if u =? t then S n else n) xs
  end.
