(* Specification: which include directory a prefix is for. *)
From Verif Require Import Base PfxModel.

Definition under (p d : list bytes) : Prop := exists s, p = d ++ s.

(* An include directory d for a target in the directory t leads to a prefix: a header with this prefix would be in the directory of the
   target, or in an outer directory of it that is k levels above. Without a prefix, headers are in the include directory itself. *)
Inductive leads : list bytes * list bytes -> list bytes -> nat -> Prop :=
| leads_under d p s : leads (d ++ p ++ s, d) p (length s)
| leads_other t d : ~ under t d -> leads (t, d) [] 0.
Definition led (incs : list (list bytes * list bytes)) (p : list bytes) : Prop := exists x k, In x incs /\ leads x p k.

(* The one that is used: the nearest, and of those the first. *)
Definition best (incs : list (list bytes * list bytes)) (p d : list bytes) (k : nat) : Prop :=
  exists a t c, incs = a ++ (t, d) :: c /\ leads (t, d) p k /\
    (forall x j, In x a -> leads x p j -> k < j) /\ (forall x j, In x c -> leads x p j -> k <= j).

(* All of them, the nearest first, in the order given if equally near. *)
Inductive sorted : list (list bytes * nat) -> Prop :=
| sorted_nil : sorted []
| sorted_cons e l : (forall x, In x l -> snd e <= snd x) -> sorted l -> sorted (e :: l).
Definition ordered (incs : list (list bytes * list bytes)) (l : list (list bytes * nat)) : Prop :=
  sorted l /\ exists ks, Forall2 (fun x k => leads x [] k) incs ks /\
    forall k, filter (fun e => snd e =? k) l = filter (fun e => snd e =? k) (combine (map snd incs) ks).

(* A header as written: relative, without . and .. *)
Definition plain (n : bytes) : Prop := n <> b "." /\ n <> b "..".

(* Include directories in options: -I or (for the other class of compilers) /I, with the directory in the same argument or the next one. *)
Inductive opt := Other (o : bytes) | Joined (c : ascii) (s : bytes) | Separate (c : ascii) (s : bytes).
Definition opt_ok (msvc : bool) (o : opt) : Prop :=
  match o with
  | Other o => ~ exists c r, o = c :: "I"%char :: r /\ (c = "-"%char \/ msvc = true /\ c = "/"%char)
  | Joined c s => s <> [] /\ (c = "-"%char \/ msvc = true /\ c = "/"%char)
  | Separate c s => c = "-"%char \/ msvc = true /\ c = "/"%char
  end.
Definition print (o : opt) : list bytes :=
  match o with Other o => [o] | Joined c s => [c :: "I"%char :: s] | Separate c s => [[c; "I"%char]; s] end.
Definition dir_of (o : opt) : list bytes := match o with Other _ => [] | Joined _ s | Separate _ s => [s] end.

(* Consecutive include directories. *)
Definition consecutive (ds : list (option (list bytes))) (d1 d2 : list bytes) : Prop := exists a c, ds = a ++ Some d1 :: Some d2 :: c.
(* A directory in out and the one in src that corresponds to it. *)
Definition pair_of (find_out : list bytes -> option (list bytes * list bytes)) (d1 d2 : list bytes) : Prop :=
  exists o s x, find_out d1 = Some (o, s) /\ o <> s /\ d1 = o ++ x /\ d2 = s ++ x.
