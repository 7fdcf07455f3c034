(* What config.test selects. *)
From Verif Require Import Base FiltModel.

(* A target: everything in and under a directory or a specific target. *)
Inductive what := Under (d : path) | Target (d : path) (type value : bytes).
(* An element of config.test: a target, an id path or both. *)
Inductive entry := ETarget (w : what) | EId (p : path) | EBoth (w : what) (p : path).

(* How elements are written: tests/, exe{hello}, id and target@id. *)
Definition slash_free (s : bytes) : Prop := ~ In "/"%char s.
Fixpoint joined (p : path) : bytes := match p with [] => [] | [x] => x | x :: r => x ++ b "/" ++ joined r end.
Definition Dir (n : name) (d : path) : Prop := qualified n = false /\ dir n = d /\ d <> [] /\ type n = [] /\ value n = [].
Definition TypedName (n : name) (d : path) (t v : bytes) : Prop := qualified n = false /\ dir n = d /\ type n = t /\ t <> [] /\ value n = v.
Definition WrittenTarget (w : what) (n : name) : Prop :=
  match w with Under d => Dir n d | Target d t v => TypedName n d t v end.
Definition WrittenId (p : path) (n : name) : Prop :=
  qualified n = false /\ dir n = [] /\ type n = [] /\ pair n = false /\ value n = joined p /\ p <> [] /\
  Forall (fun c => c <> [] /\ slash_free c) p.
Inductive Written : list entry -> list name -> Prop :=
| W_nil : Written [] []
| W_target w n es ns : WrittenTarget w n -> pair n = false -> Written es ns -> Written (ETarget w :: es) (n :: ns)
| W_id p n es ns : WrittenId p n -> Written es ns -> Written (EId p :: es) (n :: ns)
| W_both w p n m es ns : WrittenTarget w n -> pair n = true -> WrittenId p m -> Written es ns -> Written (EBoth w p :: es) (n :: m :: ns).

Section Select.
(* Which target is the one with this name (the name, type and directory are the same; several can differ in the extension). *)
Context (denotes : path -> bytes -> bytes -> target -> Prop).

Definition Matches (w : what) (t : target) : Prop :=
  match w with Under d => prefix d (tdir t) | Target d y v => denotes d y v t end.
Definition target_of (e : entry) : option what := match e with ETarget w => Some w | EId _ => None | EBoth w _ => Some w end.

(* A target is tested if it is asked for or no targets are. *)
Definition Tested (es : list entry) (t : target) : Prop :=
  (exists e w, In e es /\ target_of e = Some w /\ Matches w t) \/ Forall (fun e => target_of e = None) es.
(* The id paths asked for of this target. *)
Definition Asked (es : list entry) (t : target) (p : path) : Prop :=
  In (EId p) es \/ exists w, In (EBoth w p) es /\ Matches w t.
(* A test or a group of tests is executed if it is asked for, it contains something asked for, it is in something asked for or
   nothing is asked for. *)
Definition Executed (es : list entry) (t : target) (id : path) : Prop :=
  (exists p, Asked es t p /\ (prefix p id \/ prefix id p)) \/ forall p, ~ Asked es t p.
(* An alias is passed through if something in or under its directory is asked for, it is in or under a directory asked for or no
   targets are. *)
Definition Passed (es : list entry) (d : path) : Prop :=
  (exists e w, In e es /\ target_of e = Some w /\
     match w with Under d' => prefix d d' \/ prefix d' d | Target d' _ _ => prefix d d' end) \/
  Forall (fun e => target_of e = None) es.
End Select.
