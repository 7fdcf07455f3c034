(* What it means for a variable pattern to match a name and which of the patterns
   is more specific, as documented in variable.hxx:1709-1719. *)
From Verif Require Import Base VarModel VpatModel.

Section Spec.
Context {T : Type}.
(* The name is the prefix, a stem and the suffix. The stem is not empty and, unless the
   wildcard is **, does not contain dots. *)
Definition matches (n : bytes) (p : vpat T) : Prop :=
  exists stem, n = pfx p ++ stem ++ sfx p /\ stem <> [] /\ (multi p = false -> ~ In DOT stem).
(* A greater sum of the lengths of the prefix and the suffix. *)
Definition weight (p : vpat T) : nat := length (pfx p) + length (sfx p).
(* The same prefix and suffix but with * instead of **. *)
Definition narrower (p q : vpat T) : Prop := pfx p = pfx q /\ sfx p = sfx q /\ multi p = false /\ multi q = true.
Definition more_specific (p q : vpat T) : Prop := weight q < weight p \/ narrower p q.
(* p was inserted before q. *)
Definition earlier (ps : list (vpat T)) (p q : vpat T) : Prop := exists a c d, ps = a ++ p :: c ++ q :: d.
(* The pattern to be used: one that matches, with nothing that matches being more
   specific and, of those, the one inserted last. *)
Definition best (ps : list (vpat T)) (n : bytes) (p : vpat T) : Prop :=
  exists before after, ps = before ++ p :: after /\ matches n p /\
    (forall q, In q before \/ In q after -> matches n q -> ~ more_specific q p) /\
    (forall q, In q after -> matches n q -> more_specific p q).
End Spec.

Section Spec2.
Context {T : Type}.
(* When ** is inserted after * with the same prefix and suffix, then there are no
   other patterns of this weight yet. *)
Definition orderly (ps : list (vpat T)) : Prop :=
  forall before q after, ps = before ++ q :: after ->
  forall x y, In x before -> In y before -> narrower x q -> weight y = weight q -> pfx y = pfx q /\ sfx y = sfx q.
(* [<prefix>.](*|**)[.<suffix>] *)
Definition good_prefix (a : bytes) : Prop := a = [] \/ exists x, x <> [] /\ a = x ++ [DOT].
Definition good_suffix (z : bytes) : Prop := z = [] \/ exists x, x <> [] /\ z = DOT :: x.
Definition stars (m : bool) : bytes := if m then [STAR; STAR] else [STAR].
End Spec2.
