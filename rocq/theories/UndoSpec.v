(* What cleanups are to do. *)
From Verif Require Import Base ImpModel UndoModel.

(* Every entry is in a directory. *)
Definition tree (f : fs) : Prop :=
  look f [] = None /\ forall p n k, look f (p ++ [n]) = Some k -> p = [] \/ look f p = Some true.
Definition same (f g : fs) : Prop := forall p, look f p = look g p.

(* What a cleanup is for: the path, with everything in it if it ends with ***; or what matches. *)
Section Covers.
Context (pm : list bytes -> list bytes -> bool).
Definition within (p d : list bytes) : Prop := exists s, p = d ++ s.
Definition covers (c : cleanup) (q : list bytes) : Prop :=
  c_type c <> Never /\
  (is_pattern (c_path c) = false /\ q = c_path c \/
   is_pattern (c_path c) = true /\ pm (c_path c) q = true \/
   exists d, c_path c = d ++ [b "***"] /\ c_dir c = false /\
     (is_pattern d = false /\ within q d \/ is_pattern d = true /\ exists x, pm d x = true /\ within q x)).
End Covers.

(* Scripts that only create and move. f0 is what was before: it is not moved, and files of it are not redirected to. *)
Section Scripts.
Context (sandbox : option (list bytes)) (f0 : fs).
Definition allowed (p : list bytes) : Prop := is_pattern p = false /\ forall s, sandbox = Some s -> within p s.
Definition benign (f : fs) (s : step) : Prop :=
  match s with
  | Create p _ nc => nc = false /\ allowed p
  | Redirect p append => allowed p /\ look f0 p = None /\ (append = true -> look f p <> None)
  | Move from to nc _ => nc = false /\ allowed from /\ allowed to /\ look f0 from = None /\ (look f to = None \/ look f from = Some false)
  | Remove _ _ | Cleanup _ _ _ => False
  end.
End Scripts.
