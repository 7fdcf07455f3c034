(* What the theorems on tracking changes assume about what the recipe uses. *)
From Verif Require Import Base NameModel FlowModel TrackModel.

Definition no_nul (s : bytes) : Prop := ~ In NUL s.
(* A directory: empty, the root, or something followed by a separator. *)
Definition is_dir (d : bytes) : Prop := d = [] \/ d = b "/" \/ exists x, d = x ++ b "/" /\ x <> [] /\ x <> b "/".
(* A name with neither a project nor a pattern. A target type does not start with a control
   character. *)
Definition plain (n : name) : Prop :=
  proj n = None /\ pattern n = None /\ is_dir (dir n) /\ no_nul (dir n) /\ no_nul (type n) /\ no_nul (value n) /\
  forall c, In c ["001"; "002"; "003"]%char -> hd NUL (type n) <> c.
Definition plain_lookup (l : option val) : Prop := forall v ns, l = Some v -> vnames v = Some ns -> Forall plain ns.
Definition type_of (l : option val) : option nat := match l with Some v => vtype v | None => None end.

(* The values of the variables are plain and of the same types as before. *)
Definition values_ok (w1 w2 : world) (vars : list bytes) : Prop :=
  forall x, In x vars -> no_nul x /\ plain_lookup (w_var w1 x) /\ plain_lookup (w_var w2 x) /\ type_of (w_var w1 x) = type_of (w_var w2 x).
(* Buildfiles do not set special variables. *)
Definition no_special (w : world) : Prop := forall x, special x = true -> w_var w x = None.
(* All targets are path-based and the path says which target it is. *)
Definition targets_ok (ts1 ts2 : list tgt) : Prop :=
  (forall t, In t (ts1 ++ ts2) -> exists p, tpath t = Some p /\ no_nul p) /\
  forall t1 t2, In t1 ts1 -> In t2 ts2 -> tpath t1 = tpath t2 -> tnames t1 = tnames t2.
(* The same prerequisites are ad hoc as before, and none are update=unmatch. *)
Definition prereqs_ok (ps1 ps2 : list prereq) : Prop :=
  targets_ok (map ptgt ps1) (map ptgt ps2) /\ map pkind_of ps1 = map pkind_of ps2 /\
  forall p, In p ps1 -> pkind_of p = PNormal \/ pkind_of p = PAdhoc.

(* Names of functions are not computed. *)
Fixpoint static_calls (e : exp) : Prop :=
  match e with
  | Lit _ | Var _ => True
  | Computed e | Call _ e => static_calls e
  | CallComputed _ _ => False
  | Cond c a d => static_calls c /\ static_calls a /\ static_calls d
  | Or a d | And a d | Op _ a d => static_calls a /\ static_calls d
  end.
(* What is appended to is also expanded somewhere. *)
Definition line_ok (codes : nat -> code) (vars : list bytes) (l : line) : Prop :=
  let c := codes (snd l) in
  (has_exp (fst l) = true -> static_calls (c_exp c)) /\
  (fst l = LVar -> c_kind c = Assign \/ In (c_var c) vars \/ special (c_var c) = true).

(* What is hashed, so that a change can only be missed if two of these have the same
   checksum. *)
Definition hashed (text : bytes) (p : pre) (w : world) (ts : list tgt) (ps : list prereq) : list bytes :=
  [text; h_vars (w_var w) (p_vars p); flat_map h_target ts; h_prereqs ps].
Definition no_collision (H : bytes -> bytes) (xs ys : list bytes) : Prop := forall x y, In x xs -> In y ys -> H x = H y -> x = y.

(* A change that is missed: the same script without the depdb builtin, whatever the checksum
   function the same lines are saved, but it executes differently. *)
Definition missed (fs : functions) (sm : semantics) (codes : nat -> code) (is : list item) (w1 w2 : world) (ts1 ts2 : list tgt) (ps1 ps2 : list prereq) : Prop :=
  exists p, pre_parse fs codes is = Some p /\ p_clear p = false /\ p_preamble p = [] /\
    (forall H text, saved H text p (w_var w1) ts1 ps1 = saved H text p (w_var w2) ts2 ps2) /\
    exists steps tmp r1 r2, execute_body fs sm codes p w1 steps 1 (start tmp ts1 ps1) = Some r1 /\ execute_body fs sm codes p w2 steps 1 (start tmp ts2 ps2) = Some r2 /\ r1 <> r2.
