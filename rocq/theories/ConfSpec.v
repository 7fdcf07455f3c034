(* The rules of config.config.persist as documented in libbuild2/config/init.cxx:130-160 and
   other notions used in the statements. *)
From Verif Require Import Base ConfModel.

Inductive condition := CUnused | CInherited | CInheritedUsed | CInheritedUnused.
Definition condition_text (c : condition) : bytes :=
  match c with CUnused => b "unused" | CInherited => b "inherited" | CInheritedUsed => b "inherited-used" | CInheritedUnused => b "inherited-unused" end.
(* <condition>=<action>, (save|drop)[+warn] *)
Definition rule_text (c : condition) (save warn : bool) : bytes :=
  condition_text c ++ b "=" ++ (if save then b "save" else b "drop") ++ (if warn then b "+warn" else []).
Definition concerns (c : condition) (inherited unused : bool) : bool :=
  match c with
  | CUnused => unused && negb inherited
  | CInherited => inherited
  | CInheritedUsed => inherited && negb unused
  | CInheritedUnused => inherited && unused
  end.
(* The defaults. *)
Definition default (inherited unused : bool) : bool * bool :=
  match inherited, unused with
  | false, _ => (false, true)
  | true, true => (true, true)
  | true, false => (false, false)
  end.
(* A rule that does not apply: the name does not match or the condition does not hold. *)
Definition inapplicable (path_match : bytes -> bytes -> bool) (name : bytes) (inherited unused : bool) (r : bytes * bytes) : Prop :=
  path_match name (fst r) = false \/ exists c rest, snd r = condition_text c ++ b "=" ++ rest /\ concerns c inherited unused = false.

(* m is the name of the module for variable k: everything up to a dot (or all of it). *)
Definition encloses (m k : bytes) : Prop := m = k \/ m = [] \/ exists r, k = m ++ DOT :: r.

(* Variables that are never treated as unused: those of the config module itself and whatever turns
   development mode on. *)
Definition of_config (n : bytes) : Prop := In n [b "config.build.booted"; b "config.build.loaded"; b "config.build.configured"] \/ prefix (b "config.config.") n.
Definition of_develop (n : bytes) : Prop := exists m, n = b "config." ++ m ++ b ".develop".
(* The variables for disabling a module. *)
Definition of_configured (n : bytes) : Prop := exists m, m <> [] /\ n = m ++ b ".build.configured".

Section Uses.
Context {V N : Type}.
(* All the variables to be saved. *)
Definition all_saved (ms : list (smodule (V := V) (N := N))) : list bytes := flat_map (fun m => map (@svar V N) (svars m)) ms.
(* Making up the modules. *)
Inductive op := SaveModule (n : bytes) (p : Z) | SaveVariable (s : saved (V := V) (N := N)).
Definition run_op (ms : option (list smodule)) (o : op) : option (list smodule) :=
  match ms with
  | None => None
  | Some ms => match o with SaveModule n p => Some (save_module n p ms) | SaveVariable s => save_variable s ms end
  end.
Definition run (os : list op) : option (list smodule) := fold_left run_op os (Some []).
End Uses.
