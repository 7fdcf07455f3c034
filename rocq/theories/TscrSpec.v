(* How testscripts are executed one scope after another, without stopping on failures. *)
From Verif Require Import Base TscrModel.

Section Run.
Context (enters leaves : path -> bool) (run : nat -> outcome) (holds : nat -> check) (selected : path -> bool).

(* A scope with nothing in it is not executed, except for a group with a condition. *)
Fixpoint bare (c : cond) (s : scope) : bool :=
  match s with
  | Test l => none l
  | Group su cs td => negb (conditional c) && none su && none td && bare_chains cs
  end
with bare_chains (cs : chains) : bool :=
  match cs with CNil => true | CCons _ bs r => bare_branches bs && bare_chains r end
with bare_branches (bs : branches) : bool :=
  match bs with BNil => true | BCons c s r => negb (conditional c) && bare c s && bare_branches r end.

(* Lines are executed and are successful if there are none, they all are or there is an exit. *)
Definition lines (p : path) (c : command) (l : option nat) : list event * bool :=
  match l with None => ([], true) | Some k => ([Run p c k], match run k with Failure => false | _ => true end) end.
(* One after another, if what is before was successful. *)
Definition andthen (x y : list event * bool) : list event * bool := if snd x then (fst x ++ fst y, snd y) else x.
(* One after another; both have to be successful. *)
Definition both (x y : list event * bool) : list event * bool := (fst x ++ fst y, snd x && snd y).
Definition entered (p : path) (x : list event * bool) : list event * bool := andthen ([Enter p], enters p) (andthen x ([Leave p], leaves p)).
Definition exits (l : option nat) : bool := match l with Some k => match run k with ExitScript => true | _ => false end | None => false end.

(* In a chain, the first scope whose condition holds is executed. *)
Inductive choice := Chosen (x : list event * bool) | Nothing | Exited | Failed.
Fixpoint serial (p : path) (s : scope) : list event * bool :=
  match s with
  | Test l => entered p (lines p TestLines l)
  | Group su cs td =>
      entered p (andthen (lines p SetupLines su)
                (andthen (if exits su then ([], true) else inner p cs) (lines p TeardownLines td)))
  end
with inner (p : path) (cs : chains) : list event * bool :=
  match cs with
  | CNil => ([], true)
  | CCons id bs r =>
      if selected (p ++ [id]) then
        match choose p (p ++ [id]) bs with
        | (es, Chosen x) => both (both (es, true) x) (inner p r)
        | (es, Nothing) => both (es, true) (inner p r)
        | (es, Exited) => (es, true)
        | (es, Failed) => (es, false)
        end
      else inner p r
  end
with choose (p q : path) (bs : branches) : list event * choice :=
  match bs with
  | BNil => ([], Nothing)
  | BCons c s r =>
      let taken := if bare c s then Nothing else Chosen (serial q s) in
      match c with
      | Always | Else => ([], taken)
      | If negated k =>
          match holds k with
          | CheckExit => ([Check p k], Exited)
          | CheckFailure => ([Check p k], Failed)
          | h => if xorb negated (match h with Yes => true | _ => false end) then ([Check p k], taken)
                 else let x := choose p q r in (Check p k :: fst x, snd x)
          end
      end
  end.
Definition serial_script (s : scope) : list event * bool := if bare Always s then ([], true) else serial [] s.
End Run.

(* No test block that is the first branch of a chain with conditions is empty. *)
Definition Sound_first (bs : branches) : Prop :=
  match bs with
  | BNil => True
  | BCons Always _ r => r = BNil       (* parser.cxx 2775: a scope without a condition is the only one. *)
  | BCons _ (Test None) _ => False
  | BCons _ _ _ => True
  end.
Fixpoint Sound (s : scope) : Prop :=
  match s with Test _ => True | Group _ cs _ => Sound_chains cs end
with Sound_chains (cs : chains) : Prop :=
  match cs with CNil => True | CCons _ bs r => Sound_first bs /\ Sound_branches bs /\ Sound_chains r end
with Sound_branches (bs : branches) : Prop :=
  match bs with BNil => True | BCons _ s r => Sound s /\ Sound_branches r end.

(* Scopes of a group have different ids. *)
Fixpoint ids (cs : chains) : list bytes := match cs with CNil => [] | CCons id _ r => id :: ids r end.
Fixpoint Unique (s : scope) : Prop :=
  match s with Test _ => True | Group _ cs _ => NoDup (ids cs) /\ Unique_chains cs end
with Unique_chains (cs : chains) : Prop := match cs with CNil => True | CCons _ bs r => Unique_branches bs /\ Unique_chains r end
with Unique_branches (bs : branches) : Prop := match bs with BNil => True | BCons _ s r => Unique s /\ Unique_branches r end.

(* What must not be before what: a scope is entered before everything in it and left after everything in it, setup is before and
   teardown after everything in the group. *)
Definition where_ (e : event) : path := match e with Enter p | Run p _ _ | Check p _ | Leave p => p end.
Definition Inside (p : path) (e : event) : Prop := (prefix p (where_ e) /\ p <> where_ e) \/ exists k, e = Check p k.
Inductive Before : event -> event -> Prop :=
| B_enter p e : prefix p (where_ e) -> e <> Enter p -> Before (Enter p) e
| B_leave p e : prefix p (where_ e) -> e <> Leave p -> Before e (Leave p)
| B_setup p k e : Inside p e -> Before (Run p SetupLines k) e
| B_teardown p k e : Inside p e -> Before e (Run p TeardownLines k)
| B_group p k j : Before (Run p SetupLines k) (Run p TeardownLines j).
(* No event comes after one that it must be before. *)
Definition InOrder (es : list event) : Prop := forall l e m f r, es = l ++ e :: m ++ f :: r -> ~ Before f e.
