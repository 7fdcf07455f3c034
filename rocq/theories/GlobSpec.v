(* Specification of name patterns: what they stand for, independently of how the result is accumulated, how patterns are
   amended and how the amendment is reversed. *)
From Coq Require Import Sorting.Sorted.
From Verif Require Import Base SplitModel SplitSpec GlobModel.

(* What patterns do with the set of names: add those that are found (in this order) and remove those that are excluded. *)
Inductive action := Add (f : list bytes) | Remove (q : bytes -> Prop).
(* Added and not removed after that. *)
Definition kept_after (acts : list action) (x : bytes) : Prop := forall q, In (Remove q) acts -> ~ q x.
Definition present (acts : list action) (x : bytes) : Prop :=
  exists l1 f l2, acts = l1 ++ Add f :: l2 /\ In x f /\ kept_after l2 x.
(* Is there since it has been added by this one. *)
Definition since (acts : list action) (i : nat) (x : bytes) : Prop :=
  exists f, nth_error acts i = Some (Add f) /\ In x f /\ ~ present (firstn i acts) x /\ kept_after (skipn (S i) acts) x.
Definition occurs_first (f : list bytes) (x y : bytes) : Prop := exists l1 l2, f = l1 ++ x :: l2 /\ ~ In y l1 /\ x <> y.
Definition earlier (acts : list action) (x y : bytes) : Prop :=
  exists i j, since acts i x /\ since acts j y /\ (i < j \/ i = j /\ exists f, nth_error acts i = Some (Add f) /\ occurs_first f x y).

(* The directory slash. *)
Definition ends_with_slash (v : bytes) : Prop := exists u, v = u ++ ["/"%char].
(* The file: an empty extension is no extension. *)
Definition file_with (v : bytes) (e : option bytes) : bytes := match e with Some (c :: x) => v ++ "."%char :: c :: x | _ => v end.
(* Called so, in some directory. *)
Definition called (name v : bytes) : Prop := exists d, directory_part d /\ v = d ++ name.
Definition or_else (e d : option bytes) : option bytes := match e with Some _ => e | None => d end.

(* default: the extension that files with this name (of this target type) have if it is not specified. *)
Section Names.
Context (k : kind) (default : bytes -> option bytes).
(* What a resulting name denotes. *)
Definition denotes (dir : bool) (n f : bytes) : Prop :=
  if dir then f = match k with Dirs => if last_is is_sep n then n else n ++ ["/"%char] | _ => n end
  else exists v e, split_name n = Split v e /\ f = file_with v (or_else e (default v)).
(* What a pattern is matched against: the path and the extension. *)
Definition addresses (v p : bytes) (e : option bytes) : Prop :=
  match k with
  | Dirs => e = None /\ (ends_with_slash v /\ p = v \/ ~ ends_with_slash v /\ p = v ++ ["/"%char])
  | Untyped => ends_with_slash v /\ e = None /\ p = v \/ ~ ends_with_slash v /\ exists u, split_name v = Split u e /\ p = file_with u e
  | _ => exists u e0, split_name v = Split u e0 /\ e = or_else e0 (default u) /\ p = file_with u e
  end.
Definition consistent : Prop :=
  match k with
  | Untyped => forall v, default v = None
  | Dirs => True
  | Ext x => (forall v, default v = x) /\ forall y, x = Some y -> no_slash y
  | Special name x => (forall v, called name v -> default v = None) /\ (forall v, ~ called name v -> default v = Some x) /\ no_slash x /\ no_slash name /\ name <> []
  end.
(* An invalid pattern. *)
Definition malformed (is_pattern : bytes -> bool) (v : bytes) : Prop :=
  v = [] \/ (forall p e, ~ addresses v p e) \/ exists p x, addresses v p (Some x) /\ x <> [] /\ is_pattern x = true.
(* A pattern for directories. *)
Definition dir_pattern (v : bytes) : Prop := k = Dirs \/ k = Untyped /\ ends_with_slash v.
(* The first one decides whether these are files or directories. *)
Definition invalid (is_pattern : bytes -> bool) (is : list item) : Prop :=
  (exists s v, In (s, v) is /\ malformed is_pattern v) \/
  (exists s1 v1 rest s v, is = (s1, v1) :: rest /\ In (s, v) rest /\ ~ (dir_pattern v1 <-> dir_pattern v)).
End Names.

(* Those that satisfy, in the same order. *)
Inductive picks {A} (P : A -> Prop) : list A -> list A -> Prop :=
| picks_nil : picks P [] []
| picks_take x l m : P x -> picks P l m -> picks P (x :: l) (x :: m)
| picks_drop x l m : ~ P x -> picks P l m -> picks P (x :: l) m.

Section Actions.
Context (search : bytes -> list hit) (is_pattern : bytes -> bool) (matches : bytes -> bytes -> bool)
        (buildignore : bytes -> bool) (has_ext : bytes -> bool).
(* Hidden: what starts with a dot unless the pattern does and directories with .buildignore in them. *)
Definition hidden (m p : bytes) : Prop :=
  (exists s, no_slash s /\ (called ("."%char :: s) m \/ called ("."%char :: s ++ ["/"%char]) m)) /\ ~ starts_with_dot p \/ ends_with_slash m /\ buildignore m = true.
Definition visible (e : option bytes) (h : hit) : Prop :=
  (forall m p, In (m, p) (between h) -> ~ hidden m p) /\ ~ hidden (found h) (component h) /\ (e = Some [] -> has_ext (found h) = false).
Definition asks (k : kind) (default : bytes -> option bytes) (include : bool) (v : bytes) (a : action) : Prop :=
  exists p e, addresses k default v p e /\
    if include then exists hs, picks (visible e) (search p) hs /\ a = Add (map found hs)
    else a = Remove (fun x => if is_pattern p then matches x p = true else x = p).
(* The first one includes. *)
Inductive all_ask (k : kind) (default : bytes -> option bytes) : bool -> list item -> list action -> Prop :=
| ask_end first : all_ask k default first [] []
| ask_more (first s : bool) v is a acts : asks k default (first || s) v a -> all_ask k default false is acts ->
    all_ask k default first ((s, v) :: is) (a :: acts).

(* The result. *)
Definition lists (acts : list action) (fs : list bytes) : Prop :=
  (forall x, In x fs <-> present acts x) /\ NoDup fs /\ StronglySorted (earlier acts) fs.

(* What is expected of searching: the literal extension is there, directories are found for directory patterns and only for
   them, and something that is not a pattern is found as is. *)
Definition sound_search : Prop := forall p h, In h (search p) ->
  (ends_with_slash p <-> ends_with_slash (found h)) /\ (forall u, found h <> u ++ b "//") /\ (is_pattern p = false -> found h = p) /\
  (forall u x, p = u ++ "."%char :: x -> no_slash x -> is_pattern x = false -> exists w, found h = w ++ "."%char :: x).
(* What is expected of names of files that are found: that there is a name without the extension and that it does not end
   with a dot. *)
Definition nameable (w : bytes) (e : option bytes) : Prop :=
  exists d l, w = d ++ l /\ directory_part d /\ no_slash l /\ ~ only_dots l /\
    (ends_with_dot l -> match e with Some (_ :: _) => False | _ => ~ lone_dot_inside l end).
Definition nameable_files (k : kind) (default : bytes -> option bytes) (is : list item) : Prop := forall s v p e h w,
  In (s, v) is -> addresses k default v p e -> ~ ends_with_slash p -> In h (search p) -> found h = file_with w e -> nameable w e /\
  match k with Special name _ => forall u, split_name v = Split u None -> ~ called name u -> ~ called name w | _ => True end.
(* The special name is not used in other directories. *)
Definition plain_special (k : kind) (is : list item) : Prop :=
  match k with
  | Special name _ => is_pattern name = false /\ forall s v u, In (s, v) is -> split_name v = Split u None -> called name u -> u = name
  | _ => True
  end.
End Actions.

Section Expansion.
Context (search : bytes -> list hit) (recursions : bytes -> nat) (is_pattern : bytes -> bool) (matches : bytes -> bytes -> bool)
        (buildignore : bytes -> bool) (has_ext : bytes -> bool).
(* Names that denote what patterns list, or diagnostics if they are invalid. *)
Definition as_specified (k : kind) (default : bytes -> option bytes) (is : list item) (r : expansion) : Prop :=
  match r with
  | Names dir ns => ~ invalid k default is_pattern is /\ (forall s v, In (s, v) is -> dir_pattern k v <-> dir = true) /\
      exists acts fs, all_ask search is_pattern matches buildignore has_ext k default true is acts /\ lists acts fs /\ Forall2 (denotes k default dir) ns fs
  | Invalid => invalid k default is_pattern is
  | Assertion => False
  end.
(* Without more than one recursive wildcard nothing is found twice. *)
Definition found_once : Prop := forall p, recursions p <= 1 -> NoDup (map found (search p)).
End Expansion.
