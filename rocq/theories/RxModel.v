(* Model of pattern rules: libbuild2/adhoc-rule-regex-pattern.cxx: the constructor 14-128, match () 130-301, substitute () 303-321,
   apply_group_members () 323-440 (for ad hoc groups), apply_prerequisites () 442-512; target_key::effective_name () of libbuild2/target.ixx 15-55;
   find_adhoc_member () of libbuild2/algorithm.ixx 388-394; delimiters and flags as in parser::parse_names () of libbuild2/parser.cxx 9254-9389.

   Regular expressions are those of std::regex (ECMAScript) without assertions, lazy and bounded quantifiers, escapes in brackets and named
   classes: None if there are any of these, as if invalid. Which one of the possible matches is found is not modelled.
   This part (tokens, parse, ma) is of the standard library rather than of the code, and RxSpec.v uses it too. *)
From Verif Require Import Base ImpModel.

(* Characters to tokens. *)
Inductive tok := TLit (c : ascii) | TSet (f : ascii -> bool) | TRef (n : nat) | TQuant (lo hi : bool) | TOpen (capture : bool) | TBar | TClose.
Inductive lst := Norm | Esc | Num (n : nat) | Par | Que | Set0 | SetIn (neg : bool) (f : ascii -> bool) (last : option ascii) | SetTo (neg : bool) (f : ascii -> bool) (from : ascii).
Definition digit (c : ascii) : bool := (48 <=? nat_of_ascii c) && (nat_of_ascii c <=? 57).
Definition upper (c : ascii) : bool := (65 <=? nat_of_ascii c) && (nat_of_ascii c <=? 90).
Definition lower (c : ascii) : bool := (97 <=? nat_of_ascii c) && (nat_of_ascii c <=? 122).
Definition word (c : ascii) : bool := digit c || upper c || lower c || ceqb c "_".
Definition space (c : ascii) : bool := ceqb c SP || ceqb c TAB || (10 <=? nat_of_ascii c) && (nat_of_ascii c <=? 13).
Definition dot (c : ascii) : bool := negb (ceqb c NL) && negb (nat_of_ascii c =? 13).
(* In Norm; the tokens and the next state. *)
Definition lex_norm (c : ascii) : option (list tok * lst) :=
  if ceqb c "\" then Some ([], Esc)
  else if ceqb c "." then Some ([TSet dot], Norm)
  else if ceqb c "*" then Some ([TQuant false true], Norm)
  else if ceqb c "+" then Some ([TQuant true true], Norm)
  else if ceqb c "?" then Some ([TQuant false false], Norm)
  else if ceqb c "(" then Some ([], Par)
  else if ceqb c ")" then Some ([TClose], Norm)
  else if ceqb c "|" then Some ([TBar], Norm)
  else if ceqb c "[" then Some ([], Set0)
  else if ceqb c "{" || ceqb c "}" || ceqb c "]" || ceqb c "^" || ceqb c "$" then None
  else Some ([TLit c], Norm).
Definition in_set (neg : bool) (f : ascii -> bool) (last : option ascii) (c : ascii) : option (list tok * lst) :=
  let add := fun x => f x || match last with Some l => ceqb x l | None => false end in
  if ceqb c "]" then Some ([TSet (fun x => xorb neg (add x))], Norm)
  else if ceqb c "\" || ceqb c "[" then None
  else if ceqb c "-" then match last with Some l => Some ([], SetTo neg f l) | None => Some ([], SetIn neg add (Some c)) end
  else Some ([], SetIn neg add (Some c)).
Definition lex_step (s : lst) (c : ascii) : option (list tok * lst) :=
  match s with
  | Norm => lex_norm c
  | Esc =>
    if ceqb c "0" then None
    else if digit c then Some ([], Num (nat_of_ascii c - 48))
    else if ceqb c "d" then Some ([TSet digit], Norm)
    else if ceqb c "w" then Some ([TSet word], Norm)
    else if ceqb c "s" then Some ([TSet space], Norm)
    else if word c then None
    else Some ([TLit c], Norm)
  | Num n =>
    if digit c then Some ([], Num (n * 10 + (nat_of_ascii c - 48)))
    else match lex_norm c with Some (ts, s) => Some (TRef n :: ts, s) | None => None end
  | Par => if ceqb c "?" then Some ([], Que) else match lex_norm c with Some (ts, s) => Some (TOpen true :: ts, s) | None => None end
  | Que => if ceqb c ":" then Some ([TOpen false], Norm) else None
  | Set0 => if ceqb c "^" then Some ([], SetIn true (fun _ => false) None) else in_set false (fun _ => false) None c
  | SetIn neg f last => in_set neg f last c
  | SetTo neg f l =>
    if ceqb c "]" then Some ([TSet (fun x => xorb neg (f x || ceqb x l || ceqb x "-"))], Norm)
    else if ceqb c "\" || ceqb c "[" then None
    else Some ([], SetIn neg (fun x => f x || (nat_of_ascii l <=? nat_of_ascii x) && (nat_of_ascii x <=? nat_of_ascii c)) None)
  end.
Fixpoint lex (s : lst) (t : bytes) : option (list tok * lst) :=
  match t with
  | [] => Some ([], s)
  | c :: t => match lex_step s c with Some (a, s) => match lex s t with Some (r, s) => Some (a ++ r, s) | None => None end | None => None end
  end.
Definition tokens (t : bytes) : option (list tok) :=
  match lex Norm t with Some (a, Norm) => Some a | Some (a, Num n) => Some (a ++ [TRef n]) | _ => None end.

(* Tokens to expressions: groups being read, innermost first, each with alternatives before and the current one, last first. *)
Inductive re := Lit (c : ascii) | Cls (f : ascii -> bool) | Ref (n : nat) | Grp (n : option nat) (alts : list (list re)) | Rep (lo hi : bool) (r : re).
Definition frame := (option nat * list (list re) * list re)%type.
Definition pst := (list frame * nat)%type.               (* and the number of groups *)
Definition push (s : pst) (r : re) : option pst := match s with ((k, d, c) :: fs, n) => Some ((k, d, r :: c) :: fs, n) | _ => None end.
Definition not_open (n : nat) (fs : list frame) : bool := forallb (fun f : frame => match fst (fst f) with Some k => negb (k =? n) | None => true end) fs.
Definition parse_step (s : pst) (t : tok) : option pst :=
  match t with
  | TLit c => push s (Lit c)
  | TSet f => push s (Cls f)
  | TRef n => if (n <=? snd s) && not_open n (fst s) then push s (Ref n) else None
  | TQuant lo hi =>
    match s with
    | ((k, d, r :: c) :: fs, n) => match r with Rep _ _ _ => None | _ => Some ((k, d, Rep lo hi r :: c) :: fs, n) end
    | _ => None
    end
  | TOpen true => Some ((Some (S (snd s)), [], []) :: fst s, S (snd s))
  | TOpen false => Some ((None, [], []) :: fst s, snd s)
  | TBar => match s with ((k, d, c) :: fs, n) => Some ((k, rev c :: d, []) :: fs, n) | _ => None end
  | TClose => match s with ((k, d, c) :: f :: fs, n) => push (f :: fs, n) (Grp k (rev (rev c :: d))) | _ => None end
  end.
Fixpoint parse_all (s : pst) (ts : list tok) : option pst :=
  match ts with [] => Some s | t :: ts => match parse_step s t with Some s => parse_all s ts | None => None end end.
(* n: groups before. The alternatives and the number of groups after. A reference is to a group before that is not being read. *)
Definition parse (n : nat) (t : bytes) : option (list (list re) * nat) :=
  match tokens t with
  | None => None
  | Some ts => match parse_all ([(None, [], [])], n) ts with Some ([(_, d, c)], m) => Some (rev (rev c :: d), m) | _ => None end
  end.

(* Matching. *)
Definition env := nat -> bytes.
Definition set (e : env) (n : nat) (w : bytes) : env := fun k => if k =? n then w else e k.
Definition low (c : ascii) : ascii := if upper c then ascii_of_nat (nat_of_ascii c + 32) else c.
Section Match.
Context (icase : bool).
Definition same (x y : ascii) : bool := ceqb x y || icase && ceqb (low x) (low y).
Inductive m1 : re -> env -> bytes -> env -> Prop :=
| m_lit c x e : same x c = true -> m1 (Lit c) e [x] e
| m_cls f x y e : f y = true -> same x y = true -> m1 (Cls f) e [x] e
| m_ref n e w : length w = length (e n) -> (forall i, same (nth i w SP) (nth i (e n) SP) = true) -> m1 (Ref n) e w e
| m_grp n alts e w e' : ma alts e w e' -> m1 (Grp (Some n) alts) e w (set e' n w)
| m_non alts e w e' : ma alts e w e' -> m1 (Grp None alts) e w e'
| m_zero hi r e : m1 (Rep false hi r) e [] e
| m_once lo hi r e w e' : m1 r e w e' -> m1 (Rep lo hi r) e w e'
| m_more lo r e w e1 w' e2 : m1 r e w e1 -> m1 (Rep lo true r) e1 w' e2 -> m1 (Rep lo true r) e (w ++ w') e2
with ms : list re -> env -> bytes -> env -> Prop :=
| ms_nil e : ms [] e [] e
| ms_cons r rs e w e1 w' e2 : m1 r e w e1 -> ms rs e1 w' e2 -> ms (r :: rs) e (w ++ w') e2
with ma : list (list re) -> env -> bytes -> env -> Prop :=
| ma_in s alts e w e' : In s alts -> ms s e w e' -> ma alts e w e'.
End Match.

(* 36-128: the expression (between the delimiter that is the first character and the last one), and flags. *)
Definition SL : ascii := "/".
Fixpoint rfind (d : ascii) (t : bytes) : option (bytes * bytes) :=
  match t with
  | [] => None
  | c :: t => match rfind d t with Some (a, z) => Some (c :: a, z) | None => if ceqb c d then Some ([], t) else None end
  end.
Definition split (v : bytes) : option (bytes * bytes) := match v with d :: t => rfind d t | [] => None end.
Definition has (c : ascii) (fl : bytes) : bool := existsb (ceqb c) fl.
Inductive kind := Pattern (v : bytes) | Subst (dir : list bytes) (v : bytes) | Plain (n : nat).
Record element := mkel { e_kind : kind; e_type : nat }.
Definition patterns (es : list element) : list (bytes * nat) := flat_map (fun e => match e_kind e with Pattern v => [(v, e_type e)] | _ => [] end) es.
Fixpoint join (l : list bytes) : bytes := match l with [] => [] | [x] => x | x :: l => x ++ SL :: join l end.
(* The text and whether to ignore case, of values of patterns. None: it fails. *)
Fixpoint texts (first : bool) (ic : bool) (vs : list bytes) : option (list bytes * bool) :=
  match vs with
  | [] => Some ([], ic)
  | v :: vs =>
    match split v with
    | None => None
    | Some (t, fl) =>
      let fi := has "i" fl in
      if first then match texts false fi vs with Some (l, ic) => Some (t :: l, ic) | None => None end
      else if Bool.eqb ic fi then match texts false ic vs with Some (l, ic) => Some (t :: l, ic) | None => None end
      else None
    end
  end.
Record rule := mkrule { r_text : bytes; r_re : list (list re); r_icase : bool; r_targets : list element; r_prereqs : list element }.
Definition make (targets prereqs : list element) : option rule :=
  match texts true false (map fst (patterns targets ++ patterns prereqs)) with
  | None => None
  | Some (l, ic) => match parse 0 (join l) with Some (a, _) => Some (mkrule (join l) a ic targets prereqs) | None => None end
  end.

(* Targets. *)
Section Target.
Context (is_a : nat -> nat -> bool) (is_dir ext_explicit : nat -> bool).     (* ext_explicit: fixed_extension is none or must *)
Record key := mkkey { k_type : nat; k_leaf : bytes; k_name : bytes; k_ext : option bytes }.
Definition is_nil (l : bytes) : bool := match l with [] => true | _ => false end.
(* target.ixx 15-55 *)
Definition effective_name (k : key) (force : bool) : bytes :=
  if is_nil (k_name k) && is_dir (k_type k) then k_leaf k
  else match k_ext k with
       | Some x => if negb (is_nil x) && (force || ext_explicit (k_type k)) then k_name k ++ "."%char :: x else k_name k
       | None => k_name k
       end.
(* The target, its ad hoc members and its prerequisites with whether they are normal. *)
Record target := mktarget { t_key : key; t_members : list key; t_prereqs : list (key * bool) }.
Definition find_member (t : target) (ty : nat) : option key := find (fun k => is_a (k_type k) ty) (t_members t).
Definition find_prereq (t : target) (ty : nat) : option key := match find (fun p => snd p && is_a (k_type (fst p)) ty) (t_prereqs t) with Some p => Some (fst p) | None => None end.
Definition force (v : bytes) : bool := match split v with Some (_, fl) => has "e" fl | None => false end.
Fixpoint names_of (f : nat -> option key) (ps : list (bytes * nat)) : option (list bytes) :=
  match ps with
  | [] => Some []
  | (v, ty) :: ps => match f ty, names_of f ps with Some k, Some l => Some (effective_name k (force v) :: l) | _, _ => None end
  end.
(* 130-301: the name signature, or None if there is something missing. *)
Definition signature (r : rule) (t : target) : option bytes :=
  match patterns (r_targets r) with
  | [] => None
  | (v, _) :: ts =>
    match names_of (find_prereq t) (firstn 1 (patterns (r_prereqs r))), names_of (find_member t) ts, names_of (find_prereq t) (patterns (r_prereqs r)) with
    | Some _, Some a, Some p => Some (join (effective_name (t_key t) (force v) :: a ++ p))
    | _, _, _ => None
    end
  end.
Definition matches (r : rule) (t : target) (e : env) : Prop := exists s, signature r t = Some s /\ ma (r_icase r) (r_re r) (fun _ => []) s e.
End Target.

(* 303-321. replace: regex_replace_match_results () of libbutl. None: it fails. *)
Section Apply.
Context (replace : env -> bytes -> bytes).
Definition substitute (e : env) (v : bytes) : option bytes :=
  match split v with Some (f, _) => let r := replace e f in if is_nil r then None else Some r | None => None end.
(* dir_path::normalize () of libbutl for absolute ones. *)
Fixpoint norm (acc p : list bytes) : option (list bytes) :=
  match p with
  | [] => Some (rev acc)
  | n :: p => if beqb n (b ".") then norm acc p else if beqb n (b "..") then match acc with [] => None | _ :: acc => norm acc p end else norm (n :: acc) p
  end.
(* 323-440: type, directory and name of members that are added. Directories are relative to that of the target. *)
Fixpoint members (e : env) (dir : list bytes) (es : list element) : option (list (nat * list bytes * bytes)) :=
  match es with
  | [] => Some []
  | x :: es =>
    match e_kind x with
    | Subst d v =>
      match (match d with [] => Some dir | _ => norm [] (dir ++ d) end), substitute e v, members e dir es with
      | Some d, Some n, Some l => Some ((e_type x, d, n) :: l)
      | _, _, _ => None
      end
    | _ => members e dir es
    end
  end.
(* 442-512: prerequisite targets, those of patterns already there. search for a substitution and for one that is not. *)
Context (search_subst : nat -> list bytes -> bytes -> nat) (search_plain : nat -> nat -> nat) (in_root : nat -> bool).
Fixpoint prerequisites (e : env) (clean : bool) (fsdir : option nat) (es : list element) : option (list nat) :=
  match es with
  | [] => Some []
  | x :: es =>
    match (match e_kind x with
           | Pattern _ => Some None
           | Subst d v => match substitute e v with Some n => Some (Some (search_subst (e_type x) d n)) | None => None end
           | Plain n => Some (Some (search_plain (e_type x) n))
           end), prerequisites e clean fsdir es with
    | Some None, Some l => Some l
    | Some (Some p), Some l => Some (if match fsdir with Some d => d =? p | None => false end || clean && negb (in_root p) then l else p :: l)
    | _, _ => None
    end
  end.
End Apply.
