(* Model of tracking changes of ad hoc recipes: what is saved in the dependency database
   (libbuild2/adhoc-rule-buildscript.cxx), which variables are collected when a buildscript
   is pre-parsed, and how it looks variables up when executed
   (libbuild2/build/script/parser.cxx, script.cxx).

   The syntax of expressions and lines is abstract, see exp and code. Flow control is that of
   FlowModel.v. The dependency database itself is modelled in DepdbModel.v, updating with
   it in GraphModel.v. Not modelled: groups and dynamic dependencies, deducing the
   diagnostics name (the diag attribute is specified), the diag builtin, checksums of programs
   and environments. *)
From Verif Require Import Base NameModel FlowModel.

(* Checksums. What is appended to a checksum is modelled as a string of bytes; strings are
   appended with the terminating '\0' (libbutl xxh64::append ()). *)
Definition h_string (s : bytes) : bytes := s ++ [NUL].
(* dir_path::string (): without the trailing separator except for the root. *)
Definition dir_string (d : bytes) : bytes := if beqb d (b "/") then d else removelast d.
Definition pattern_byte (p : ptype) : ascii := match p with PPath => "000"%char | PRegex => "001"%char | PSubst => "002"%char end.
(* to_checksum (), name.hxx:163-175 *)
Definition h_name (n : name) : bytes :=
  match proj n with Some p => h_string p | None => [] end ++ h_string (dir_string (dir n)) ++ h_string (type n) ++ h_string (value n) ++ [pair n] ++
  match pattern n with Some p => [pattern_byte p] | None => [] end.

(* A value: its type, if any, and the names it is reversed to (see TypedModel.v); None is
   null. *)
Record val := mkval { vtype : option nat; vnames : option (list name) }.
Definition null : val := mkval None None.
Definition untyped (ns : list name) : val := mkval None (Some ns).
(* A lookup, None if undefined. hash_script_vars (), adhoc-rule-buildscript.cxx:29-58 *)
Definition h_lookup (l : option val) : bytes :=
  match l with
  | None => ["001"%char]
  | Some v => match vnames v with None => ["002"%char] | Some ns => "003"%char :: flat_map h_name ns end
  end.
Definition h_vars (w : bytes -> option val) (vars : list bytes) : bytes := flat_map (fun x => h_string x ++ h_lookup (w x)) vars.

(* A target: what as_name () returns and its path, if path-based. hash_target (), 68-80 *)
Record tgt := mktgt { tnames : list name; tpath : option bytes }.
Definition h_target (t : tgt) : bytes := match tpath t with Some p => h_string p | None => flat_map h_name (tnames t) end.
(* A prerequisite: normal, ad hoc, update=unmatch and both. *)
Inductive pkind := PNormal | PAdhoc | PUnmatch | PUnmatchAdhoc.
Record prereq := mkprereq { pkind_of : pkind; ptgt : tgt }.
(* 1841-1860 and 998-1015 *)
Definition h_prereqs (ps : list prereq) : bytes :=
  flat_map (fun p => match pkind_of p with PNormal | PAdhoc => h_target (ptgt p) | _ => [] end) ps.

(* $> and $<, environment::set_special_variables (), script.cxx:59-120 *)
Definition targets_var (ts : list tgt) : val := untyped (flat_map tnames ts).
Definition prereqs_var (ps : list prereq) : val :=
  untyped (flat_map (fun p => match pkind_of p with PNormal | PUnmatch => tnames (ptgt p) | _ => [] end) ps).

(* Expressions: $x, $(...) with a computed name, $f(...), $(...)(...), evaluation contexts
   with short circuit (parser.cxx:7325-7470), and other operators, concatenation, lists, etc. *)
Inductive exp :=
| Lit (v : val) | Var (x : bytes) | Computed (e : exp)
| Call (f : bytes) (a : exp) | CallComputed (e a : exp)
| Cond (c a d : exp) | Or (a d : exp) | And (a d : exp) | Op (o : nat) (a d : exp).
(* The tokens of a line: the variable and the kind of an assignment, for-loop variable; the
   value or the command line; the variable if it ends with the set builtin. *)
Inductive akind := Assign | Append | Prepend.
Record code := mkcode { c_var : bytes; c_kind : akind; c_exp : exp; c_set : option bytes }.

(* The functions, whether they are pure. *)
Record functions := mkfns { f_find : bytes -> option bool }.

(* parser::special_variable (), parser.cxx:3684-3688 *)
Definition special (x : bytes) : bool := beqb x (b ">") || beqb x (b "<") || beqb x (b "~").

(* Pre-parsing, for perform(update) of a file-based target. *)
Inductive pline := PLines (ls : list line) | PDepdb (k : nat) (e : exp).
Record pre := mkpre { p_vars : list bytes; p_impure : bool; p_computed : bool; p_clear : bool; p_value : bool; p_preamble : list pline; p_body : list line }.
Definition p_start : pre := mkpre [] false false false false [] [].
Definition mem (x : bytes) (l : list bytes) : bool := existsb (beqb x) l.
(* lookup_variable (), 3711-3764: a computed name is passed as an empty one. *)
Definition see_var (x : bytes) (p : pre) : pre :=
  if special x then p
  else if is_empty x then mkpre (p_vars p) (p_impure p) true (p_clear p) (p_value p) (p_preamble p) (p_body p)
  else if p_clear p || mem x (p_vars p) then p
  else mkpre (p_vars p ++ [x]) (p_impure p) (p_computed p) (p_clear p) (p_value p) (p_preamble p) (p_body p).
(* lookup_function (), 3801-3814 *)
Definition see_call (fs : functions) (f : bytes) (p : pre) : pre :=
  match f_find fs f with
  | Some false => mkpre (p_vars p) true (p_computed p) (p_clear p) (p_value p) (p_preamble p) (p_body p)
  | _ => p
  end.
(* parse_names () in the pre-parse mode, parser.cxx:9576-9744: all is parsed. *)
Fixpoint see (fs : functions) (e : exp) (p : pre) : pre :=
  match e with
  | Lit _ => p
  | Var x => see_var x p
  | Computed e => see_var [] (see fs e p)
  | Call f a => see_call fs f (see fs a p)
  | CallComputed e a => see_call fs [] (see fs a (see fs e p))
  | Cond c a d => see fs d (see fs a (see fs c p))
  | Or a d | And a d | Op _ a d => see fs d (see fs a p)
  end.
(* Top-level lines of a script: a line with the whole construct that it starts, or the depdb
   builtin. k is the first letter of hash, string or env. *)
Inductive item := Lines (ls : list line) | DepdbClear | Depdb (k : nat) (e : exp).
Definition has_exp (t : ltype) : bool := match t with LElse | LContinue | LBreak | LEnd => false | _ => true end.
Definition see_line (fs : functions) (codes : nat -> code) (p : pre) (l : line) : pre := if has_exp (fst l) then see fs (c_exp (codes (snd l))) p else p.
Definition K_HASH := 0. Definition K_STRING := 1. Definition K_ENV := 2.
(* pre_parse_line (), 252-560, and parse_program (), 1018-1190 *)
Definition see_item (fs : functions) (codes : nat -> code) (p : pre) (i : item) : option pre :=
  match i with
  | Lines ls =>
      let p := fold_left (see_line fs codes) ls p in
      Some (mkpre (p_vars p) (p_impure p) (p_computed p) (p_clear p) (p_value p) (p_preamble p) (p_body p ++ ls))
  | DepdbClear =>
      if p_clear p then None
      else match p_preamble p with
           | [] => Some (mkpre [] (p_impure p) (p_computed p) true (p_value p) [] (p_body p))
           | _ => None
           end
  | Depdb k e =>
      Some (see fs e (mkpre (p_vars p) false false (p_clear p) (p_value p || (k <? K_ENV)) (p_preamble p ++ [PLines (p_body p); PDepdb k e]) []))
  end.
Fixpoint see_items (fs : functions) (codes : nat -> code) (is : list item) (p : pre) : option pre :=
  match is with
  | [] => Some p
  | i :: is => match see_item fs codes p i with Some p => see_items fs codes is p | None => None end
  end.
(* pre_parse (), 40-170 *)
Definition pre_parse (fs : functions) (codes : nat -> code) (is : list item) : option pre :=
  match see_items fs codes is p_start with
  | Some p => if p_impure p || p_computed p then None else Some p
  | None => None
  end.

(* The lines saved in the dependency database before those of the depdb builtin,
   perform_update_file_or_group (), 1868-1950. H is the checksum. *)
Definition saved (H : bytes -> bytes) (text : bytes) (p : pre) (w : bytes -> option val) (ts : list tgt) (ps : list prereq) : list bytes :=
  [b "<ad hoc buildscript recipe> 1"; H text] ++
  (if p_clear p then [] else [H (h_vars w (p_vars p)); H (flat_map h_target ts); H (h_prereqs ps)]).

(* Execution. What is outside of the script: variables as seen from the target, qualified
   variables, and what impure functions return. *)
Record world := mkworld { w_var : bytes -> option val; w_qual : list name -> bytes -> option val; w_call : bytes -> val -> option val }.
(* The script's own variables and the commands that have been executed. *)
Record event := mkevent { ev_index : list nat; ev_line : nat; ev_command : val }.
Record script_state := mkst { s_vars : list (bytes * val); s_log : list event }.
(* The result of a command and its output as the value of a variable and by lines. *)
Record outcome := mkout { o_result : result bool; o_value : val; o_lines : list val }.

Record semantics := mksem {
  m_op : nat -> val -> val -> option val;              (* other operators *)
  m_bool : val -> option bool;                         (* convert<bool> () *)
  m_name : val -> option (list name * bytes);          (* computed name: qualification, name *)
  m_call : bytes -> val -> option val;                 (* pure functions *)
  m_assign : akind -> val -> val -> option val;        (* apply_value_attributes () *)
  m_empty : val -> option bool;                        (* parse_value_empty () *)
  m_elements : val -> list val;                        (* of for-loop values *)
  m_run : list event -> event -> outcome }.            (* runner::run () *)

Section Exec.
Context (fs : functions) (sm : semantics) (codes : nat -> code) (p : pre) (w : world).

Fixpoint get (x : bytes) (l : list (bytes * val)) : option val :=
  match l with [] => None | (y, v) :: l => if beqb x y then Some v else get x l end.
Definition set (x : bytes) (v : val) (s : script_state) : script_state := mkst ((x, v) :: s_vars s) (s_log s).

(* environment::lookup (), script.cxx:245-281: the value and whether it belongs to the
   environment. *)
Definition env_lookup (x : bytes) (s : script_state) : option val * bool :=
  match get x (s_vars s) with Some v => (Some v, true) | None => (w_var w x, false) end.
(* lookup_variable (), parser.cxx:3766-3798: fails (None) if it is untracked. *)
Definition lookup_variable (qual : list name) (x : bytes) (s : script_state) : option val :=
  match qual with
  | _ :: _ => Some (match w_qual w qual x with Some v => v | None => null end)
  | [] =>
      let (r, own) := env_lookup x s in
      match r with
      | Some v => if negb (p_clear p) && negb (p_value p) && negb own && negb (mem x (p_vars p)) then None else Some v
      | None => Some null
      end
  end.
Definition call_function (f : bytes) (a : val) : option val :=
  match f_find fs f with Some true => m_call sm f a | Some false => w_call w f a | None => None end.
Fixpoint eval (e : exp) (s : script_state) : option val :=
  match e with
  | Lit v => Some v
  | Var x => lookup_variable [] x s
  | Computed e => match eval e s with Some v => match m_name sm v with Some (q, x) => lookup_variable q x s | None => None end | None => None end
  | Call f a => match eval a s with Some v => call_function f v | None => None end
  | CallComputed e a =>
      match eval e s with
      | Some v => match m_name sm v with Some (_, f) => match eval a s with Some x => call_function f x | None => None end | None => None end
      | None => None
      end
  | Cond c a d => match eval c s with Some v => match m_bool sm v with Some q => if q then eval a s else eval d s | None => None end | None => None end
  | Or a d => match eval a s with Some v => match m_bool sm v with Some q => if q then Some v else eval d s | None => None end | None => None end
  | And a d => match eval a s with Some v => match m_bool sm v with Some q => if q then eval d s else Some v | None => None end | None => None end
  | Op o a d => match eval a s with Some x => match eval d s with Some y => m_op sm o x y | None => None end | None => None end
  end.

(* exec_set, 1873-1892, with environment::append (), script.cxx:283-297 *)
Definition x_set (id : nat) (s : script_state) : script_state * bool :=
  let c := codes id in
  match eval (c_exp c) s with
  | None => (s, false)
  | Some v =>
      let old := match c_kind c with Assign => null | _ => match fst (env_lookup (c_var c) s) with Some o => o | None => null end end in
      match m_assign sm (c_kind c) old v with Some r => (set (c_var c) r s, true) | None => (s, false) end
  end.
(* Expand and run a command; the set builtin, environment::set_variable (), script.cxx:195-240 *)
Definition x_run (id : nat) (ii : list nat) (li : nat) (s : script_state) : script_state * option outcome :=
  let c := codes id in
  match eval (c_exp c) s with
  | None => (s, None)
  | Some v =>
      let ev := mkevent ii li v in
      let o := m_run sm (s_log s) ev in
      let s := mkst (s_vars s) (ev :: s_log s) in
      (match c_set c with Some x => set x (o_value o) s | None => s end, Some o)
  end.
Definition x_cmd (id : nat) (ii : list nat) (li : nat) (single : bool) (s : script_state) : script_state * result unit :=
  let '(s, o) := x_run id ii (if single then 0 else li) s in
  (s, match o with
      | Some o => match o_result o with Ok true => Ok tt | Ok false => Fails | Exits c => Exits c | Fails => Fails end
      | None => Fails
      end).
Definition x_cond (id : nat) (ii : list nat) (li : nat) (s : script_state) : script_state * result bool :=
  let '(s, o) := x_run id ii li s in (s, match o with Some o => o_result o | None => Fails end).
Definition x_null (id : nat) (s : script_state) : script_state * option bool :=
  (s, match eval (c_exp (codes id)) s with Some v => Some (match vnames v with None => true | Some _ => false end) | None => None end).
Definition x_empty (id : nat) (s : script_state) : script_state * option bool :=
  (s, match eval (c_exp (codes id)) s with Some v => m_empty sm v | None => None end).
Definition x_values (id : nat) (s : script_state) : script_state * option (list val) :=
  (s, match eval (c_exp (codes id)) s with Some v => Some (m_elements sm v) | None => None end).
Definition x_for (id : nat) (v : val) (s : script_state) : script_state * bool :=
  match m_assign sm Assign null v with Some r => (set (c_var (codes id)) r s, true) | None => (s, false) end.
Definition x_stream (id : nat) (ii : list nat) (li : nat) (s : script_state) : script_state * option (list val) :=
  let '(s, o) := x_run id ii li s in (s, match o with Some o => match o_result o with Ok true => Some (o_lines o) | _ => None end | None => None end).
Definition script_env : environment script_state val :=
  mkenv _ _ x_set x_cmd x_cond x_null x_empty x_values x_for x_stream (fun _ s => (s, true)).

(* execute_body (), 1525-1560 *)
Definition execute_body (steps li : nat) (s : script_state) : option (res script_state) := exec script_env true steps [] (TLines (p_body p) li) s.
(* The entry saved by the depdb builtin, 1650-1745; env is passed the names of variables. *)
Definition entry (H : bytes -> bytes) (env : list name -> bytes) (k : nat) (ns : list name) : bytes :=
  if k =? K_HASH then b "h " ++ H (flat_map h_name ns)
  else if k =? K_STRING then b "s " ++ flat_map value ns
  else b "e " ++ H (env ns).
(* exec_depdb_preamble (), 1583-1770: the entries and the state. The checks of
   which commands are allowed are not modelled. *)
Fixpoint preamble (H : bytes -> bytes) (env : list name -> bytes) (steps li : nat) (ls : list pline) (s : script_state) : option (script_state * nat * list bytes) :=
  match ls with
  | [] => Some (s, li, [])
  | PLines l :: ls =>
      match exec script_env true steps [] (TLines l li) s with
      | Some (Done li s) => preamble H env steps li ls s
      | _ => None
      end
  | PDepdb k e :: ls =>
      match eval e s with
      | Some v =>
          match preamble H env steps (S li) ls s with
          | Some (s, li, es) => Some (s, li, entry H env k (match vnames v with Some ns => ns | None => [] end) :: es)
          | None => None
          end
      | None => None
      end
  end.
End Exec.

(* set_special_variables () *)
Definition start (tmp : val) (ts : list tgt) (ps : list prereq) : script_state :=
  mkst [(b ">", targets_var ts); (b "<", prereqs_var ps); (b "~", tmp)] [].
