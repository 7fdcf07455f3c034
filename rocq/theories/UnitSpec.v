(* What the module declarations and imports of a translation unit are. *)
From Verif Require Import Base CcModel UnitModel.

(* The declarations that we look for. The import is of a module, of a partition (of the module
   that this is) or of a header. *)
Inductive decl :=
| Marker
| ModuleDecl (ex : bool) (name : bytes) (part : option bytes)
| Import (ex : bool) (name : bytes)
| Part (ex : bool) (part : bytes)
| Header.

(* A token of this kind that is not the first on its line. *)
Definition same_line (t : token) : Prop := first t = false.
Definition tok (x : ttype) (t : token) : Prop := type t = x /\ same_line t.
Inductive dotted_name : list token -> bytes -> Prop :=
| dn_one t : tok Identifier t -> dotted_name [t] (value t)
| dn_more t d ts n : tok Identifier t -> tok Dot d -> dotted_name ts n -> dotted_name (t :: d :: ts) (value t ++ b "." ++ n).
(* The rest of a declaration: attributes and the semicolon. They do not start with one of these
   tokens, which would belong to the name. *)
Inductive rest_of (not : list ttype) : list token -> Prop :=
| ro ts s : Forall same_line ts -> Forall (fun t => type t <> Semi) ts -> tok Semi s ->
    match ts with t :: _ => ~ In (type t) not | [] => True end -> rest_of not (ts ++ [s]).
(* After the keyword module. *)
Inductive module_decl (ex : bool) : list token -> decl -> Prop :=
| md_marker s : ex = false -> tok Semi s -> module_decl ex [s] Marker
| md_module ts n r : dotted_name ts n -> rest_of [Dot; Colon] r -> module_decl ex (ts ++ r) (ModuleDecl ex n None)
| md_part ts n c ps p r : dotted_name ts n -> tok Colon c -> dotted_name ps p -> rest_of [Dot] r ->
    module_decl ex (ts ++ c :: ps ++ r) (ModuleDecl ex n (Some p)).
(* After the keyword import. The closing angle bracket can also be the first on its line. *)
Inductive import_decl (ex : bool) : list token -> decl -> Prop :=
| id_module ts n r : dotted_name ts n -> rest_of [Dot] r -> import_decl ex (ts ++ r) (Import ex n)
| id_part c ps p r : tok Colon c -> dotted_name ps p -> rest_of [Dot] r -> import_decl ex (c :: ps ++ r) (Part ex p)
| id_string s r : tok Str s -> rest_of [] r -> import_decl ex (s :: r) Header
| id_angle l ts g r : tok Less l -> Forall same_line ts -> Forall (fun t => type t <> Greater) ts -> type g = Greater -> rest_of [] r ->
    import_decl ex (l :: ts ++ g :: r) Header.
(* The keyword, with the optional export, is the first on the line. *)
Inductive leads : bool -> list token -> bytes -> Prop :=
| le_keyword t : type t = Identifier -> first t = true -> value t <> b "export" -> leads false [t] (value t)
| le_export e t : type e = Identifier -> first e = true -> value e = b "export" -> tok Identifier t -> leads true [e; t] (value t).
(* The keywords, including those that the preprocessors of some compilers replace them with. *)
Definition module_keyword (c : compiler) (id : bytes) : Prop := id = b "module" \/ (In c [Clang; Msvc] /\ id = b "__preprocessed_module").
Definition import_keyword (c : compiler) (id : bytes) : Prop := id = b "import" \/ (c = Clang /\ id = b "__preprocessed_import").
Inductive declaration (c : compiler) : list token -> decl -> Prop :=
| dc_module ex l id ts d : leads ex l id -> module_keyword c id -> module_decl ex ts d -> declaration c (l ++ ts) d
| dc_import ex l id ts d : leads ex l id -> import_keyword c id -> import_decl ex ts d -> declaration c (l ++ ts) d.
(* Whether the tokens must be those of a declaration judging by what is on the same line after
   the keyword. *)
Definition follows (types : list ttype) (ts : list token) : Prop := exists t ts', ts = t :: ts' /\ same_line t /\ In (type t) types.
Inductive candidate (c : compiler) : list token -> Prop :=
| cd_module ex l id ts : leads ex l id -> module_keyword c id -> follows [Semi; Identifier] ts -> candidate c (l ++ ts)
| cd_import ex l id ts : leads ex l id -> import_keyword c id -> follows [Less; Colon; Str; Identifier] ts -> candidate c (l ++ ts).

(* The declarations of the translation unit: those outside of braces, up to the end or an
   extraneous closing brace. *)
Inductive declares (c : compiler) : nat -> list token -> list decl -> Prop :=
| ds_end n : declares c n [] []
| ds_open n t ts ds : type t = LBrace -> declares c (S n) ts ds -> declares c n (t :: ts) ds
| ds_close n t ts ds : type t = RBrace -> declares c n ts ds -> declares c (S n) (t :: ts) ds
| ds_extra t ts : type t = RBrace -> declares c 0 (t :: ts) []
| ds_decl l d ts ds : declaration c l d -> declares c 0 ts ds -> declares c 0 (l ++ ts) (d :: ds)
| ds_other n t ts ds : type t <> LBrace -> type t <> RBrace -> (n = 0 -> ~ candidate c (t :: ts)) -> declares c n ts ds -> declares c n (t :: ts) ds.

(* What they mean: there is at most one module declaration, it must be there if there is the
   marker and it precedes the imports of partitions. *)
Definition modules (ds : list decl) : list decl := filter (fun d => match d with ModuleDecl _ _ _ => true | _ => false end) ds.
Definition valid (ds : list decl) : Prop :=
  length (modules ds) <= 1 /\ (In Marker ds -> modules ds <> []) /\ (forall a ex p z, ds = a ++ Part ex p :: z -> modules a <> []).
Definition module_name (ds : list decl) : bytes := match modules ds with [ModuleDecl _ n _] => n | _ => [] end.
Definition full_name (ds : list decl) : bytes :=
  match modules ds with [ModuleDecl _ n (Some p)] => n ++ b ":" ++ p | [ModuleDecl _ n None] => n | _ => [] end.
Definition unit_type_of (ds : list decl) : unit_type :=
  match modules ds with
  | [ModuleDecl true _ (Some _)] => ModuleIntfPart
  | [ModuleDecl false _ (Some _)] => ModuleImplPart
  | [ModuleDecl true _ None] => ModuleIntf
  | [ModuleDecl false _ None] => ModuleImpl
  | _ => NonModular
  end.
(* The names of what is imported, where the name of a partition includes that of the module. *)
Definition imported (ds : list decl) : list (import_type * bytes * bool) :=
  flat_map (fun d => match d with
                     | Import ex n => [(ImportIntf, n, ex)]
                     | Part ex p => [(ImportPart, module_name ds ++ b ":" ++ p, ex)]
                     | _ => []
                     end) ds.
(* Without repetition: in order of the first import of each, exported if any import of it is. *)
Fixpoint firsts (seen : list bytes) (l : list (import_type * bytes * bool)) : list (import_type * bytes) :=
  match l with
  | [] => []
  | (t, n, _) :: l => if existsb (beqb n) seen then firsts seen l else (t, n) :: firsts (n :: seen) l
  end.
Definition imports_of (l : list (import_type * bytes * bool)) : list import :=
  map (fun '(t, n) => mkimport t n (existsb (fun '(_, m, ex) => beqb m n && ex) l)) (firsts [] l).
Definition unit_of (ds : list decl) : unit_ :=
  mkunit (unit_type_of ds) (full_name ds) (imports_of (imported ds)) (existsb (fun d => match d with Marker => true | _ => false end) ds).
(* Identifiers are not empty and consist of other characters. *)
Definition proper_tokens (ts : list token) : Prop := forall t, In t ts -> type t = Identifier -> value t <> [] /\ ~ In ":"%char (value t).
