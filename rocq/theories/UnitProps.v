(* Properties of the parser of module declarations and imports. *)
From Verif Require Import Base CcModel UnitModel UnitSpec UnitProofs.

(* C54: the module, partition and imports are exactly those that are declared, for any source
   that the lexer accepts, and it fails only if the declarations are not valid. *)
Theorem C54_declared c name s ts h : lex true name s = Some (ts, h) ->
  forall u, parse_unit c ts = Some u <-> exists ds, declares c 0 ts ds /\ valid ds /\ u = unit_of ds.
Proof. intros E. apply parse_unit_correct. eapply lex_proper. exact E. Qed.
(* There is one way to read them. *)
Theorem C54_one_reading c name s ts h n ds1 ds2 : lex true name s = Some (ts, h) -> declares c n ts ds1 -> declares c n ts ds2 -> ds1 = ds2.
Proof. intros E D1 D2. apply (declares_unique _ _ _ _ D1); [eapply lex_proper; exact E|exact D2]. Qed.

(* A module interface partition. *)
Definition lines (l : list bytes) : bytes := flat_map (fun s => s ++ [NL]) l.
Definition tokens (l : list bytes) : list token := match lex true (b "x.cxx") (lines l) with Some (ts, _) => ts | None => [] end.
Definition ex_unit : list bytes :=
  [b "module;"; b "int module;"; b "export module foo.core : impl [[deprecated]];"; b "import std;"; b "export import :util . x;"; b "import <vector>;"; b "namespace n {"; b "import inner;"; b "}"; b "export void f ();"; b "export import std;"].
Definition ex_decls : list decl :=
  [Marker; ModuleDecl true (b "foo.core") (Some (b "impl")); Import false (b "std"); Part true (b "util.x"); Header; Import true (b "std")].
Definition ex_result : unit_ :=
  mkunit ModuleIntfPart (b "foo.core:impl") [mkimport ImportIntf (b "std") true; mkimport ImportPart (b "foo.core:util.x") true] true.
Example ex_lexed : lex true (b "x.cxx") (lines ex_unit) <> None /\ length (tokens ex_unit) = 50.
Proof. split; [vm_compute; discriminate|vm_compute; reflexivity]. Qed.
Example ex_parsed : parse_unit Gcc (tokens ex_unit) = Some ex_result /\ unit_of ex_decls = ex_result /\ valid ex_decls.
Proof.
  split; [vm_compute; reflexivity|]. split; [vm_compute; reflexivity|]. unfold valid. split; [cbn; repeat constructor|]. split; [intros _; discriminate|].
  intros a ex p z E. destruct a as [|x a]; [discriminate E|]. destruct a as [|y a]; [discriminate E|]. injection E as <- <- _. discriminate.
Qed.
(* Declarations that are not valid. *)
Example ex_invalid : parse_unit Gcc (tokens [b "module;"; b "import std;"]) = None /\ parse_unit Gcc (tokens [b "import :p;"; b "module m;"]) = None /\
  parse_unit Gcc (tokens [b "module m;"; b "module n;"]) = None /\ parse_unit Gcc (tokens [b "import std"; b ";"]) = None /\ parse_unit Gcc (tokens [b "import a."; b "b;"]) = None.
Proof. repeat split; vm_compute; reflexivity. Qed.
(* Preprocessed keywords, and those that are not. *)
Example ex_keywords : parse_unit Clang (tokens [b "export __preprocessed_module m;"; b "__preprocessed_import std;"]) = Some (mkunit ModuleIntf (b "m") [mkimport ImportIntf (b "std") false] false) /\
  parse_unit Gcc (tokens [b "export __preprocessed_module m;"; b "__preprocessed_import std;"]) = Some no_unit /\
  parse_unit Gcc (tokens [b "int import = 1;"; b "import = 2;"; b "import"; b "(3);"; b "module.x ();"]) = Some no_unit.
Proof. repeat split; vm_compute; reflexivity. Qed.
(* The partition of another module is taken as an import of that module. *)
Example ex_other_part : parse_unit Gcc (tokens [b "module m;"; b "import m:p;"]) = Some (mkunit ModuleImpl (b "m") [mkimport ImportIntf (b "m") false] false).
Proof. vm_compute; reflexivity. Qed.
(* The closing angle bracket can be on the next line. *)
Example ex_next_line : parse_unit Gcc (tokens [b "import <vector"; b "> ;"]) = Some no_unit.
Proof. vm_compute; reflexivity. Qed.
(* Nothing is recognized after an extraneous closing brace. *)
Example ex_extra : parse_unit Gcc (tokens [b "}"; b "import std;"]) = Some no_unit.
Proof. vm_compute; reflexivity. Qed.

Print Assumptions C54_declared.
Print Assumptions C54_one_reading.
