(* Loading of build system modules: what a library has, which project imports it, booting, initializing in scopes and the order of it.

   Not modelled: how a library is found and loaded (import_search, building it, dlopen: one question per project and module), locations, hints, module instances (shared_ptr), locking
   of the table of libraries, the .build.booted variable, hooks, configuration reports. *)
From Verif Require Import Base.

Definition scope := list bytes. (* In a project, the innermost directory first; [] is the root scope. *)
(* module.hxx 74-80: when a booted module is initialized. *)
Inductive mode := First | Second | Before | After.
Definition mode_eqb (x y : mode) : bool := match x, y with First, First | Second, Second | Before, Before | After, After => true | _, _ => false end.
(* Ways to ask for a module: init_module, load_module with the optional argument and load_module without. *)
Inductive kind := Init (opt : bool) | Try (opt : bool) | Load.
(* What an init() does, and what a buildfile does (using, parser.cxx 5040-5113): it asks for modules of its project, in scopes, and is told whether there is one; then returns or fails. *)
Inductive prog := Ret (c : bool) | Err | Do (k : kind) (sc : scope) (m : bytes) (next : bool -> prog).
(* module.hxx 143-148: an entry of the function list. boot: modules that it boots, post-boot function (on the mode) and mode; init: scope, first, optional. *)
Record func := mkfunc {f_name : bytes; f_boot : option (list bytes * option (mode -> mode) * mode); f_init : scope -> bool -> bool -> prog}.
(* module.hxx 190-198 *)
Record mstate := mkms {ms_name : bytes; ms_fun : func; ms_post : option (mode -> mode); ms_boot : option mode}.
(* module.hxx 318-322 *)
Record lib := mklib {l_fun : func; l_path : bytes}.
(* What happens, for statements: a search for the library of a module, init() being called and returning, root.build. *)
Inductive event :=
| Import (p : nat) (mm : bytes) (boot opt dry : bool)
| Enter (p : nat) (sc : scope) (m : bytes) (first opt : bool)
| Leave (p : nat) (sc : scope) (m : bytes) (c : bool)
| Sourced (p : nat).
(* Answer of import_module (module.cxx 302-626): an exception, nullopt, a directory (empty: not from a project). *)
Inductive imp_result := ImpFail | NotFound | Found (d : bytes).

Fixpoint get {A} (l : list (bytes * A)) (k : bytes) : option A := match l with [] => None | (k', v) :: l => if beqb k k' then Some v else get l k end.
Fixpoint sc_eqb (x y : scope) : bool := match x, y with [], [] => true | a :: x, c :: y => beqb a c && sc_eqb x y | _, _ => false end.
Definition key_eqb (x y : nat * scope * bytes) : bool := Nat.eqb (fst (fst x)) (fst (fst y)) && sc_eqb (snd (fst x)) (snd (fst y)) && beqb (snd x) (snd y).
(* <module>.build.{loaded,configured} of a scope: no value, null, values. Both are assigned together. *)
Definition vmap := list (nat * scope * bytes * option (bool * bool)).
Fixpoint getv (l : vmap) (k : nat * scope * bytes) : option (option (bool * bool)) := match l with [] => None | (k', v) :: l => if key_eqb k k' then Some v else getv l k end.
(* Variable lookup: the innermost scope that has it; project visibility. A null is a value for this purpose (scope.cxx, scope::lookup). *)
Fixpoint visible (l : vmap) (p : nat) (sc : scope) (m : bytes) : option (bool * bool) :=
  match getv l (p, sc, m) with Some v => v | None => match sc with [] => None | _ :: o => visible l p o m end end.

(* Context: libraries. Of a project: imported_modules, loaded_modules, variables of its scopes, stage (0: not bootstrapped, 1: bootstrapped, 2: loaded). log: newest first. *)
Record st := mkst {libs : list (bytes * lib); imported : nat -> list (bytes * bool); loaded : nat -> list mstate; vars : vmap; stage : nat -> nat; log : list event}.
Definition upd {A} (f : nat -> A) (p : nat) (v : A) (q : nat) : A := if Nat.eqb q p then v else f q.
Definition set_libs l s := mkst l (imported s) (loaded s) (vars s) (stage s) (log s).
Definition add_imported p mm r s := mkst (libs s) (upd (imported s) p (imported s p ++ [(mm, r)])) (loaded s) (vars s) (stage s) (log s).
Definition set_loaded p l s := mkst (libs s) (imported s) (upd (loaded s) p l) (vars s) (stage s) (log s).
Definition setv k v s := mkst (libs s) (imported s) (loaded s) ((k, v) :: vars s) (stage s) (log s).
Definition set_stage p n s := mkst (libs s) (imported s) (loaded s) (vars s) (upd (stage s) p n) (log s).
Definition logev e s := mkst (libs s) (imported s) (loaded s) (vars s) (stage s) (e :: log s).
Definition start : st := mkst [] (fun _ => []) (fun _ => []) [] (fun _ => 0) [].

(* Crashed: an assertion or a null pointer. Fuel: cut off by the bound of the model. *)
Inductive out (A : Type) := Done (a : A) | Failed | Crashed | Fuel.
Arguments Done {A}. Arguments Failed {A}. Arguments Crashed {A}. Arguments Fuel {A}.
Definition R A := (st * out A)%type.
Definition bind {A B} (r : R A) (k : A -> st -> R B) : R B :=
  match r with (s, Done a) => k a s | (s, Failed) => (s, Failed) | (s, Crashed) => (s, Crashed) | (s, Fuel) => (s, Fuel) end.
Fixpoint each {A} (f : A -> st -> R unit) (l : list A) (s : st) : R unit :=
  match l with [] => (s, Done tt) | x :: l => bind (f x s) (fun _ s => each f l s) end.

(* module.cxx 639: the part before the first dot. *)
Fixpoint main (m : bytes) : bytes := match m with [] => [] | c :: m => if ceqb c "."%char then [] else c :: main m end.
(* module.hxx 202-207 *)
Fixpoint entry (l : list mstate) (m : bytes) : option mstate := match l with [] => None | e :: l => if beqb (ms_name e) m then Some e else entry l m end.
(* Assignment via the iterator: by name here, names are not repeated. *)
Definition set_entry (m : bytes) (e : mstate) (l : list mstate) : list mstate := map (fun x => if beqb (ms_name x) m then e else x) l.

Section Load.
  Context (imp : nat -> bytes -> bool -> bool -> bool -> imp_result). (* project, main module, boot, optional, dry run *)
  Context (funs : bytes -> bytes -> list func).                       (* build2_<name>_load() of a library *)
  Context (bundled : bytes -> bool).                                  (* module.cxx 58-66 *)

  (* module.cxx 697-718: enter all of the list. None: a name is in use. *)
  Fixpoint register (m mm path : bytes) (fs : list func) (ls : list (bytes * lib)) (i : option (bytes * lib)) : option (list (bytes * lib) * option (bytes * lib)) :=
    match fs with
    | [] => Some (ls, i)
    | f :: fs =>
        let n := f_name f in
        let is_main := beqb n mm in
        let e := mklib f (if is_main then path else []) in
        match get ls n with
        | Some _ => None
        | None => register m mm path fs ((n, e) :: ls) (if beqb n m || (is_main && match i with None => true | Some _ => false end) then Some (n, e) else i)
        end
    end.
  (* module.cxx 679-731: the entry of the submodule, or else of the main one; whether imported now. *)
  Definition locate (p : nat) (m : bytes) (boot opt : bool) (s : st) : R (option (bytes * lib) * bool) :=
    let mm := main m in
    match get (libs s) m with
    | Some e => (s, Done (Some (m, e), false))
    | None =>
        match get (libs s) mm with
        | Some e => (s, Done (Some (mm, e), false))
        | None =>
            let s := logev (Import p mm boot opt false) s in
            match imp p mm boot opt false with
            | ImpFail => (s, Failed)
            | NotFound => (s, Done (None, true))
            | Found d =>
                match register m mm d (funs mm d) (libs s) None with
                | Some (ls, Some i) => (set_libs ls s, Done (Some i, true))
                | _ => (s, Failed)
                end
            end
        end
    end.
  (* module.cxx 735-792: the function, if this project finds the module the way others did. j: the project has imported it. *)
  Definition agree (p : nat) (m : bytes) (boot opt : bool) (j : bool) (r : option (bytes * lib) * bool) (s : st) : R (option (bytes * func)) :=
    let mm := main m in
    match fst r with
    | None => if j then (s, Crashed) else (s, Done None)
    | Some (n, e) =>
        if negb j && negb (snd r) && negb (bundled mm) then
          let s := logev (Import p mm boot opt true) s in
          match imp p mm boot opt true with
          | ImpFail => (s, Failed)
          | NotFound => (s, Done None)
          | Found d =>
              match (if beqb n mm then Some e else get (libs s) mm) with
              | None => (s, Crashed)
              | Some e' => if beqb d (l_path e') then (s, Done (Some (n, l_fun e))) else (s, Failed)
              end
          end
        else (s, Done (Some (n, l_fun e)))
    end.
  (* module.cxx 627-831 *)
  Definition find_module (p : nat) (m : bytes) (boot opt : bool) (s : st) : R (option func) :=
    let mm := main m in
    let j := get (imported s p) mm in
    bind (match j with
          | Some false => (s, Done None)
          | _ => let known := match j with Some _ => true | None => false end in
                 bind (locate p m boot opt s) (fun r s => agree p m boot opt known r s)
          end)
      (fun fn s =>
         let s := match j with None => add_imported p mm (match fn with Some _ => true | None => false end) s | Some _ => s end in
         match fn with
         | None => if opt || boot then (s, Done None) else (s, Failed)
         | Some (n, f) => if beqb n m then (s, Done (Some f)) else if opt then (s, Done None) else (s, Failed)
         end).

  (* module.cxx 833-885. What a boot() does is in f_boot. *)
  Fixpoint boot_module (n : nat) (p : nat) (m : bytes) (s : st) : R unit :=
    match n with
    | O => (s, Fuel)
    | S n =>
        match entry (loaded s p) m with
        | Some e => match ms_boot e with Some _ => (s, Done tt) | None => (s, Crashed) end
        | None =>
            bind (find_module p m true false s) (fun mf s =>
              match mf with
              | None => (s, Done tt)
              | Some f =>
                  match f_boot f with
                  | None => (s, Failed)
                  | Some (bs, post, v) =>
                      bind (each (boot_module n p) bs (set_loaded p (loaded s p ++ [mkms m f None None]) s))
                        (fun _ s => (set_loaded p (set_entry m (mkms m f post (Some v)) (loaded s p)) s, Done tt))
                  end
              end)
        end
    end.
  (* module.cxx 887-903 *)
  Definition boot_post (e : mstate) : mstate :=
    match ms_post e, ms_boot e with Some g, Some v => mkms (ms_name e) (ms_fun e) (ms_post e) (Some (g v)) | _, _ => e end.
  (* file.cxx bootstrap_src: using directives of bootstrap.build (parser.cxx 5105-5106), then bootstrap_post 1463-1486. *)
  Definition bootstrap (n : nat) (p : nat) (ms : list bytes) (s : st) : R unit :=
    if Nat.eqb (stage s p) 0 then
      bind (each (boot_module n p) ms s) (fun _ s => (set_stage p 1 (set_loaded p (map boot_post (loaded s p)) s), Done tt))
    else (s, Failed).

  (* module.cxx 1024-1045 and 1047-1060, with init_module for what they call. *)
  Definition ask (ini : scope -> bytes -> bool -> st -> R bool) (p : nat) (k : kind) (sc : scope) (m : bytes) (s : st) : R bool :=
    match k with
    | Init opt => ini sc m opt s
    | Try opt =>
        match visible (vars s) p sc m with
        | Some (true, c) => if c then match entry (loaded s p) m with Some _ => (s, Done true) | None => (s, Crashed) end else (s, Done false)
        | _ => ini sc m opt s
        end
    | Load =>
        match visible (vars s) p sc m with
        | Some (true, _) => match entry (loaded s p) m with Some _ => (s, Done true) | None => (s, Crashed) end
        | _ => bind (ini sc m false s) (fun r s => if r then (s, Done true) else (s, Crashed))
        end
    end.
  Fixpoint run (ini : scope -> bytes -> bool -> st -> R bool) (p : nat) (pr : prog) (s : st) : R bool :=
    match pr with
    | Ret c => (s, Done c)
    | Err => (s, Failed)
    | Do k sc m next => bind (ask ini p k sc m s) (fun r s => run ini p (next r) s)
    end.
  (* module.cxx 913-939: the state of the module, if any, and whether this is the first call for the project. *)
  Definition obtain (p : nat) (m : bytes) (opt : bool) (s : st) : R (option func * bool) :=
    match entry (loaded s p) m with
    | Some e =>
        match ms_boot e with
        | Some _ => (set_loaded p (set_entry m (mkms (ms_name e) (ms_fun e) (ms_post e) None) (loaded s p)) s, Done (Some (ms_fun e), true))
        | None => (s, Done (Some (ms_fun e), false))
        end
    | None =>
        bind (find_module p m false opt s) (fun mf s =>
          match mf with
          | None => (s, Done (None, true))
          | Some f => match f_boot f with
                      | Some _ => (s, Failed)
                      | None => (set_loaded p (loaded s p ++ [mkms m f None None]) s, Done (Some f, true))
                      end
          end)
    end.
  (* module.cxx 905-1012 *)
  Fixpoint init_module (n : nat) (p : nat) (sc : scope) (m : bytes) (opt : bool) (s : st) : R bool :=
    match n with
    | O => (s, Fuel)
    | S n =>
        bind (obtain p m opt s) (fun r s =>
          match getv (vars s) (p, sc, m) with
          | Some (Some (l, c)) => if opt then (s, Done (l && c)) else if l && c then (s, Done true) else (s, Failed)
          | _ =>
              match fst r with
              | None => (setv (p, sc, m) (Some (false, false)) s, Done false)
              | Some f =>
                  bind (run (init_module n p) p (f_init f sc (snd r) opt) (logev (Enter p sc m (snd r) opt) (setv (p, sc, m) None s)))
                    (fun c s => (logev (Leave p sc m c) (setv (p, sc, m) (Some (true, c)) s), Done c))
              end
          end)
    end.

  (* file.cxx 1770-1781 *)
  Definition init_modules (n : nat) (p : nat) (ns : list bytes) (v : mode) (s : st) : R unit :=
    each (fun m s => match entry (loaded s p) m with
                     | Some e => match ms_boot e with
                                 | Some v' => if mode_eqb v' v then bind (init_module n p [] m false s) (fun _ s => (s, Done tt)) else (s, Done tt)
                                 | None => (s, Done tt)
                                 end
                     | None => (s, Done tt)
                     end) ns s.
  (* file.cxx 1739-1895: root.build is a program. Loading of outer projects: of theirs. *)
  Definition load_root (n : nat) (p : nat) (build : prog) (s : st) : R unit :=
    if Nat.eqb (stage s p) 1 then
      let ns := map ms_name (loaded s p) in
      bind (init_modules n p ns First (set_stage p 2 s)) (fun _ s =>
      bind (init_modules n p ns Second s) (fun _ s =>
      bind (init_modules n p ns Before s) (fun _ s =>
      bind (run (init_module n p) p build (logev (Sourced p) s)) (fun _ s =>
      init_modules n p ns After s))))
    else (s, Failed).

  (* A build: projects are bootstrapped, loaded and their buildfiles are sourced, in some order. *)
  Inductive command := Bootstrap (p : nat) (ms : list bytes) | Root (p : nat) (build : prog) | Buildfile (p : nat) (pr : prog).
  Definition exec1 (n : nat) (c : command) (s : st) : R unit :=
    match c with
    | Bootstrap p ms => bootstrap n p ms s
    | Root p build => load_root n p build s
    | Buildfile p pr => if Nat.eqb (stage s p) 2 then bind (run (init_module n p) p pr s) (fun _ s => (s, Done tt)) else (s, Failed)
    end.
  Definition exec (n : nat) (cs : list command) : R unit := each (exec1 n) cs start.
End Load.
