(* Model of the test rule: libbuild2/test/rule.cxx, rule::apply () 41-348, perform_script_impl () 365-433, rule::perform_script ()
   435-678; libbuild2/test/script/runner.cxx, default_runner::enter () 32-88, leave () 90-143; libbuild2/test/script/script.cxx,
   script::script () 236-250; libbuild2/filesystem.cxx, rmdir_r () 185-217, mkdir_buildignore () 271-287, empty_buildignore () 289-309,
   rmdir_buildignore () 311-332; libbuild2/context.ixx, wait_guard 8-80.

   Not modelled: diagnostics, backlinks (487-497, 664-672), matching and searching (done before and given by their results), errors of
   the file system, timeouts, and the .buildignore file, which every directory that these functions create contains. *)
From Verif Require Import Base.

(* --- apply () --- *)

(* A prerequisite member, 140-141 and 217-218. *)
Record prereq := mkprereq
  { p_target : nat;                                    (* p.search (t) *)
    p_script : bool;                                   (* p.is_a<testscript> () *)
    p_normal : bool;                                   (* include (a, t, p) == include_type::normal *)
    p_rt : bool; p_stdin : bool; p_stdout : bool; p_input : bool;  (* its test.* variables; no variables: all false *)
    p_file : bool }.                                   (* p.is_a<file> () *)

(* The test variable, 155-156 and 201-209: not set, simple and false, anything else. *)
Inductive test_var := VNone | VFalse | VOther.

Record target := mktarget
  { t_alias : bool;                                    (* t.is_a<alias> () *)
    t_pass : bool;                                     (* pass (t) *)
    t_members : list nat;                              (* the members resolved, 79-91; none if there are none *)
    t_matched : list nat;                              (* the result of match_prerequisites (), 114 *)
    t_test : bool;                                     (* this->test (t) *)
    t_prereqs : list prereq;
    t_script : bool;                                   (* t.is_a<testscript> () *)
    t_var : test_var;
    t_args : bool }.                                   (* t[test_options] || t[test_arguments] *)

Inductive recipe :=
| Fails
| Noop                                                 (* 310 *)
| Default (pts : list (option nat))                    (* 316 *)
| Update (pass_n : nat) (pts : list (option nat)) (inner : list nat)  (* 320-330; inner: matched with match_inner () *)
| Script (pass_n : nat) (pts : list (option nat))      (* 335-338 *)
| Simple (pass_n : nat) (pts : list (option nat)).     (* 342-345 *)

(* 140-191: what is collected if testable. The test variable is examined at the first script, 148-160. *)
Fixpoint collect_scripts (v : test_var) (ps : list prereq) (script test : bool) (pts : list (option nat))
  : bool * bool * list (option nat) :=
  match ps with
  | [] => (script, test, pts)
  | p :: r =>
    if negb (p_normal p) then collect_scripts v r script test pts
    else if p_script p then
      if script then collect_scripts v r script test (pts ++ [Some (p_target p)])
      else match v with
           | VFalse => (true, false, pts)              (* 158-159 *)
           | _ => collect_scripts v r true true (pts ++ [Some (p_target p)])
           end
    else collect_scripts v r script test pts
  end.

(* 276-294: stdin and stdout, the inputs. The state is whether any has been seen and, if so, the two and the inputs. *)
Definition add_io (p : prereq) (io : option nat * option nat * list nat) : option (option nat * option nat * list nat) :=
  let si := p_rt p || p_stdin p in
  let so := p_rt p || p_stdout p in
  let '(i, o, l) := io in
  match (if si then match i with Some _ => None | None => Some (Some (p_target p)) end else Some i) with
  | None => None
  | Some i =>
    match (if so then match o with Some _ => None | None => Some (Some (p_target p)) end else Some o) with
    | None => None
    | Some o => Some (i, o, if p_input p then l ++ [p_target p] else l)
    end
  end.

(* 217-297. None: it fails. *)
Fixpoint collect_io (ps : list prereq) (io : option (option nat * option nat * list nat))
  : option (option (option nat * option nat * list nat)) :=
  match ps with
  | [] => Some io
  | p :: r =>
    if negb (p_normal p) then collect_io r io
    else if p_rt p || p_stdin p || p_stdout p || p_input p then
      if negb (p_file p) then None
      else match add_io p (match io with Some x => x | None => (None, None, []) end) with
           | None => None
           | Some x => collect_io r (Some x)
           end
    else collect_io r io
  end.

Definition some_of (l : list (option nat)) : list nat := flat_map (fun x => match x with Some n => [n] | None => [] end) l.

(* apply () 41-350. update: whether the operation is update, 320. *)
Definition apply (update : bool) (t : target) : recipe :=
  let pass := map Some (t_members t ++ if t_alias t && t_pass t then t_matched t else []) in
  let pass_n := length pass in
  let finish (test script : bool) (more : list (option nat)) :=
    if negb test && (pass_n =? 0) then Noop
    else if negb test then Default (pass ++ more)
    else if update then Update pass_n (pass ++ more) (some_of more)
    else if script then Script pass_n (pass ++ more)
    else Simple pass_n (pass ++ more) in
  if t_test t then
    let '(script, test, more) := collect_scripts (t_var t) (t_prereqs t) false false [] in
    if negb script && negb (t_script t) then
      match t_var t with
      | VFalse => finish false false more
      | v =>
        match collect_io (t_prereqs t) None with
        | None => Fails
        | Some io =>
          let more := match io with Some (i, o, l) => i :: o :: map Some l | None => [] end in
          let test := match io with Some _ => true | None => false end in
          let test := if test then true else match v with VNone => false | _ => true end in
          let test := if test then true else t_args t in
          finish test false more
        end
      end
    else finish test script more
  else finish false false [].

(* --- perform_script () --- *)

(* One of the testscripts. What it does when it is run is given: whether its commands succeed and clean up after themselves, and what
   they leave directly in the root working directory, if anything. *)
Record script := mkscript { s_name : bytes; s_selected : bool; s_pass : bool; s_litter : option bytes }.

(* The root working directory: the entries are the working directories of the scripts and what they left in it. *)
Inductive wdir := NoDir | NotDir | Dir (es : list bytes).

Inductive before := BFail | BWarn | BClean.            (* libbuild2/test/common.hxx 16 *)
Inductive after := AClean | AKeep.                     (* 17 *)

(* perform_script_impl () in the course of execution: not yet run, after enter (), failed in enter (), after leave () or failed. *)
Inductive task := Ready | Running | Refused | Done (ok : bool).

Inductive result := Changed | Failed.

Inductive pc :=
| Start
| Loop (todo : list script)                            (* 555-629 *)
| Sync (i : nat) (todo : list script)                  (* executed synchronously by async (), 603-626 *)
| Waiting                                              (* 631-632 *)
| Over (r : result).

Record state := mkstate { at_ : pc; mk : bool; tasks : list (script * task); wd : wdir }.

(* 452-468. None: it fails. *)
Fixpoint only (o : option bool) (ss : list script) : option (option bool) :=
  match ss with
  | [] => Some o
  | s :: ss =>
    let r := beqb (s_name s) (b "testscript") in
    match o with
    | Some true => None
    | Some false => if r then None else only (Some r) ss
    | None => only (Some r) ss
    end
  end.
Definition one (ss : list script) : bool := match only None ss with Some (Some r) => r | _ => false end.

Definition mem (n : bytes) (es : list bytes) : bool := existsb (beqb n) es.
Definition remove (n : bytes) (es : list bytes) : list bytes := filter (fun x => negb (beqb n x)) es.
Fixpoint set_nth {A} (l : list A) (i : nat) (a : A) : list A :=
  match l, i with
  | [], _ => []
  | _ :: r, 0 => a :: r
  | x :: r, S i => x :: set_nth r i a
  end.
Definition finished (x : task) : bool := match x with Refused | Done _ => true | _ => false end.
Definition bad (x : task) : bool := match x with Refused | Done false => true | _ => false end.

Section Run.
Context (scripts : list script) (bf : before) (af : after) (keep_going dry_run : bool).
(* Whether the current directory is the working directory or in it: work.sub (d). *)
Context (inside : bool).

Definition with_pc (c : pc) (s : state) : state := mkstate c (mk s) (tasks s) (wd s).

(* 452-539 *)
Definition start (s : state) : state :=
  match only None scripts with
  | Some (Some o) =>
    let begin w := mkstate (Loop scripts) (negb o) [] w in
    match wd s with
    | NotDir => with_pc (Over Failed) s
    | NoDir => begin NoDir
    | Dir es =>
      match bf with
      | BFail => with_pc (Over Failed) s
      | _ => begin (if inside || dry_run then Dir es else NoDir)
      end
    end
  | _ => with_pc (Over Failed) s
  end.

(* 557-628, one iteration. sync: whether async () executes it synchronously. *)
Definition iterate (sync : bool) (x : script) (todo : list script) (s : state) : state :=
  if one scripts || s_selected x then
    if dry_run then with_pc (Loop todo) s
    else
      let w := if mk s then match wd s with NoDir => Dir [] | w => w end else wd s in
      mkstate (if sync then Sync (length (tasks s)) todo else Loop todo) false (tasks s ++ [(x, Ready)]) w
  else with_pc (Loop todo) s.

(* 634-677 *)
Definition finish (s : state) : state :=
  let b := existsb (fun x => bad (snd x)) (tasks s) in
  if negb dry_run && negb b && negb (one scripts) && negb (mk s) && (match af with AClean => true | _ => false end) then
    match wd s with
    | Dir (_ :: _) => with_pc (Over Failed) s
    | Dir [] => mkstate (Over Changed) (mk s) (tasks s) (if inside then Dir [] else NoDir)
    | w => with_pc (Over Changed) s
    end
  else with_pc (Over (if b then Failed else Changed)) s.

(* enter (), runner.cxx 70-81. *)
Definition enter (x : script) (w : wdir) : task * wdir :=
  if one scripts then
    match w with NoDir => (Running, Dir []) | w => (Refused, w) end
  else
    match w with
    | Dir es => if mem (s_name x) es then (Refused, w) else (Running, Dir (s_name x :: es))
    | w => (Refused, w)
    end.

(* leave (), runner.cxx 104-131; not reached if the commands fail. *)
Definition leave (x : script) (w : wdir) : task * wdir :=
  let w := if one scripts then w
           else match w, s_litter x with Dir es, Some n => Dir (n :: es) | w, _ => w end in
  if s_pass x then
    match af with
    | AKeep => (Done true, w)
    | AClean =>
      (Done true, if one scripts then NoDir else match w with Dir es => Dir (remove (s_name x) es) | w => w end)
    end
  else (Done false, w).

(* What can happen next: the thread that performs the script continues; one of the scripts enters or leaves. *)
Inductive move := Main (sync : bool) | Enter (i : nat) | Leave (i : nat).

Definition step (m : move) (s : state) : option state :=
  match m with
  | Main sync =>
    match at_ s with
    | Start => Some (start s)
    | Loop [] => Some (with_pc Waiting s)
    | Loop (x :: todo) => Some (iterate sync x todo s)
    | Sync i todo =>
      match nth_error (tasks s) i with
      | Some (_, x) =>
        if finished x then Some (with_pc (if bad x && negb keep_going then Waiting else Loop todo) s)  (* 621-625 *)
        else None
      | None => None
      end
    | Waiting => if forallb (fun x => finished (snd x)) (tasks s) then Some (finish s) else None
    | Over _ => None
    end
  | Enter i =>
    match nth_error (tasks s) i with
    | Some (x, Ready) => let (t, w) := enter x (wd s) in Some (mkstate (at_ s) (mk s) (set_nth (tasks s) i (x, t)) w)
    | _ => None
    end
  | Leave i =>
    match nth_error (tasks s) i with
    | Some (x, Running) => let (t, w) := leave x (wd s) in Some (mkstate (at_ s) (mk s) (set_nth (tasks s) i (x, t)) w)
    | _ => None
    end
  end.

Fixpoint run (ms : list move) (s : state) : option state :=
  match ms with
  | [] => Some s
  | m :: ms => match step m s with Some s => run ms s | None => None end
  end.

Definition init (w : wdir) : state := mkstate Start false [] w.
End Run.

(* 470-479: the working directory of a target. *)
Record tested := mktested { d_out : list bytes; d_type : bytes; d_name : bytes }.
Definition working_dir (t : tested) : list bytes :=
  if beqb (d_type t) (b "dir") then d_out t ++ [b "test"] else d_out t ++ [b "test-" ++ d_name t].
