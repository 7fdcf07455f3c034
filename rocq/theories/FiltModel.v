(* Model of selection of tests with config.test: libbuild2/test/common.cxx, sense () 20-57, pass () 59-98, test () 100-160 and
   162-222.

   Directories are lists of components relative to the root of the project where config.test is defined (leaf () in lines 76, 111
   and 173). *)
From Verif Require Import Base.

Notation path := (list bytes).
(* libbuild2/name.hxx 45-75; whether it is the first half of a pair. *)
Record name := mkname { qualified : bool; dir : path; type : bytes; value : bytes; pair : bool }.
(* A target: its directory, type and name. *)
Record target := mktarget { tdir : path; ttype : bytes; tname : bytes }.

Definition no_bytes (s : bytes) : bool := match s with [] => true | _ => false end.
Definition no_path (p : path) : bool := match p with [] => true | _ => false end.
(* libbuild2/name.hxx 83, 91, 100-103 *)
Definition typed (n : name) : bool := negb (no_bytes (type n)).
Definition empty (n : name) : bool := no_path (dir n) && no_bytes (value n).
Definition simple (n : name) : bool := negb (qualified n) && negb (typed n) && no_path (dir n).

(* path (n->value): components. *)
Fixpoint components (s : bytes) : path :=
  match s with
  | [] => [[]]
  | c :: s => if ceqb c "/" then [] :: components s else match components s with x :: r => (c :: x) :: r | [] => [[c]] end
  end.
Definition id_path (s : bytes) : path := filter (fun x => negb (no_bytes x)) (components s).
(* path::sub (): whether p is a sub-path of or the same as q. *)
Fixpoint sub (p q : path) : bool :=
  match q, p with
  | [], _ => true
  | y :: q, x :: p => beqb x y && sub p q
  | _, [] => false
  end.
Fixpoint same_path (p q : path) : bool :=
  match p, q with [], [] => true | x :: p, y :: q => beqb x y && same_path p q | _, _ => false end.

(* sense () 20-57: the target, the id path and the rest, or nothing if it fails. The second half of a pair is always there. *)
Definition sense (n : name) (r : list name) : option (option name * option name * list name) :=
  let '(tn, pn, r) :=
    if pair n then match r with p :: r => (Some n, Some p, r) | [] => (Some n, None, r) end
    else if typed n || negb (no_path (dir n)) then (Some n, None, r)
    else (None, Some n, r) in
  if match tn with Some t => qualified t | None => false end then None
  else if match pn with Some p => negb (simple p) || empty p | None => false end then None
  else Some (tn, pn, r).

Section Search.
(* search_existing (): whether the target found for the name is this one. *)
Context (search : name -> target -> bool).

(* 137-152, 190-199 *)
Definition is_target (n : name) (t : target) : bool :=
  if negb (typed n) then sub (tdir t) (dir n)
  else beqb (tname t) (value n) && beqb (ttype t) (type n) && same_path (tdir t) (dir n) && search n t.

(* pass () 59-98. Fuel is for the rest, which is shorter by one or two. *)
Fixpoint pass_loop (fuel : nat) (r : bool) (d : path) (ns : list name) : option bool :=
  match fuel, ns with
  | S fuel, n :: ns =>
      match sense n ns with
      | None => None
      | Some (Some n, _, ns) =>
          let r := sub (dir n) d in
          let r := if negb r && negb (typed n) then sub d (dir n) else r in
          if r then Some true else pass_loop fuel r d ns
      | Some (None, _, ns) => pass_loop fuel r d ns
      end
  | _, _ => Some r
  end.
Definition pass (config : option (list name)) (a : target) : option bool :=
  match config with None => Some true | Some ns => pass_loop (length ns) true (tdir a) ns end.

(* test () 100-160 *)
Fixpoint test_loop (fuel : nat) (r : bool) (t : target) (ns : list name) : option bool :=
  match fuel, ns with
  | S fuel, n :: ns =>
      match sense n ns with
      | None => None
      | Some (Some n, _, ns) => if is_target n t then Some true else test_loop fuel false t ns
      | Some (None, _, ns) => test_loop fuel r t ns
      end
  | _, _ => Some r
  end.
Definition test (config : option (list name)) (t : target) : option bool :=
  match config with None => Some true | Some ns => test_loop (length ns) true t ns end.

(* test () 162-222 *)
Fixpoint test_id_loop (fuel : nat) (r : bool) (t : target) (id : path) (ns : list name) : option bool :=
  match fuel, ns with
  | S fuel, n :: ns =>
      match sense n ns with
      | None => None
      | Some (tn, Some n, ns) =>
          if match tn with Some n => negb (is_target n t) | None => false end then test_id_loop fuel r t id ns
          else
            let p := id_path (value n) in
            if sub p id || sub id p then Some true else test_id_loop fuel false t id ns
      | Some (_, None, ns) => test_id_loop fuel r t id ns
      end
  | _, _ => Some r
  end.
Definition test_id (config : option (list name)) (t : target) (id : path) : option bool :=
  match config with None => Some true | Some ns => test_id_loop (length ns) true t id ns end.
End Search.
