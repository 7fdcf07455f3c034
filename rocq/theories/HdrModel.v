(* Model of extracting header dependencies: compile_rule::extract_headers (),
   libbuild2/cc/compile-rule.cxx:3080-4967, in particular the part after building arguments (3780-4967), with
   dyndep_rule::inject_file (), libbuild2/dyndep.cxx:24-56, and update_during_match (),
   libbuild2/algorithm.cxx:3118-3183.

   Simplified: this is for GCC and Clang-like compilers, without modules and header units. A header is a
   number and so are its contents. What the preprocessor does next is a function of what it has read so far
   (this is the assumption stated in 3791-3802): it can't find another header instead of one that doesn't
   exist (so there is no mapping from src to out, 3262-3297). A header is matched if it exists or can be
   generated. Interference by other threads, which can update any header at any time, is a parameter. *)
From Verif Require Import Base.

Definition header := nat.
Definition content := nat.
(* What the preprocessor does next. *)
Inductive step := Include (h : header) | Complete | Error.
Inductive tstate := Unknown | Unchanged | Changed.

Record world := mkworld {
  file : header -> option content;
  time : header -> nat; (* modification time *)
  known : header -> tstate; (* target_state *)
  clock : nat;
  ticks : nat (* how many times others had a chance *) }.

Record params := mkparams {
  (* the preprocessor *)
  next : list (header * option content) -> step;
  limit : nat; (* there are no infinite inclusions: the preprocessor fails *)
  reported : nat -> nat; (* how many headers the compiler reports in this run if it fails *)
  (* the rules for headers: contents to generate or what exists, none if there is no such header and no
     rule; whether it has to be generated *)
  goal : header -> option content;
  stale : header -> bool;
  (* what other threads do, and how much time passes, at this tick *)
  others : nat -> list header * nat;
  (* the compiler is always run with support for generated headers (-MG) *)
  always : bool;
  (* the modification time of the target *)
  target_time : nat }.

Definition setf {A} (f : nat -> A) (k : nat) (v : A) : nat -> A := fun x => if x =? k then v else f x.

Section Model.
Context (P : params).

(* Execute the recipe of a header, once. *)
Definition exec (w : world) (h : header) : world :=
  match known w h, goal P h with
  | Unknown, Some c =>
      if stale P h
      then mkworld (setf (file w) h (Some c)) (setf (time w) h (clock w)) (setf (known w) h Changed) (clock w) (ticks w)
      else mkworld (file w) (time w) (setf (known w) h Unchanged) (clock w) (ticks w)
  | _, _ => w
  end.
Definition interfere (w : world) : world :=
  let (hs, d) := others P (ticks w) in
  fold_left exec hs (mkworld (file w) (time w) (known w) (clock w + d) (S (ticks w))).

(* Running the compiler: what it has read and whether it has succeeded. *)
Fixpoint preprocess (n : nat) (gen : bool) (hist : list (header * option content)) (w : world) : world * list (header * option content) * bool :=
  match next P hist with
  | Complete => (w, hist, true)
  | Error => (w, hist, false)
  | Include h =>
      match n with
      | O => (w, hist, false)
      | S n =>
          let w := interfere w in
          match file w h with
          | Some c => preprocess n gen (hist ++ [(h, Some c)]) w
          | None => if gen then preprocess n gen (hist ++ [(h, None)]) w else (w, hist, false)
          end
      end
  end.

(* update_during_match () *)
Definition update_header (w : world) (h : header) (ts : nat) : world * bool :=
  match known w h with
  | Unchanged => (w, ts <? time w h)
  | Changed => (w, ts <=? time w h) (* newer () *)
  | Unknown =>
      let w := exec (interfere w) h in
      (w, match known w h with Changed => true | _ => ts <? time w h end)
  end.

(* The dependency database: lines that are confirmed or written, those that remain to be read and whether it
   is being written. *)
Record db := mkdb { lines : list header; rest : list header; ended : bool; written : bool }.
(* depdb::expect () *)
Definition expect (d : db) (h : header) : db :=
  match rest d with
  | x :: r => if x =? h then mkdb (lines d ++ [h]) r (ended d) (written d) else mkdb (lines d ++ [h]) [] false true
  | [] => mkdb (lines d ++ [h]) [] false true
  end.
(* The blank line *)
Definition finish (d : db) : db := mkdb (lines d) [] true (written d || match rest d with [] => negb (ended d) | _ => true end).

Record state := mkstate { w : world; skip : nat; dd : db; update : bool; force_gen : option bool; force_gen_skip : option nat; runs : nat }.
(* The end: dependencies are found, the failure is deferred to the compiler because there is no header, the
   compiler has failed, its behavior is inconsistent and the model has run out of steps. *)
Inductive outcome := Found (s : state) | Deferred (h : header) | Failed (s : state) | Inconsistent | Exhausted.

(* add () on headers from the compiler, 3820-3893 and 4659-4694. *)
Inductive added := Added (w : world) (n : nat) (d : db) (restart : bool) | Missing (h : header).
Fixpoint adds (ts : nat) (hs : list header) (w : world) (n : nat) (d : db) : added :=
  match hs with
  | [] => Added w n d false
  | h :: hs =>
      let w := interfere w in
      match goal P h with
      | None => Missing h
      | Some _ =>
          let (w, u) := update_header w h ts in
          let d := expect d h in
          if u then Added w (S n) d true else adds ts hs w (S n) d
      end
  end.

(* One run of the compiler, 4080-4957. *)
Inductive ran := Again (s : state) | Ended (r : outcome).
Definition run (s : state) : ran :=
  let gen := always P || match force_gen s with Some g => g | None => false end in
  let w0 := interfere (w s) in
  let pmt := clock w0 in
  let '(w1, hist, ok) := preprocess (limit P) gen [] w0 in
  let out := if ok then map fst hist else firstn (reported P (runs s)) (map fst hist) in
  match adds pmt (skipn (skip s) out) w1 (skip s) (dd s) with
  | Missing h => Ended (Deferred h)
  | Added w2 n d r =>
      let forced := match force_gen s with Some true => true | _ => false end in
      let s' := mkstate w2 n d (update s || r || forced) (if forced then Some false else force_gen s) (force_gen_skip s) (S (runs s)) in
      if ok then (if r || forced then Again s' else Ended (Found (mkstate w2 n (finish d) (update s') (force_gen s') (force_gen_skip s') (runs s'))))
      else if r then Again s'
      else if gen then Ended (Failed s')
      else match force_gen_skip s with
           | Some k => if k =? n then Ended Inconsistent else Again (mkstate w2 n d (update s') (Some true) (Some n) (runs s'))
           | None => Again (mkstate w2 n d (update s') (Some true) (Some n) (runs s'))
           end
  end.
Fixpoint loop (fuel : nat) (s : state) : outcome :=
  match fuel with
  | O => Exhausted
  | S fuel => match run s with Again s => loop fuel s | Ended r => r end
  end.

(* Reading the database, 3989-4077. *)
Fixpoint cached (hs : list header) (s : state) : ran :=
  match hs with
  | [] =>
      if ended (dd s) then Ended (Found s)
      else Again (mkstate (w s) (skip s) (mkdb (lines (dd s)) [] false true) (update s) (force_gen s) (force_gen_skip s) (runs s))
  | h :: hs =>
      let w := interfere (w s) in
      match goal P h with
      | None => Again (mkstate w (skip s) (mkdb (lines (dd s)) [] false true) true (force_gen s) (force_gen_skip s) (runs s))
      | Some _ =>
          let (w, u) := update_header w h (target_time P) in
          let d := mkdb (lines (dd s) ++ [h]) hs (ended (dd s)) (written (dd s)) in
          if u then Again (mkstate w (S (skip s)) d true (force_gen s) (force_gen_skip s) (runs s))
          else cached hs (mkstate w (S (skip s)) d (update s) (force_gen s) (force_gen_skip s) (runs s))
      end
  end.
(* old is the contents of the database and whether it has the blank line at the end; none if the target is
   being updated for other reasons. *)
Definition extract (fuel : nat) (w0 : world) (old : option (list header * bool)) : outcome :=
  match old with
  | None => loop fuel (mkstate w0 0 (mkdb [] [] false true) true None None 0)
  | Some (hs, e) =>
      match cached hs (mkstate w0 0 (mkdb [] hs e false) false None None 0) with
      | Ended r => r
      | Again s => loop fuel s
      end
  end.
End Model.
