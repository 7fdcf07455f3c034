(* Model of arranging libraries on the linker's command line: link_rule::append_libraries (),
   libbuild2/cc/link-rule.cxx:2462-2821, its use in perform_update () (3911-3990), appended_libraries,
   libbuild2/cc/link-rule.hxx:82-200, and the traversal of libraries, process_libraries_impl (),
   libbuild2/cc/common.cxx:136-838.

   Simplified: this is for linking an executable or a shared library. An argument is a number. Which
   libraries a library depends on and which options it exports has been looked up: for a static (or
   utility) library these are its prerequisites and *.libs (or *.export.impl_libs if specified) and for a
   shared one *.export.libs. What is linked for a library (its path, nothing if it is binless) is also
   what is hashed (for a whole archive this is the same path with options). *)
From Verif Require Import Base.

Definition arg := nat.
(* A dependency on a library, linked as a whole archive or not, or an option like -lm or -framework X. *)
Inductive dep := Use (l : nat) (whole : bool) | Simple (ns : list arg).
Record library := mklib {
  static : bool; (* liba{} or libu*{}: implementation dependencies are needed *)
  utility : bool; (* libu*{} *)
  default_whole : bool; (* bin.whole, common.cxx:660-679 *)
  binless : bool; (* recursively-binless in cc.type *)
  exports : bool; (* proc_opt is called with *.export.*, common.cxx:258-302 *)
  options : list arg; (* *.export.loptions *)
  elements : list arg;
  deps : list dep }.

(* What is tracked to suppress duplicates (appended_library::l1 and l2) and what isn't: whole archives
   and options with more than two elements. *)
Inductive tag := Library (l : nat) | Name (ns : list arg) | Whole (l : nat) | Long (ns : list arg).
Definition tracked (t : tag) : bool := match t with Library _ | Name _ => true | _ => false end.
Definition args_eqb (x y : list arg) : bool := if list_eq_dec Nat.eq_dec x y then true else false.
Definition tag_eqb (x y : tag) : bool :=
  match x, y with
  | Library x, Library y | Whole x, Whole y => x =? y
  | Name x, Name y | Long x, Long y => args_eqb x y
  | _, _ => false
  end.
Definition lib_tag (l : nat) (whole : bool) : tag := if whole then Whole l else Library l.
Definition name_tag (ns : list arg) : tag := if length ns <=? 2 then Name ns else Long ns.

(* appended_library::end: npos, a position and what is left of npos after subtracting something. *)
Inductive limit := Open | At (n : nat) | Wrapped.
Record entry := mkentry { what : tag; begin : nat; end_ : limit }.
Record state := mkstate { args : list arg; entries : list entry; hashed : list arg }.

(* What can happen: fine; a cycle is diagnosed; the behavior is undefined; the model has run out of
   steps. *)
Inductive outcome (A : Type) := Ok (x : A) | Cycle (l : nat) | Undefined | Exhausted.
Arguments Ok {A}. Arguments Cycle {A}. Arguments Undefined {A}. Arguments Exhausted {A}.
Definition bind {A B} (x : outcome A) (f : A -> outcome B) : outcome B :=
  match x with Ok x => f x | Cycle l => Cycle l | Undefined => Undefined | Exhausted => Exhausted end.

(* appended_libraries::find (), link-rule.hxx:103-138 *)
Definition find_entry (es : list entry) (t : tag) : option entry := List.find (fun e => tag_eqb (what e) t) es.
Definition set_end (es : list entry) (t : tag) (n : nat) : list entry :=
  map (fun e => if tag_eqb (what e) t then mkentry (what e) (begin e) (At n) else e) es.
(* appended_libraries::append (), 142-173 *)
Definition append (s : state) (t : tag) : state :=
  match find_entry (entries s) t with
  | Some _ => s
  | None => mkstate (args s) (entries s ++ [mkentry t (length (args s)) Open]) (hashed s)
  end.
(* appended_libraries::hoist (), 178-204 *)
Definition hoist (s : state) (e : entry) : outcome state :=
  match end_ e with
  | At n =>
      if begin e =? n then Ok s
      else if (begin e <? n) && (n <=? length (args s)) then
        let k := n - begin e in
        let xs := firstn (begin e) (args s) ++ skipn n (args s) ++ skipn (begin e) (firstn n (args s)) in
        let es := map (fun e1 =>
          if n <=? begin e1 then mkentry (what e1) (begin e1 - k) (match end_ e1 with At m => At (m - k) | _ => Wrapped end)
          else e1) (entries s) in
        let size := length xs in
        let es := map (fun e1 => if tag_eqb (what e1) (what e) then mkentry (what e1) (size - k) (At size) else e1) es in
        Ok (mkstate xs es (hashed s))
      else Undefined
  | _ => Undefined
  end.
Definition push (s : state) (xs : list arg) : state := mkstate (args s ++ xs) (entries s) (hashed s ++ xs).
Definition close (s : state) (t : tag) : state := mkstate (args s) (set_end (entries s) t (length (args s))) (hashed s).

(* The lib callback, link-rule.cxx:2498-2767. The second component is whether to continue with the
   dependencies. *)
Definition on_lib (s : state) (t : tag) (xs : list arg) (bl : bool) : outcome (state * bool) :=
  if tracked t then
    let s := append s t in
    match find_entry (entries s) t with
    | Some e =>
        match end_ e with
        | Open => Ok (close (push s xs) t, true)
        | _ => if bl then Ok (s, false) else bind (hoist s e) (fun s => Ok (s, true))
        end
    | None => Undefined
    end
  else Ok (push s xs, true).
(* The opt callback, 2769-2811. *)
Definition on_opt (s : state) (l : nat) (xs : list arg) : state :=
  let s := append s (Library l) in
  match find_entry (entries s) (Library l) with
  | Some e => match end_ e with Open => push s xs | _ => s end
  | None => s
  end.

Section Graph.
Context (G : nat -> library).
Definition in_chain (l : nat) (chain : list (nat * bool)) : bool := existsb (fun c => fst c =? l) chain.
(* What is linked: utility libraries are only linked until the first library that is not one, 2597-2615. *)
Definition linked (chain : list (nat * bool)) (l : nat) : list arg :=
  if utility (G l) && negb (forallb (fun c => utility (G (fst c))) chain) then [] else elements (G l).

(* The loops over dependencies: over prerequisites and *.libs for a static library (no dedup) and
   proc_intf () otherwise, common.cxx:373-432, 516-698 and 707-735. *)
Fixpoint loop (visit : option (list nat) -> nat -> bool -> state -> outcome (state * option (list nat)))
  (start : nat) (ds : list dep) (dedup : option (list nat)) (s : state) : outcome (state * option (list nat)) :=
  match ds with
  | [] => Ok (s, dedup)
  | Simple ns :: ds => bind (on_lib s (name_tag ns) ns false) (fun r => loop visit start ds dedup (fst r))
  | Use l w :: ds =>
      match dedup with
      | None => bind (visit None l w s) (fun r => loop visit start ds (snd r) (fst r))
      | Some d =>
          if existsb (Nat.eqb l) (skipn start d) then loop visit start ds dedup s
          else bind (visit (Some (d ++ [l])) l (default_whole (G l)) s) (fun r => loop visit start ds (snd r) (fst r))
      end
  end.
(* 737-832: the list of libraries seen *)
Definition visit_deps (visit : option (list nat) -> nat -> bool -> state -> outcome (state * option (list nat)))
  (dedup : option (list nat)) (l : nat) (s : state) : outcome (state * option (list nat)) :=
  if static (G l) then bind (loop visit 0 (deps (G l)) None s) (fun r => Ok (fst r, dedup))
  else match dedup with
       | Some d => loop visit (length d) (deps (G l)) dedup s
       | None => bind (loop visit 0 (deps (G l)) (Some []) s) (fun r => Ok (fst r, None))
       end.
(* process_libraries_impl () with self *)
Fixpoint visit (fuel : nat) (chain : list (nat * bool)) (dedup : option (list nat)) (l : nat) (whole : bool) (s : state) : outcome (state * option (list nat)) :=
  match fuel with
  | O => Exhausted
  | S fuel =>
      if in_chain l chain then Cycle l
      else
        let s := if exports (G l) then on_opt s l (options (G l)) else s in
        bind (on_lib s (lib_tag l whole) (linked chain l) (binless (G l))) (fun r =>
          if snd r then visit_deps (visit fuel ((l, whole) :: chain)) dedup l (fst r)
          else Ok (fst r, dedup))
  end.
(* Without self ($cc.lib_libs (), functions.cxx:330-407, and pkg-config files). *)
Definition visit_without (fuel : nat) (l : nat) (s : state) : outcome (state * option (list nat)) :=
  let s := if exports (G l) then on_opt s l (options (G l)) else s in
  visit_deps (visit fuel []) None l s.

(* The prerequisites of what is being linked. *)
Inductive prerequisite := Object (x : arg) | Lib (l : nat) (whole self : bool).
Fixpoint link (fuel : nat) (ps : list prerequisite) (s : state) : outcome state :=
  match ps with
  | [] => Ok s
  | Object x :: ps => link fuel ps (mkstate (args s ++ [x]) [] (hashed s ++ [x]))
  | Lib l w self :: ps =>
      bind (if self then visit fuel [] None l w s else visit_without fuel l s) (fun r => link fuel ps (fst r))
  end.
Definition initial : state := mkstate [] [] [].
End Graph.
