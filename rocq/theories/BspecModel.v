(* Model of parsing of buildspecs: libbuild2/parser.cxx, parse_buildspec () and parse_buildspec_clause () 10339-10580.

   The input is a sequence of what parse_names () and parse_value () return and tokens between them: variable and pattern
   expansions, quoting and splitting into chunks are not modelled. In particular, parentheses that belong to names (evaluation
   contexts and function calls) are not tokens here. *)
From Verif Require Import Base.

(* A name: a simple one, a target that is not simple, a pair with the source directory, a project-qualified one and a pair that is
   not valid (another separator or a typed first half). *)
Inductive nm := Simple (v : bytes) | Typed (t : nat) | Pair (src t : nat) | Qualified | BadPair.
(* Values are numbers, 0 is the empty one. *)
Inductive token := Names (ns : list nm) | LParen | RParen | Comma | Value (v : nat).

(* libbuild2/buildspec.hxx 36-56 *)
Record opspec := mkop { oname : bytes; oparams : list nat; targets : list nm }.
Record metaopspec := mkmeta { mname : bytes; mparams : list nat; ops : list opspec }.

Definition alpha (c : ascii) : bool :=
  let n := nat_of_ascii c in (nat_of_ascii "a" <=? n) && (n <=? nat_of_ascii "z") || (nat_of_ascii "A" <=? n) && (n <=? nat_of_ascii "Z").
Definition alnum (c : ascii) : bool :=
  let n := nat_of_ascii c in alpha c || (nat_of_ascii "0" <=? n) && (n <=? nat_of_ascii "9").
(* opname () 10377-10395 *)
Definition opname (n : nm) : option bytes :=
  match n with
  | Simple (c :: v) => if (ceqb c "-"%char || alpha c) && forallb (fun c => ceqb c "-"%char || alnum c) v then Some (c :: v) else None
  | _ => None
  end.
Fixpoint opnames (ns : list nm) : option (list bytes) :=
  match ns with
  | [] => Some []
  | n :: ns => match opname n, opnames ns with Some s, Some r => Some (s :: r) | _, _ => None end
  end.

Definition unnamed (s : bytes) : bool := match s with [] => true | _ => false end.
(* back () *)
Fixpoint on_last {A} (f : A -> A) (l : list A) : list A := match l with [] => [] | [x] => [f x] | x :: r => x :: on_last f r end.
Fixpoint back {A} (l : list A) : option A := match l with [] => None | [x] => Some x | _ :: r => back r end.

(* 10494-10495, 10511-10512 *)
Definition default_meta (bs : list metaopspec) : list metaopspec :=
  match back bs with Some m => if unnamed (mname m) then bs else bs ++ [mkmeta [] [] []] | None => bs ++ [mkmeta [] [] []] end.
Definition push_op (o : opspec) (m : metaopspec) : metaopspec := mkmeta (mname m) (mparams m) (ops m ++ [o]).
(* 10546-10550 *)
Definition push_target (t : nm) (m : metaopspec) : metaopspec :=
  let os := match back (ops m) with Some o => if unnamed (oname o) then ops m else ops m ++ [mkop [] [] []] | None => ops m ++ [mkop [] [] []] end in
  mkmeta (mname m) (mparams m) (on_last (fun o => mkop (oname o) (oparams o) (targets o ++ [t])) os).
(* 10516-10551 *)
Fixpoint add_names (m : metaopspec) (ns : list nm) : option metaopspec :=
  match ns with
  | [] => Some m
  | n :: ns =>
      match n with
      | Qualified | BadPair => None
      | _ => add_names (match opname n with Some s => push_op (mkop s [] []) m | None => push_target n m end) ns
      end
  end.
Definition add_plain (bs : list metaopspec) (ns : list nm) : option (list metaopspec) :=
  let bs := default_meta bs in
  match back bs with
  | None => None
  | Some m => match add_names m ns with Some m => Some (on_last (fun _ => m) bs) | None => None end
  end.

(* 10444-10458 *)
Fixpoint params (ts : list token) : option (list nat * list token) :=
  match ts with
  | Comma :: RParen :: r => Some ([0], RParen :: r)
  | Comma :: Value v :: r => match params r with Some (ps, r) => Some (v :: ps, r) | None => None end
  | Comma :: _ => None
  | _ => Some ([], ts)
  end.

(* PAssert: an assertion fails. PMore: out of fuel. *)
Inductive parsed := PFail | PAssert | PMore | POk (bs : list metaopspec) (ts : list token).
(* Merge the nested buildspec into ours, 10468-10506. *)
Definition merge (bs : list metaopspec) (ns : list bytes) (ps : list nat) (nbs : list metaopspec) (r : list token) : parsed :=
  if negb (forallb (fun m => unnamed (mname m)) nbs) then PFail
  else
    match nbs with
    | [m] =>
        if negb (forallb (fun o => unnamed (oname o)) (ops m)) then POk (bs ++ map (fun n => mkmeta n ps (ops m)) ns) r
        else
          match ops m with
          | [o] => POk (on_last (fun m => fold_left (fun m n => push_op (mkop n ps (targets o)) m) ns m) (default_meta bs)) r
          | _ => PAssert
          end
    | _ => PAssert
    end.

(* parse_buildspec_clause () 10397-10558 *)
Fixpoint clause (fuel : nat) (bs : list metaopspec) (first : bool) (ts : list token) : parsed :=
  match fuel with
  | 0 => PMore
  | S fuel =>
      match ts with
      | Names ns :: r =>
          match ns with
          | [] => PFail
          | _ =>
              match r with
              | LParen :: r =>
                  match opnames ns with
                  | None => PFail
                  | Some ns =>
                      match clause fuel [] true r with
                      | POk nbs r =>
                          match params r with
                          | Some (ps, RParen :: r) =>
                              match merge bs ns ps nbs r with
                              | POk bs r => clause fuel bs false r
                              | e => e
                              end
                          | _ => PFail
                          end
                      | e => e
                      end
                  end
              | _ => match add_plain bs ns with Some bs => clause fuel bs false r | None => PFail end
              end
          end
      | _ => if first then PFail else POk bs ts
      end
  end.

(* parse_buildspec () 10339-10374 *)
Definition parse (fuel : nat) (ts : list token) : parsed :=
  match ts with
  | [] => POk [] []
  | _ => match clause fuel [] true ts with POk bs (_ :: _) => PFail | r => r end
  end.
