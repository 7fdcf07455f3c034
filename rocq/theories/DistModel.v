(* Model of the dist meta-operation: libbuild2/dist/rule.cxx: rule::apply () 26-127, match_postponed () 129-161;
   libbuild2/dist/operation.cxx: add_subdir () 136-214, dist_project () 216-887, install () 918-1042.

   Targets are numbers, directories absolute and normalized: lists of names, outermost first. Not modelled: post hoc prerequisites (matched
   by the caller of the rules), rules other than that of the module (what matching enters is a parameter), several operations (each starts
   with the targets known after the one before), ad hoc files (known targets), callbacks, archives and checksums, permissions. *)
From Verif Require Import Base ImpModel.

Definition mem (n : nat) (l : list nat) : bool := existsb (Nat.eqb n) l.

(* A prerequisite: whether a file, of another project, post hoc; the target it is if there is one (or would be); the target for the source
   file if there is one; whether its directory is absolute and outside of the project. *)
Record prereq := mkprereq { p_file : bool; p_proj : bool; p_posthoc : bool; p_out : nat; p_src : option nat; p_outside : bool }.

(* The value of the dist variable: null, false, true or another path, with its directory as is. *)
Inductive dval := DNull | DFalse | DTrue | DPath (abs : bool) (dir : list bytes) (name : option bytes).

Section Dist.
Context (src_root out_root : list bytes).
Context (tdir : nat -> list bytes) (tname : nat -> bytes).            (* directory and name of the file *)
Context (prereqs : nat -> list prereq) (enters : nat -> list nat).    (* enters: targets that matching enters, such as members of groups *)

(* State of matching: targets known and matched, prerequisites of those matched not yet seen, postponed ones. *)
Record mstate := mkm { known : list nat; matched : list nat; pend : list prereq; post : list prereq }.

(* The search () of a file target type: an existing target or source file. *)
Definition search (ks : list nat) (p : prereq) : option nat := if mem (p_out p) ks then Some (p_out p) else p_src p.

(* 120-123, 156-160; the rule is applied: its prerequisites are to be seen. *)
Definition matching (s : mstate) (t : nat) : mstate :=
  if sub (tdir t) out_root && negb (mem t (matched s))
  then mkm (enters t ++ known s) (t :: matched s) (pend s ++ prereqs t) (post s)
  else s.
Definition enter (s : mstate) (t : nat) : mstate := mkm (t :: known s) (matched s) (pend s) (post s).
(* 47-124 *)
Definition apply1 (s : mstate) (p : prereq) : mstate :=
  if p_posthoc p then s
  else if p_proj p then s
  else if p_file p then
    match search (known s) p with
    | None => if p_outside p then s else mkm (known s) (matched s) (pend s) (post s ++ [p])
    | Some x => matching (enter s x) x
    end
  else matching (enter s (p_out p)) (p_out p).
(* 129-161. None: it fails. *)
Definition again (s : mstate) (p : prereq) : option mstate :=
  match search (known s) p with None => None | Some x => Some (matching (enter s x) x) end.

(* Prerequisites are seen in any order; when there are no more, the first postponed one: operation.cxx 296-327. *)
Inductive mstep (s : mstate) : option mstate -> Prop :=
| ms_pend l1 p l2 : pend s = l1 ++ p :: l2 -> mstep s (Some (apply1 (mkm (known s) (matched s) (l1 ++ l2) (post s)) p))
| ms_post p ps : pend s = [] -> post s = p :: ps -> mstep s (again (mkm (known s) (matched s) [] ps) p).
Inductive msteps : mstate -> option mstate -> Prop :=
| mss_refl s : msteps s (Some s)
| mss_step s s' r : mstep s (Some s') -> msteps s' r -> msteps s r
| mss_fail s : mstep s None -> msteps s None.
Definition start (ks : list nat) (root : nat) : mstate := mkm (enters root ++ ks) [root] (prereqs root) [].
Definition finished (s : mstate) : Prop := pend s = [] /\ post s = [].

(* operation.cxx 489-573 *)
Context (is_file see_through : nat -> bool) (group : nat -> option nat) (dist : nat -> dval).
Definition collect (t : nat) : bool :=
  if sub (tdir t) src_root then match dist t with DFalse => false | _ => true end
  else if sub (tdir t) out_root then match dist t with DNull | DFalse => false | _ => true end
  else false.
Definition gather (ks : list nat) : list nat :=
  filter (fun t =>
    if see_through t then match dist t with DNull | DFalse => false | _ => true end
    else is_file t && negb (match group t with Some g => see_through g | None => false end) && collect t) ks.

(* 613-653. None: it fails. *)
Context (members : nat -> option (list nat)).
Fixpoint resolve (ts : list nat) : option (list nat) :=
  match ts with
  | [] => Some []
  | t :: ts =>
    match (if see_through t then match members t with Some ms => Some (filter (fun m => is_file m && collect m) ms) | None => None end else Some [t]), resolve ts with
    | Some l, Some r => Some (l ++ r)
    | _, _ => None
    end
  end.

(* dir_path::normalize () of libbutl for absolute ones. None: it throws. *)
Fixpoint norm (acc p : list bytes) : option (list bytes) :=
  match p with
  | [] => Some (rev acc)
  | n :: p =>
    if beqb n (b ".") then norm acc p
    else if beqb n (b "..") then match acc with [] => None | _ :: acc => norm acc p end
    else norm (n :: acc) p
  end.

(* 710-763: directory in the distribution and name. None: it fails. *)
Definition leaf (d r : list bytes) : list bytes := skipn (length r) d.
Definition locate (d : list bytes) (n : bytes) : option (list bytes * bytes) :=
  if sub d src_root then Some (leaf d src_root, n) else if sub d out_root then Some (leaf d out_root, n) else None.
Definition place (t : nat) : option (list bytes * bytes) :=
  match dist t with
  | DPath abs d n =>
    match abs, d, n with
    | false, [], Some _ => None
    | _, _, _ =>
      match norm [] (if abs then d else tdir t ++ d) with
      | Some rd => locate rd (match n with Some n => n | None => tname t end)
      | None => None
      end
    end
  | _ => locate (tdir t) (tname t)
  end.

(* The distribution directory: what is at each path is a copy of the file. 918-1042. cmd: config.dist.cmd is specified. *)
Definition dfs := list ((list bytes * bytes) * nat).
Definition full (p : list bytes * bytes) : list bytes := fst p ++ [snd p].
Fixpoint put (d : dfs) (p : list bytes * bytes) (t : nat) : dfs :=
  match d with
  | [] => [(p, t)]
  | (q, u) :: d => if dir_eqb (full q) (full p) then (p, t) :: d else (q, u) :: put d p t
  end.
Definition install (cmd : bool) (d : dfs) (p : list bytes * bytes) (t : nat) : option dfs :=
  if existsb (fun e => sub (full p) (full (fst e)) && negb (dir_eqb (full p) (full (fst e))) ||
                       sub (full (fst e)) (full p) && negb (dir_eqb (full p) (full (fst e)))) d then None     (* a file and a directory *)
  else if existsb (fun e => dir_eqb (full (fst e)) (full p)) d && negb cmd then None
  else Some (put d p t).
Fixpoint copy (cmd : bool) (ts : list nat) (d : dfs) : option dfs :=
  match ts with
  | [] => Some d
  | t :: ts => match place t with None => None | Some p => match install cmd d p t with None => None | Some d => copy cmd ts d end end
  end.

(* 216-887 after matching, with whether updating succeeds. Whether it succeeds and what the distribution directory is then. *)
Definition dist_project (ks : list nat) (updated cmd : bool) (td : option dfs) : bool * option dfs :=
  if negb updated then (false, td)
  else match resolve (gather ks) with
       | None => (false, td)
       | Some ts => match copy cmd ts [] with None => (false, None) | Some d => (true, Some d) end
       end.
End Dist.

(* The bootstrap mode, 136-214. Directories are those seen, with symbolic links in them. A link to a directory is with its target. *)
Inductive ent := EFile | EDir | ELink (target : list bytes).
Definition ignored (n : bytes) : bool := beqb (firstn 4 n) (b ".git") || beqb n (b ".bdep") || beqb n (b ".bpkg") || beqb n (b ".build2").
Section Bootstrap.
Context (ls : list bytes -> list (bytes * ent)).
Fixpoint walk (into : list bytes -> option (list (list bytes))) (d : list bytes) (chain : list (list bytes)) (es : list (bytes * ent)) : option (list (list bytes)) :=
  match es with
  | [] => Some []
  | (n, e) :: es =>
    if ignored n then walk into d chain es
    else
      match e with
      | EFile => match walk into d chain es with Some r => Some ((d ++ [n]) :: r) | None => None end
      | _ =>
        if match e with ELink t => existsb (dir_eqb t) chain | _ => false end then Some []
        else match into (d ++ [n]) with
             | None => None
             | Some l => match walk into d chain es with Some r => Some (l ++ r) | None => None end
             end
      end
  end.
(* None: not in so many levels. *)
Fixpoint subdir (fuel : nat) (d : list bytes) (prev : list (list bytes)) : option (list (list bytes)) :=
  match fuel with
  | 0 => None
  | S fuel => walk (fun x => subdir fuel x (d :: prev)) d (d :: prev) (ls d)
  end.
End Bootstrap.
