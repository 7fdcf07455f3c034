(* What executing a buildspec means. *)
From Verif Require Import Base RunModel.

Section Spec.
Context (builtin : bytes -> bool) (defines_meta defines_op : nat -> bytes -> bool) (builtin_op : bytes -> bool)
        (meta_of : nat -> bytes -> option metainfo) (op_of : nat -> bytes -> option opinfo) (here : nat).

(* The default target is the current directory. *)
Definition targets_of (o : opspec) : list nat := match targets o with [] => [here] | ts => ts end.
Definition first (o : opspec) : nat := hd here (targets_of o).
Definition all_ops (m : metaopspec) : list opspec := match ops m with [] => [mkop [] 0 []] | os => os end.

(* A name written as an operation is the name of a meta-operation if it is built in or is one in the project of the first target. *)
Definition is_meta (o : opspec) : Prop := oname o <> [] /\ (builtin (oname o) = true \/ defines_meta (first o) (oname o) = true).

(* A meta-operation to be executed in its own context: its name, parameters and operations. *)
Record job := mkjob { jname : bytes; jparams : nat; jops : list opspec }.

(* Jobs that operations written without a meta-operation stand for: a name of a meta-operation is this meta-operation with the
   default operation and with these parameters and targets, and every longest run of other operations is performed. *)
Inductive Jobs (p : nat) : list opspec -> list job -> Prop :=
| J_none : Jobs p [] []
| J_meta o os js : is_meta o -> Jobs p os js -> Jobs p (o :: os) (mkjob (oname o) (oparams o) [mkop [] 0 (targets_of o)] :: js)
| J_run l os js : l <> [] -> (forall o, In o l -> ~ is_meta o) -> (os = [] \/ exists o os', os = o :: os' /\ is_meta o) ->
    Jobs p os js -> Jobs p (l ++ os) (mkjob perform p l :: js).
Inductive Plan : list metaopspec -> list job -> Prop :=
| P_nil : Plan [] []
| P_named m ms js : mname m <> [] -> Plan ms js -> Plan (m :: ms) (mkjob (mname m) (mparams m) (all_ops m) :: js)
| P_unnamed m ms js js' : mname m = [] -> Jobs (mparams m) (all_ops m) js -> Plan ms js' -> Plan (m :: ms) (js ++ js').

(* What an operation is in a project: r0 is what is asked for and ro is what the meta-operation turns it into. *)
Record resolved := mkresolved { r0 : opinfo; rname : bytes; ro : opinfo; router : option opinfo; rpre : option opinfo; rpost : option opinfo }.
Definition Optional (t : nat) (n : bytes) (i : option opinfo) : Prop :=
  n = [] /\ i = None \/ n <> [] /\ exists j, op_of t n = Some j /\ i = Some j.
Definition Resolves (m : bytes) (mi : metainfo) (t : nat) (o : bytes) (r : resolved) : Prop :=
  let asked := match o with [] => default | _ => o end in
  let wanted := translate mi (oid (r0 r)) in
  op_of t asked = Some (r0 r) /\
  (wanted = oid (r0 r) /\ rname r = asked /\ ro r = r0 r \/
   wanted <> oid (r0 r) /\ rname r = wanted /\ op_of t wanted = Some (ro r)) /\
  Optional t (outer (ro r)) (router r) /\ Optional t (pre (ro r) m) (rpre r) /\ Optional t (post (ro r) m) (rpost r).
(* This project has the same implementations. *)
Definition SameImpl (t : nat) (n : bytes) (i : opinfo) : Prop := exists j, op_of t n = Some j /\ oimpl j = oimpl i.
Definition Agrees (m : bytes) (mi : metainfo) (r : resolved) (t : nat) : Prop :=
  (exists mj, meta_of t m = Some mj /\ mimpl mj = mimpl mi) /\
  SameImpl t (rname r) (ro r) /\
  (forall i, router r = Some i -> SameImpl t (outer (ro r)) i) /\
  (forall i, rpre r = Some i -> SameImpl t (pre (ro r) m) i) /\
  (forall i, rpost r = Some i -> SameImpl t (post (ro r) m) i).

(* Events of an operation: buildfiles of all targets are loaded first, then all targets are matched and executed for the
   pre-operation if any, for the operation, and for the post-operation if any. Every callback that starts something has the one
   that ends it. *)
Definition within (a z : event) (body : list event) : list event := a :: body ++ [z].
Definition matched_and_executed (a : action) (ts : list nat) : list event := [Match a ts; Execute a ts].
Definition auxiliary (m o q : bytes) (p : nat) (body : list event) : list event :=
  within (OpPre m q) (OpPost m q)
    (Current q o :: within (Enter o p false) (Leave o false) (within (Enter q 0 true) (Leave q true) body)).
Definition proper (o : opinfo) (outer_op : option opinfo) (p : nat) (body : list event) : list event :=
  Current (oid o) (outer o) ::
  match outer_op with
  | Some u => within (Enter (oid u) p false) (Leave (oid u) false) (within (Enter (oid o) 0 true) (Leave (oid o) true) body)
  | None => within (Enter (oid o) p true) (Leave (oid o) true) body
  end.
Definition op_events (m : bytes) (r : resolved) (p : nat) (ts : list nat) : list event :=
  let o := oid (ro r) in
  let main := matched_and_executed (m, o, outer (ro r)) ts in
  within (OpPre m (oid (r0 r))) (OpPost m o)
    ((match rpre r with
      | Some q => auxiliary m o (oid q) p (map Load ts ++ matched_and_executed (m, oid q, o) ts) ++ proper (ro r) (router r) p main
      | None => proper (ro r) (router r) p (map Load ts ++ main)
      end) ++
     match rpost r with Some q => auxiliary m o (oid q) p (matched_and_executed (m, oid q, o) ts) | None => [] end).

(* An operation of a job is executed with these events: it is not a meta-operation and all targets agree. *)
Definition OpRuns (m : bytes) (mi : metainfo) (o : opspec) (es : list event) : Prop :=
  ~ is_meta o /\
  exists r, Resolves m mi (first o) (oname o) r /\ (forall t, In t (targets_of o) -> Agrees m mi r t) /\
            es = op_events m r (oparams o) (targets_of o).
Definition Support (m : bytes) (mi : metainfo) (os : list opspec) : Prop :=
  match os with [] => False | o :: _ => meta_of (first o) m = Some mi end.
Definition JobRuns (j : job) (es : list event) : Prop :=
  exists mi ess, Support (jname j) mi (jops j) /\ Forall2 (OpRuns (jname j) mi) (jops j) ess /\
    es = within (MetaPre (jname j) (jparams j)) (MetaPost (jname j)) (concat ess).

(* Every job has its own context. *)
Fixpoint in_contexts (ess : list (list event)) : list event :=
  match ess with [] => [] | [es] => es | es :: r => es ++ Fresh :: in_contexts r end.
Definition Runs (js : list job) (es : list event) : Prop := exists ess, Forall2 JobRuns js ess /\ es = in_contexts ess.

(* Execution stopped at an operation: jobs and operations before it were executed, and nothing was loaded, matched or executed
   for it or after it. *)
Definition Stopped (js : list job) (es : list event) : Prop :=
  exists js1 j js2 ess1 e os1 o os2,
    js = js1 ++ j :: js2 /\ Forall2 JobRuns js1 ess1 /\ es = in_contexts (ess1 ++ [e]) /\
    jops j = os1 ++ o :: os2 /\
    (os1 = [] /\ e = [] \/
     exists mi ess tail, Support (jname j) mi (os1 ++ [o]) /\ Forall2 (OpRuns (jname j) mi) os1 ess /\
       e = MetaPre (jname j) (jparams j) :: concat ess ++ tail /\
       (tail = [] \/ exists q, tail = [OpPre (jname j) q])).

(* Everything that starts ends, in the opposite order. *)
Inductive Balanced : list event -> Prop :=
| B_nil : Balanced []
| B_one e : match e with Fresh | Current _ _ | Load _ | Match _ _ | Execute _ _ => True | _ => False end -> Balanced [e]
| B_app es es' : Balanced es -> Balanced es' -> Balanced (es ++ es')
| B_meta m p es : Balanced es -> Balanced (within (MetaPre m p) (MetaPost m) es)
| B_op m o o' es : Balanced es -> Balanced (within (OpPre m o) (OpPost m o') es)
| B_enter o p i es : Balanced es -> Balanced (within (Enter o p i) (Leave o i) es).

(* What a project supports is known once it is bootstrapped. *)
Definition Sane : Prop :=
  (forall t m, meta_of t m <> None -> builtin m = true \/ defines_meta t m = true) /\
  (forall t o, op_of t o <> None -> builtin_op o = true \/ defines_op t o = true) /\
  builtin [] = false /\ (forall t, defines_meta t [] = false).
(* No project of another target has a meta-operation with the name of an operation. *)
Definition used (ms : list metaopspec) : list nat := flat_map (fun m => flat_map targets_of (all_ops m)) ms.
Definition Coherent (ms : list metaopspec) : Prop :=
  forall m o t, In m ms -> In o (all_ops m) -> In t (used ms) -> oname o <> [] -> defines_meta t (oname o) = true -> is_meta o.
(* Enough iterations. *)
Definition enough (ms : list metaopspec) : nat := 1 + fold_right (fun m n => 2 + 2 * length (all_ops m) + n) 0 ms.
End Spec.
