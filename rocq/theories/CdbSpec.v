(* What a compilation database should contain, in terms of what is done during a session. *)
From Verif Require Import Base CdbModel.

Section Cdb.
Context {cmd : Type}.
Context (ser : bytes -> cmd -> option bytes) (out_of : bytes -> option bytes) (under : bytes -> bytes -> bool).
Notation event := (@event cmd).

(* Output is matched; matched as changed; the last line executed for it. *)
Definition matched (k : bytes) (es : list event) : Prop := exists c, In (Match k c) es.
Definition changed (k : bytes) (es : list event) : Prop := In (Match k true) es.
Fixpoint executed (k : bytes) (es : list event) : option bytes :=
  match es with
  | [] => None
  | Exec k' c :: es => match executed k es with Some j => Some j | None => if beqb k' k then ser k c else None end
  | _ :: es => executed k es
  end.

(* The line of an output after a session, given the one before it, provided the output is (still) there. *)
Definition updated (k : bytes) (es : list event) (old new : option bytes) : Prop :=
  match old with
  | None => (matched k es -> new = executed k es) /\ (~ matched k es -> new = None)
  | Some t => (changed k es -> new = Some (match executed k es with Some j => j | None => t end)) /\ (~ changed k es -> new = Some t)
  end.

(* Outputs in directories being updated are dropped by a successful update, unless a pre-operation or in a nested context. *)
Definition in_scope (p : fin) (k : bytes) : Prop :=
  p_failed p = false /\ p_nested p = false /\ p_outer p = false /\ exists d, In d (p_dirs p) /\ under d k = true.

(* Only calls to match and execute, and those of nested operations. *)
Fixpoint depth (d : nat) (es : list event) : option nat :=
  match es with
  | [] => Some d
  | Pre :: es => depth (S d) es
  | Post _ :: es => match d with S (S d) => depth (S d) es | _ => None end
  | _ :: es => depth d es
  end.
Definition inner (es : list event) : Prop := depth 1 es = Some 1.

(* Entries can be serialized. *)
Definition valid (e : event) : Prop := match e with Exec k c => ser k c <> None | _ => True end.

(* A session, given outputs seen in sessions before it (nested or while loading). *)
Definition dropped_key (seen : bytes -> Prop) (es : list event) (p : fin) (k : bytes) : Prop :=
  in_scope p k /\ ~ matched k es /\ ~ seen k.
Definition session_ok (seen : bytes -> Prop) (es : list event) (p : fin) (old new : bytes -> option bytes) : Prop :=
  forall k, (dropped_key seen es p k -> new k = None) /\ (~ dropped_key seen es p k -> updated k es (old k) (new k)).
Definition seen_after (seen : bytes -> Prop) (es : list event) (p : fin) (k : bytes) : Prop :=
  p_nested p || p_load p = true /\ (seen k \/ matched k es).

(* A history of sessions of the same process. *)
Inductive history_ok : (bytes -> Prop) -> (bytes -> option bytes) -> list (list event * fin) -> (bytes -> option bytes) -> Prop :=
| HNil seen old : history_ok seen old [] old
| HCons seen old es p mid ss new : session_ok seen es p old mid -> history_ok (seen_after seen es p) mid ss new ->
    history_ok seen old ((es, p) :: ss) new.

Definition events (ss : list (list event * fin)) : list event := flat_map (fun x => Pre :: fst x ++ [Post (snd x)]) ss.
Definition quiet (p : fin) : Prop := p_failed p = false /\ p_match_only p = false.

(* Called as intended: matched once, executed if matched, and all that is new is executed. *)
Definition calls_ok (old : bytes -> option bytes) (es : list event) (p : fin) : Prop :=
  (forall a c k ch, es = a ++ Match k ch :: c -> ~ matched k a) /\
  (forall a c k x, es = a ++ Exec k x :: c -> matched k a) /\
  (quiet p -> forall k, matched k es -> old k = None -> executed k es <> None).

(* A line as serialized: starts with an object, on one line, output first. *)
Definition line_ok (k j : bytes) : Prop :=
  out_of j = Some k /\ ~ In NL j /\ (exists j', j = "{"%char :: j') /\ exists j', j = j' ++ ["}"%char].

(* The file has these entries. No file is the same as no entries. *)
Definition holds (file : option bytes) (l : list (bytes * bytes)) : Prop :=
  NoDup (map fst l) /\ (forall k j, In (k, j) l -> line_ok k j) /\
  (file = None /\ l = [] \/ file = Some (write (map snd l))).

(* The use by the rule: an output is matched as changed if the command recorded (in the dependency database) is different, and then the
   command is recorded. If changed or not in the compilation database, then executed, unless something has failed or only matching. If
   all is set, then also in those cases. *)
Record build := mkbuild { b_cur : bytes -> cmd; b_events : list event; b_fin : fin }.
Definition proper (all : Prop) (dd : bytes -> option cmd) (old : bytes -> option bytes) (x : build) : Prop :=
  inner (b_events x) /\ Forall valid (b_events x) /\
  (forall k ch, In (Match k ch) (b_events x) -> (ch = false <-> dd k = Some (b_cur x k))) /\
  (forall k c, In (Exec k c) (b_events x) -> c = b_cur x k) /\
  (all \/ quiet (b_fin x) -> forall k, matched k (b_events x) -> changed k (b_events x) \/ old k = None -> In (Exec k (b_cur x k)) (b_events x)).
Definition recorded (dd dd' : bytes -> option cmd) (x : build) : Prop :=
  forall k, (matched k (b_events x) -> dd' k = Some (b_cur x k)) /\ (~ matched k (b_events x) -> dd' k = dd k \/ dd' k = None).

(* A history of builds, each by its own process. *)
Inductive builds (all : Prop) : list build -> (bytes -> option cmd) -> option bytes -> Prop :=
| BNil : builds all [] (fun _ => None) None
| BSnoc xs dd f l x dd' s : builds all xs dd f -> holds f l -> proper all dd (fun k => find k l) x -> recorded dd dd' x ->
    run ser out_of under (start f) (Pre :: b_events x ++ [Post (b_fin x)]) = Some s -> builds all (xs ++ [x]) dd' (s_file s).

(* What is executed, in order. *)
Definition printed (es : list event) : list bytes :=
  flat_map (fun e => match e with Exec k c => match ser k c with Some j => [j] | None => [] end | _ => [] end) es.
End Cdb.
