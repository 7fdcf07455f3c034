(* Model of the compressing file cache: libbuild2/file-cache.{hxx,ixx,cxx}.

   One cache entry and its two files. LZ4 is abstract: [lzc] compresses and
   [lzd] decompresses (None: invalid input). Everything the environment decides
   (whether a file can be removed, whether compression fails and after how many
   bytes) is an argument of the operation. Every operation also returns the
   file system states it goes through: these are the points at which a crash
   can happen. Not modelled: file system permissions, verbosity traces. *)
From Verif Require Import Base.

Record fs := mkfs { f_plain : option bytes; f_comp : option bytes }.

(* file-cache.hxx:232: state (null is the absence of an entry). *)
Inductive cstate := Uninit | Uncomp | Comp | Decomp.

(* file-cache.hxx:173,234-237. [e_cpath]: comp_path_ is not empty. *)
Record entry := mkentry { e_temp : bool; e_st : cstate; e_cpath : bool; e_pin : nat }.

(* The handles the user of the entry holds: the write handle (and whether it
   has been used and closed), read handles and explicit pins (see "every call to pin()
   should have a matching unpin()", file-cache.hxx:196). An entry is created
   pinned. *)
Inductive wstate := WOpen | WWritten | WClosed.

Record world := mkworld {
  w_fs : fs; w_e : entry;
  w_writer : option wstate; w_readers : nat; w_pins : nat
}.

Inductive result :=
| Done (w : world) (crash : list fs)      (* returned normally *)
| Thrown (w : world) (crash : list fs)    (* threw failed *)
| AssertFailed                            (* an assert () does not hold *)
| NoHandle.                               (* the user has no such handle *)

(* What the environment decides while compressing. *)
Inductive coutcome := COk | CNoOpen | CFail (k : nat).
Record cenv := mkcenv { c_out : coutcome; c_rm_comp : bool; c_rm_plain : bool }.

(* Removal (libbutl try_rmfile_ignore_error): true also if there was no file. *)
Definition rm_plain (ok : bool) (f : fs) : fs := if ok then mkfs None (f_comp f) else f.
Definition rm_comp (ok : bool) (f : fs) : fs := if ok then mkfs (f_plain f) None else f.

(* The file system states while [d] is written to a file from the start. *)
Definition prefixes (d : bytes) : list bytes := map (fun k => firstn k d) (seq 0 (S (length d))).

Section Cache.
  Variable lzc : bytes -> bytes.
  Variable lzd : bytes -> option bytes.

  (* file-cache.cxx:91-125: compress (). Result: success, files, crash points. *)
  Definition compress (v : cenv) (f : fs) : bool * fs * list fs :=
    match f_plain f with
    | None => (false, rm_comp (c_rm_comp v) f, [rm_comp (c_rm_comp v) f])
    | Some d =>
        let z := lzc d in
        match c_out v with
        | COk => (true, mkfs (Some d) (Some z), map (fun p => mkfs (Some d) (Some p)) (prefixes z))
        | CNoOpen => let f' := rm_comp (c_rm_comp v) f in (false, f', [f'])
        | CFail k =>
            let f1 := mkfs (Some d) (Some (firstn k z)) in
            let f' := rm_comp (c_rm_comp v) f1 in
            (false, f', map (fun p => mkfs (Some d) (Some p)) (prefixes (firstn k z)) ++ [f'])
        end
    end.

  (* file-cache.cxx:65-89: preempt (). None is assert (false). *)
  Definition preempt (v : cenv) (s : cstate) (f : fs) : option (cstate * fs * list fs) :=
    let second (f : fs) (tr : list fs) :=
      let f' := rm_plain (c_rm_plain v) f in
      (if c_rm_plain v then Comp else Decomp, f', tr ++ [f']) in
    match s with
    | Uncomp => match compress v f with
                | (false, f', tr) => Some (Uncomp, f', tr)
                | (true, f', tr) => Some (second f' tr)
                end
    | Decomp => Some (second f [])
    | _ => None
    end.

  (* file-cache.ixx:19-26: unpin (); None is assert (false) or the wrapping of
     the pin count. *)
  Definition unpin (v : cenv) (e : entry) (f : fs) : option (entry * fs * list fs) :=
    match e_pin e with
    | 0 => None
    | S n =>
        let e' := mkentry (e_temp e) (e_st e) (e_cpath e) n in
        if (n =? 0) && e_cpath e && (match e_st e with Uncomp | Decomp => true | _ => false end)
        then match preempt v (e_st e) f with
             | None => None
             | Some (s, f', tr) => Some (mkentry (e_temp e) s (e_cpath e) n, f', tr)
             end
        else Some (e', f, [])
    end.

  (* What the environment decides while decompressing: success, or failure
     having written some bytes to the uncompressed file. *)
  Inductive doutcome := DOk | DFail (out : bytes).

  (* file-cache.cxx:127-145: decompress (). *)
  Definition decompress (v : doutcome) (f : fs) : bool * fs * list fs :=
    let put p := mkfs (Some p) (f_comp f) in
    match f_comp f with
    | None => (false, f, [f])
    | Some z =>
        match v, lzd z with
        | DOk, Some d => (true, put d, map put (prefixes d))
        | DOk, None => (false, put [], [put []])
        | DFail o, _ => (false, put o, map put (prefixes o))
        end
    end.

  (* file-cache.cxx:147-189: remove (); [rc], [rp]: whether the compressed and
     the uncompressed file can be removed. *)
  Definition remove (rc rp : bool) (e : entry) (f : fs) : fs :=
    match e_st e with
    | Uninit => if negb (e_cpath e) then rm_plain rp f
                else if rc then rm_plain rp (rm_comp rc f) else f
    | Uncomp => rm_plain rp f
    | Comp => rm_comp rc f
    | Decomp => rm_plain rp (rm_comp rc f)
    end.

  (* file-cache.ixx:48-59, 153-157: create (). *)
  Definition create (c : bool) (f : fs) : world :=
    mkworld f (mkentry true Uninit c 1) None 0 1.

  (* file-cache.ixx:57-61: ~entry (). *)
  Definition destroy (rc rp : bool) (w : world) : fs :=
    if e_temp (w_e w) then remove rc rp (w_e w) (w_fs w) else w_fs w.

  Inductive op :=
  | ONew (rm : bool)            (* init_new () *)
  | OWrite (d : bytes)          (* write the file through the write handle *)
  | OClose                      (* write::close () *)
  | ODropWrite (v : cenv)       (* write::~write () *)
  | OExisting (rm : bool)       (* init_existing () *)
  | OOpen (v : doutcome)        (* open () *)
  | ODropRead (v : cenv)        (* read::~read () *)
  | OPin                        (* pin () *)
  | OUnpin (v : cenv)           (* unpin () *)
  | OPermanent (t : bool).      (* temporary = t *)

  Definition set_st (e : entry) (s : cstate) : entry := mkentry (e_temp e) s (e_cpath e) (e_pin e).
  Definition inc_pin (e : entry) : entry := mkentry (e_temp e) (e_st e) (e_cpath e) (S (e_pin e)).

  Definition exists_file (o : option bytes) : bool := match o with Some _ => true | None => false end.

  Definition step (w : world) (o : op) : result :=
    let e := w_e w in let f := w_fs w in
    match o with
    (* file-cache.cxx:16-36 *)
    | ONew rm =>
        match w_writer w, e_st e with
        | Some _, _ => NoHandle                 (* one writer at a time *)
        | None, Uninit =>
            let f' := if e_cpath e then rm_comp rm f else f in
            Done (mkworld f' (inc_pin e) (Some WOpen) (w_readers w) (w_pins w)) [f']
        | None, _ => AssertFailed
        end
    | OWrite d =>
        match w_writer w with
        | Some WOpen | Some WWritten =>
            let f' := mkfs (Some d) (f_comp f) in
            Done (mkworld f' e (Some WWritten) (w_readers w) (w_pins w))
                 (map (fun p => mkfs (Some p) (f_comp f)) (prefixes d))
        | _ => NoHandle
        end
    (* file-cache.ixx:95-99 *)
    | OClose =>
        match w_writer w with
        | Some WWritten =>
            Done (mkworld f (set_st e Uncomp) (Some WClosed) (w_readers w) (w_pins w)) []
        | _ => NoHandle                         (* nothing written *)
        end
    (* file-cache.ixx:101-106 *)
    | ODropWrite v =>
        match w_writer w with
        | Some _ => match unpin v e f with
                    | None => AssertFailed
                    | Some (e', f', tr) => Done (mkworld f' e' None (w_readers w) (w_pins w)) tr
                    end
        | None => NoHandle
        end
    (* file-cache.cxx:38-63 *)
    | OExisting rm =>
        match w_writer w, e_st e with
        | Some _, _ => NoHandle                 (* being written *)
        | None, Uninit =>
            if e_cpath e then
              if exists_file (f_plain f) then
                let f' := rm_comp rm f in
                Done (mkworld f' (set_st e Uncomp) (w_writer w) (w_readers w) (w_pins w)) [f']
              else if exists_file (f_comp f) then
                Done (mkworld f (set_st e Comp) (w_writer w) (w_readers w) (w_pins w)) []
              else Thrown w []
            else Done (mkworld f (set_st e Uncomp) (w_writer w) (w_readers w) (w_pins w)) []
        | None, _ => AssertFailed
        end
    (* file-cache.ixx:28-41 *)
    | OOpen v =>
        match e_st e with
        | Uninit => AssertFailed
        | Comp =>
            match decompress v f with
            | (false, f', tr) => Thrown (mkworld f' e (w_writer w) (w_readers w) (w_pins w)) tr
            | (true, f', tr) =>
                Done (mkworld f' (inc_pin (set_st e Decomp)) (w_writer w) (S (w_readers w)) (w_pins w)) tr
            end
        | _ => Done (mkworld f (inc_pin e) (w_writer w) (S (w_readers w)) (w_pins w)) []
        end
    (* file-cache.ixx:127-132 *)
    | ODropRead v =>
        match w_readers w with
        | 0 => NoHandle
        | S n => match unpin v e f with
                 | None => AssertFailed
                 | Some (e', f', tr) => Done (mkworld f' e' (w_writer w) n (w_pins w)) tr
                 end
        end
    (* file-cache.ixx:13-17 *)
    | OPin => Done (mkworld f (inc_pin e) (w_writer w) (w_readers w) (S (w_pins w))) []
    | OUnpin v =>
        match w_pins w with
        | 0 => NoHandle
        | S n => match unpin v e f with
                 | None => AssertFailed
                 | Some (e', f', tr) => Done (mkworld f' e' (w_writer w) (w_readers w) n) tr
                 end
        end
    | OPermanent t =>
        Done (mkworld f (mkentry t (e_st e) (e_cpath e) (e_pin e)) (w_writer w) (w_readers w) (w_pins w)) []
    end.

  (* A history: every operation returns normally. *)
  Fixpoint run (w : world) (l : list op) : option world :=
    match l with
    | [] => Some w
    | o :: l' => match step w o with Done w' _ => run w' l' | _ => None end
    end.

  (* The next build: create_existing (), open (), read (file-cache.ixx:159-165). *)
  Definition next_build (c rm : bool) (f : fs) : option bytes :=
    match run (create c f) [OExisting rm; OOpen DOk] with
    | Some w => f_plain (w_fs w)
    | None => None
    end.
End Cache.
