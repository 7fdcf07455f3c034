(* Model of the scheduler's task queue: libbuild2/scheduler.hxx:769-933,
   scheduler.ixx:60-90 (queue_mark), scheduler.txx:56-109 (async), and of the
   sub-phases, scheduler.cxx:812-933.

   Every access happens under the queue's mutex, so an operation is atomic
   except that the task popped by pop_back () (or run synchronously because the
   queue is full) executes with the mutex released: such operations have a
   begin and an end between which anything can happen; the state kept on the
   owner's stack in the meantime is a [frame]. A task is any value. Not
   modelled: the shutdown flag, statistics and the monitor. *)
From Verif Require Import Base.

Section Queue.
  Context {A : Type}.
  Variable D : nat.                     (* task_queue_depth_ *)

  (* scheduler.hxx:769-777; t_data = None is the NULL data pointer. *)
  Record tq := mktq {
    t_head : nat; t_mark : nat; t_tail : nat; t_size : nat;
    t_data : option (list (option A))   (* None: never written *)
  }.

  (* scheduler.hxx:786: new task_data[depth]. *)
  Definition new_data : list (option A) := repeat None D.
  Definition new_queue : tq := mktq 0 0 0 0 (Some new_data).
  Definition no_queue : tq := mktq 0 0 0 0 None.

  Fixpoint upd {X} (l : list X) (i : nat) (x : X) : list X :=
    match l, i with
    | [], _ => []
    | _ :: l', 0 => x :: l'
    | y :: l', S i' => y :: upd l' i' x
    end.

  (* The circular increment and decrement. *)
  Definition up (i : nat) : nat := if negb (i =? D - 1) then i + 1 else 0.
  Definition down (i : nat) : nat := if negb (i =? 0) then i - 1 else D - 1.

  (* Read a task; None is an out of bounds, NULL or uninitialised access. *)
  Definition at_index (q : tq) (i : nat) : option A :=
    match t_data q with
    | None => None
    | Some d => match nth_error d i with Some (Some x) => Some x | _ => None end
    end.

  Inductive pushed := Pushed (q : tq) | Full | PushUB.

  (* scheduler.hxx:806-829 push () together with the part of async ()
     that allocates the data and packages the task, scheduler.txx:56-78. *)
  Definition push (q : tq) (x : A) : pushed :=
    let d := match t_data q with Some d => d | None => new_data end in
    if negb (t_size q =? D) then
      let t := if negb (t_size q =? 0) then up (t_tail q) else t_tail q in
      let m := if t_mark q =? D then t else t_mark q in
      if t <? length d
      then Pushed (mktq (t_head q) m t (t_size q + 1) (Some (upd d t (Some x))))
      else PushUB
    else Full.

  (* scheduler.hxx:831-832 *)
  Definition empty_front (q : tq) : bool := t_size q =? 0.

  (* scheduler.hxx:834-853 *)
  Definition pop_front (q : tq) : option (A * tq) :=
    match at_index q (t_head q) with
    | None => None
    | Some x =>
        let a := t_head q =? t_mark q in
        let h := if negb (t_size q =? 1) then up (t_head q) else t_head q in
        let s := t_size q - 1 in
        let m := if (s =? 0) || a then h else t_mark q in
        Some (x, mktq h m (t_tail q) s (t_data q))
    end.

  (* scheduler.hxx:855-859 *)
  Definition empty_back (q : tq) : bool := (t_size q =? 0) || (t_mark q =? D).

  (* What the owner keeps on its stack. *)
  Inductive frame :=
  | FPop (a : bool) (om : nat)          (* in pop_back () *)
  | FMark (om : option nat)             (* queue_mark object; None: tq_ is NULL *)
  | FFull (om : nat).                   (* in async (), queue full *)

  (* scheduler.hxx:861-884: up to execute (). *)
  Definition pop_back_begin (q : tq) : option (A * frame * tq) :=
    match at_index q (t_tail q) with
    | None => None
    | Some x =>
        let a := t_tail q =? t_mark q in
        let om := t_mark q in
        let t := if negb (t_size q =? 1) then down (t_tail q) else t_tail q in
        Some (x, FPop a om, mktq (t_head q) D t (t_size q - 1) (t_data q))
    end.

  Definition set_mark (q : tq) (m : nat) : tq :=
    mktq (t_head q) m (t_tail q) (t_size q) (t_data q).

  (* scheduler.ixx:60-76 *)
  Definition queue_mark (q : tq) : frame * tq :=
    if negb (t_mark q =? D) then (FMark (Some (t_mark q)), set_mark q D) else (FMark None, q).

  (* scheduler.txx:79-104: before the synchronous execution. *)
  Definition full_begin (q : tq) : frame * tq := (FFull (t_mark q), set_mark q D).

  (* The end of the above: scheduler.hxx:886-910, scheduler.ixx:78-86,
     scheduler.txx:99-103. *)
  Definition frame_end (f : frame) (q : tq) : tq :=
    match f with
    | FPop a om =>
        if t_size q =? 0 then set_mark q (t_tail q)
        else if a then set_mark q D
        else set_mark q om
    | FMark None => q
    | FMark (Some om) => set_mark q (if t_size q =? 0 then t_tail q else om)
    | FFull om => if negb (om =? D) then set_mark q (if t_size q =? 0 then t_tail q else om) else q
    end.

  (* The queue of one thread and the owner's stack of frames. *)
  Record world := mkworld { w_q : tq; w_frames : list frame }.

  Inductive op :=
  | Async (x : A)       (* owner: queue a task, or start running it if full *)
  | Help                (* helper: pop_front () if not empty *)
  | Work                (* owner: pop_back () if not empty, up to execute () *)
  | Mark                (* owner: construct queue_mark *)
  | EndLevel.           (* owner: the innermost of the above ends *)

  Inductive out := Queued | RunNow (x : A) | Nothing | Task (x : A) | Void.

  Definition step (w : world) (o : op) : option (out * world) :=
    let q := w_q w in
    match o with
    | Async x =>
        match push q x with
        | Pushed q' => Some (Queued, mkworld q' (w_frames w))
        | Full => let (f, q') := full_begin q in Some (RunNow x, mkworld q' (f :: w_frames w))
        | PushUB => None
        end
    | Help =>
        if empty_front q then Some (Nothing, w)
        else match pop_front q with
             | None => None
             | Some (x, q') => Some (Task x, mkworld q' (w_frames w))
             end
    | Work =>
        if empty_back q then Some (Nothing, w)
        else match pop_back_begin q with
             | None => None
             | Some (x, f, q') => Some (Task x, mkworld q' (f :: w_frames w))
             end
    | Mark => let (f, q') := queue_mark q in Some (Void, mkworld q' (f :: w_frames w))
    | EndLevel =>
        match w_frames w with
        | [] => Some (Void, w)          (* no such call *)
        | f :: fs => Some (Void, mkworld (frame_end f q) fs)
        end
    end.

  Fixpoint run (w : world) (l : list op) : option (list out * world) :=
    match l with
    | [] => Some ([], w)
    | o :: l' =>
        match step w o with
        | None => None
        | Some (r, w') => match run w' l' with
                          | None => None
                          | Some (rs, w'') => Some (r :: rs, w'')
                          end
        end
    end.

  (* --- Sub-phases --- *)

  (* scheduler.cxx:812-884: push_phase (). The queues of all threads, the queued
     task count; result: the saved queues. None is the failed assertion. The
     iteration over the queues is atomic here; in the code each queue is locked
     separately (see the comment about "phase-less" threads). *)
  Definition push_phase (qs : list tq) (count : nat) : option (list tq * nat * list tq) :=
    let sz := fold_right (fun q n => t_size q + n) 0 qs in
    let hidden := map (fun q => if negb (t_size q =? 0) then no_queue else q) qs in
    let saved := map (fun q => if negb (t_size q =? 0) then q else no_queue) qs in
    if count - sz =? 0 then Some (hidden, count - sz, saved) else None.

  (* scheduler.cxx:886-933: pop_phase (). *)
  Fixpoint unhide (qs saved : list tq) : option (list tq * nat) :=
    match saved, qs with
    | [], _ => Some (qs, 0)
    | _ :: _, [] => None
    | j :: saved', q :: qs' =>
        match unhide qs' saved' with
        | None => None
        | Some (r, n) =>
            if negb (t_size j =? 0) then Some (j :: r, t_size j + n) else Some (q :: r, n)
        end
    end.

  Definition pop_phase (qs : list tq) (count : nat) (saved : list tq) : option (list tq * nat) :=
    if count =? 0 then
      match unhide qs saved with Some (r, n) => Some (r, count + n) | None => None end
    else None.

  (* Several queues, the total count, the stack of phases. *)
  Record sched := mksched { s_ws : list world; s_count : nat; s_phases : list (list tq) }.

  Inductive sop :=
  | SNew                        (* create_queue (), scheduler.cxx:1243-1258 *)
  | SOp (i : nat) (o : op)      (* an operation on the queue of thread i *)
  | SPush | SPop.

  (* queued_task_count_ is incremented in push () and decremented in execute (). *)
  Definition sstep (s : sched) (o : sop) : option (out * sched) :=
    match o with
    | SNew => Some (Void, mksched (s_ws s ++ [mkworld new_queue []]) (s_count s) (s_phases s))
    | SOp i o' =>
        match nth_error (s_ws s) i with
        | None => None
        | Some w =>
            match step w o' with
            | None => None
            | Some (r, w') =>
                let c := match r with Queued => s_count s + 1 | Task _ => s_count s - 1 | _ => s_count s end in
                Some (r, mksched (upd (s_ws s) i w') c (s_phases s))
            end
        end
    | SPush =>
        match push_phase (map w_q (s_ws s)) (s_count s) with
        | None => None
        | Some (qs, c, saved) =>
            Some (Void, mksched (map (fun p => mkworld (fst p) (w_frames (snd p))) (combine qs (s_ws s))) c
                                (saved :: s_phases s))
        end
    | SPop =>
        match s_phases s with
        | [] => None
        | saved :: ps =>
            match pop_phase (map w_q (s_ws s)) (s_count s) saved with
            | None => None
            | Some (qs, c) =>
                Some (Void, mksched (map (fun p => mkworld (fst p) (w_frames (snd p))) (combine qs (s_ws s))) c ps)
            end
        end
    end.

  Fixpoint srun (s : sched) (l : list sop) : option (list out * sched) :=
    match l with
    | [] => Some ([], s)
    | o :: l' =>
        match sstep s o with
        | None => None
        | Some (r, s') => match srun s' l' with
                          | None => None
                          | Some (rs, s'') => Some (r :: rs, s'')
                          end
        end
    end.
End Queue.
Arguments Async {A}. Arguments Help {A}. Arguments Work {A}. Arguments Mark {A}. Arguments EndLevel {A}.
Arguments Queued {A}. Arguments RunNow {A}. Arguments Nothing {A}. Arguments Task {A}. Arguments Void {A}.
