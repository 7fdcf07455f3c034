(* What a task queue should do, without indexes or marks. *)
From Verif Require Import Base QueueModel.

Section Spec.
  Context {A : Type}.
  Notation op := (@op A).
  Notation out := (@out A).

  (* A double-ended queue of at most D tasks. Whether the owner gets a task is
     left open here (see [level_pushes] and [lifo_step]). *)
  Inductive deque_step (D : nat) : list A -> op -> out -> list A -> Prop :=
  | d_queue c x : length c < D -> deque_step D c (Async x) Queued (c ++ [x])
  | d_full c x : length c = D -> deque_step D c (Async x) (RunNow x) c
  | d_help_none : deque_step D [] Help Nothing []
  | d_help x c : deque_step D (x :: c) Help (Task x) c
  | d_work_none c : deque_step D c Work Nothing c
  | d_work c x : deque_step D (c ++ [x]) Work (Task x) c
  | d_mark c : deque_step D c Mark Void c
  | d_end c : deque_step D c EndLevel Void c.

  Inductive deque_run (D : nat) : list A -> list op -> list out -> list A -> Prop :=
  | dr_nil c : deque_run D c [] [] c
  | dr_cons c o r c' l rs c'' :
      deque_step D c o r c' -> deque_run D c' l rs c'' -> deque_run D c (o :: l) (r :: rs) c''.

  (* The tasks that were queued / handed out in a history. *)
  Fixpoint queued (l : list op) (rs : list out) : list A :=
    match l, rs with
    | Async x :: l', Queued :: rs' => x :: queued l' rs'
    | _ :: l', _ :: rs' => queued l' rs'
    | _, _ => []
    end.

  Fixpoint handed_out (rs : list out) : list A :=
    match rs with
    | Task x :: rs' => x :: handed_out rs'
    | _ :: rs' => handed_out rs'
    | [] => []
    end.

  (* Nested levels of the owner: running a task (popped or because the queue is
     full) or setting a mark starts a level. For each open level, innermost
     first, the tasks queued since it started. *)
  Fixpoint level_pushes (st : list (list A)) (l : list op) (rs : list out) : list (list A) :=
    match l, rs with
    | o :: l', r :: rs' =>
        let st' :=
          match o, r with
          | Async x, Queued => map (cons x) st
          | Async _, RunNow _ => [] :: st
          | Work, Task _ => [] :: st
          | Mark, _ => [] :: st
          | EndLevel, _ => match st with _ :: (_ :: _) as st1 => st1 | _ => st end
          | _, _ => st
          end in
        level_pushes st' l' rs'
    | _, _ => st
    end.

  (* Without helpers, and with every level ending only once its tasks are done,
     the owner's queue is a stack with levels: [b] is the number of tasks that
     were queued when the current level started. *)
  Inductive lifo_step (D : nat) : list A * list nat -> op -> out -> list A * list nat -> Prop :=
  | l_queue c bs x : length c < D -> lifo_step D (c, bs) (Async x) Queued (c ++ [x], bs)
  | l_full c bs x : length c = D -> lifo_step D (c, bs) (Async x) (RunNow x) (c, length c :: bs)
  | l_work c x b bs : b <= length c ->
      lifo_step D (c ++ [x], b :: bs) Work (Task x) (c, length c :: b :: bs)
  | l_work_none c bs : lifo_step D (c, length c :: bs) Work Nothing (c, length c :: bs)
  | l_mark c bs : lifo_step D (c, bs) Mark Void (c, length c :: bs)
  | l_end c b bs : lifo_step D (c, length c :: b :: bs) EndLevel Void (c, b :: bs).

  Inductive lifo_run (D : nat) : list A * list nat -> list op -> list out -> list A * list nat -> Prop :=
  | lr_nil s : lifo_run D s [] [] s
  | lr_cons s o r s' l rs s'' :
      lifo_step D s o r s' -> lifo_run D s' l rs s'' -> lifo_run D s (o :: l) (r :: rs) s''.

  (* Several queues and nested sub-phases: the tasks that were queued when a
     sub-phase started are put aside and come back when it ends. *)
  Inductive multi_step (D : nat) :
    list (list A) * list (list (list A)) -> @sop A -> out -> list (list A) * list (list (list A)) -> Prop :=
  | m_new ds ps : multi_step D (ds, ps) SNew Void (ds ++ [[]], ps)
  | m_op before c after ps o r c' :
      deque_step D c o r c' ->
      multi_step D (before ++ c :: after, ps) (SOp (length before) o) r (before ++ c' :: after, ps)
  | m_push ds ps : multi_step D (ds, ps) SPush Void (map (fun _ => []) ds, ds :: ps)
  | m_pop ds ps saved later :
      ds = map (fun _ => []) (saved ++ later) ->
      multi_step D (ds, saved :: ps) SPop Void (saved ++ map (fun _ => []) later, ps).

  Inductive multi_run (D : nat) :
    list (list A) * list (list (list A)) -> list (@sop A) -> list out -> list (list A) * list (list (list A)) -> Prop :=
  | mr_nil s : multi_run D s [] [] s
  | mr_cons s o r s' l rs s'' :
      multi_step D s o r s' -> multi_run D s' l rs s'' -> multi_run D s (o :: l) (r :: rs) s''.

  (* The number of tasks that are queued and visible. *)
  Definition visible (ds : list (list A)) : nat := length (concat ds).
End Spec.
