(* What the user of a file cache entry expects. *)
From Verif Require Import Base CacheModel.

(* The data last written through the write handle. *)
Fixpoint last_written (acc : option bytes) (l : list op) : option bytes :=
  match l with
  | [] => acc
  | ONew _ :: l' => last_written None l'
  | OWrite d :: l' => last_written (Some d) l'
  | _ :: l' => last_written acc l'
  end.

Definition uses_existing (o : op) : bool := match o with OExisting _ => true | _ => false end.

(* The contents files left by an earlier build stand for: the uncompressed
   file, if any, otherwise the compressed one. *)
Definition stands_for (lzd : bytes -> option bytes) (f : fs) : option bytes :=
  match f_plain f with
  | Some d => Some d
  | None => match f_comp f with Some z => lzd z | None => None end
  end.

(* The histories that initialise an entry with the contents [d]: new contents
   are written and closed, or the entry is made from existing files; then
   anything. *)
Inductive initialised (lzd : bytes -> option bytes) (c : bool) (f : fs) (d : bytes) : list op -> Prop :=
| init_by_write l1 l2 :
    existsb uses_existing l1 = false -> last_written None l1 = Some d ->
    initialised lzd c f d (l1 ++ OClose :: l2)
| init_by_existing rm l2 :
    stands_for lzd f = Some d -> (c = false -> f_plain f = Some d) ->
    initialised lzd c f d (OExisting rm :: l2).

Definition lossless (lzc : bytes -> bytes) (lzd : bytes -> option bytes) : Prop :=
  forall d, lzd (lzc d) = Some d.

(* Every removal in the operation succeeds. *)
Definition removals_succeed (o : op) : bool :=
  match o with
  | ONew rm | OExisting rm => rm
  | ODropWrite v | ODropRead v | OUnpin v => c_rm_comp v && c_rm_plain v
  | _ => true
  end.

Definition crash_points (r : result) : list fs :=
  match r with Done _ t | Thrown _ t => t | _ => [] end.
