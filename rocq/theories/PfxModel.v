(* Model of the resolution of generated headers (dynamic dependencies): libbuild2/dyndep.cxx: append_prefix () 245-360, srcout_builder::next ()
   362-420, enter_file_impl () 422-821; libbuild2/cc/compile-rule.cxx: append_prefixes () 1702-1770, build_prefix_map () 1772-1792.

   Directories are lists of names, outermost first; absolute unless said otherwise. Not modelled: that libraries are visited in the order of
   process_libraries () (C64): the include directories are a list with the directory of the target each is for; name and extension of a file
   are one. The maps are those of libbutl as its documentation describes them: the most qualified prefix is the longest one. *)
From Verif Require Import Base ImpModel.

Definition leaf (d r : list bytes) : list bytes := skipn (length r) d.

(* dir_path::normalize () of libbutl for absolute ones. None: it throws. *)
Fixpoint norm (acc p : list bytes) : option (list bytes) :=
  match p with
  | [] => Some (rev acc)
  | n :: p =>
    if beqb n (b ".") then norm acc p
    else if beqb n (b "..") then match acc with [] => None | _ :: acc => norm acc p end
    else norm (n :: acc) p
  end.

(* dyndep.hxx 126-132: prefixes with directory and priority. The order of entries is of importance only if they have the same prefix. *)
Definition pmap := list (list bytes * (list bytes * nat)).

(* 269-341: with the same prefix there are several only if empty. *)
Definition has (m : pmap) (p : list bytes) : bool := existsb (fun e => dir_eqb (fst e) p) m.
Fixpoint insert_prio (m : pmap) (d : list bytes) (prio : nat) : pmap :=
  match m with
  | [] => [([], (d, prio))]
  | (p, (d', k)) :: m => if dir_eqb p [] && (prio <? k) then ([], (d, prio)) :: (p, (d', k)) :: m else (p, (d', k)) :: insert_prio m d prio
  end.
Fixpoint override (m : pmap) (p d : list bytes) (prio : nat) : pmap :=
  match m with
  | [] => []
  | (q, (d', k)) :: m =>
    if dir_eqb q p then
      (if dir_eqb d' d then (q, (d', if prio <? k then prio else k))
       else if k <=? prio then (q, (d', k))
       else (q, (d, prio))) :: m
    else (q, (d', k)) :: override m p d prio
  end.
Definition enter (m : pmap) (p d : list bytes) (prio : nat) : pmap :=
  if negb (has m p) then m ++ [(p, (d, prio))]
  else match p with [] => insert_prio m d prio | _ => override m p d prio end.
(* 343-359. n: names left. *)
Fixpoint enter_all (n : nat) (m : pmap) (p d : list bytes) (prio : nat) : pmap :=
  let m := enter m (firstn n p) d prio in match n with 0 => m | S n => enter_all n m p d (S prio) end.
Definition append_prefix (m : pmap) (tdir d : list bytes) : pmap :=
  let p := if sub tdir d then leaf tdir d else [] in enter_all (length p) m p d 0.
Definition prefix_map_of (incs : list (list bytes * list bytes)) : pmap := fold_left (fun m x => append_prefix m (fst x) (snd x)) incs [].

(* compile-rule.cxx 1702-1770: the include directories in options. path_of: whether absolute and its names; None: not valid.
   None: it fails. *)
Section Options.
Context (msvc : bool) (path_of : bytes -> option (bool * list bytes)) (out_root : list bytes).
Definition is_inc (o : bytes) : bool :=
  match o with c1 :: c2 :: _ => (ceqb c1 "-" || msvc && ceqb c1 "/") && ceqb c2 "I" | _ => false end.
Definition inc_dir (s : bytes) : option (list bytes) := match path_of s with Some (true, d) => norm [] d | _ => None end.
Definition append_inc (m : pmap) (tdir d : list bytes) : pmap := if sub d out_root then append_prefix m tdir d else m.
Fixpoint append_prefixes (m : pmap) (tdir : list bytes) (os : list bytes) : option pmap :=
  match os with
  | [] => Some m
  | o :: os =>
    if negb (is_inc o) then append_prefixes m tdir os
    else if length o =? 2 then
      match os with
      | [] => Some m
      | a :: os => match inc_dir a with Some d => append_prefixes (append_inc m tdir d) tdir os | None => None end
      end
    else match inc_dir (skipn 2 o) with Some d => append_prefixes (append_inc m tdir d) tdir os | None => None end
  end.
End Options.

(* 362-420. A scope as its out and src directories. None: relative or not normalized. *)
Section Srcout.
Context (find_out : list bytes -> option (list bytes * list bytes)).    (* innermost scope, if of a project *)
Definition smap := list (list bytes * list bytes).
Definition emplace (m : smap) (k v : list bytes) : smap := if existsb (fun e => dir_eqb (fst e) k) m then m else m ++ [(k, v)].
Definition candidate (d : list bytes) : option ((list bytes * list bytes) * list bytes) :=
  match find_out d with
  | Some (o, s) => if negb (dir_eqb o s) && sub d o then Some ((o, s), leaf d o) else None
  | None => None
  end.
Definition next (st : option ((list bytes * list bytes) * list bytes) * smap) (d : option (list bytes)) : option ((list bytes * list bytes) * list bytes) * smap :=
  let (prev, m) := st in
  match d with
  | None => (None, m)
  | Some d =>
    match prev with
    | Some ((o, s), diff) =>
      if sub d s && (dir_eqb diff [] || dir_eqb (leaf d s) diff) then (None, emplace m d (o ++ diff)) else (candidate d, m)
    | None => (candidate d, m)
    end
  end.
Definition srcout (ds : list (option (list bytes))) : smap := snd (fold_left next ds (None, [])).
End Srcout.

(* The most qualified prefix in a map. n: names left. *)
Fixpoint sup {A} (m : list (list bytes * A)) (d : list bytes) (n : nat) : option (list bytes) :=
  if existsb (fun e => dir_eqb (fst e) (firstn n d)) m then Some (firstn n d) else match n with 0 => None | S n => sup m d n end.
Definition entries {A} (m : list (list bytes * A)) (p : list bytes) : list A := map snd (filter (fun e => dir_eqb (fst e) p) m).

(* Targets: those mentioned in buildfiles (real or implied) and those created dynamically. *)
Inductive decl := Dynamic | Declared.
Section Find.
Context {tt : Type}.
Context (exts : list bytes -> bytes -> list tt) (fallback : tt).    (* types for the extension in the project of the directory, if any *)
Context (have : tt -> list bytes -> bytes -> option decl).
Context (existing : list bytes -> bytes -> bool).                   (* the file exists *)
Context (creatable : list bytes -> bool).                           (* 662-670: not in src *)

(* 574-634: the loop. *)
Fixpoint declared_of (d : list bytes) (l : bytes) (tts : list tt) : option tt :=
  match tts with
  | [] => None
  | t :: tts => match have t d l with Some Declared => Some t | _ => declared_of d l tts end
  end.
(* 451-675 *)
Definition find (d : list bytes) (l : bytes) (insert dynamic : bool) : option tt :=
  match exts d l, insert || dynamic with
  | [], false => None
  | ts, _ =>
    let t0 := match ts with [] => fallback | t :: _ => t end in
    let tts := match ts with [] => [fallback] | _ => ts end in
    let r :=
      if negb insert || (1 <? length tts) then
        match declared_of d l tts with
        | Some t => Some t
        | None => if insert || dynamic then match have t0 d l with Some Dynamic => Some t0 | _ => None end else None
        end
      else None in
    match r with
    | Some t => Some t
    | None =>
      if insert && (match have t0 d l with Some _ => true | None => false end || existing d l || creatable d) then Some t0 else None
    end
  end.

(* path::normalize () of libbutl for relative ones: None if there is still .. or nothing left. *)
Fixpoint rnorm (acc p : list bytes) : option (list bytes) :=
  match p with
  | [] => match acc with [] => None | _ => Some (rev acc) end
  | n :: p =>
    if beqb n (b ".") then rnorm acc p
    else if beqb n (b "..") then match acc with [] => None | _ :: acc => rnorm acc p end
    else rnorm (n :: acc) p
  end.

(* 715-778: a file that does not exist (yet). *)
Fixpoint try (p : list bytes) (es : list (list bytes * nat)) (d : list bytes) (l : bytes) (insert dynamic : bool) : option (list bytes * tt) :=
  match es with
  | [] => None
  | (pd, _) :: es =>
    match (match p with [] => find (pd ++ d) l false false | _ => find (pd ++ d) l insert dynamic end) with
    | Some t => Some (pd ++ d, t)
    | None => try p es d l insert dynamic
    end
  end.
Definition enter_relative (m : pmap) (fp : list bytes) (insert dynamic : bool) : option (list bytes * tt) :=
  match rnorm [] fp with
  | None => None
  | Some fp =>
    let d := removelast fp in
    match sup m d (length d) with
    | None => None
    | Some p => try p (entries m p) d (last fp []) insert dynamic
    end
  end.

(* 780-818: an existing file. *)
Definition enter_absolute (so : smap) (d : list bytes) (l : bytes) (cache insert dynamic : bool) : option (list bytes * tt) * bool :=
  let plain := (match find d l insert dynamic with Some t => Some (d, t) | None => None end, false) in
  if cache then plain
  else
    match sup so d (length d) with
    | None => plain
    | Some k =>
      match entries so k with
      | [] => plain
      | o :: _ => match find (o ++ leaf d k) l false false with Some t => (Some (o ++ leaf d k, t), true) | None => plain end
      end
    end.
End Find.
