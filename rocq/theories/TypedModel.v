(* Model of typed values, libbuild2/variable.{hxx,ixx,txx,cxx}: how names are
   converted to a value of a type, how the value is appended to and prepended to, and
   how it is converted back to names.

   A directory or path is its representation, a directory ending with a separator. What
   is not part of this code: mkp and mkd make a path and a directory of a string, None
   being invalid_path (path (), dir_path ()), joinp and joind combine two of them
   (path::operator/=), cpath, cdir and cproj compare paths, directories and project
   names and validp says whether a string is a valid project name. Also not modelled
   are diagnostics (None: the build fails), moving instead of copying, and the types
   abs_dir_path, target_triplet, cmdline and json. *)
From Verif Require Import Base NameModel NamesModel IntModel.

Definition AT : ascii := "@"%char.
Definition dir_name (d : bytes) : name := mkname None d [] [] NUL None.
Definition paired (n : name) : bool := negb (ceqb (pair n) NUL).
Definition with_pair (c : ascii) (n : name) : name := mkname (proj n) (dir n) (type n) (value n) c (pattern n).
(* name::simple (), directory (), untyped () and unqualified (), name.hxx:70-110 *)
Definition unqualified (n : name) : bool := match proj n with None => true | Some _ => false end.
Definition untyped (n : name) : bool := is_empty (type n).
Definition simple (n : name) : bool := unqualified n && untyped n && is_empty (dir n).
Definition directory (n : name) : bool := unqualified n && untyped n && negb (is_empty (dir n)) && is_empty (value n).
Definition no_pattern (n : name) : bool := match pattern n with None => true | Some _ => false end.
(* path::to_directory () *)
Definition to_directory (p : bytes) : bool := ceqb (last p NUL) "/"%char.

(* value_traits<T> of a simple type, variable.hxx:660-705. default: T () if the type is
   empty_value. append and prepend: of the value, None if not provided. *)
Record traits (T : Type) := mktraits {
  convert : name -> option name -> option T;
  reverse1 : T -> name;
  empty1 : T -> bool;
  default : option T;
  append1 : option (T -> T -> option T);
  prepend1 : option (T -> T -> option T);
  compare1 : T -> T -> comparison }.
Arguments mktraits {T}.
Arguments convert {T}.
Arguments reverse1 {T}.
Arguments empty1 {T}.
Arguments default {T}.
Arguments append1 {T}.
Arguments prepend1 {T}.
Arguments compare1 {T}.

Definition never {T} (_ : T) : bool := false.

(* bool: variable.hxx:792-813, variable.cxx:476-493, variable.ixx:425-448 *)
Definition bool_compare (x y : bool) : comparison :=
  match x, y with false, true => Lt | true, false => Gt | _, _ => Eq end.
Definition bool_traits : traits bool := mktraits
  (fun n r => match r with
     | None => if no_pattern n && simple n
               then if beqb (value n) (b "true") then Some true else if beqb (value n) (b "false") then Some false else None
               else None
     | Some _ => None end)
  (fun x => simple_name (b (if x then "true" else "false")))
  never None
  (Some (fun x y => Some (x || y))) (Some (fun x y => Some (x || y)))
  bool_compare.

(* int64 and uint64: variable.hxx:815-858, variable.cxx:520-557 and 585-622,
   variable.ixx:452-506. On overflow the addition of signed integers is modelled as
   wrapping around. *)
Definition wrap_signed (z : Z) : Z := ((z + 2 ^ 63) mod 2 ^ 64 - 2 ^ 63)%Z.
Definition wrap_unsigned (z : Z) : Z := (z mod 2 ^ 64)%Z.
Definition int_traits (c : bytes -> option Z) (w : Z -> Z) : traits Z := mktraits
  (fun n r => match r with None => if no_pattern n && simple n then c (value n) else None | Some _ => None end)
  (fun x => simple_name (reverse_int x))
  never None
  (Some (fun x y => Some (w (x + y)%Z))) (Some (fun x y => Some (w (x + y)%Z)))
  Z.compare.
Definition int64_traits : traits Z := int_traits convert_int64 wrap_signed.
Definition uint64_traits : traits Z := int_traits convert_uint64 wrap_unsigned.

(* string: variable.hxx:881-902, variable.cxx:650-718, variable.ixx:510-554 *)
Definition string_traits : traits bytes := mktraits
  (fun n r => match r with None => to_string1 n | Some m => to_string2 n m end)
  simple_name
  is_empty (Some [])
  (Some (fun x y => Some (x ++ y))) (Some (fun x y => Some (y ++ x)))
  scompare.

Section Paths.
Context (mkp mkd : bytes -> option bytes) (joinp joind : bytes -> bytes -> option bytes)
        (cpath cdir cproj : bytes -> bytes -> comparison) (validp : bytes -> bool).

(* path: variable.hxx:909-933, variable.cxx:747-789, variable.ixx:558-603 *)
Definition path_traits : traits bytes := mktraits
  (fun n r => match r with
     | None =>
         if no_pattern n then
           if directory n then Some (dir n)
           else match (if simple n then mkp (value n) else None) with
                | Some p => Some p
                | None => if untyped n && unqualified n then joinp (dir n) (value n) else None
                end
         else None
     | Some _ => None end)
  (fun x => if to_directory x then dir_name x else simple_name x)
  is_empty (Some [])
  (Some (fun x y => if is_empty x then Some y else joinp x y))
  (Some (fun x y => if is_empty x then Some y else joinp y x))
  cpath.

(* dir_path: variable.hxx:935-955, variable.cxx:817-859, variable.ixx:607-652 *)
Definition dir_traits : traits bytes := mktraits
  (fun n r => match r with
     | None =>
         if no_pattern n then
           if directory n then Some (dir n)
           else match (if simple n then mkd (value n) else None) with
                | Some p => Some p
                | None => if untyped n && unqualified n then joind (dir n) (value n) else None
                end
         else None
     | Some _ => None end)
  dir_name
  is_empty (Some [])
  (Some (fun x y => if is_empty x then Some y else joind x y))
  (Some (fun x y => if is_empty x then Some y else joind y x))
  cdir.

(* name: variable.hxx:977-997, variable.cxx:945-952 *)
Definition name_traits : traits name := mktraits
  (fun n r => match r with None => if no_pattern n then Some n else None | Some _ => None end)
  (fun x => x)
  name_empty (Some (simple_name []))
  None None
  (compare cproj cdir).

(* project_name: variable.hxx:1092-1111, variable.cxx:1473-1490, variable.ixx:787-798 *)
Definition project_traits : traits bytes := mktraits
  (fun n r => match r with
     | None => if no_pattern n && simple n
               then if name_empty n then Some [] else if validp (value n) then Some (value n) else None
               else None
     | Some _ => None end)
  (fun x => simple_name (if is_empty x || to_directory x then [] else x))
  is_empty (Some [])
  None None
  cproj.
End Paths.

(* struct value_type: variable.hxx:43-118. The data being None is a NULL value;
   append and prepend are None if not supported, and empty if never empty. *)
Record value_type := mktype {
  data : Type;
  assign : option data -> list name -> option data;
  append : option (option data -> list name -> option data);
  prepend : option (option data -> list name -> option data);
  reverse : data -> bool -> list name;
  tcompare : data -> data -> comparison;
  tempty : option (data -> bool) }.

(* simple_assign (), simple_append (), simple_prepend () and simple_reverse (),
   variable.txx:132-269. name uses name_reverse () (variable.cxx:954-959), which is the
   same. *)
Section Simple.
Context {T : Type} (t : traits T).
Definition simple_convert (ns : list name) : option T :=
  match ns with
  | [] => default t
  | [n] => convert t n None
  | _ => None
  end.
Definition simple_assign (_ : option T) (ns : list name) : option T := simple_convert ns.
Definition simple_update (f : T -> T -> option T) (v : option T) (ns : list name) : option T :=
  match simple_convert ns with
  | Some x => match v with Some y => f y x | None => Some x end
  | None => None
  end.
Definition simple_reverse (x : T) (reduce : bool) : list name :=
  if negb (empty1 t x) then [reverse1 t x] else if reduce then [] else [simple_name []].
Definition simple_type : value_type := mktype T
  simple_assign
  (match append1 t with Some f => Some (simple_update f) | None => None end)
  (match prepend1 t with Some f => Some (simple_update f) | None => None end)
  simple_reverse (compare1 t)
  (match default t with Some _ => Some (empty1 t) | None => None end).
End Simple.
(* For name the empty name is itself. *)
Definition name_reverse (x : name) (reduce : bool) : list name := if reduce && name_empty x then [] else [x].
Definition name_type (cproj cdir : bytes -> bytes -> comparison) : value_type :=
  let t := name_traits cdir cproj in
  mktype name (simple_assign t) None None name_reverse (compare1 t) (Some name_empty).

(* The loop over names that takes the second half of a pair along, for example
   variable.txx:540-547 and 770-776. If there is no second half (never the case) then
   the behaviour is undefined: None. *)
Fixpoint walk {A} (f : name -> option name -> option A) (ns : list name) : option (list A) :=
  match ns with
  | [] => Some []
  | n :: ns' =>
      if paired n then
        match ns' with
        | r :: ns'' => match f n (Some r), walk f ns'' with Some x, Some l => Some (x :: l) | _, _ => None end
        | [] => None
        end
      else match f n None, walk f ns' with Some x, Some l => Some (x :: l) | _, _ => None end
  end.

(* Lexicographical comparison, for example variable.txx:630-652. *)
Fixpoint list_compare {A} (f : A -> A -> comparison) (x y : list A) : comparison :=
  match x, y with
  | a :: x', c :: y' => then_ (f a c) (list_compare f x' y')
  | [], _ :: _ => Lt
  | _ :: _, [] => Gt
  | [], [] => Eq
  end.
Definition no_elements {A} (l : list A) : bool := match l with [] => true | _ => false end.
Definition or_none {A} (v : option (list A)) : list A := match v with Some l => l | None => [] end.

(* vector<T>, variable.txx:525-757 *)
Section Vector.
Context {T : Type} (t : traits T).
Definition element (n : name) (r : option name) : option T :=
  if paired n && negb (ceqb (pair n) AT) then None else convert t n r.
Definition vector_append (v : option (list T)) (ns : list name) : option (list T) :=
  match walk element ns with Some l => Some (or_none v ++ l) | None => None end.
Definition vector_assign (v : option (list T)) (ns : list name) : option (list T) :=
  vector_append (match v with Some _ => Some [] | None => None end) ns.
Definition vector_prepend (v : option (list T)) (ns : list name) : option (list T) :=
  match vector_append (Some []) ns with Some l => Some (l ++ or_none v) | None => None end.
Definition vector_reverse (v : list T) (_ : bool) : list name := map (reverse1 t) v.
Definition vector_type : value_type := mktype (list T) vector_assign (Some vector_append) (Some vector_prepend)
  vector_reverse (list_compare (compare1 t)) (Some no_elements).
(* vector_subscript (), variable.txx:656-694. i: the subscript already converted. *)
Definition vector_subscript (v : option (list T)) (i : nat) : option T := nth_error (or_none v) i.
(* value_traits<vector<T>>::append () and prepend (), variable.ixx:847-880: what
   value::operator+= (T) and value::prepend (T) call. *)
Definition vector_append_value (v : option (list T)) (x : list T) : list T :=
  match v with Some p => if no_elements p then x else p ++ x | None => x end.
Definition vector_prepend_value (v : option (list T)) (x : list T) : list T :=
  match v with Some p => if no_elements p then x else x ++ p | None => x end.
End Vector.

(* set<T>, variable.txx:955-1163. The elements are in the order of operator<, assumed
   to be that of compare (). *)
Section Set_.
Context {T : Type} (t : traits T).
Fixpoint insert (x : T) (s : list T) : list T :=
  match s with
  | [] => [x]
  | y :: s' => match compare1 t x y with Lt => x :: s | Eq => s | Gt => y :: insert x s' end
  end.
Definition insert_all (s : list T) (l : list T) : list T := fold_left (fun s x => insert x s) l s.
Definition set_append (v : option (list T)) (ns : list name) : option (list T) :=
  match walk (element t) ns with Some l => Some (insert_all (or_none v) l) | None => None end.
Definition set_assign (v : option (list T)) (ns : list name) : option (list T) :=
  set_append (match v with Some _ => Some [] | None => None end) ns.
Definition set_type : value_type := mktype (list T) set_assign (Some set_append) (Some set_append)
  (vector_reverse t) (list_compare (compare1 t)) (Some no_elements).
(* set_subscript (), variable.txx:1056-1084: find (). *)
Definition set_subscript (v : option (list T)) (k : T) : bool :=
  existsb (fun y => match compare1 t k y with Eq => true | _ => false end) (or_none v).
(* value_traits<set<T>>::append () and prepend (), variable.ixx:920-943 *)
Definition set_append_value (v : option (list T)) (x : list T) : list T :=
  match v with Some p => if no_elements p then x else insert_all p x | None => x end.
End Set_.

(* pair_value_traits<F, S>, variable.txx:281-493, variable.ixx:814-825 *)
Record ptraits (F S : Type) := mkptraits {
  pconvert : name -> option name -> option (F * S);
  preverse : F -> S -> list name;
  fcompare : F -> F -> comparison;
  scompare_ : S -> S -> comparison }.
Arguments mkptraits {F S}.
Arguments pconvert {F S}.
Arguments preverse {F S}.
Arguments fcompare {F S}.
Arguments scompare_ {F S}.
Section Pair.
Context {F S : Type} (tf : traits F) (ts : traits S).
(* <F, S>: 281-329 and 461-468 *)
Definition pair_both : ptraits F S := mkptraits
  (fun l r => if negb (paired l) then None else if negb (ceqb (pair l) AT) then None
     else match convert tf l None, r with
          | Some f, Some m => match convert ts m None with Some s => Some (f, s) | None => None end
          | _, _ => None
          end)
  (fun f s => [with_pair AT (reverse1 tf f); reverse1 ts s])
  (compare1 tf) (compare1 ts).
(* <F, optional<S>>: 345-387 and 470-480 *)
Definition pair_second : ptraits F (option S) := mkptraits
  (fun l r => if paired l && negb (ceqb (pair l) AT) then None
     else match convert tf l None with
          | Some f =>
              if paired l
              then match r with
                   | Some m => match convert ts m None with Some s => Some (f, Some s) | None => None end
                   | None => None
                   end
              else Some (f, None)
          | None => None
          end)
  (fun f s => match s with
     | Some x => [with_pair AT (reverse1 tf f); reverse1 ts x]
     | None => [reverse1 tf f] end)
  (compare1 tf) (ocompare (compare1 ts)).
(* <optional<F>, S>: 401-459 and 482-493 *)
Definition pair_first : ptraits (option F) S := mkptraits
  (fun l r => if paired l && negb (ceqb (pair l) AT) then None
     else if paired l
          then match convert tf l None, r with
               | Some f, Some m => match convert ts m None with Some s => Some (Some f, s) | None => None end
               | _, _ => None
               end
          else match convert ts l None with Some s => Some (None, s) | None => None end)
  (fun f s => (match f with Some x => [with_pair AT (reverse1 tf x)] | None => [] end) ++ [reverse1 ts s])
  (ocompare (compare1 tf)) (compare1 ts).
End Pair.

(* vector<pair<K, V>>, variable.txx:760-920, and map<K, V>, variable.txx:1163-1427 *)
Section Pairs.
Context {K V : Type} (t : ptraits K V).
Definition pcompare (x y : K * V) : comparison := then_ (fcompare t (fst x) (fst y)) (scompare_ t (snd x) (snd y)).
Definition pairs_append (v : option (list (K * V))) (ns : list name) : option (list (K * V)) :=
  match walk (pconvert t) ns with Some l => Some (or_none v ++ l) | None => None end.
Definition pairs_assign (v : option (list (K * V))) (ns : list name) : option (list (K * V)) :=
  pairs_append (match v with Some _ => Some [] | None => None end) ns.
Definition pairs_reverse (v : list (K * V)) (_ : bool) : list name := flat_map (fun p => preverse t (fst p) (snd p)) v.
Definition pairs_type : value_type := mktype (list (K * V)) pairs_assign (Some pairs_append) (Some pairs_append)
  pairs_reverse (list_compare pcompare) (Some no_elements).

(* p.emplace (k, V ()).first->second = v *)
Fixpoint put (k : K) (v : V) (m : list (K * V)) : list (K * V) :=
  match m with
  | [] => [(k, v)]
  | (k', v') :: m' =>
      match fcompare t k k' with
      | Lt => (k, v) :: m
      | Eq => (k', v) :: m'
      | Gt => (k', v') :: put k v m'
      end
  end.
(* p.emplace (k, v) *)
Fixpoint emplace (k : K) (v : V) (m : list (K * V)) : list (K * V) :=
  match m with
  | [] => [(k, v)]
  | (k', v') :: m' =>
      match fcompare t k k' with
      | Lt => (k, v) :: m
      | Eq => m
      | Gt => (k', v') :: emplace k v m'
      end
  end.
Definition put_all (m l : list (K * V)) : list (K * V) := fold_left (fun m p => put (fst p) (snd p) m) l m.
Definition emplace_all (m l : list (K * V)) : list (K * V) := fold_left (fun m p => emplace (fst p) (snd p) m) l m.
Definition map_append (v : option (list (K * V))) (ns : list name) : option (list (K * V)) :=
  match walk (pconvert t) ns with Some l => Some (put_all (or_none v) l) | None => None end.
Definition map_prepend (v : option (list (K * V))) (ns : list name) : option (list (K * V)) :=
  match walk (pconvert t) ns with Some l => Some (emplace_all (or_none v) l) | None => None end.
Definition map_assign (v : option (list (K * V))) (ns : list name) : option (list (K * V)) :=
  map_append (match v with Some _ => Some [] | None => None end) ns.
Definition map_type : value_type := mktype (list (K * V)) map_assign (Some map_append) (Some map_prepend)
  pairs_reverse (list_compare pcompare) (Some no_elements).
(* map_subscript (), variable.txx:1271-1312: find (). *)
Definition map_subscript (v : option (list (K * V))) (k : K) : option V :=
  match find (fun p => match fcompare t k (fst p) with Eq => true | _ => false end) (or_none v) with
  | Some p => Some (snd p)
  | None => None
  end.
(* value_traits<map<K, V>>::append () and prepend (), variable.ixx:957-1002 *)
Definition map_append_value (v : option (list (K * V))) (x : list (K * V)) : list (K * V) :=
  match v with Some m => if no_elements m then x else emplace_all m x | None => x end.
Definition map_prepend_value (v : option (list (K * V))) (x : list (K * V)) : list (K * V) :=
  match v with Some m => emplace_all x m | None => x end.
End Pairs.

(* name_pair, variable.cxx:986-1042 *)
Section Name_pair.
Context (cproj cdir : bytes -> bytes -> comparison).
Definition name_pair_convert (n : name) (r : option name) : option (name * name) :=
  if negb (no_pattern n) || match r with Some m => negb (no_pattern m) | None => false end then None
  else Some (with_pair NUL n, match r with Some m => m | None => simple_name [] end).
Definition name_pair_assign (_ : option (name * name)) (ns : list name) : option (name * name) :=
  match ns with
  | [] => Some (simple_name [], simple_name [])
  | [n] => name_pair_convert n None
  | [n; r] => name_pair_convert n (Some r)
  | _ => None
  end.
Definition name_pair_reverse (p : name * name) (reduce : bool) : list name :=
  let (f, s) := p in
  if reduce && name_empty f && name_empty s then []
  else if name_empty f then [s]
  else if name_empty s then [f]
  else [with_pair AT f; s].
Definition name_pair_type : value_type := mktype (name * name) name_pair_assign None None name_pair_reverse
  (fun x y => then_ (compare cproj cdir (fst x) (fst y)) (compare cproj cdir (snd x) (snd y)))
  (Some (fun x => name_empty (fst x) && name_empty (snd x))).
End Name_pair.

(* process_path and process_path_ex, variable.cxx:1071-1431. split: the directory (with
   the separator, empty if there is none) and leaf of a path. The effective path is
   empty if it is the same as recall, which is empty if the value is empty. *)
Section Process_path.
Context (mkp : bytes -> option bytes) (joinp : bytes -> bytes -> option bytes) (split : bytes -> bytes * bytes)
        (cpath : bytes -> bytes -> comparison).
Record process_path := mkpp { recall : bytes; effect : bytes; pp_name : option bytes; checksum : option bytes; env_checksum : option bytes }.
Definition no_process_path : process_path := mkpp [] [] None None None.
Definition pp_half (n : name) : option bytes :=
  if no_pattern n && untyped n && unqualified n && negb (name_empty n)
  then if is_empty (dir n) then mkp (value n) else joinp (dir n) (value n)
  else None.
Definition pp_convert (n : name) (r : option name) : option process_path :=
  match pp_half n, match r with Some m => pp_half m | None => Some [] end with
  | Some rp, Some ep => Some (mkpp rp ep None None None)
  | _, _ => None
  end.
Definition pp_assign (_ : option process_path) (ns : list name) : option process_path :=
  match ns with
  | [] => Some no_process_path
  | [n] => pp_convert n None
  | [n; r] => pp_convert n (Some r)
  | _ => None
  end.
Definition pp_name_of (p : bytes) : name := mkname None (fst (split p)) [] (snd (split p)) NUL None.
Definition pp_reverse_impl (x : process_path) : list name :=
  if is_empty (effect x) then [pp_name_of (recall x)] else [with_pair AT (pp_name_of (recall x)); pp_name_of (effect x)].
Definition pp_reverse (x : process_path) (_ : bool) : list name := if is_empty (recall x) then [] else pp_reverse_impl x.
Definition pp_compare (x y : process_path) : comparison := then_ (cpath (recall x) (recall y)) (cpath (effect x) (effect y)).
Definition process_path_type : value_type := mktype process_path pp_assign None None pp_reverse pp_compare (Some (fun x => is_empty (recall x))).

Fixpoint pp_keys (ns : list name) (x : process_path) : option process_path :=
  match ns with
  | [] => Some x
  | k :: v :: ns' =>
      if negb (paired k) then None
      else if negb (no_pattern k && simple k) then None
      else if negb (no_pattern v && simple v) then None
      else if beqb (value k) (b "name") then pp_keys ns' (mkpp (recall x) (effect x) (Some (value v)) (checksum x) (env_checksum x))
      else if beqb (value k) (b "checksum") then pp_keys ns' (mkpp (recall x) (effect x) (pp_name x) (Some (value v)) (env_checksum x))
      else if beqb (value k) (b "env-checksum") then pp_keys ns' (mkpp (recall x) (effect x) (pp_name x) (checksum x) (Some (value v)))
      else None
  | _ :: [] => None
  end.
Definition ppx_assign (_ : option process_path) (ns : list name) : option process_path :=
  match ns with
  | [] => Some no_process_path
  | n :: ns' =>
      if paired n
      then match ns' with
           | r :: ns'' => match pp_convert n (Some r) with Some x => pp_keys ns'' x | None => None end
           | [] => None
           end
      else match pp_convert n None with Some x => pp_keys ns' x | None => None end
  end.
Definition pp_key (k : string) (v : option bytes) : list name :=
  match v with Some x => [with_pair AT (simple_name (b k)); simple_name x] | None => [] end.
Definition ppx_reverse (x : process_path) (_ : bool) : list name :=
  if is_empty (recall x) then []
  else pp_reverse_impl x ++ pp_key "name" (pp_name x) ++ pp_key "checksum" (checksum x) ++ pp_key "env-checksum" (env_checksum x).
Definition process_path_ex_type : value_type := mktype process_path ppx_assign None None ppx_reverse pp_compare (Some (fun x => is_empty (recall x))).
End Process_path.

(* An untyped value, variable.cxx:164-259: assign (), append () and prepend (). *)
Definition names_assign (_ : option (list name)) (ns : list name) : option (list name) := Some ns.
Definition names_append (v : option (list name)) (ns : list name) : option (list name) :=
  match v with Some p => if no_elements p then Some ns else Some (p ++ ns) | None => Some ns end.
Definition names_prepend (v : option (list name)) (ns : list name) : option (list name) :=
  match v with Some p => if no_elements p then Some ns else Some (ns ++ p) | None => Some ns end.
Definition names_type (cproj cdir : bytes -> bytes -> comparison) : value_type :=
  mktype (list name) names_assign (Some names_append) (Some names_prepend) (fun v _ => v)
    (list_compare (compare cproj cdir)) (Some no_elements).

(* value::assign (), append () and prepend (), variable.cxx:164-259. *)
Inductive op := Assign (ns : list name) | Append (ns : list name) | Prepend (ns : list name).
Definition apply (t : value_type) (v : option (data t)) (o : op) : option (data t) :=
  match o with
  | Assign ns => assign t v ns
  | Append ns => match append t with Some f => f v ns | None => None end
  | Prepend ns => match prepend t with Some f => f v ns | None => None end
  end.
(* A value after some operations, NULL to begin with. None: one of them failed. *)
Fixpoint after (t : value_type) (v : option (data t)) (os : list op) : option (option (data t)) :=
  match os with
  | [] => Some v
  | o :: os' => match apply t v o with Some x => after t (Some x) os' | None => None end
  end.

(* typify () of an untyped value, variable.cxx:327-346. *)
Definition typify (t : value_type) (v : option (list name)) : option (option (data t)) :=
  match v with
  | Some ns => match assign t None ns with Some x => Some (Some x) | None => None end
  | None => Some None
  end.
(* untypify (), variable.cxx:382-418 *)
Definition untypify (t : value_type) (v : option (data t)) (reduce : bool) : option (list name) :=
  match v with Some x => Some (reverse t x reduce) | None => None end.

(* compare (), variable.cxx:261-323, of two values of the same type. ne: whether NULL
   is equal to empty. *)
Definition is_null {A} (v : option A) : bool := match v with None => true | Some _ => false end.
Definition null_or_empty (t : value_type) (v : option (data t)) : bool :=
  match v with None => true | Some x => match tempty t with Some f => f x | None => false end end.
Definition value_compare (t : value_type) (ne : bool) (x y : option (data t)) : comparison :=
  match x, y with
  | Some a, Some c => tcompare t a c
  | _, _ =>
      let xn := if ne then null_or_empty t x else is_null x in
      let yn := if ne then null_or_empty t y else is_null y in
      match xn, yn with true, false => Lt | false, true => Gt | _, _ => Eq end
  end.
