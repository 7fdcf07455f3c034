(* Model of JSON values, libbuild2/json.{hxx,cxx}: comparing, appending and
   prepending. Parsing and serializing rely on libbutl and are not modelled. *)
From Verif Require Import Base NameModel.

(* json_value, json.hxx:35-82. The signed numbers are int64_t and the unsigned
   ones uint64_t, see in_range. hex: the hexadecimal_* types. *)
Inductive json :=
| JNull
| JBool (v : bool)
| JSigned (hex : bool) (v : Z)
| JUnsigned (hex : bool) (v : Z)
| JString (v : bytes)
| JArray (v : list json)
| JObject (v : list (bytes * json)).

(* json.cxx:298-308: the type as a number, with the decimal and hexadecimal ones
   being the same. *)
Definition type_code (x : json) : nat :=
  match x with
  | JNull => 0 | JBool _ => 1 | JSigned _ _ => 2 | JUnsigned _ _ => 3 | JString _ => 6 | JArray _ => 7 | JObject _ => 8
  end.

(* next, json.cxx:398-420: n is the smallest so far. The assertion that there are no
   duplicates is not modelled. *)
Definition after {X} (p : option bytes) (i : bytes * X) : bool :=
  match p with None => true | Some q => match scompare (fst i) q with Gt => true | _ => false end end.
Fixpoint next {X} (p : option bytes) (l : list (bytes * X)) (n : option (bytes * X)) : option (bytes * X) :=
  match l with
  | [] => n
  | i :: l' =>
      next p l' (if after p i then match n with
                                   | None => Some i
                                   | Some n0 => match scompare (fst n0) (fst i) with Gt => Some i | _ => n end
                                   end
                 else n)
  end.
(* json.cxx:422-451. The value of a member of the first object is given as the
   function that compares it to another value. k: fuel, more than the members. *)
Fixpoint members_loop (k : nat) (p q : option bytes) (a : list (bytes * (json -> comparison))) (c : list (bytes * json)) : comparison :=
  match k with
  | 0 => Eq
  | S k' =>
      match next p a None, next q c None with
      | None, None => Eq
      | None, Some _ => Lt
      | Some _, None => Gt
      | Some i, Some j =>
          match scompare (fst i) (fst j) with
          | Lt => Lt
          | Gt => Gt
          | Eq => match snd i (snd j) with Eq => members_loop k' (Some (fst i)) (Some (fst j)) a c | r => r end
          end
      end
  end.

(* json_value::compare (), json.cxx:291-459. When a signed number is equal to an
   unsigned one (so they have the same bits) then they are compared again, as both
   signed or both unsigned, with the same result. *)
Fixpoint compare (x y : json) {struct x} : comparison :=
  match x, y with
  | JNull, JNull => Eq
  | JBool u, JBool v => if Bool.eqb u v then Eq else if u then Gt else Lt
  | JSigned _ u, JSigned _ v => Z.compare u v
  | JUnsigned _ u, JUnsigned _ v => Z.compare u v
  | JSigned _ u, JUnsigned _ v => if (u <? 0)%Z then Lt else Z.compare u v
  | JUnsigned _ u, JSigned _ v => if (v <? 0)%Z then Gt else Z.compare u v
  | JString u, JString v => scompare u v
  | JArray u, JArray v =>
      (fix go (u v : list json) : comparison :=
         match u, v with
         | [], [] => Eq
         | [], _ :: _ => Lt
         | _ :: _, [] => Gt
         | a :: u', c :: v' => match compare a c with Eq => go u' v' | r => r end
         end) u v
  | JObject u, JObject v => members_loop (S (length u)) None None (map (fun m => (fst m, compare (snd m))) u) v
  | _, _ => if type_code x <? type_code y then Lt else Gt
  end.

(* Arithmetic. *)
Definition two64 : Z := (2 ^ 64)%Z.
Definition int64_min : Z := (- 2 ^ 63)%Z.
Definition int64_max : Z := (2 ^ 63 - 1)%Z.
Definition is_int64 (z : Z) : bool := ((int64_min <=? z) && (z <=? int64_max))%Z.
Definition wrap (z : Z) : Z := (z mod two64)%Z.

(* append, json.cxx:464-499. None: undefined behavior (signed integer overflow). *)
Definition append_us (u s : Z) (hex : bool) : option json :=
  if (s <? 0)%Z then
    let a := (- s)%Z in
    if (a <=? u)%Z then Some (JUnsigned hex (u - a))
    else if ((a - u) <=? int64_max)%Z then Some (JSigned hex (- (a - u)))
    else None
  else Some (JUnsigned hex (wrap (u + s))).

(* The bits of a number as uint64_t. *)
Definition bits (x : json) : Z := match x with JSigned _ v => wrap v | JUnsigned _ v => v | _ => 0%Z end.
(* append_numbers (), json.cxx:461-530. The type of r is only checked for being
   signed_number, that is, not hexadecimal. *)
Definition append_numbers (l r : json) : option json :=
  match l with
  | JSigned h u =>
      match r with
      | JSigned false v =>
          if (0 <=? u)%Z then append_us u v h
          else if (0 <=? v)%Z then append_us v u h
          else if is_int64 (u + v) then Some (JSigned h (u + v)) else None
      | _ => append_us (bits r) u h
      end
  | JUnsigned h u =>
      match r with
      | JSigned false v => append_us u v h
      | _ => Some (JUnsigned h (wrap (u + bits r)))
      end
  | _ => None
  end.

(* The members of an object. *)
Definition has (k : bytes) (o : list (bytes * json)) : bool := existsb (fun m => beqb k (fst m)) o.
Fixpoint replace (k : bytes) (v : json) (o : list (bytes * json)) : list (bytes * json) :=
  match o with
  | [] => []
  | m :: o' => if beqb k (fst m) then (fst m, v) :: o' else m :: replace k v o'
  end.
(* json.cxx:597-613 and 690-706. *)
Definition merge1 (front override : bool) (o : list (bytes * json)) (m : bytes * json) : list (bytes * json) :=
  if has (fst m) o then (if override then replace (fst m) (snd m) o else o)
  else if front then m :: o else o ++ [m].
Definition merge (front override : bool) (o p : list (bytes * json)) : list (bytes * json) :=
  match o with
  | [] => p
  | _ => fold_left (merge1 front override) p o
  end.

(* json_value::append (), json.cxx:532-623, and prepend (), 625-716. *)
Inductive result := Value (v : json) | Incompatible | Overflow.
Definition number (x : json) : bool := match x with JSigned _ _ | JUnsigned _ _ => true | _ => false end.
Definition add (front override : bool) (l v : json) : result :=
  match l with
  | JNull => Value v
  | JArray a =>
      Value (JArray (match v with
                     | JArray c => if front then c ++ a else a ++ c
                     | _ => if front then v :: a else a ++ [v]
                     end))
  | _ =>
      match v with
      | JNull => Value l
      | JBool y => match l with JBool x => Value (JBool (x || y)) | _ => Incompatible end
      | JSigned _ _ | JUnsigned _ _ => if number l then match append_numbers l v with Some r => Value r | None => Overflow end else Incompatible
      | JString y => match l with JString x => Value (JString (if front then y ++ x else x ++ y)) | _ => Incompatible end
      | JArray _ => Incompatible
      | JObject p => match l with JObject o => Value (JObject (merge front override o p)) | _ => Incompatible end
      end
  end.
(* json.hxx:168 and 171: by default append overrides and prepend does not. *)
Definition append (l v : json) : result := add false true l v.
Definition prepend (l v : json) : result := add true false l v.
