(* Model of integer values: their conversion from and to names, $string() and
   $integer_sequence(). *)
From Verif Require Import Base.
Local Open Scope Z_scope.

Definition int64_min := - 2 ^ 63.
Definition int64_max := 2 ^ 63 - 1.
Definition uint64_max := 2 ^ 64 - 1.

(* The standard library: isspace () in the C locale (libbutl's wspace () is taken to be the
   same), the value of a digit. *)
Definition isspace (c : ascii) : bool := ceqb c SP || ((9 <=? N_of_ascii c)%N && (N_of_ascii c <=? 13)%N).
Definition digit_value (base : Z) (c : ascii) : option Z :=
  let n := Z.of_N (N_of_ascii c) in
  let d := if (48 <=? n) && (n <=? 57) then n - 48
           else if (97 <=? n) && (n <=? 122) then n - 87
           else if (65 <=? n) && (n <=? 90) then n - 55 else 99 in
  if d <? base then Some d else None.

(* The standard library: strtoll ()/strtoull () for bases 10 and 16. Skip whitespaces, an
   optional sign, an optional 0x (if a digit follows) and convert as many digits as
   possible. The result is the sign, the magnitude and the number of characters used. None:
   no conversion. *)
Fixpoint digits (base : Z) (s : bytes) (v : Z) (n : nat) : Z * nat :=
  match s with
  | [] => (v, n)
  | c :: s' => match digit_value base c with Some d => digits base s' (v * base + d) (S n) | None => (v, n) end
  end.
Fixpoint spaces (s : bytes) : nat := match s with c :: s' => if isspace c then S (spaces s') else O | [] => O end.
Definition is_x (c : ascii) : bool := ceqb c "x"%char || ceqb c "X"%char.
Definition strto_unsigned (base : Z) (s : bytes) : option (Z * nat) :=
  let prefixed := match s with
                  | z :: x :: c :: _ => (base =? 16) && ceqb z "0"%char && is_x x && match digit_value 16 c with Some _ => true | None => false end
                  | _ => false
                  end in
  let (v, n) := digits base (if prefixed then skipn 2 s else s) 0 0 in
  if (n =? 0)%nat then None else Some (v, if prefixed then S (S n) else n).
Definition strto (base : Z) (s : bytes) : option (bool * Z * nat) :=
  let w := spaces s in
  let signed neg k s := match strto_unsigned base s with Some (v, n) => Some (neg, v, (w + k + n)%nat) | None => None end in
  match skipn w s with
  | c :: s' => if ceqb c "-"%char then signed true 1%nat s' else if ceqb c "+"%char then signed false 1%nat s' else signed false O (c :: s')
  | [] => None
  end.
(* std::stoll ()/stoull (): None is invalid_argument or out_of_range. *)
Definition stoll (s : bytes) (base : Z) : option (Z * nat) :=
  match strto base s with
  | Some (neg, v, n) => let r := if neg : bool then - v else v in if (int64_min <=? r) && (r <=? int64_max) then Some (r, n) else None
  | None => None
  end.
Definition stoull (s : bytes) (base : Z) : option (Z * nat) :=
  match strto base s with
  | Some (neg, v, n) => if v <=? uint64_max then Some (if neg : bool then (- v) mod 2 ^ 64 else v, n) else None
  | None => None
  end.

(* value_traits<int64_t>::convert (), variable.cxx:520-558, for a simple name that is not a
   pattern and not a part of a pair (others are rejected). None: throw. *)
Definition at_ (v : bytes) (i : nat) : ascii := nth i v NUL.
Definition base_at (v : bytes) (p : nat) : Z := if ceqb (at_ v p) "0"%char && is_x (at_ v (p + 1)) then 16 else 10.
Definition convert_int64 (v : bytes) : option Z :=
  let c := at_ v 0 in
  if isspace c then None
  else
    let p := if ceqb c "-"%char || ceqb c "+"%char then 1%nat else O in
    match stoll v (base_at v p) with
    | Some (r, i) => if (i =? length v)%nat then Some r else None
    | None => None
    end.
(* value_traits<uint64_t>::convert (), variable.cxx:585-623. *)
Definition convert_uint64 (v : bytes) : option Z :=
  let c := at_ v 0 in
  if isspace c || ceqb c "-"%char then None
  else
    let p := if ceqb c "+"%char then 1%nat else O in
    match stoull v (base_at v p) with
    | Some (r, i) => if (i =? length v)%nat then Some r else None
    | None => None
    end.

(* hex_digits, utility.cxx:90 *)
Definition hex_digit (d : Z) : ascii := nth (Z.to_nat d) (b "0123456789abcdef") NUL.
(* std::to_string () for non-negative numbers below 10^20. *)
Fixpoint show (fuel : nat) (i : Z) (r : bytes) : bytes :=
  match fuel with
  | O => r
  | S fuel => let r := hex_digit (i mod 10) :: r in if i <? 10 then r else show fuel (i / 10) r
  end.
Definition std_to_string (i : Z) : bytes := if i <? 0 then "-"%char :: show 20 (- i) [] else show 20 i [].
(* value_traits<int64_t>::reverse () and value_traits<uint64_t>::reverse (),
   variable.hxx:838 and 860. *)
Definition reverse_int (i : Z) : bytes := std_to_string i.
(* to_string () for uint64_t, utility.cxx:92-133. None: throw. *)
Definition hex_step (i : Z) (r : bytes) (j : nat) : bytes :=
  let d := Z.land (Z.shiftr i (Z.of_nat (4 * j))) 15 in
  if negb (d =? 0) || negb (length r =? 0)%nat || (j =? 0)%nat then r ++ [hex_digit d] else r.
Definition hex_loop (i : Z) : bytes := fold_left (hex_step i) (rev (seq 0 16)) [].
Definition zeros (w n : nat) : bytes := repeat "0"%char (w - n).
Definition pad (w : nat) (r : bytes) : bytes := if (length r <? w)%nat then zeros w (length r) ++ r else r.
Definition to_string_u (i : Z) (base : Z) (w : nat) : option bytes :=
  if base =? 10 then Some (pad w (std_to_string i))
  else if base =? 16 then Some (b "0x" ++ pad w (hex_loop i))
  else None.
(* to_string () for int64_t, utility.cxx:135-148. *)
Definition to_string_i (i : Z) (base : Z) (w : nat) : option bytes :=
  let ui := if i =? int64_min then int64_max + 1 else Z.abs i in
  match to_string_u ui base w with Some r => Some (if i <? 0 then "-"%char :: r else r) | None => None end.

(* $integer_sequence (), functions-integer.cxx:76-95: the loop, which ends with r. *)
Inductive sequence (e s : Z) : Z -> list Z -> Prop :=
| seq_end x : e <= x -> sequence e s x []
| seq_next x r : x < e -> sequence e s ((x + s) mod 2 ^ 64) r -> sequence e s x (x :: r).
(* Division by zero if the step is zero, unless the sequence is empty. *)
Definition sequence_defined (x e s : Z) : bool := (e <=? x) || negb (s =? 0).
