(* Model of choosing the number of shards: libbuild2/scheduler.cxx:401-454.
   Simplified: numbers do not overflow. *)
From Verif Require Import Base.
Local Open Scope Z_scope.

(* prime, 408-426. The number of steps is bounded by n. *)
Fixpoint prime_loop (steps : nat) (i n : Z) : bool :=
  match steps with
  | O => 1 <? n (* not reached *)
  | S steps => if i * i <=? n then if n mod i =? 0 then false else prime_loop steps (i + 1) n else 1 <? n
  end.
Definition is_prime (n : Z) : bool := prime_loop (Z.to_nat n) 2 n.
(* next_prime, 430-439. None: not found in so many steps. *)
Fixpoint next_prime (steps : nat) (n : Z) : option Z :=
  match steps with O => None | S steps => if is_prime n then Some n else next_prime steps (n + 1) end.
(* shard_size (), 401-454. *)
Definition shard_size (steps : nat) (max_threads mul div : Z) : option Z :=
  let n := if max_threads =? 1 then 0 else max_threads * mul / div / 4 in
  if n =? 0 then Some 1
  else if n =? 1 then Some 3
  else if n <=? 16 then next_prime steps (n * 2)
  else if n <=? 80 then next_prime steps (n * 3 / 2)
  else next_prime steps n.
