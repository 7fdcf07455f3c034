(* C75: typed values survive conversion to names and back. C76: a container is what
   its history says. *)
From Coq Require Import Sorted.
From Verif Require Import Base IntModel IntProps NameModel NameSpec NameProofs NamesModel TypedModel TypedSpec TypedProofs TypedProofs2 TypedProofs3.

(* The names that a value is converted to, reduced or not, are converted back to the
   same value, whatever the variable had before. *)
Theorem C75_survives : forall mkp mkd joinp joind cpath cdir cproj validp split t x old reduce,
  value_ok mkp mkd joinp joind cpath cdir cproj validp split t x ->
  assign t old (reverse t x reduce) = Some x.
Proof. exact survives. Qed.
Print Assumptions C75_survives.

(* And these are all values of the known types, however they have been made. *)
Theorem C75_reachable : forall mkp mkd joinp joind cpath cdir cproj validp split,
  path_facts mkp mkd joinp validp -> weak_order cpath -> weak_order cdir -> weak_order cproj ->
  forall t os x reduce, known mkp mkd joinp joind cpath cdir cproj validp t ->
  Forall (fun o => Forall dir_ok (op_names o)) os -> after t None os = Some (Some x) ->
  value_ok mkp mkd joinp joind cpath cdir cproj validp split t x /\
  typify t (untypify t (Some x) reduce) = Some (Some x).
Proof.
  intros mkp mkd joinp joind cpath cdir cproj validp split PF Wp Wd Wj t os x reduce N D E.
  assert (V : value_ok mkp mkd joinp joind cpath cdir cproj validp split t x) by (eapply reachable; eassumption).
  split; [exact V|]. cbn. rewrite (survives mkp mkd joinp joind cpath cdir cproj validp split t x None reduce V). reflexivity.
Qed.
Print Assumptions C75_reachable.

(* Comparison of values, NULL included, is an order, whether or not NULL is equal to
   empty. *)
Theorem C75_order : forall mkp mkd joinp joind cpath cdir cproj validp,
  weak_order cpath -> weak_order cdir -> weak_order cproj ->
  (forall x, x <> [] -> cpath [] x = Lt /\ cdir [] x = Lt /\ cproj [] x = Lt) ->
  forall t ne, known mkp mkd joinp joind cpath cdir cproj validp t -> weak_order (value_compare t ne).
Proof.
  intros mkp mkd joinp joind cpath cdir cproj validp Wp Wd Wj L t ne N.
  apply (compare_order mkp mkd joinp joind cpath cdir cproj validp Wp Wd Wj t ne); try exact N; intros x X; apply L; exact X.
Qed.
Print Assumptions C75_order.
(* Only a value itself is equal to it. *)
Theorem C75_equal : forall mkp mkd joinp joind cpath cdir cproj validp,
  (forall x y, cpath x y = Eq <-> x = y) -> (forall x y, cdir x y = Eq <-> x = y) -> (forall x y, cproj x y = Eq <-> x = y) ->
  forall t, known mkp mkd joinp joind cpath cdir cproj validp t -> forall x y, value_compare t false x y = Eq <-> x = y.
Proof. intros mkp mkd joinp joind cpath cdir cproj validp P D J t N. exact (compare_equal mkp mkd joinp joind cpath cdir cproj validp t P D J N). Qed.
Print Assumptions C75_equal.

(* A pair of names whose first half is empty is not recovered: it becomes the pair
   with an empty second half. *)
Theorem C75_name_pair_refuted : forall cproj cdir, exists ns x,
  assign (name_pair_type cproj cdir) None ns = Some x /\ typify (name_pair_type cproj cdir) (untypify (name_pair_type cproj cdir) (Some x) true) <> Some (Some x).
Proof.
  intros cproj cdir. exists [with_pair AT (simple_name []); simple_name (b "x")], (simple_name [], simple_name (b "x")). split; [reflexivity|]. cbn. discriminate.
Qed.
Print Assumptions C75_name_pair_refuted.

(* Concrete paths for the examples. *)
Definition ex_mkp (s : bytes) : option bytes := if existsb (ceqb NUL) s then None else Some s.
Definition ex_mkd (s : bytes) : option bytes := if is_empty s || to_directory s then Some s else Some (s ++ b "/").
Definition ex_join (x y : bytes) : option bytes := if existsb (ceqb NUL) (x ++ y) then None else Some (if to_directory x then x ++ y else x ++ b "/" ++ y).
Definition ex_valid (s : bytes) : bool := negb (is_empty s) && negb (to_directory s).
Definition ex_split (s : bytes) : bytes * bytes := cut_last s.
Local Notation ex_known := (known ex_mkp ex_mkd ex_join ex_join scompare scompare scompare ex_valid).
Example C75_ex_facts : path_facts ex_mkp ex_mkd ex_join ex_valid /\ total_order scompare /\ (forall x, x <> [] -> scompare [] x = Lt).
Proof.
  split; [split|split].
  - reflexivity.
  - intros s p. unfold ex_mkp. destruct (existsb (ceqb NUL) s) eqn:E; [discriminate|]. intros [= <-]. rewrite E. reflexivity.
  - intros x y p. unfold ex_join, ex_mkp. rewrite existsb_app. destruct (existsb (ceqb NUL) x) eqn:X; [discriminate|]. destruct (existsb (ceqb NUL) y) eqn:Y; [discriminate|].
    cbn [orb]. intros [= <-]. destruct (to_directory x); rewrite !existsb_app, X; cbn -[ceqb]; rewrite Y; reflexivity.
  - reflexivity.
  - unfold ex_valid. intros s H. apply andb_prop in H as [A B]. apply negb_true_iff in A, B. split; [intros ->; discriminate | exact B].
  - split; [apply wo_string | apply scompare_eq].
  - intros [|a x]; [contradiction | reflexivity].
Qed.
Local Notation sn s := (simple_name (b s)).
Local Notation "x @@ y" := (with_pair AT (simple_name (b x)), simple_name (b y)) (at level 40).
Definition ex_pairs (l : list (name * name)) : list name := flat_map (fun p => [fst p; snd p]) l.
Example C75_ex_map : exists x,
  ex_known (map_type (pair_both string_traits uint64_traits)) /\
  after (map_type (pair_both string_traits uint64_traits)) None
    [Assign (ex_pairs ["b" @@ "1"; "a" @@ "0x10"]); Append (ex_pairs ["b" @@ "2"]); Prepend (ex_pairs ["a" @@ "5"; "c" @@ "7"])] = Some (Some x) /\
  x = [(b "a", 16%Z); (b "b", 2%Z); (b "c", 7%Z)] /\
  untypify (map_type (pair_both string_traits uint64_traits)) (Some x) true = Some (ex_pairs ["a" @@ "16"; "b" @@ "2"; "c" @@ "7"]).
Proof. eexists. split; [apply kn_map, k_both; constructor|]. split; [reflexivity|]. split; reflexivity. Qed.
Example C75_ex_path : exists x,
  ex_known (simple_type (path_traits ex_mkp ex_join scompare)) /\
  after (simple_type (path_traits ex_mkp ex_join scompare)) None [Assign [dir_name (b "foo/")]; Append [sn "bar"]; Prepend [sn "/"]] = Some (Some x) /\
  x = b "/foo/bar".
Proof. eexists. split; [apply kn_simple; constructor|]. split; reflexivity. Qed.
Example C75_ex_process : executable ex_mkp ex_join ex_split (b "/usr/bin/g++") /\
  reverse (process_path_ex_type ex_mkp ex_join ex_split scompare) (mkpp (b "g++") (b "/usr/bin/g++") (Some (b "g++")) None (Some (b "abc"))) true =
    [with_pair AT (sn "g++"); mkname None (b "/usr/bin/") [] (b "g++") NUL None; with_pair AT (sn "name"); sn "g++"; with_pair AT (sn "env-checksum"); sn "abc"].
Proof. split; [split; [left; discriminate | reflexivity] | reflexivity]. Qed.
Example C75_ex_compare :
  value_compare (simple_type string_traits) true None (Some []) = Eq /\ value_compare (simple_type string_traits) false None (Some []) = Lt /\
  value_compare (vector_type int64_traits) true (Some [1%Z; 2%Z]) (Some [1%Z]) = Gt.
Proof. repeat split. Qed.

(* C76. However a vector, a set or an untyped value has been put together, it is the
   same as if assigned its names at once: appended names on the right and prepended on
   the left. *)
Theorem C76_names : forall cproj cdir os v, os <> [] -> after (names_type cproj cdir) None os = Some v -> v = Some (names_after os).
Proof. intros. eapply names_history; eassumption. Qed.
Print Assumptions C76_names.
Theorem C76_vector : forall T (t : traits T) os v, os <> [] -> after (vector_type t) None os = Some v -> assign (vector_type t) None (names_after os) = v.
Proof. intros. apply vector_history; assumption. Qed.
Print Assumptions C76_vector.
Theorem C76_set : forall T (t : traits T) os v, total_order (compare1 t) -> os <> [] -> after (set_type t) None os = Some v ->
  assign (set_type t) None (names_after os) = v.
Proof. intros. apply set_history; assumption. Qed.
Print Assumptions C76_set.
(* The same with maps if no key is repeated in what is prepended. *)
Theorem C76_map_partial : forall K V (t : ptraits K V) os v, total_order (fcompare t) -> os <> [] ->
  (forall ns l, In (Prepend ns) os -> assign (pairs_type t) None ns = Some l -> unique_keys (fcompare t) l) ->
  after (map_type t) None os = Some v -> assign (map_type t) None (names_after os) = v.
Proof.
  intros K V t os v [W EQ] N U E. apply map_history; [exact W | intros x y; apply EQ | | exact E | exact N].
  apply Forall_forall. intros [ns|ns|ns] I; cbn; auto. intros l L. apply (U ns l I L).
Qed.
Print Assumptions C76_map_partial.
(* And with vectors of pairs if nothing is prepended. *)
Theorem C76_pairs_partial : forall K V (t : ptraits K V) os v, os <> [] -> (forall ns, ~ In (Prepend ns) os) ->
  after (pairs_type t) None os = Some v -> assign (pairs_type t) None (names_after os) = v.
Proof.
  intros K V t os v N P E. apply pairs_history; [|exact E|exact N]. apply Forall_forall. intros [ns|ns|ns] I; cbn; auto. exact (P ns I).
Qed.
Print Assumptions C76_pairs_partial.

(* Strings that are appended and prepended are concatenated in the same order, integers
   are added up (and wrap around) and of booleans it is whether any is true. *)
Theorem C76_string : forall os v, os <> [] -> Forall (fun o => exists n, op_names o = [n]) os -> after (simple_type string_traits) None os = Some v ->
  exists xs, Forall2 (fun n x => assign (simple_type string_traits) None [n] = Some x) (names_after os) xs /\ v = Some (concat xs).
Proof.
  intros os v N Q E. apply (fold_history string_traits _ _ (@concat ascii) eq_refl eq_refl); try assumption.
  - intros n x _. cbn. apply app_nil_r.
  - intros l x. rewrite concat_app. cbn. rewrite app_nil_r. reflexivity.
  - reflexivity.
Qed.
Print Assumptions C76_string.
Lemma wrap_add z x : wrap_signed (wrap_signed z + x) = wrap_signed (z + x).
Proof.
  unfold wrap_signed. replace ((z + 2 ^ 63) mod 2 ^ 64 - 2 ^ 63 + x + 2 ^ 63)%Z with ((z + 2 ^ 63) mod 2 ^ 64 + x)%Z by lia.
  rewrite Z.add_mod_idemp_l by lia. do 2 f_equal. lia.
Qed.
Theorem C76_int64 : forall os v, os <> [] -> Forall (fun o => exists n, op_names o = [n]) os -> after (simple_type int64_traits) None os = Some v ->
  exists xs z, Forall2 (fun n x => assign (simple_type int64_traits) None [n] = Some x) (names_after os) xs /\
    v = Some z /\ (int64_min <= z <= int64_max)%Z /\ ((fold_right Z.add 0 xs - z) mod 2 ^ 64 = 0)%Z.
Proof.
  intros os v N Q E. destruct (fold_history int64_traits _ _ (fun l => wrap_signed (sum l)) eq_refl eq_refl) with (os := os) (v := v) as (xs & F & ->); try assumption.
  - intros n x. cbn. destruct (_ && _); [|discriminate]. intros C. apply C37_int64 in C as [_ R]. unfold wrap_signed, int64_min, int64_max in *. 
    rewrite Z.add_0_r, Z.mod_small by lia. lia.
  - intros l x. rewrite sum_app. f_equal. rewrite (wrap_add (sum l)). cbn. f_equal. lia.
  - intros l x. f_equal. rewrite wrap_add. f_equal. unfold sum. cbn. lia.
  - exists xs, (wrap_signed (sum xs)). split; [exact F|]. split; [reflexivity|]. split; [apply range_signed|].
    unfold wrap_signed. fold (sum xs). rewrite <- Zminus_mod_idemp_r. replace (((sum xs + 2 ^ 63) mod 2 ^ 64 - 2 ^ 63) mod 2 ^ 64)%Z with (sum xs mod 2 ^ 64)%Z.
    + rewrite Zminus_mod_idemp_r, Z.sub_diag. reflexivity.
    + rewrite Zminus_mod_idemp_l. f_equal. lia.
Qed.
Print Assumptions C76_int64.
Theorem C76_uint64 : forall os v, os <> [] -> Forall (fun o => exists n, op_names o = [n]) os -> after (simple_type uint64_traits) None os = Some v ->
  exists xs z, Forall2 (fun n x => assign (simple_type uint64_traits) None [n] = Some x) (names_after os) xs /\
    v = Some z /\ (0 <= z <= uint64_max)%Z /\ ((fold_right Z.add 0 xs - z) mod 2 ^ 64 = 0)%Z.
Proof.
  intros os v N Q E. destruct (fold_history uint64_traits _ _ (fun l => wrap_unsigned (sum l)) eq_refl eq_refl) with (os := os) (v := v) as (xs & F & ->); try assumption.
  - intros n x. cbn. destruct (_ && _); [|discriminate]. intros C. apply C37_uint64 in C as [D R]. assert (0 <= x)%Z by (inversion D; subst; eapply IntProofs.denotes_nonneg; eassumption). unfold wrap_unsigned, uint64_max in *. 
    rewrite Z.add_0_r, Z.mod_small by lia. reflexivity.
  - intros l x. unfold wrap_unsigned. rewrite sum_app. cbn. rewrite Z.add_0_r, Z.add_mod_idemp_l by lia. reflexivity.
  - intros l x. unfold wrap_unsigned. cbn. rewrite Z.add_mod_idemp_l by lia. do 2 f_equal. unfold sum. lia.
  - exists xs, (wrap_unsigned (sum xs)). split; [exact F|]. split; [reflexivity|]. split; [apply range_unsigned|].
    unfold wrap_unsigned. fold (sum xs). rewrite Zminus_mod_idemp_r, Z.sub_diag. reflexivity.
Qed.
Print Assumptions C76_uint64.
Theorem C76_bool : forall os v, os <> [] -> Forall (fun o => exists n, op_names o = [n]) os -> after (simple_type bool_traits) None os = Some v ->
  v = Some (existsb (fun n => beqb (value n) (b "true")) (names_after os)).
Proof.
  intros os v N Q E. destruct (fold_history bool_traits _ _ (existsb (fun x => x)) eq_refl eq_refl) with (os := os) (v := v) as (xs & F & ->); try assumption.
  - intros n [|] _; reflexivity.
  - intros l x. rewrite existsb_app. cbn. rewrite orb_false_r. reflexivity.
  - intros l x. cbn. rewrite orb_comm. reflexivity.
  - f_equal. clear E. induction F as [|n x ns l C F IH]; [reflexivity|]. cbn. rewrite IH. f_equal. cbn in C. destruct (_ && _); [|discriminate].
    destruct (beqb (value n) _); [injection C as <-; reflexivity|]. destruct (beqb (value n) _); [injection C as <-; reflexivity | discriminate].
Qed.
Print Assumptions C76_bool.
Example C76_ex_simple : let os s := [Assign [sn "1"]; Append [sn "20"]; Prepend [sn s]] in
  after (simple_type string_traits) None (os "-3"%string) = Some (Some (b "-3120")) /\ after (simple_type int64_traits) None (os "-3"%string) = Some (Some 18%Z) /\
  after (simple_type uint64_traits) None (os "18446744073709551615"%string) = Some (Some 20%Z) /\
  after (simple_type bool_traits) None [Assign [sn "false"]; Append [sn "true"]] = Some (Some true).
Proof. repeat split; vm_compute; reflexivity. Qed.

(* What the elements are: those of a vector. A set has exactly the elements of the
   vector of the same names, in order and once. The value of a key of a map is the last
   one in the vector of pairs of the same names. *)
Theorem C76_set_elements : forall T (t : traits T) ns, total_order (compare1 t) ->
  match assign (vector_type t) None ns, assign (set_type t) None ns with
  | Some l, Some s => StronglySorted (below (compare1 t)) s /\ (forall x, In x s <-> In x l) /\ forall k, set_subscript t (Some s) k = true <-> In k l
  | None, None => True
  | _, _ => False
  end.
Proof.
  intros T t ns O. cbn. unfold vector_assign, vector_append, set_assign, set_append. destruct (walk (element t) ns) as [l|]; [|exact I]. cbn.
  split; [apply insert_all_sort; [exact O | constructor]|]. assert (E : forall x, In x (insert_all t [] l) <-> In x l) by (intros x; rewrite (insert_all_in t O); cbn; tauto).
  split; [exact E|]. intros k. unfold set_subscript. cbn [or_none]. rewrite existsb_exists. split.
  - intros (x & X & C). destruct (compare1 t k x) eqn:K; try discriminate. apply (proj2 O) in K. subst x. apply E. exact X.
  - intros K. exists k. split; [apply E; exact K|]. rewrite (proj2 (proj2 O k k) eq_refl). reflexivity.
Qed.
Print Assumptions C76_set_elements.
Theorem C76_map_elements : forall K V (t : ptraits K V) ns, weak_order (fcompare t) ->
  match assign (pairs_type t) None ns, assign (map_type t) None ns with
  | Some l, Some m => StronglySorted (below (fcompare t)) (map fst m) /\ forall k, map_subscript t (Some m) k = last_value (same_key (fcompare t)) k l
  | None, None => True
  | _, _ => False
  end.
Proof.
  intros K V t ns W. pose proof (map_values t W ns) as MV. cbn. unfold map_assign, map_append, pairs_assign, pairs_append in *. destruct (walk (pconvert t) ns) as [l|]; [|exact I]. cbn in *.
  split; [apply put_all_sort; [exact W | constructor]|]. intros k. apply MV; reflexivity.
Qed.
Print Assumptions C76_map_elements.
(* An element is converted on its own: a vector of more names is that of some names
   followed by that of the others. *)
Theorem C76_vector_elements : forall T (t : traits T) ns ms l, assign (vector_type t) None ns = Some l ->
  assign (vector_type t) None (ns ++ ms) = match assign (vector_type t) None ms with Some l' => Some (l ++ l') | None => None end.
Proof.
  intros T t ns ms l. cbn. unfold vector_assign, vector_append. destruct (walk (element t) ns) as [w|] eqn:E; [|discriminate]. intros [= <-].
  rewrite (walk_app _ _ _ _ _ (le_n _) E). destruct (walk (element t) ms); reflexivity.
Qed.
Print Assumptions C76_vector_elements.
Theorem C76_vector_one : forall T (t : traits T) n, 
  (pair n = NUL -> assign (vector_type t) None [n] = match convert t n None with Some x => Some [x] | None => None end) /\
  (forall r, pair n = "@"%char -> assign (vector_type t) None [n; r] = match convert t n (Some r) with Some x => Some [x] | None => None end).
Proof.
  intros T t [p d ty v c q]. split; [|intros r]; cbn [pair]; intros ->; cbn; unfold vector_assign, vector_append; cbn; unfold element; cbn; destruct (convert t _ _); reflexivity.
Qed.
Print Assumptions C76_vector_one.

(* Appending a value of the same type is appending its names, for vectors and sets. *)
Theorem C76_append_value : forall mkp mkd joinp joind cpath cdir cproj validp T (t : traits T) v x,
  Forall (element_ok mkp mkd joinp joind cpath cdir cproj validp T t) x ->
  apply (vector_type t) v (Append (vector_reverse t x true)) = Some (vector_append_value v x) /\
  apply (vector_type t) v (Prepend (vector_reverse t x true)) = Some (vector_prepend_value v x) /\
  (total_order (compare1 t) -> StronglySorted (below (compare1 t)) x -> apply (set_type t) v (Append (vector_reverse t x true)) = Some (set_append_value t v x)).
Proof.
  intros mkp mkd joinp joind cpath cdir cproj validp T t v x H. pose proof (walk_elements mkp mkd joinp joind cpath cdir cproj validp T t x H) as W.
  cbn. unfold vector_append, vector_prepend, set_append, vector_reverse. cbn. unfold vector_append. rewrite W. cbn.
  split; [destruct v as [[|y p]|]; reflexivity|]. split; [destruct v as [[|y p]|]; cbn; rewrite ?app_nil_r; reflexivity|].
  intros [O _] S. destruct v as [[|y p]|]; cbn; try reflexivity; rewrite (insert_sorted T t x O []); try exact S; reflexivity.
Qed.
Print Assumptions C76_append_value.

(* But not for maps: the value that is already there is kept by append and is
   overridden by prepend, the opposite of what is done with names. *)
Theorem C76_map_append_value_refuted : let t := pair_both string_traits string_traits in exists m x,
  apply (map_type t) (Some m) (Append (pairs_reverse t x true)) <> Some (map_append_value t (Some m) x) /\
  map_subscript t (Some (map_append_value t (Some m) x)) (b "k") = map_subscript t (Some m) (b "k") /\
  map_subscript t (Some (map_prepend_value t (Some m) x)) (b "k") = map_subscript t (Some x) (b "k") /\
  map_subscript t (Some m) (b "k") <> map_subscript t (Some x) (b "k").
Proof. exists [(b "k", b "old")], [(b "k", b "new")]. cbn. repeat split; discriminate. Qed.
Print Assumptions C76_map_append_value_refuted.
(* Of repeated keys in prepended names the first is kept although otherwise it is the
   last. *)
Theorem C76_map_prepend_refuted : let t := pair_both string_traits string_traits in exists ns m m',
  assign (map_type t) None ns = Some m /\ apply (map_type t) None (Prepend ns) = Some m' /\
  map_subscript t (Some m) (b "a") = Some (b "1") /\ map_subscript t (Some m') (b "a") = Some (b "0").
Proof. exists (ex_pairs ["a" @@ "0"; "a" @@ "1"]). eexists. eexists. split; [reflexivity|]. split; [reflexivity|]. split; reflexivity. Qed.
Print Assumptions C76_map_prepend_refuted.
(* Prepending to a vector of pairs appends. *)
Theorem C76_pairs_prepend_refuted : let t := pair_both string_traits string_traits in exists os v,
  after (pairs_type t) None os = Some v /\ assign (pairs_type t) None (names_after os) <> v.
Proof. exists [Assign (ex_pairs ["a" @@ "0"]); Prepend (ex_pairs ["b" @@ "1"])]. eexists. split; [reflexivity|]. cbn. discriminate. Qed.
Print Assumptions C76_pairs_prepend_refuted.

Example C76_ex_history : let os := [Assign [sn "b"; sn "a"]; Append [sn "c"; sn "a"]; Prepend [sn "d"]] in
  names_after os = [sn "d"; sn "b"; sn "a"; sn "c"; sn "a"] /\
  after (vector_type string_traits) None os = Some (Some [b "d"; b "b"; b "a"; b "c"; b "a"]) /\
  after (set_type string_traits) None os = Some (Some [b "a"; b "b"; b "c"; b "d"]) /\ total_order (compare1 string_traits).
Proof. repeat split; try apply wo_string; apply scompare_eq. Qed.
Example C76_ex_map : let t := pair_both string_traits string_traits in
  let os := [Assign (ex_pairs ["k" @@ "1"; "k" @@ "2"]); Append (ex_pairs ["j" @@ "3"]); Prepend (ex_pairs ["k" @@ "4"; "i" @@ "5"])] in
  after (map_type t) None os = Some (Some [(b "i", b "5"); (b "j", b "3"); (b "k", b "2")]) /\
  (forall ns l, In (Prepend ns) os -> assign (pairs_type t) None ns = Some l -> unique_keys (fcompare t) l).
Proof.
  split; [reflexivity|]. intros ns l [E|[E|[E|[]]]]; try discriminate. injection E as <-. cbn. intros [= <-] [|[|i]] [|[|j]] p q; cbn; intros P Q N; try congruence;
    try (destruct i; discriminate P); try (destruct j; discriminate Q); injection P as <-; injection Q as <-; discriminate.
Qed.
