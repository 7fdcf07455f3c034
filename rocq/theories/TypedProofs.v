(* Values survive conversion to names and back. *)
From Coq Require Import Sorted.
From Verif Require Import Base NameModel NameSpec NameProofs NamesModel IntModel IntProps TypedModel TypedSpec.

Lemma is_empty_true x : is_empty x = true <-> x = [].
Proof. destruct x; split; (reflexivity || discriminate). Qed.
Lemma paired_false n : paired n = false <-> pair n = NUL.
Proof. unfold paired. rewrite negb_false_iff. apply ceqb_eq. Qed.
Lemma paired_with n : paired (with_pair AT n) = true.
Proof. reflexivity. Qed.
Lemma paired_simple v : paired (simple_name v) = false.
Proof. reflexivity. Qed.

Section Ok.
Context (mkp mkd : bytes -> option bytes) (joinp joind : bytes -> bytes -> option bytes)
        (cpath cdir cproj : bytes -> bytes -> comparison) (validp : bytes -> bool) (split : bytes -> bytes * bytes).
Local Notation simple_ok := (simple_ok mkp mkd joinp joind cpath cdir cproj validp).
Local Notation element_ok := (element_ok mkp mkd joinp joind cpath cdir cproj validp).
Local Notation pair_ok := (pair_ok mkp mkd joinp joind cpath cdir cproj validp).
Local Notation value_ok := (value_ok mkp mkd joinp joind cpath cdir cproj validp split).
Local Notation executable := (executable mkp joinp split).

(* The conversion does not look at the pair. *)
Lemma simple_survives T t x c : simple_ok T t x -> convert t (with_pair c (reverse1 t x)) None = Some x.
Proof.
  destruct 1 as [x|x H|x H|x|x H|x H|x H]; cbn.
  - destruct x; reflexivity.
  - apply C37_int64_survives. exact H.
  - apply C37_uint64_survives. exact H.
  - reflexivity.
  - destruct (to_directory x) eqn:D; cbn.
    + destruct x; [discriminate|]. reflexivity.
    + destruct H as [H|H]; [|congruence]. rewrite H. reflexivity.
  - destruct x; cbn; [rewrite H|]; reflexivity.
  - destruct H as [->|[V D]]; [reflexivity|]. rewrite D. destruct x as [|a x]; [reflexivity|]. cbn. rewrite V. reflexivity.
Qed.
Lemma with_null n : pair n = NUL -> with_pair NUL n = n.
Proof. destruct n as [p d t v c q]. cbn. intros ->. reflexivity. Qed.
Lemma simple_unpaired T t x : simple_ok T t x -> pair (reverse1 t x) = NUL.
Proof. destruct 1; cbn; try reflexivity. destruct (to_directory x); reflexivity. Qed.
Lemma simple_survives0 T t x : simple_ok T t x -> convert t (reverse1 t x) None = Some x.
Proof. intros H. rewrite <- (with_null (reverse1 t x)) by (eapply simple_unpaired; eassumption). apply simple_survives. exact H. Qed.
Lemma simple_empty T t x : simple_ok T t x -> empty1 t x = true -> default t = Some x /\ convert t (simple_name []) None = Some x.
Proof.
  intros H. pose proof (simple_survives0 T t x H) as S.
  destruct H as [x|x H|x H|x|x H|x H|x H]; cbn; intros E; try discriminate E; apply is_empty_true in E; subst x; (split; [reflexivity|]); exact S.
Qed.
Lemma element_survives T t x : element_ok T t x -> convert t (reverse1 t x) None = Some x.
Proof. destruct 1 as [T t x H|n P Q]; [apply simple_survives0; exact H|]. cbn. unfold no_pattern. rewrite Q. reflexivity. Qed.
Lemma element_unpaired T t x : element_ok T t x -> paired (reverse1 t x) = false.
Proof. destruct 1 as [T t x H|n P Q]; apply paired_false; [eapply simple_unpaired; eassumption | exact P]. Qed.

Lemma walk_elements T t l : Forall (element_ok T t) l -> walk (element t) (map (reverse1 t) l) = Some l.
Proof.
  induction 1 as [|x l H F IH]; [reflexivity|]. cbn [map walk]. rewrite (element_unpaired _ _ _ H), IH. unfold element.
  rewrite (element_unpaired _ _ _ H). cbn [andb]. rewrite (element_survives _ _ _ H). reflexivity.
Qed.
Lemma walk_pairs K V t l : Forall (pair_ok K V t) l -> walk (pconvert t) (flat_map (fun p => preverse t (fst p) (snd p)) l) = Some l.
Proof.
  induction 1 as [|x l H F IH]; [reflexivity|]. cbn [flat_map]. destruct H as [F0 S tf ts f s Hf Hs|F0 S tf ts f s Hf Hs|F0 S tf ts f s Hf Hs]; cbn [fst snd preverse pair_both pair_second pair_first] in *.
  - cbn [app walk]. rewrite paired_with, IH. cbn [pconvert pair_both]. rewrite paired_with. cbn [negb pair with_pair].
    rewrite (simple_survives _ _ _ _ Hf), (simple_survives0 _ _ _ Hs). reflexivity.
  - destruct s as [s|].
    + cbn [app walk]. rewrite paired_with, IH. cbn [pconvert pair_second]. rewrite paired_with. cbn [negb andb pair with_pair].
      rewrite (simple_survives _ _ _ _ Hf), (simple_survives0 _ _ _ Hs). reflexivity.
    + cbn [app walk]. assert (P : paired (reverse1 tf f) = false) by (apply paired_false; eapply simple_unpaired; eassumption).
      rewrite P, IH. cbn [pconvert pair_second]. rewrite P. cbn [andb]. rewrite (simple_survives0 _ _ _ Hf). reflexivity.
  - destruct f as [f|].
    + cbn [app walk]. rewrite paired_with, IH. cbn [pconvert pair_first]. rewrite paired_with. cbn [negb andb pair with_pair].
      rewrite (simple_survives _ _ _ _ Hf), (simple_survives0 _ _ _ Hs). reflexivity.
    + cbn [app walk]. assert (P : paired (reverse1 ts s) = false) by (apply paired_false; eapply simple_unpaired; eassumption).
      rewrite P, IH. cbn [pconvert pair_first]. rewrite P. cbn [andb]. rewrite (simple_survives0 _ _ _ Hs). reflexivity.
Qed.

Lemma sorted_snoc {A} (R : A -> A -> Prop) l x l' : StronglySorted R (l ++ x :: l') -> Forall (fun y => R y x) l.
Proof.
  induction l as [|y l IH]; cbn; intros H; [constructor|]. inversion H as [|? ? S F]; subst. constructor; [|apply IH; exact S].
  rewrite Forall_forall in F. apply F, in_or_app. right. left. reflexivity.
Qed.
Lemma insert_last T (t : traits T) s x : weak_order (compare1 t) -> Forall (fun y => below (compare1 t) y x) s -> insert t x s = s ++ [x].
Proof.
  intros W. induction 1 as [|y s H F IH]; [reflexivity|]. cbn. destruct W as [W _]. rewrite W. unfold below in H. rewrite H. cbn. rewrite IH. reflexivity.
Qed.
Lemma insert_sorted T (t : traits T) l : weak_order (compare1 t) -> forall s, StronglySorted (below (compare1 t)) (s ++ l) -> insert_all t s l = s ++ l.
Proof.
  intros W. unfold insert_all. induction l as [|x l IH]; intros s S; cbn [fold_left]; [rewrite app_nil_r; reflexivity|].
  rewrite (insert_last T t s x W) by (eapply sorted_snoc; exact S). rewrite IH; rewrite <- app_assoc; [reflexivity | exact S].
Qed.
Lemma put_last K V (t : ptraits K V) m k v : weak_order (fcompare t) -> Forall (fun y => below (fcompare t) y k) (map fst m) -> put t k v m = m ++ [(k, v)].
Proof.
  intros W. induction m as [|[k' v'] m IH]; cbn; intros F; [reflexivity|]. inversion F as [|? ? H F']; subst. destruct W as [W W']. rewrite W. unfold below in H.
  rewrite H. cbn. rewrite IH by exact F'. reflexivity.
Qed.
Lemma put_sorted K V (t : ptraits K V) l : weak_order (fcompare t) -> forall m, StronglySorted (below (fcompare t)) (map fst (m ++ l)) -> put_all t m l = m ++ l.
Proof.
  intros W. unfold put_all. induction l as [|[k v] l IH]; intros m S; cbn [fold_left fst snd]; [rewrite app_nil_r; reflexivity|].
  rewrite map_app in S. cbn [map fst] in S. rewrite (put_last K V t m k v W) by (eapply sorted_snoc; exact S).
  rewrite IH; rewrite <- app_assoc; [reflexivity|]. rewrite map_app. exact S.
Qed.

Lemma or_none_cleared {A B} (v : option A) : or_none (match v with Some _ => Some (@nil B) | None => None end) = [].
Proof. destruct v; reflexivity. Qed.

Lemma executable_half p : executable p -> pp_half mkp joinp (pp_name_of split p) = Some p.
Proof.
  intros [N E]. unfold pp_half, pp_name_of, no_pattern, untyped, unqualified, name_empty. cbn.
  destruct (is_empty (fst (split p))) eqn:D; cbn.
  - apply is_empty_true in D. destruct (is_empty (snd (split p))) eqn:V; cbn; [|exact E]. apply is_empty_true in V. destruct N; contradiction.
  - exact E.
Qed.
Lemma half_with c n : pp_half mkp joinp (with_pair c n) = pp_half mkp joinp n.
Proof. destruct n. reflexivity. Qed.
Lemma pp_keys_all x n c v : pp_keys (pp_key "name" n ++ pp_key "checksum" c ++ pp_key "env-checksum" v) x =
  Some (mkpp (recall x) (effect x) (match n with Some _ => n | None => pp_name x end) (match c with Some _ => c | None => checksum x end) (match v with Some _ => v | None => env_checksum x end)).
Proof. destruct n, c, v; cbn; destruct x; reflexivity. Qed.

Theorem survives : forall t x old reduce, value_ok t x -> assign t old (reverse t x reduce) = Some x.
Proof.
  intros t x old reduce H. destruct H as [T t x H|n P Q E|T t l H|T t l W H S|K V t l H|K V t l W H S|f s Pf Qf Ps Qs E E'|r e H|r e n c v H]; cbn.
  - unfold simple_assign, simple_reverse, simple_convert. destruct (empty1 t x) eqn:E; cbn.
    + destruct (simple_empty _ _ _ H E) as [D C]. destruct reduce; cbn; [exact D | exact C].
    + apply simple_survives0. exact H.
  - unfold simple_assign, name_reverse. destruct (reduce && name_empty n) eqn:R; cbn.
    + apply andb_prop in R as [_ R]. rewrite (E R). reflexivity.
    + unfold no_pattern. rewrite Q. reflexivity.
  - unfold vector_assign, vector_append, vector_reverse. rewrite walk_elements by exact H. rewrite or_none_cleared. reflexivity.
  - unfold set_assign, set_append, vector_reverse. rewrite walk_elements by exact H. rewrite or_none_cleared. f_equal. apply (insert_sorted T t l W []). exact S.
  - unfold pairs_assign, pairs_append, pairs_reverse. rewrite walk_pairs by exact H. rewrite or_none_cleared. reflexivity.
  - unfold map_assign, map_append, pairs_reverse. rewrite walk_pairs by exact H. rewrite or_none_cleared. f_equal. apply (put_sorted K V t l W []). exact S.
  - unfold name_pair_reverse. destruct (name_empty f) eqn:Ef.
    + destruct (E eq_refl) as [-> ->]. destruct reduce; reflexivity.
    + rewrite andb_false_r. cbn [andb]. destruct (name_empty s) eqn:Es.
      * rewrite (E' eq_refl) in *. cbn. unfold name_pair_convert, no_pattern. rewrite Qf. cbn. rewrite with_null by exact Pf. reflexivity.
      * cbn. unfold name_pair_convert, no_pattern. cbn [pattern with_pair]. rewrite Qf, Qs. cbn. f_equal. f_equal. destruct f. cbn in Pf |- *. rewrite Pf. reflexivity.
  - unfold pp_reverse. cbn [recall]. destruct H as [[-> ->]|(N & X & Y)]; [reflexivity|].
    destruct r as [|a r]; [contradiction|]. cbn [is_empty]. unfold pp_reverse_impl. cbn [effect recall].
    destruct e as [|a' e]; cbn [is_empty pp_assign]; unfold pp_convert.
    + rewrite (executable_half _ X). reflexivity.
    + rewrite half_with, (executable_half _ X). destruct Y as [Y|Y]; [discriminate|]. rewrite (executable_half _ Y). reflexivity.
  - unfold ppx_reverse. cbn [recall]. destruct H as [(-> & -> & -> & -> & ->)|(N & X & Y)]; [reflexivity|].
    destruct r as [|a r]; [contradiction|]. cbn [is_empty]. unfold pp_reverse_impl. cbn [effect recall pp_name checksum env_checksum].
    destruct e as [|a' e]; cbn [is_empty app ppx_assign]; unfold pp_convert.
    + change (paired (pp_name_of split (a :: r))) with false. cbv iota. rewrite (executable_half _ X), pp_keys_all. destruct n, c, v; reflexivity.
    + rewrite paired_with, half_with, (executable_half _ X). destruct Y as [Y|Y]; [discriminate|]. rewrite (executable_half _ Y), pp_keys_all. destruct n, c, v; reflexivity.
Qed.
End Ok.
