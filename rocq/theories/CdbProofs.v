(* Proofs about compilation databases: reading what is written. *)
From Verif Require Import Base CdbModel CdbSpec.

Section P.
Context (out_of : bytes -> option bytes).
Notation line_ok := (line_ok out_of).
Notation read := (read out_of).
Notation read_lines := (read_lines out_of).
Notation read_entry := (read_entry out_of).

Lemma lines_from_app x y cur : ~ In NL x -> lines_from cur (x ++ NL :: y) = (cur ++ x) :: lines y.
Proof.
  revert cur. induction x as [|c x IH]; intros cur H; cbn.
  - now rewrite app_nil_r.
  - destruct (ceqb c NL) eqn:E; [apply ceqb_eq in E; subst; destruct H; now left|].
    fold (@app ascii). cbn in IH. rewrite IH by (intros I; apply H; now right). now rewrite <- app_assoc.
Qed.
Lemma lines_app x y : ~ In NL x -> lines (x ++ NL :: y) = x :: lines y.
Proof. apply lines_from_app. Qed.
Lemma lines_from_end x cur : ~ In NL x -> lines_from cur x = match cur ++ x with [] => [] | _ => [cur ++ x] end.
Proof.
  revert cur. induction x as [|c x IH]; intros cur H; cbn.
  - rewrite app_nil_r. reflexivity.
  - destruct (ceqb c NL) eqn:E; [apply ceqb_eq in E; subst; destruct H; now left|].
    rewrite IH by (intros I; apply H; now right). now rewrite <- app_assoc.
Qed.
Lemma lines_end x : ~ In NL x -> lines x = match x with [] => [] | _ => [x] end.
Proof. apply lines_from_end. Qed.

Lemma find_none {A} k (d : list (bytes * A)) : find k d = None <-> ~ In k (map fst d).
Proof.
  induction d as [|[k' e] d IH]; cbn; [split; auto|]. destruct (beqb k' k) eqn:E.
  - apply beqb_eq in E. subst. split; [discriminate|]. intros H. destruct H. now left.
  - rewrite IH. split; [|auto]. intros H [->|I]; [now rewrite beqb_refl in E | auto].
Qed.
Lemma find_in {A} k (d : list (bytes * A)) e : find k d = Some e -> In (k, e) d.
Proof.
  induction d as [|[k' e'] d IH]; cbn; [discriminate|]. destruct (beqb k' k) eqn:E; [|auto].
  apply beqb_eq in E. subst. intros E. injection E as ->. now left.
Qed.
Lemma in_find {A} k (d : list (bytes * A)) e : NoDup (map fst d) -> In (k, e) d -> find k d = Some e.
Proof.
  induction d as [|[k' e'] d IH]; cbn; [contradiction|]. intros N [E|I].
  - injection E as -> ->. now rewrite beqb_refl.
  - inversion N as [|? ? N1 N2]; subst. destruct (beqb k' k) eqn:E; [|auto]. apply beqb_eq in E. subst.
    destruct N1. apply in_map_iff. now exists (k, e).
Qed.

Lemma no_comma k j : line_ok k j -> ends_with_comma j = false.
Proof. intros (_ & _ & _ & j' & ->). unfold ends_with_comma. rewrite rev_app_distr. reflexivity. Qed.
Lemma comma j : ends_with_comma (j ++ ","%char :: []) = true /\ removelast (j ++ ","%char :: []) = j.
Proof. unfold ends_with_comma. rewrite rev_app_distr, removelast_last. split; reflexivity. Qed.

Definition bracket_no_nl : ~ In NL (b "]"). Proof. intros [E|[]]. discriminate. Qed.

Lemma read_entry_last k j acc : line_ok k j -> ~ In k (map fst acc) -> read_entry j acc = Some (RLast, acc ++ [(k, j)]).
Proof. intros H N. unfold CdbModel.read_entry. rewrite (no_comma _ _ H). destruct H as (-> & _). apply find_none in N. now rewrite N. Qed.
Lemma read_entry_next k j acc : line_ok k j -> ~ In k (map fst acc) -> read_entry (j ++ [","%char]) acc = Some (RNext, acc ++ [(k, j)]).
Proof.
  intros H N. unfold CdbModel.read_entry. destruct (comma j) as [-> ->]. destruct H as (-> & _). apply find_none in N. now rewrite N.
Qed.

Lemma not_bracket k j r : line_ok k j -> beqb (j ++ r) (b "]") = false.
Proof.
  intros (_ & _ & (j' & ->) & _). destruct (beqb _ _) eqn:E; [|reflexivity]. apply beqb_eq in E. discriminate.
Qed.
Lemma read_at s j ls acc : s = RSecond \/ s = RNext -> beqb j (b "]") = false ->
  read_lines s (j :: ls) acc = match read_entry j acc with Some (s, acc) => read_lines s ls acc | None => None end.
Proof. intros [-> | ->] E; cbn; [|reflexivity]. change (beqb j ["]"%char]) with (beqb j (b "]")). now rewrite E. Qed.

Lemma no_nl_comma k j : line_ok k j -> ~ In NL (j ++ [","%char]).
Proof. intros (_ & H & _) I. apply in_app_or in I as [I|[I|[]]]; [auto | discriminate]. Qed.

Lemma read_rest l k j s acc : s = RSecond \/ s = RNext -> line_ok k j -> (forall k j, In (k, j) l -> line_ok k j) ->
  NoDup (map fst (acc ++ (k, j) :: l)) ->
  read_lines s (lines (j ++ write_entries false (map snd l))) acc = Some (acc ++ (k, j) :: l).
Proof.
  revert k j s acc. induction l as [|[k2 j2] l IH]; intros k j s acc S J L N.
  - cbn [map write_entries app]. assert (NJ : ~ In NL j) by apply J.
    rewrite lines_app by exact NJ. rewrite (read_at s) by (auto; rewrite <- (app_nil_r j); eapply not_bracket; eauto).
    rewrite (read_entry_last k) by (auto; rewrite map_app in N; cbn in N; apply NoDup_remove_2 in N; rewrite app_nil_r in N; exact N).
    reflexivity.
  - assert (Q : j ++ write_entries false (map snd ((k2, j2) :: l))
      = (j ++ [","%char]) ++ NL :: (j2 ++ write_entries false (map snd l))) by (rewrite <- app_assoc; reflexivity).
    rewrite Q. clear Q.
    rewrite lines_app by (eapply no_nl_comma; eauto).
    assert (NK : ~ In k (map fst acc)).
    { rewrite map_app in N. cbn in N. apply NoDup_remove_2 in N. intros I. apply N. apply in_or_app. now left. }
    rewrite (read_at s) by (auto; eapply not_bracket; eauto). rewrite (read_entry_next k) by auto.
    rewrite (IH k2 j2).
    + now rewrite <- app_assoc.
    + now right.
    + apply L. now left.
    + intros. apply L. now right.
    + now rewrite <- app_assoc.
Qed.

Lemma read_write l : NoDup (map fst l) -> (forall k j, In (k, j) l -> line_ok k j) -> read (write (map snd l)) = Some l.
Proof.
  intros N L. unfold CdbModel.read, write. change (b "[" ++ [NL] ++ ?x) with ([Ascii.ascii_of_nat 91] ++ NL :: x).
  rewrite lines_app by (intros [E|[]]; discriminate). destruct l as [|[k j] l].
  - reflexivity.
  - cbn [map write_entries app snd]. cbn [CdbModel.read_lines]. change (beqb _ (b "[")) with true. cbn iota.
    apply (read_rest l k j RSecond []); auto; [apply L; now left | intros; apply L; now right].
Qed.

(* A cut line is never the end. *)
Lemma read_cut k j p q s acc : s = RSecond \/ s = RNext -> line_ok k j -> p ++ q = j -> read_lines s (lines p) acc = None.
Proof.
  intros S J E. assert (N : ~ In NL p) by (intros I; apply (proj1 (proj2 J)); rewrite <- E; apply in_or_app; now left).
  rewrite lines_end by exact N. destruct p as [|c p]; [destruct S; subst; reflexivity|].
  rewrite (read_at s); [|exact S|].
  - unfold CdbModel.read_entry. destruct (ends_with_comma (c :: p)); cbn iota;
      (destruct (out_of _); [|reflexivity]); (destruct (find _ acc); reflexivity).
  - destruct J as (_ & _ & (j' & J) & _). rewrite J in E. injection E as -> E. destruct (beqb _ _) eqn:B; [|reflexivity].
    apply beqb_eq in B. discriminate.
Qed.

Lemma split_prefix {A} (p q x y : list A) : p ++ q = x ++ y -> (exists r, p ++ r = x) \/ exists r, r <> [] /\ p = x ++ r /\ r ++ q = y.
Proof.
  revert x. induction p as [|a p IH]; intros x E.
  - left. now exists x.
  - destruct x as [|c x]; cbn in E.
    + right. exists (a :: p). split; [discriminate|]. split; [reflexivity | exact E].
    + injection E as -> E. destruct (IH _ E) as [[r <-] | (r & N & -> & <-)]; [left; now exists r | right; now exists r].
Qed.

Lemma read_cut_rest l k j s acc p q : s = RSecond \/ s = RNext -> line_ok k j -> (forall k j, In (k, j) l -> line_ok k j) ->
  NoDup (map fst (acc ++ (k, j) :: l)) -> p ++ q = j ++ write_entries false (map snd l) ->
  read_lines s (lines p) acc = None \/ read_lines s (lines p) acc = Some (acc ++ (k, j) :: l).
Proof.
  revert k j s acc p. induction l as [|[k2 j2] l IH]; intros k j s acc p S J L N E;
    (apply split_prefix in E as [[r E] | (r & NR & -> & E)]; [left; eapply read_cut; eauto|]); cbn in E.
  - assert (NJ : ~ In NL j) by apply J.
    assert (NK : ~ In k (map fst acc)) by (rewrite map_app in N; cbn in N; apply NoDup_remove_2 in N; rewrite app_nil_r in N; exact N).
    destruct r as [|c r]; [congruence|]. injection E as -> E. rewrite lines_app by exact NJ.
    rewrite (read_at s) by (auto; rewrite <- (app_nil_r j); eapply not_bracket; eauto).
    rewrite (read_entry_last k) by auto.
    destruct r as [|c r]; [left; reflexivity|]. injection E as -> E. right.
    destruct r as [|c r]; [reflexivity|]. injection E as -> E. apply app_eq_nil in E as [-> _]. reflexivity.
  - assert (NK : ~ In k (map fst acc)).
    { rewrite map_app in N. cbn in N. apply NoDup_remove_2 in N. intros I. apply N. apply in_or_app. now left. }
    destruct r as [|c r]; [congruence|]. injection E as -> E. destruct r as [|c r].
    + left. rewrite lines_end by (eapply no_nl_comma; eauto).
      destruct (j ++ [","%char]) as [|c x] eqn:Q; [destruct j; discriminate|]. rewrite <- Q.
      rewrite (read_at s) by (auto; eapply not_bracket; eauto). now rewrite (read_entry_next k) by auto.
    + injection E as -> E. change (j ++ ","%char :: NL :: r) with (j ++ [","%char] ++ NL :: r). rewrite app_assoc.
      rewrite lines_app by (eapply no_nl_comma; eauto).
      rewrite (read_at s) by (auto; eapply not_bracket; eauto). rewrite (read_entry_next k) by auto.
      destruct (IH k2 j2 RNext (acc ++ [(k, j)]) r) as [H|H].
      * now right.
      * apply L. now left.
      * intros. apply L. now right.
      * now rewrite <- app_assoc.
      * exact E.
      * now left.
      * right. rewrite H. now rewrite <- app_assoc.
Qed.

Lemma read_prefix l p q : NoDup (map fst l) -> (forall k j, In (k, j) l -> line_ok k j) -> p ++ q = write (map snd l) ->
  read p = None \/ read p = Some l.
Proof.
  intros N L E. unfold write in E. change (b "[" ++ [NL] ++ ?x) with ([Ascii.ascii_of_nat 91] ++ NL :: x) in E.
  apply split_prefix in E as [[r E] | (r & NR & -> & E)].
  - left. destruct p as [|c p]; [reflexivity|]. injection E as -> E. apply app_eq_nil in E as [-> _]. reflexivity.
  - destruct r as [|c r]; [congruence|]. injection E as -> E. unfold CdbModel.read.
    rewrite lines_app by (intros [E'|[]]; discriminate). cbn [CdbModel.read_lines]. change (beqb _ (b "[")) with true. cbn iota.
    destruct l as [|[k j] l].
    + cbn in E. destruct r as [|c r]; [left; reflexivity|]. injection E as -> E. right.
      destruct r as [|c r]; [reflexivity|]. injection E as -> E. apply app_eq_nil in E as [-> _]. reflexivity.
    + cbn [map write_entries app snd] in E. apply (read_cut_rest l k j RSecond [] r q); auto; [apply L; now left | intros; apply L; now right].
Qed.

Lemma NoDup_app_one {A} (l : list A) x : NoDup l -> ~ In x l -> NoDup (l ++ [x]).
Proof.
  induction l as [|y l IH]; intros D N; cbn; [constructor; [intros [] | constructor]|]. inversion D; subst. constructor.
  - intros I. apply in_app_or in I as [I|[-> | []]]; [contradiction | apply N; now left].
  - apply IH; [assumption | intros I; apply N; now right].
Qed.
(* What is read. *)
Definition unlines (ls : list bytes) : bytes := concat (map (fun x => x ++ [NL]) ls).
Lemma unlines_from f cur : unlines (lines_from cur f) = cur ++ f \/ unlines (lines_from cur f) = cur ++ f ++ [NL].
Proof.
  revert cur. induction f as [|c f IH]; intros cur; cbn [lines_from].
  - destruct cur as [|x cur]; [left; reflexivity|]. right. unfold unlines. cbn [map concat]. now rewrite app_nil_r.
  - destruct (ceqb c NL) eqn:E.
    + apply ceqb_eq in E. subst c. unfold unlines in *. cbn [map concat]. destruct (IH []) as [-> | ->]; [left|right]; now rewrite <- app_assoc.
    + destruct (IH (cur ++ [c])) as [-> | ->]; [left|right]; now rewrite <- app_assoc.
Qed.
Lemma comma_end l : ends_with_comma l = true -> l = removelast l ++ b ",".
Proof.
  unfold ends_with_comma. intros H. destruct (rev l) as [|c r] eqn:E; [discriminate|]. apply ceqb_eq in H. subst c.
  assert (L : l = rev r ++ b ",") by (rewrite <- (rev_involutive l), E; reflexivity). rewrite L at 2. change (b ",") with [","%char] at 1.
  now rewrite removelast_last.
Qed.
Lemma read_entry_inv l acc s acc' : read_entry l acc = Some (s, acc') -> exists k j, acc' = acc ++ [(k, j)] /\ out_of j = Some k /\
  ~ In k (map fst acc) /\ (s = RNext /\ l = j ++ b "," \/ s = RLast /\ l = j).
Proof.
  unfold CdbModel.read_entry. destruct (ends_with_comma l) eqn:C.
  - destruct (out_of (removelast l)) as [k|] eqn:O; [|discriminate]. destruct (find k acc) eqn:F; [discriminate|]. intros E. injection E as <- <-.
    exists k, (removelast l). apply find_none in F. repeat split; auto. left. split; [reflexivity | now apply comma_end].
  - destruct (out_of l) as [k|] eqn:O; [|discriminate]. destruct (find k acc) eqn:F; [discriminate|]. intros E. injection E as <- <-.
    exists k, l. apply find_none in F. repeat split; auto.
Qed.
Definition rest (s : rstate) (l' : list (bytes * bytes)) : option bytes :=
  match s, l' with
  | RSecond, _ => Some (write_entries true (map snd l'))
  | RNext, (_, j) :: r => Some (j ++ write_entries false (map snd r))
  | RLast, [] => Some (b "]" ++ [NL])
  | REnd, [] => Some []
  | _, _ => None
  end.
Lemma read_lines_inv ls s acc l : s <> RFirst -> read_lines s ls acc = Some l -> exists l', l = acc ++ l' /\ rest s l' = Some (unlines ls) /\
  (forall k j, In (k, j) l' -> out_of j = Some k) /\ (NoDup (map fst acc) -> NoDup (map fst l)).
Proof.
  revert s acc. induction ls as [|x ls IH]; intros s acc S R; cbn [CdbModel.read_lines] in R.
  - destruct s; try discriminate. injection R as <-. exists []. rewrite app_nil_r. repeat split; auto. intros k j [].
  - assert (A : forall acc s, (s = RSecond \/ s = RNext) -> match read_entry x acc with Some (s, acc) => read_lines s ls acc | None => None end = Some l ->
      exists l', l = acc ++ l' /\ rest s l' = Some (unlines (x :: ls)) /\
      (forall k j, In (k, j) l' -> out_of j = Some k) /\ (NoDup (map fst acc) -> NoDup (map fst l))).
    { clear R acc s S. intros acc s S R. destruct (read_entry x acc) as [[s' acc']|] eqn:E; [|discriminate]. apply read_entry_inv in E as (k & j & -> & O & N & C).
      destruct (IH s' (acc ++ [(k, j)])) as (l' & -> & U & V & W); [destruct C as [[-> _]|[-> _]]; discriminate | exact R |].
      exists ((k, j) :: l'). split; [now rewrite <- app_assoc|]. split.
      - unfold unlines in *. cbn [map concat].
        destruct C as [[-> ->]|[-> ->]].
        + destruct l' as [|[k' j'] r]; [discriminate|]. cbn [rest] in U. injection U as <-.
          destruct S as [-> | ->]; cbn [rest map snd write_entries]; f_equal; rewrite <- !app_assoc; reflexivity.
        + destruct l' as [|[k' j'] r]; [|discriminate]. cbn [rest] in U. injection U as <-.
          destruct S as [-> | ->]; cbn [rest map snd write_entries]; f_equal; rewrite <- !app_assoc; reflexivity.
      - split.
        + intros k' j' [E|I]; [now injection E as <- <- | now apply V].
        + intros D. apply W. rewrite map_app. cbn [map fst]. apply NoDup_app_one; auto. }
    destruct s; [congruence| | | |discriminate].
    + destruct (beqb x (b "]")) eqn:E; [|now apply A; auto]. apply beqb_eq in E. subst x.
      destruct (IH REnd acc) as (l' & -> & U & V & W); [discriminate | exact R |]. destruct l'; [|discriminate]. cbn [rest] in U. injection U as U.
      exists []. repeat split; auto. cbn [rest map write_entries]. unfold unlines in *. cbn [map concat]. now rewrite <- U.
    + now apply A; auto.
    + destruct (beqb x (b "]")) eqn:E; [|discriminate]. apply beqb_eq in E. subst x.
      destruct (IH REnd acc) as (l' & -> & U & V & W); [discriminate | exact R |]. destruct l'; [|discriminate]. cbn [rest] in U. injection U as U.
      exists []. repeat split; auto. cbn [rest]. unfold unlines in *. cbn [map concat]. now rewrite <- U.
Qed.
Lemma read_only f l : read f = Some l -> (f = write (map snd l) \/ f ++ [NL] = write (map snd l)) /\ NoDup (map fst l) /\ forall k j, In (k, j) l -> out_of j = Some k.
Proof.
  unfold CdbModel.read, lines. intros R. pose proof (unlines_from f []) as U. destruct (lines_from [] f) as [|x ls]; [discriminate|].
  cbn [CdbModel.read_lines] in R. destruct (beqb x (b "[")) eqn:E; [|discriminate]. apply beqb_eq in E. subst x.
  apply read_lines_inv in R as (l' & -> & V & O & D); [|discriminate]. cbn [rest app] in *. injection V as V.
  split; [|split; [apply D; constructor | exact O]].
  unfold write. rewrite V. unfold unlines in *. cbn [map concat] in U. destruct U as [U|U]; [left|right]; rewrite <- U, <- ?app_assoc; reflexivity.
Qed.
End P.
