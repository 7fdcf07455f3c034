From Coq Require Import Permutation NArith ZArith.
From Verif Require Import Base ExecModel ExecSpec.

(* --- merge --- *)

Lemma tval_inj x y : tval x = tval y -> x = y.
Proof. destruct x, y; simpl; congruence. Qed.

Lemma tstate_eqb_eq x y : tstate_eqb x y = true <-> x = y.
Proof. unfold tstate_eqb. rewrite Nat.eqb_eq. split; [apply tval_inj|congruence]. Qed.

Lemma merge_val x y : tval (merge x y) = Nat.max (tval x) (tval y).
Proof. unfold merge. destruct (tval x <? tval y) eqn:E; [apply Nat.ltb_lt in E|apply Nat.ltb_ge in E]; lia. Qed.

Lemma merge_comm x y : merge x y = merge y x.
Proof. apply tval_inj. rewrite !merge_val. lia. Qed.

Lemma merge_assoc x y z : merge x (merge y z) = merge (merge x y) z.
Proof. apply tval_inj. rewrite !merge_val. lia. Qed.

Lemma merge_swap r x y : merge (merge r x) y = merge (merge r y) x.
Proof. apply tval_inj. rewrite !merge_val. lia. Qed.

Lemma merge_cases x y : merge x y = x \/ merge x y = y.
Proof. unfold merge. destruct (tval x <? tval y); auto. Qed.

Lemma fold_merge_worst l : forall r, worst (fold_left merge l r) (r :: l).
Proof.
  induction l as [|x l IH]; intros r.
  - split; [left; reflexivity|]. intros x [->|[]]. reflexivity.
  - simpl fold_left. destruct (IH (merge r x)) as [Hin Hle].
    assert (forall s, severity s = tval s) as Hs by (destruct s; reflexivity).
    split.
    + destruct Hin as [E|Hin]; [|right; right; exact Hin].
      rewrite <- E. destruct (merge_cases r x) as [E2|E2]; rewrite E2; [left; reflexivity|right; left; reflexivity].
    + intros y Hy. pose proof (Hle (merge r x) (or_introl eq_refl)) as Hm. rewrite !Hs, merge_val in Hm.
      destruct Hy as [->|[->|Hy]]; [rewrite !Hs; lia|rewrite !Hs; lia|].
      apply Hle. right; exact Hy.
Qed.

Lemma worst_unique r r' l : worst r l -> worst r' l -> r = r'.
Proof.
  intros [H1 H2] [H3 H4]. specialize (H2 _ H3). specialize (H4 _ H1).
  apply tval_inj. destruct r, r'; simpl in *; lia.
Qed.

Lemma worst_perm r l l' : Permutation l l' -> worst r l -> worst r l'.
Proof.
  intros Hp [H1 H2]. split; [eapply Permutation_in; eauto|].
  intros x Hx. apply H2. eapply Permutation_in; [apply Permutation_sym|]; eauto.
Qed.

(* --- get / set --- *)

Lemma get_set ts i x j : get (set ts i x) j = if (i =? j) && (i <? length ts) then x else get ts j.
Proof.
  unfold get. revert i j; induction ts as [|y ts IH]; intros i j; simpl.
  - rewrite andb_false_r. destruct j; reflexivity.
  - destruct i as [|i], j as [|j]; simpl; try reflexivity. rewrite IH. reflexivity.
Qed.

Lemma get_set_None ts i j : get (set ts i None) j = if i =? j then None else get ts j.
Proof.
  rewrite get_set. destruct (i =? j) eqn:E; [|reflexivity]. simpl. apply Nat.eqb_eq in E. subst.
  destruct (j <? length ts) eqn:E; [reflexivity|]. apply Nat.ltb_ge in E. unfold get. apply nth_overflow. exact E.
Qed.

Lemma set_length ts i x : length (set ts i x) = length ts.
Proof. revert i; induction ts as [|y ts IH]; intros [|i]; simpl; auto. Qed.

Lemma get_ext ts ts' : length ts = length ts' -> (forall i, get ts i = get ts' i) -> ts = ts'.
Proof. intros Hl Hg. apply nth_ext with (d := None) (d' := None); [exact Hl|]. intros n _. apply Hg. Qed.

(* --- a generic loop body --- *)

Section Body.
  Context {St : Type}.
  Variable g : member -> option tstate.
  Variable h : St -> nat -> member -> tstate -> St.
  Variable bl : member -> tstate -> bool.

  Definition body (r : St) (ts : list slot) (i : nat) : option (St * list slot) :=
    match get ts i with
    | None => Some (r, ts)
    | Some m => match g m with
                | None => None
                | Some s => Some (h r i m s, if bl m s then set ts i None else ts)
                end
    end.

  Definition bad (ts : list slot) (i : nat) : bool :=
    match get ts i with Some m => match g m with None => true | _ => false end | None => false end.

  Definition acc (ts : list slot) (r : St) (i : nat) : St :=
    match get ts i with
    | Some m => match g m with Some s => h r i m s | None => r end
    | None => r
    end.

  Definition bls (s : slot) : slot :=
    match s with
    | Some m => match g m with Some s => if bl m s then None else Some m | None => Some m end
    | None => None
    end.

  Lemma loop_body is : forall r ts, NoDup is ->
    if existsb (bad ts) is then loop body r ts is = None
    else exists ts', loop body r ts is = Some (fold_left (acc ts) is r, ts') /\ length ts' = length ts /\
           forall i, get ts' i = if in_dec Nat.eq_dec i is then bls (get ts i) else get ts i.
  Proof.
    induction is as [|i is IH]; intros r ts Hnd.
    - simpl. exists ts. auto.
    - inversion Hnd as [|? ? Hni Hnd']; subst. simpl existsb. unfold bad at 1. simpl loop.
      assert (body r ts i = match get ts i with None => Some (r, ts) | Some m => match g m with None => None
                | Some s => Some (h r i m s, if bl m s then set ts i None else ts) end end) as -> by reflexivity.
      destruct (get ts i) as [m|] eqn:Eg.
      + destruct (g m) as [s|] eqn:Em; [|reflexivity]. simpl orb.
        set (ts1 := if bl m s then set ts i None else ts).
        assert (forall j, j <> i -> get ts1 j = get ts j) as Hj.
        { intros j Hj. unfold ts1. destruct (bl m s); [|reflexivity]. rewrite get_set_None.
          assert (i =? j = false) as -> by (apply Nat.eqb_neq; auto). reflexivity. }
        assert (existsb (bad ts1) is = existsb (bad ts) is) as Eb.
        { clear - Hj Hni. induction is as [|k is IH]; [reflexivity|]. simpl.
          assert (k <> i) by (intros ->; apply Hni; left; reflexivity). unfold bad at 1 3. rewrite Hj by assumption.
          f_equal. apply IH. intros Hx; apply Hni; right; exact Hx. }
        assert (forall r, fold_left (acc ts1) is r = fold_left (acc ts) is r) as Ea.
        { clear - Hj Hni. induction is as [|k is IH]; intros r; [reflexivity|]. simpl.
          assert (k <> i) by (intros ->; apply Hni; left; reflexivity).
          unfold acc at 2 4. rewrite Hj by assumption. apply IH. intros Hx; apply Hni; right; exact Hx. }
        specialize (IH (h r i m s) ts1 Hnd'). rewrite Eb in IH.
        destruct (existsb (bad ts) is); [exact IH|]. destruct IH as [ts' [E1 [E2 E3]]].
        exists ts'. split; [|split].
        * etransitivity; [exact E1|]. simpl. f_equal. f_equal. rewrite Ea. unfold acc at 3. rewrite Eg, Em. reflexivity.
        * rewrite E2. unfold ts1. destruct (bl m s); [apply set_length|reflexivity].
        * intros j. rewrite E3. destruct (in_dec Nat.eq_dec j is) as [Hji|Hji].
          -- assert (j <> i) by (intros ->; contradiction). rewrite Hj by assumption.
             destruct (in_dec Nat.eq_dec j (i :: is)) as [|Hx]; [reflexivity|]. exfalso; apply Hx; right; exact Hji.
          -- destruct (Nat.eq_dec j i) as [->|Hne].
             ++ destruct (in_dec Nat.eq_dec i (i :: is)) as [|Hx]; [|exfalso; apply Hx; left; reflexivity].
                rewrite Eg. simpl. rewrite Em. unfold ts1. destruct (bl m s); [|exact Eg].
                rewrite get_set_None, Nat.eqb_refl. reflexivity.
             ++ rewrite Hj by assumption. destruct (in_dec Nat.eq_dec j (i :: is)) as [[Hx|Hx]|Hx]; congruence || contradiction || reflexivity.
      + simpl orb. specialize (IH r ts Hnd'). destruct (existsb (bad ts) is); [exact IH|].
        destruct IH as [ts' [E1 [E2 E3]]]. exists ts'. split; [|split; [exact E2|]].
        * etransitivity; [exact E1|]. simpl. unfold acc at 3. rewrite Eg. reflexivity.
        * intros j. rewrite E3. destruct (in_dec Nat.eq_dec j is) as [Hji|Hji];
            destruct (in_dec Nat.eq_dec j (i :: is)) as [Hx|Hx]; try reflexivity.
          -- exfalso; apply Hx; right; exact Hji.
          -- destruct Hx as [->|Hx]; [rewrite Eg; reflexivity|contradiction].
  Qed.
End Body.

(* The two loops together, for any order of the indexes. *)

Definition start_h (r : tstate) (i : nat) (m : member) (s : tstate) : tstate :=
  if tstate_eqb s postponed then merge r s else r.
Definition start_bl (m : member) (s : tstate) : bool := tstate_eqb s postponed.
Definition finish_h (r : tstate) (i : nat) (m : member) (s : tstate) : tstate := merge r s.
Definition finish_bl (m : member) (s : tstate) : bool := m_adhoc m.

Lemma loop_ext {St} (f f' : St -> list slot -> nat -> option (St * list slot)) :
  (forall r ts i, f r ts i = f' r ts i) -> forall is r ts, loop f r ts is = loop f' r ts is.
Proof.
  intros H is; induction is as [|i is IH]; intros r ts; [reflexivity|]. simpl. rewrite H.
  destruct (f' r ts i) as [[? ?]|]; auto.
Qed.

Lemma start_body kg r ts i : start_one kg r ts i = body (execute_async kg) start_h start_bl r ts i.
Proof.
  unfold start_one, body, start_h, start_bl. destruct (get ts i); [|reflexivity].
  destruct (execute_async kg m); [|reflexivity]. destruct (tstate_eqb t postponed); reflexivity.
Qed.

Lemma finish_body r ts i : finish_one r ts i = body execute_complete finish_h finish_bl r ts i.
Proof. reflexivity. Qed.

Definition run2 {St} (kg : bool) (c : tstate -> St) (f : St -> list slot -> nat -> option (St * list slot))
           (ts : list slot) (is : list nat) : option (St * list slot) :=
  match loop (start_one kg) unchanged ts is with
  | None => None
  | Some (r, ts1) => loop f (c r) ts1 is
  end.

Definition failsb (kg : bool) (m : member) : bool :=
  (tstate_eqb (m_impl m) failed && negb kg) ||
  (negb (tstate_eqb (m_impl m) postponed) && tstate_eqb (state_of m) failed).

Lemma failsb_iff kg m : failsb kg m = true <-> fails kg m.
Proof.
  unfold failsb, fails. rewrite orb_true_iff, !andb_true_iff, !negb_true_iff, !tstate_eqb_eq.
  assert (tstate_eqb (m_impl m) postponed = false <-> m_impl m <> postponed) as ->.
  { rewrite <- not_true_iff_false, tstate_eqb_eq. reflexivity. }
  tauto.
Qed.

Definition fail_at (kg : bool) (ts : list slot) (i : nat) : bool :=
  match get ts i with Some m => failsb kg m | None => false end.

Lemma existsb_perm {A} (f : A -> bool) l l' : Permutation l l' -> existsb f l = existsb f l'.
Proof.
  intros H; induction H; simpl; auto; try congruence.
  destruct (f x), (f y); reflexivity.
Qed.

Lemma fold_left_perm {A B} (F : A -> B -> A) :
  (forall r x y, F (F r x) y = F (F r y) x) ->
  forall l l', Permutation l l' -> forall r, fold_left F l r = fold_left F l' r.
Proof.
  intros Hc l l' H; induction H; intros r; simpl; auto.
  - rewrite Hc. reflexivity.
  - rewrite IHPermutation1. apply IHPermutation2.
Qed.

Lemma existsb_orb {A} (f g : A -> bool) l : existsb (fun x => f x || g x) l = existsb f l || existsb g l.
Proof.
  induction l as [|x l IH]; [reflexivity|]. simpl. rewrite IH.
  destruct (f x), (g x), (existsb f l); reflexivity.
Qed.

Lemma existsb_ext_in {A} (f g : A -> bool) l : (forall x, In x l -> f x = g x) -> existsb f l = existsb g l.
Proof.
  induction l as [|x l IH]; intros H; [reflexivity|]. simpl. rewrite (H x (or_introl eq_refl)), IH; auto.
  intros y Hy; apply H; right; exact Hy.
Qed.

Lemma fold_left_ext_in {A B} (F G : A -> B -> A) l :
  (forall r x, In x l -> F r x = G r x) -> forall r, fold_left F l r = fold_left G l r.
Proof.
  induction l as [|x l IH]; intros H r; [reflexivity|]. simpl.
  rewrite (H r x (or_introl eq_refl)). apply IH. intros r' y Hy; apply H; right; exact Hy.
Qed.

(* Second loop of an arbitrary kind [h] over what is not postponed. *)
Definition acc2 {St} (h : St -> nat -> member -> tstate -> St) (ts : list slot) (r : St) (i : nat) : St :=
  match get ts i with
  | Some m => if tstate_eqb (m_impl m) postponed then r else h r i m (state_of m)
  | None => r
  end.

Definition acc1 (ts : list slot) (r : tstate) (i : nat) : tstate :=
  match get ts i with
  | Some m => if tstate_eqb (m_impl m) postponed then merge r postponed else r
  | None => r
  end.

Definition fin_at (ts : list slot) (i : nat) : bool :=
  match get ts i with
  | Some m => negb (tstate_eqb (m_impl m) postponed) && tstate_eqb (state_of m) failed
  | None => false
  end.

Lemma run2_char {St} kg (c : tstate -> St) h ts is : NoDup is ->
  if existsb (fail_at kg ts) is then run2 kg c (body execute_complete h finish_bl) ts is = None
  else exists ts', run2 kg c (body execute_complete h finish_bl) ts is =
         Some (fold_left (acc2 h ts) is (c (fold_left (acc1 ts) is unchanged)), ts') /\
         length ts' = length ts /\
         forall i, get ts' i = if in_dec Nat.eq_dec i is then blanked (get ts i) else get ts i.
Proof.
  intros Hnd. unfold run2. rewrite (loop_ext _ _ (start_body kg)).
  pose proof (loop_body (execute_async kg) start_h start_bl is unchanged ts Hnd) as H1.
  assert (existsb (fail_at kg ts) is =
          existsb (bad (execute_async kg) ts) is ||
          existsb (fin_at ts) is) as Ef.
  { rewrite <- existsb_orb. apply existsb_ext_in. intros i _. unfold fail_at, fin_at, bad, failsb, execute_async.
    destruct (get ts i) as [m|]; [|reflexivity]. destruct (tstate_eqb (m_impl m) failed && negb kg); reflexivity. }
  rewrite Ef. destruct (existsb (bad (execute_async kg) ts) is) eqn:Eb.
  - rewrite H1. reflexivity.
  - destruct H1 as [ts1 [E1 [El Eg]]]. rewrite E1. simpl orb.
    assert (forall i, In i is -> bad (execute_async kg) ts i = false) as Hnb.
    { intros i Hi. destruct (bad (execute_async kg) ts i) eqn:E; [|reflexivity].
      assert (existsb (bad (execute_async kg) ts) is = true) as Hx by (apply existsb_exists; eauto). congruence. }
    assert (forall i, In i is -> get ts1 i =
              match get ts i with Some m => if tstate_eqb (m_impl m) postponed then None else Some m | None => None end) as Hg1.
    { intros i Hi. rewrite Eg. destruct (in_dec Nat.eq_dec i is); [|contradiction]. specialize (Hnb i Hi).
      unfold bad in Hnb. unfold bls, start_bl. destruct (get ts i) as [m|]; [|reflexivity].
      unfold execute_async in *. destruct (tstate_eqb (m_impl m) failed && negb kg); [discriminate|reflexivity]. }
    pose proof (loop_body execute_complete h finish_bl is (c (fold_left (acc (execute_async kg) start_h ts) is unchanged)) ts1 Hnd) as H2.
    assert (existsb (bad execute_complete ts1) is =
            existsb (fin_at ts) is) as Eb2.
    { apply existsb_ext_in. intros i Hi. unfold bad, fin_at. rewrite (Hg1 i Hi). destruct (get ts i) as [m|]; [|reflexivity].
      destruct (tstate_eqb (m_impl m) postponed); [reflexivity|]. unfold execute_complete, executed_state, state_of.
      destruct (m_final m); reflexivity. }
    rewrite Eb2 in H2. destruct (existsb (fin_at ts) is) eqn:Eb3; [exact H2|].
    destruct H2 as [ts' [E2 [El2 Eg2]]]. exists ts'. split; [|split].
    + rewrite E2. f_equal. f_equal.
      assert (fold_left (acc (execute_async kg) start_h ts) is unchanged = fold_left (acc1 ts) is unchanged) as ->.
      { apply fold_left_ext_in. intros r i Hi. specialize (Hnb i Hi). unfold acc, acc1, bad, start_h in *.
        destruct (get ts i) as [m|]; [|reflexivity]. unfold execute_async in *.
        destruct (tstate_eqb (m_impl m) failed && negb kg); [discriminate|].
        destruct (tstate_eqb (m_impl m) postponed) eqn:E; [|reflexivity]. apply tstate_eqb_eq in E. rewrite E. reflexivity. }
      apply fold_left_ext_in. intros r i Hi. unfold acc, acc2. rewrite (Hg1 i Hi).
      destruct (get ts i) as [m|] eqn:Egi; [|reflexivity].
      destruct (tstate_eqb (m_impl m) postponed) eqn:Ep; [reflexivity|].
      assert (tstate_eqb (state_of m) failed = false) as Hnf.
      { destruct (tstate_eqb (state_of m) failed) eqn:E; [|reflexivity]. exfalso.
        assert (existsb (fin_at ts) is = true) as Hx.
        { apply existsb_exists. exists i. split; [exact Hi|]. unfold fin_at. rewrite Egi, Ep, E. reflexivity. }
        congruence. }
      unfold execute_complete, executed_state, state_of in *. destruct (m_final m); try reflexivity. discriminate.
    + congruence.
    + intros i. rewrite Eg2. destruct (in_dec Nat.eq_dec i is) as [Hi|Hi].
      * rewrite (Hg1 i Hi). unfold bls, blanked, finish_bl. destruct (get ts i) as [m|] eqn:Egi; [|reflexivity].
        destruct (tstate_eqb (m_impl m) postponed) eqn:Ep.
        -- apply tstate_eqb_eq in Ep. rewrite Ep. reflexivity.
        -- assert (m_impl m <> postponed) as Hp.
           { intros E. rewrite E in Ep. discriminate. }
           transitivity (if m_adhoc m then None else Some m : slot); [|destruct (m_impl m) eqn:Ei; try reflexivity; exfalso; apply Hp; reflexivity].
           unfold execute_complete. destruct (executed_state m) eqn:Es; try reflexivity.
           exfalso.
           assert (existsb (fin_at ts) is = true) as Hx.
           { apply existsb_exists. exists i. split; [exact Hi|]. unfold fin_at. rewrite Egi, Ep. unfold state_of.
             unfold executed_state in Es. rewrite Es. reflexivity. }
           congruence.
      * rewrite Eg. destruct (in_dec Nat.eq_dec i is); [contradiction|reflexivity].
Qed.

(* --- slices --- *)

Lemma nth_slice ts p n i : p <= i < p + n -> i < length ts -> In (get ts i) (slice ts p n).
Proof.
  intros Hi Hl. unfold slice, get.
  assert (nth i ts None = nth (i - p) (firstn n (skipn p ts)) None) as ->.
  { rewrite <- (firstn_skipn p ts) at 1. rewrite app_nth2 by (rewrite firstn_length; lia).
    rewrite firstn_length. replace (Nat.min p (length ts)) with p by lia.
    rewrite <- (firstn_skipn n (skipn p ts)) at 1. rewrite app_nth1; [reflexivity|].
    rewrite firstn_length, skipn_length. lia. }
  apply nth_In. rewrite firstn_length, skipn_length. lia.
Qed.

Lemma map_get_seq ts p n : p + n <= length ts -> map (get ts) (seq p n) = slice ts p n.
Proof.
  revert p; induction n as [|n IH]; intros p Hl; [reflexivity|].
  unfold slice. simpl seq. simpl map. rewrite IH by lia. unfold slice, get.
  assert (skipn p ts = nth p ts None :: skipn (S p) ts) as E.
  { clear - Hl. revert ts Hl; induction p as [|p IH]; intros [|x ts] Hl; simpl in *; try lia; [reflexivity|].
    apply IH. lia. }
  rewrite E. reflexivity.
Qed.

Lemma fold_map {A B C} (F : A -> C -> A) (f : B -> C) l : forall r,
  fold_left F (map f l) r = fold_left (fun r x => F r (f x)) l r.
Proof. induction l as [|x l IH]; intros r; [reflexivity|]. apply IH. Qed.

Lemma existsb_map {A B} (f : B -> bool) (g : A -> B) l : existsb f (map g l) = existsb (fun x => f (g x)) l.
Proof. induction l as [|x l IH]; [reflexivity|]. simpl. rewrite IH. reflexivity. Qed.

(* Both folds as one over the contributions. *)
Lemma fold_contrib l : forall r,
  fold_left (fun r s => match s with
             | Some m => if tstate_eqb (m_impl m) postponed then r else merge r (state_of m)
             | None => r end) l
    (fold_left (fun r s => match s with
             | Some m => if tstate_eqb (m_impl m) postponed then merge r postponed else r
             | None => r end) l r)
  = fold_left merge (map contribution (present l)) r.
Proof.
  assert (forall l r x, fold_left (fun r s => match s with
             | Some m => if tstate_eqb (m_impl m) postponed then merge r postponed else r
             | None => r end) l (merge r x) =
             merge (fold_left (fun r s => match s with
             | Some m => if tstate_eqb (m_impl m) postponed then merge r postponed else r
             | None => r end) l r) x) as Hs.
  { clear. induction l as [|s l IH]; intros r x; [reflexivity|]. simpl.
    destruct s as [m|]; [|apply IH]. destruct (tstate_eqb (m_impl m) postponed); [|apply IH].
    rewrite merge_swap. apply IH. }
  induction l as [|s l IH]; intros r; [reflexivity|]. simpl. destruct s as [m|]; [|apply IH]. simpl.
  destruct (tstate_eqb (m_impl m) postponed) eqn:E.
  - apply tstate_eqb_eq in E. assert (contribution m = postponed) as -> by (unfold contribution; rewrite E; reflexivity).
    apply IH.
  - assert (contribution m = state_of m) as ->.
    { unfold contribution. destruct (m_impl m); try reflexivity. discriminate. }
    rewrite <- Hs. apply IH.
Qed.

Lemma present_In l m : In m (present l) <-> In (Some m) l.
Proof.
  induction l as [|s l IH]; [tauto|]. destruct s as [m'|]; simpl; rewrite IH; intuition congruence.
Qed.

Definition sfail (kg : bool) (s : slot) : bool := match s with Some m => failsb kg m | None => false end.

Lemma existsb_fail kg l :
  existsb (sfail kg) l = true <->
  exists m, In (Some m) l /\ fails kg m.
Proof.
  rewrite existsb_exists. split.
  - intros [[m|] [Hi Hf]]; [|discriminate]. exists m. split; [exact Hi|]. apply failsb_iff. exact Hf.
  - intros [m [Hi Hf]]. exists (Some m). split; [exact Hi|]. apply failsb_iff. exact Hf.
Qed.

Definition members_spec (kg : bool) (ts : list slot) (p n : nat) (res : option (tstate * list slot)) : Prop :=
  match res with
  | None => exists m, In (Some m) (slice ts p n) /\ fails kg m
  | Some (r, ts') =>
      (forall m, In (Some m) (slice ts p n) -> ~ fails kg m) /\
      worst r (unchanged :: map contribution (present (slice ts p n))) /\
      length ts' = length ts /\
      forall i, nth i ts' None =
                if (p <=? i) && (i <? p + n) then blanked (nth i ts None) else nth i ts None
  end.

Lemma members_any kg ts p n is : p + n <= length ts -> Permutation (seq p n) is ->
  members_spec kg ts p n (run2 kg (fun r => r) finish_one ts is).
Proof.
  intros Hl Hp. assert (NoDup is) as Hnd by (eapply Permutation_NoDup; [exact Hp|apply seq_NoDup]).
  pose proof (run2_char kg (fun r => r) finish_h ts is Hnd) as H.
  assert (run2 kg (fun r => r) finish_one ts is =
          run2 kg (fun r => r) (body execute_complete finish_h finish_bl) ts is) as -> by reflexivity.
  rewrite <- (existsb_perm _ _ _ Hp) in H.
  assert (existsb (fail_at kg ts) (seq p n) =
          existsb (sfail kg) (slice ts p n)) as Ef.
  { rewrite <- (map_get_seq ts p n Hl), existsb_map. reflexivity. }
  rewrite Ef in H. destruct (existsb (sfail kg) (slice ts p n)) eqn:Eb.
  - rewrite H. simpl. apply existsb_fail in Eb. exact Eb.
  - destruct H as [ts' [E [El Eg]]]. rewrite E. simpl. split; [|split; [|split; [exact El|]]].
    + intros m Hi Hf. assert (existsb (sfail kg) (slice ts p n) = true) as Hx.
      { apply existsb_fail. eauto. }
      congruence.
    + rewrite <- (fold_left_perm (acc2 finish_h ts)) with (l := seq p n); [|intros; unfold acc2, finish_h|exact Hp].
      * rewrite <- (fold_left_perm (acc1 ts)) with (l := seq p n); [|intros; unfold acc1|exact Hp].
        -- assert (fold_left (acc2 finish_h ts) (seq p n) (fold_left (acc1 ts) (seq p n) unchanged) =
                   fold_left merge (map contribution (present (slice ts p n))) unchanged) as ->.
           { rewrite <- fold_contrib, <- (map_get_seq ts p n Hl), !fold_map. reflexivity. }
           apply fold_merge_worst.
        -- destruct (get ts x) as [m1|], (get ts y) as [m2|]; try reflexivity.
           destruct (tstate_eqb (m_impl m1) postponed), (tstate_eqb (m_impl m2) postponed); try reflexivity.
      * destruct (get ts x) as [m1|], (get ts y) as [m2|]; try reflexivity.
        destruct (tstate_eqb (m_impl m1) postponed), (tstate_eqb (m_impl m2) postponed); try reflexivity.
        apply merge_swap.
    + intros i. change (nth i ts' None) with (get ts' i). rewrite Eg.
      destruct (in_dec Nat.eq_dec i is) as [Hi|Hi].
      * apply (Permutation_in _ (Permutation_sym Hp)) in Hi. apply in_seq in Hi.
        assert ((p <=? i) && (i <? p + n) = true) as ->.
        { apply andb_true_iff. rewrite Nat.leb_le, Nat.ltb_lt. lia. }
        reflexivity.
      * destruct ((p <=? i) && (i <? p + n)) eqn:E2; [|reflexivity]. exfalso. apply Hi.
        apply (Permutation_in _ Hp), in_seq. apply andb_true_iff in E2. rewrite Nat.leb_le, Nat.ltb_lt in E2. lia.
Qed.

Lemma straight_members kg ts p n : p + n <= length ts ->
  members_spec kg ts p n (straight_execute_members kg ts n p).
Proof. intros Hl. apply (members_any kg ts p n (seq p n) Hl (Permutation_refl _)). Qed.

Lemma reverse_members kg ts p n : p + n <= length ts ->
  members_spec kg ts p n (reverse_execute_members kg ts n (p + n)).
Proof.
  intros Hl. unfold reverse_execute_members. replace (p + n - n) with p by lia.
  apply (members_any kg ts p n (rev (seq p n)) Hl). apply Permutation_rev.
Qed.

Lemma members_spec_det kg ts p n r1 r2 : members_spec kg ts p n r1 -> members_spec kg ts p n r2 -> r1 = r2.
Proof.
  destruct r1 as [[r1 t1]|], r2 as [[r2 t2]|]; simpl; intros H1 H2; auto.
  - destruct H1 as [_ [W1 [L1 G1]]], H2 as [_ [W2 [L2 G2]]].
    rewrite (worst_unique _ _ _ W1 W2). f_equal. f_equal. apply get_ext; [congruence|].
    intros i. unfold get. rewrite G1, G2. reflexivity.
  - destruct H1 as [H1 _]. destruct H2 as [m [Hi Hf]]. exfalso. eapply H1; eauto.
  - destruct H2 as [H2 _]. destruct H1 as [m [Hi Hf]]. exfalso. eapply H2; eauto.
Qed.

Lemma straight_reverse kg ts p n : p + n <= length ts ->
  straight_execute_members kg ts n p = reverse_execute_members kg ts n (p + n).
Proof. intros Hl. eapply members_spec_det; [apply straight_members|apply reverse_members]; exact Hl. Qed.

Lemma present_perm l l' : Permutation l l' -> Permutation (present l) (present l').
Proof.
  intros H; induction H; simpl; auto.
  - destruct x; auto.
  - destruct x, y; auto. apply perm_swap.
  - eapply perm_trans; eauto.
Qed.

Lemma slice_all ts : slice ts 0 (length ts) = ts.
Proof. unfold slice. simpl. apply firstn_all. Qed.

Lemma members_perm kg ts ts' : Permutation ts ts' ->
  option_map fst (straight_execute_members kg ts (length ts) 0) =
  option_map fst (straight_execute_members kg ts' (length ts') 0).
Proof.
  intros Hp.
  pose proof (straight_members kg ts 0 (length ts) (le_n _)) as H1.
  pose proof (straight_members kg ts' 0 (length ts') (le_n _)) as H2.
  destruct (straight_execute_members kg ts (length ts) 0) as [[r1 t1]|],
           (straight_execute_members kg ts' (length ts') 0) as [[r2 t2]|]; simpl in *; rewrite ?slice_all in *; auto.
  - destruct H1 as [_ [W1 _]], H2 as [_ [W2 _]]. f_equal. eapply worst_unique; [|exact W2].
    eapply worst_perm; [|exact W1]. constructor. apply Permutation_map. apply present_perm. exact Hp.
  - destruct H1 as [H1 _], H2 as [m [Hi Hf]]. exfalso. eapply H1; [|exact Hf].
    eapply Permutation_in; [apply Permutation_sym; exact Hp|exact Hi].
  - destruct H2 as [H2 _], H1 as [m [Hi Hf]]. exfalso. eapply H2; [|exact Hf].
    eapply Permutation_in; [exact Hp|exact Hi].
Qed.

(* --- execute_prerequisites --- *)

Definition ph (mt : Z) (tt ef last : bool) (x : pstate) (i : nat) (m : member) (s : tstate) : pstate :=
  mkp (merge (p_rs x) s)
      (if negb (p_e x) && (m_adhoc m || negb ef || m_pass m) then
         match m_mtime m with Some mp => newer mp mt s | None => tstate_eqb s changed end
       else p_e x)
      (if m_adhoc m then p_rt x
       else if tt then
         (if m_type m then (if last then Some i else match p_rt x with None => Some i | o => o end) else p_rt x)
       else p_rt x).

Definition outd (mt : Z) (ef : bool) (ts : list slot) (i : nat) : bool :=
  match get ts i with
  | Some m => negb (tstate_eqb (m_impl m) postponed) && (m_adhoc m || negb ef || m_pass m) &&
              match m_mtime m with Some mp => newer mp mt (state_of m) | None => tstate_eqb (state_of m) changed end
  | None => false
  end.

Definition okt (tt : bool) (ts : list slot) (i : nat) : bool :=
  match get ts i with
  | Some m => negb (tstate_eqb (m_impl m) postponed) && negb (m_adhoc m) && tt && m_type m
  | None => false
  end.

Lemma fold_rs mt tt ef last ts is : forall x,
  p_rs (fold_left (acc2 (ph mt tt ef last) ts) is x) = fold_left (acc2 finish_h ts) is (p_rs x).
Proof.
  induction is as [|i is IH]; intros x; [reflexivity|]. simpl. rewrite IH. f_equal. unfold acc2.
  destruct (get ts i) as [m|]; [|reflexivity]. destruct (tstate_eqb (m_impl m) postponed); reflexivity.
Qed.

Lemma fold_e mt tt ef last ts is : forall x,
  p_e (fold_left (acc2 (ph mt tt ef last) ts) is x) = p_e x || existsb (outd mt ef ts) is.
Proof.
  induction is as [|i is IH]; intros x; [simpl; rewrite orb_false_r; reflexivity|]. simpl. rewrite IH, orb_assoc. f_equal.
  unfold acc2, outd. destruct (get ts i) as [m|]; [|rewrite orb_false_r; reflexivity].
  destruct (tstate_eqb (m_impl m) postponed); [rewrite orb_false_r; reflexivity|]. simpl.
  destruct (p_e x); [reflexivity|]. simpl. destruct (m_adhoc m || negb ef || m_pass m); reflexivity.
Qed.

Lemma find_app {A} (f : A -> bool) l l' : find f (l ++ l') = match find f l with Some x => Some x | None => find f l' end.
Proof. induction l as [|x l IH]; [reflexivity|]. simpl. destruct (f x); auto. Qed.

Lemma fold_rt_first mt tt ef ts is : forall x,
  p_rt (fold_left (acc2 (ph mt tt ef false) ts) is x) =
  match p_rt x with Some i => Some i | None => find (okt tt ts) is end.
Proof.
  induction is as [|i is IH]; intros x; [simpl; destruct (p_rt x); reflexivity|]. simpl. rewrite IH. unfold acc2, okt at 2.
  destruct (get ts i) as [m|]; [|reflexivity].
  destruct (tstate_eqb (m_impl m) postponed); [reflexivity|]. simpl.
  destruct (m_adhoc m); [reflexivity|]. destruct tt; [|reflexivity]. destruct (m_type m); [|reflexivity]. simpl.
  destruct (p_rt x); reflexivity.
Qed.

Lemma fold_rt_last mt tt ef ts is : forall x,
  p_rt (fold_left (acc2 (ph mt tt ef true) ts) is x) =
  match find (okt tt ts) (rev is) with Some i => Some i | None => p_rt x end.
Proof.
  induction is as [|i is IH]; intros x; [reflexivity|]. simpl. rewrite IH, find_app.
  destruct (find (okt tt ts) (rev is)); [reflexivity|]. simpl. unfold acc2, okt.
  destruct (get ts i) as [m|]; [|reflexivity].
  destruct (tstate_eqb (m_impl m) postponed); [reflexivity|]. simpl.
  destruct (m_adhoc m); [reflexivity|]. destruct tt; [|reflexivity]. destruct (m_type m); reflexivity.
Qed.

Lemma find_first tt ts n k :
  find (okt tt ts) (seq 0 n) = Some k -> tt = true /\ is_first_of_type ts n k.
Proof.
  assert (forall p n k, find (okt tt ts) (seq p n) = Some k ->
            p <= k < p + n /\ okt tt ts k = true /\ forall j, p <= j < k -> okt tt ts j = false) as H.
  { clear. intros p n; revert p; induction n as [|n IH]; intros p k H; [discriminate|]. simpl in H.
    destruct (okt tt ts p) eqn:E.
    - injection H as <-. split; [lia|split; [exact E|intros; lia]].
    - apply IH in H. destruct H as [H1 [H2 H3]]. split; [lia|split; [exact H2|]].
      intros j Hj. destruct (Nat.eq_dec j p) as [->|]; [exact E|apply H3; lia]. }
  intros Hf. apply H in Hf. destruct Hf as [H1 [H2 H3]].
  assert (forall j, okt tt ts j = true <->
            tt = true /\ exists m, nth j ts None = Some m /\ m_impl m <> postponed /\ m_adhoc m = false /\ m_type m = true) as Hok.
  { intros j. unfold okt, get. destruct (nth j ts None) as [m|].
    - rewrite !andb_true_iff, !negb_true_iff, <- not_true_iff_false, tstate_eqb_eq. split.
      + intros [[[A B] C] D]. split; [exact C|]. exists m. auto.
      + intros [C [m' [E [A [B D]]]]]. injection E as <-. auto.
    - split; [discriminate|]. intros [_ [m [E _]]]. discriminate. }
  apply Hok in H2. destruct H2 as [Ht [m [E1 [E2 [E3 E4]]]]]. split; [exact Ht|]. split.
  - exists m. repeat split; auto. lia.
  - intros j Hj [m' [_ [F1 [F2 [F3 F4]]]]]. assert (okt tt ts j = true) as Hx.
    { apply Hok. split; [exact Ht|]. exists m'. auto. }
    rewrite H3 in Hx by lia. discriminate.
Qed.

Lemma find_none tt ts n :
  find (okt tt ts) (seq 0 n) = None -> tt = true -> forall k, ~ is_first_of_type ts n k.
Proof.
  intros Hf Ht k [[m [Hk [F1 [F2 [F3 F4]]]]] _].
  assert (okt tt ts k = false) as Hx by (apply (find_none _ _ Hf); apply in_seq; lia).
  unfold okt, get in Hx. rewrite F1 in Hx.
  assert (tstate_eqb (m_impl m) postponed = false) as E by (rewrite <- not_true_iff_false, tstate_eqb_eq; exact F2).
  rewrite E, F3, F4, Ht in Hx. discriminate.
Qed.

Definition prereqs_spec (kg : bool) (ts : list slot) (mt : Z) (tt ef : bool) (n : nat)
           (res : option ((option tstate * option nat) * list slot)) : Prop :=
  match res with
  | None => exists m, In (Some m) (slice ts 0 n) /\ fails kg m
  | Some ((o, rt), ts') =>
      (forall m, In (Some m) (slice ts 0 n) -> ~ fails kg m) /\
      (o = None <-> mt = timestamp_nonexistent \/
                    exists m, In (Some m) (slice ts 0 n) /\ m_impl m <> postponed /\ considered ef m /\ outdates mt m) /\
      (forall r, o = Some r -> worst r (unchanged :: map contribution (present (slice ts 0 n)))) /\
      (forall k, rt = Some k <-> tt = true /\ is_first_of_type ts n k) /\
      length ts' = length ts /\
      forall i, nth i ts' None = if i <? n then blanked (nth i ts None) else nth i ts None
  end.

Lemma outd_iff mt ef ts n : n <= length ts ->
  existsb (outd mt ef ts) (seq 0 n) = true <->
  exists m, In (Some m) (slice ts 0 n) /\ m_impl m <> postponed /\ considered ef m /\ outdates mt m.
Proof.
  intros Hl. rewrite existsb_exists.
  assert (forall m, (negb (tstate_eqb (m_impl m) postponed) && (m_adhoc m || negb ef || m_pass m) &&
              match m_mtime m with Some mp => newer mp mt (state_of m) | None => tstate_eqb (state_of m) changed end) = true <->
          m_impl m <> postponed /\ considered ef m /\ outdates mt m) as Hm.
  { intros m. rewrite !andb_true_iff, !orb_true_iff, !negb_true_iff.
    rewrite <- (not_true_iff_false (tstate_eqb _ _)), tstate_eqb_eq. unfold considered, outdates, newer.
    destruct (m_mtime m) as [mp|].
    - rewrite orb_true_iff, andb_true_iff, Z.ltb_lt, Z.eqb_eq, tstate_eqb_eq. tauto.
    - rewrite tstate_eqb_eq. tauto. }
  rewrite <- (map_get_seq ts 0 n Hl). split.
  - intros [i [Hi Ho]]. unfold outd in Ho. destruct (get ts i) as [m|] eqn:E; [|discriminate].
    exists m. split; [|apply Hm; exact Ho]. rewrite <- E. apply in_map. exact Hi.
  - intros [m [Hi Ho]]. apply in_map_iff in Hi. destruct Hi as [i [E Hi]]. exists i. split; [exact Hi|].
    unfold outd. rewrite E. apply Hm. exact Ho.
Qed.

Lemma prereqs_gen rv kg ts mt tt ef n0 : n0 <= length ts ->
  prereqs_spec kg ts mt tt ef (if n0 =? 0 then length ts else n0) (execute_prerequisites_gen rv kg ts mt tt ef n0).
Proof.
  intros Hl0. set (n := if n0 =? 0 then length ts else n0).
  assert (n <= length ts) as Hl by (unfold n; destruct (n0 =? 0); lia).
  set (is := if rv then rev (seq 0 n) else seq 0 n).
  assert (Permutation (seq 0 n) is) as Hp by (unfold is; destruct rv; [apply Permutation_rev|apply Permutation_refl]).
  assert (NoDup is) as Hnd by (eapply Permutation_NoDup; [exact Hp|apply seq_NoDup]).
  assert (execute_prerequisites_gen rv kg ts mt tt ef n0 =
          match run2 kg (fun r => mkp r (mt =? timestamp_nonexistent)%Z None)
                     (body execute_complete (ph mt tt ef rv) finish_bl) ts is with
          | None => None
          | Some (x, ts2) => Some ((if p_e x then None else Some (p_rs x), p_rt x), ts2)
          end) as ->.
  { unfold execute_prerequisites_gen, run2. fold n. fold is.
    destruct (loop (start_one kg) unchanged ts is) as [[r ts1]|]; [|reflexivity].
    change (prereq_one mt tt ef rv) with (body execute_complete (ph mt tt ef rv) finish_bl). reflexivity. }
  pose proof (run2_char kg (fun r => mkp r (mt =? timestamp_nonexistent)%Z None) (ph mt tt ef rv) ts is Hnd) as H.
  pose proof (members_any kg ts 0 n is Hl Hp) as Hmem.
  pose proof (run2_char kg (fun r => r) finish_h ts is Hnd) as H0.
  change (run2 kg (fun r => r) finish_one ts is) with (run2 kg (fun r => r) (body execute_complete finish_h finish_bl) ts is) in Hmem.
  destruct (existsb (fail_at kg ts) is).
  - rewrite H. rewrite H0 in Hmem. exact Hmem.
  - destruct H as [ts' [E [El Eg]]]. destruct H0 as [ts0 [E0 [El0 Eg0]]]. rewrite E0 in Hmem. rewrite E.
    simpl in Hmem. destruct Hmem as [M1 [M2 [M3 M4]]]. unfold prereqs_spec. split; [exact M1|].
    rewrite fold_e, fold_rs. simpl p_e. simpl p_rs. rewrite <- (existsb_perm _ _ _ Hp).
    split; [|split; [|split; [|split; [exact El|]]]].
    + rewrite <- (outd_iff mt ef ts n Hl), <- Z.eqb_eq, <- orb_true_iff.
      destruct ((mt =? timestamp_nonexistent)%Z || existsb (outd mt ef ts) (seq 0 n)); split; congruence.
    + intros r Er. destruct (_ || _); [discriminate|]. injection Er as <-. exact M2.
    + intros k.
      assert (p_rt (fold_left (acc2 (ph mt tt ef rv) ts) is
                (mkp (fold_left (acc1 ts) is unchanged) (mt =? timestamp_nonexistent)%Z None)) =
              find (okt tt ts) (seq 0 n)) as ->.
      { unfold is. destruct rv; [rewrite fold_rt_last, rev_involutive|rewrite fold_rt_first]; simpl p_rt;
          destruct (find (okt tt ts) (seq 0 n)); reflexivity. }
      split; [apply find_first|]. intros [Ht Hk]. destruct (find (okt tt ts) (seq 0 n)) as [k'|] eqn:Ef.
      * apply find_first in Ef. destruct Ef as [_ [A1 A2]]. destruct Hk as [B1 B2]. f_equal.
        destruct (Nat.lt_trichotomy k k') as [Hlt|[Heq|Hgt]]; [|auto|].
        -- exfalso. apply (A2 k Hlt). exact B1.
        -- exfalso. apply (B2 k' Hgt). exact A1.
      * exfalso. exact (find_none _ _ _ Ef Ht k Hk).
    + intros i. pose proof (Eg i) as G1. pose proof (Eg0 i) as G2. rewrite <- G2 in G1. unfold get in G1.
      rewrite G1, M4. reflexivity.
Qed.

Lemma prereqs_straight_reverse kg ts mt tt ef n0 : n0 <= length ts ->
  execute_prerequisites kg ts mt tt ef n0 = reverse_execute_prerequisites kg ts mt tt ef n0.
Proof.
  intros Hl. pose proof (prereqs_gen false kg ts mt tt ef n0 Hl) as H1.
  pose proof (prereqs_gen true kg ts mt tt ef n0 Hl) as H2.
  change (execute_prerequisites_gen false) with execute_prerequisites in H1.
  change (execute_prerequisites_gen true) with reverse_execute_prerequisites in H2.
  destruct (execute_prerequisites kg ts mt tt ef n0) as [[[o1 k1] t1]|],
           (reverse_execute_prerequisites kg ts mt tt ef n0) as [[[o2 k2] t2]|]; simpl in *; auto.
  - destruct H1 as [_ [N1 [W1 [K1 [L1 G1]]]]], H2 as [_ [N2 [W2 [K2 [L2 G2]]]]].
    assert (o1 = o2) as ->.
    { destruct o1 as [r1|], o2 as [r2|]; auto.
      - f_equal. eapply worst_unique; eauto.
      - apply N1, N2. reflexivity.
      - symmetry. apply N2, N1. reflexivity. }
    assert (k1 = k2) as ->.
    { destruct k1 as [k1|], k2 as [k2|]; auto.
      - symmetry. apply K2, K1. reflexivity.
      - symmetry. apply K2, K1. reflexivity.
      - apply K1, K2. reflexivity. }
    f_equal. f_equal. apply get_ext; [congruence|]. intros i. unfold get. rewrite G1, G2. reflexivity.
  - destruct H1 as [H1 _]. destruct H2 as [m [Hi Hf]]. exfalso. eapply H1; eauto.
  - destruct H2 as [H2 _]. destruct H1 as [m [Hi Hf]]. exfalso. eapply H2; eauto.
Qed.

(* --- execute_recipe --- *)

Lemma merge_all_spec l : forall ts,
  merge_all ts l = if existsb (fun s => match s with None => true | _ => false end) l then None
                   else Some (fold_left merge (flat_map (fun s => match s with Some x => [x] | None => [] end) l) ts).
Proof.
  induction l as [|[s|] l IH]; intros ts; simpl; auto.
Qed.

(* --- actions --- *)
Local Open Scope N_scope.

Lemma N16 x : x < 16 -> In x [0;1;2;3;4;5;6;7;8;9;10;11;12;13;14;15].
Proof.
  intros H. assert (x = N.of_nat (N.to_nat x)) as -> by (symmetry; apply N2Nat.id).
  assert (N.to_nat x < 16)%nat as Hn by lia. remember (N.to_nat x) as k. clear Heqk H.
  do 16 (destruct k as [|k]; [simpl; tauto|]). lia.
Qed.

Definition all16 := [0;1;2;3;4;5;6;7;8;9;10;11;12;13;14;15].

Lemma forall16 (P : N -> bool) : forallb P all16 = true -> forall x, x < 16 -> P x = true.
Proof. intros H x Hx. rewrite forallb_forall in H. apply H, N16, Hx. Qed.

Lemma action_roundtrip m i o : m < 16 -> i < 16 -> o < 16 -> 0 < o ->
  let a := act m i o in
  meta_operation a = m /\ operation a = i /\ outer_operation a = o /\ is_inner a = false /\
  inner_action a = act m i 0 /\ outer_id a < 256 /\ inner_id a < 256.
Proof.
  intros Hm Hi Ho Hpos.
  assert (forallb (fun m => forallb (fun i => forallb (fun o =>
            (o =? 0) || let a := act m i o in
            (meta_operation a =? m) && (operation a =? i) && (outer_operation a =? o) &&
            negb (is_inner a) && (inner_id (inner_action a) =? inner_id (act m i 0)) &&
            (outer_id (inner_action a) =? 0) && (outer_id a <? 256) && (inner_id a <? 256)) all16) all16) all16 = true) as H
    by (vm_compute; reflexivity).
  pose proof (forall16 _ (forall16 _ (forall16 _ H m Hm) i Hi) o Ho) as Hx. cbv zeta in Hx.
  apply orb_true_iff in Hx. destruct Hx as [Hx|Hx]; [apply N.eqb_eq in Hx; lia|].
  repeat rewrite andb_true_iff in Hx. rewrite negb_true_iff in Hx. repeat rewrite N.eqb_eq in Hx. repeat rewrite N.ltb_lt in Hx.
  destruct Hx as [[[[[[[A B] C] D] E] F] G] K]. cbv zeta. repeat split; auto.
  destruct (inner_action (act m i o)) as [x y]. simpl in *. subst. reflexivity.
Qed.

Lemma action_roundtrip_inner m i : m < 16 -> i < 16 ->
  let a := act m i 0 in
  meta_operation a = m /\ operation a = i /\ outer_operation a = 0 /\ is_inner a = true /\ inner_action a = a /\
  act_of_id (to_id a) = a.
Proof.
  intros Hm Hi.
  assert (forallb (fun m => forallb (fun i =>
            let a := act m i 0 in
            (meta_operation a =? m) && (operation a =? i) && (outer_operation a =? 0) &&
            is_inner a && act_eq (inner_action a) a && act_eq (act_of_id (to_id a)) a) all16) all16 = true) as H
    by (vm_compute; reflexivity).
  pose proof (forall16 _ (forall16 _ H m Hm) i Hi) as Hx. cbv zeta in Hx. unfold act_eq in Hx.
  repeat rewrite andb_true_iff in Hx. repeat rewrite N.eqb_eq in Hx.
  destruct Hx as [[[[[A B] C] D] [E1 E2]] [F1 F2]]. cbv zeta. repeat split; auto.
  - destruct (inner_action (act m i 0)) as [x y], (act m i 0) as [x' y']. simpl in *. subst. reflexivity.
  - destruct (act_of_id (to_id (act m i 0))) as [x y], (act m i 0) as [x' y']. simpl in *. subst. reflexivity.
Qed.

Lemma act_eq_iff x y : act_eq x y = true <-> x = y.
Proof.
  unfold act_eq. rewrite andb_true_iff, !N.eqb_eq. destruct x, y; simpl. split; [intros [-> ->]; reflexivity|].
  intros H; injection H; auto.
Qed.

Lemma act_injective m i o m' i' o' :
  m < 16 -> i < 16 -> o < 16 -> m' < 16 -> i' < 16 -> o' < 16 ->
  act m i o = act m' i' o' -> m = m' /\ i = i' /\ o = o'.
Proof.
  intros Hm Hi Ho Hm' Hi' Ho' E.
  assert (forall m i o, m < 16 -> i < 16 -> o < 16 ->
            meta_operation (act m i o) = m /\ operation (act m i o) = i /\ outer_operation (act m i o) = o) as H.
  { clear. intros m i o Hm Hi Ho. destruct (N.eq_dec o 0) as [->|Hn].
    - destruct (action_roundtrip_inner m i Hm Hi) as [A [B [C _]]]. auto.
    - assert (0 < o) as Hp by lia. destruct (action_roundtrip m i o Hm Hi Ho Hp) as [A [B [C _]]]. auto. }
  destruct (H m i o Hm Hi Ho) as [A [B C]], (H m' i' o' Hm' Hi' Ho') as [A' [B' C']].
  rewrite E in A, B, C. split; [congruence|split; congruence].
Qed.

Lemma act_eq_identity m i o m' i' o' :
  m < 16 -> i < 16 -> o < 16 -> m' < 16 -> i' < 16 -> o' < 16 ->
  (act_eq (act m i o) (act m' i' o') = true <-> (m = m' /\ i = i' /\ o = o')) /\
  act_ne (act m i o) (act m' i' o') = negb (act_eq (act m i o) (act m' i' o')).
Proof.
  intros. split; [|reflexivity]. rewrite act_eq_iff. split; [apply act_injective; assumption|].
  intros [-> [-> ->]]. reflexivity.
Qed.

Local Close Scope N_scope.

Definition no_value (s : option tstate) : bool := match s with None => true | _ => false end.

Lemma recipe_spec pre recipe post gs :
  let steps := pre ++ (match recipe with Some x => [x] | None => [] end) ++ post in
  (In None steps -> execute_recipe pre recipe post gs = Some (failed, failed)) /\
  ((forall s, In s steps -> s = Some unchanged \/ s = Some changed \/ s = Some postponed) ->
     exists ret st, execute_recipe pre recipe post gs = Some (ret, st) /\
     worst st (unchanged :: flat_map (fun s => match s with Some x => [x] | None => [] end) steps) /\
     (In (Some changed) steps -> ret = changed) /\ (~ In (Some changed) steps -> ret = unchanged)) /\
  (In (Some group) steps -> ~ In None steps -> execute_recipe pre recipe post gs = Some (gs, group)).
Proof.
  cbv zeta. unfold execute_recipe. set (steps := pre ++ _ ++ post). rewrite merge_all_spec. split; [|split].
  - intros H. assert (existsb (fun s : option tstate => match s with None => true | _ => false end) steps = true) as ->; [|reflexivity].
    apply existsb_exists. exists None. auto.
  - intros Hs.
    assert (existsb (fun s : option tstate => match s with None => true | _ => false end) steps = false) as ->.
    { destruct (existsb _ steps) eqn:E; [|reflexivity]. apply existsb_exists in E. destruct E as [[s|] [H1 H2]]; [discriminate|].
      destruct (Hs _ H1) as [E|[E|E]]; discriminate. }
    set (l := flat_map _ steps). pose proof (fold_merge_worst l unchanged) as W.
    assert (In changed l <-> In (Some changed) steps) as Hc.
    { unfold l. rewrite in_flat_map. split.
      - intros [[s|] [H1 H2]]; [|destruct H2]. destruct H2 as [->|[]]. exact H1.
      - intros H. exists (Some changed). split; [exact H|left; reflexivity]. }
    assert (forall x, In x l -> x = unchanged \/ x = changed \/ x = postponed) as Hl.
    { intros x Hx. unfold l in Hx. apply in_flat_map in Hx. destruct Hx as [[s|] [H1 H2]]; [|destruct H2].
      destruct H2 as [->|[]]. destruct (Hs _ H1) as [E|[E|E]]; injection E as ->; auto. }
    remember (fold_left merge l unchanged) as t eqn:Et. clear Et.
    assert (t = unchanged \/ t = changed \/ t = postponed) as Ht.
    { destruct W as [[H|H] _]; [subst; auto|apply Hl; exact H]. }
    clear Hs. destruct W as [W1 W2].
    destruct Ht as [ -> | [ -> | -> ]]; do 2 eexists; (split; [reflexivity|]); (split; [split; assumption|]); split.
    + intros H. apply Hc in H. specialize (W2 changed (or_intror H)). simpl in W2. lia.
    + intros _; reflexivity.
    + intros _; reflexivity.
    + intros Hn. exfalso. apply Hn, Hc. destruct W1 as [W1|W1]; [discriminate|exact W1].
    + intros H. apply Hc in H. specialize (W2 changed (or_intror H)). simpl in W2. lia.
    + reflexivity.
  - intros Hg Hn.
    assert (existsb (fun s : option tstate => match s with None => true | _ => false end) steps = false) as ->.
    { destruct (existsb _ steps) eqn:E; [|reflexivity]. apply existsb_exists in E. destruct E as [[s|] [H1 H2]]; [discriminate|].
      contradiction. }
    set (l := flat_map _ steps). pose proof (fold_merge_worst l unchanged) as [W1 W2].
    assert (In group l) as Hin by (unfold l; apply in_flat_map; exists (Some group); split; [exact Hg|left; reflexivity]).
    specialize (W2 group (or_intror Hin)). destruct (fold_left merge l unchanged); simpl in W2; try lia. reflexivity.
Qed.
