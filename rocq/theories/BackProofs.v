(* Proofs about backlinks. *)
From Verif Require Import Base ImpModel BackModel BackSpec.

Lemma dir_eqb_iff a c : dir_eqb a c = true <-> a = c.
Proof.
  revert c. induction a as [|x a IH]; intros [|y c]; cbn; try (split; congruence). rewrite andb_true_iff, IH, beqb_eq. split; [intros [-> ->]; reflexivity | intros E; now injection E].
Qed.
Lemma dir_eqb_refl a : dir_eqb a a = true.
Proof. now apply dir_eqb_iff. Qed.
Lemma dir_eqb_no a c : a <> c -> dir_eqb a c = false.
Proof. rewrite <- dir_eqb_iff. destruct (dir_eqb a c); congruence. Qed.
Lemma put_same f p e : ent (put f p e) p = e.
Proof. unfold put. cbn. now rewrite dir_eqb_refl. Qed.
Lemma put_other f p e q : q <> p -> ent (put f p e) q = ent f q.
Proof. intros N. unfold put. cbn. now rewrite dir_eqb_no. Qed.

(* What may have changed. *)
Definition change (f f' : fs) (l : list bytes) (over : bool) : Prop :=
  (forall q, q <> l -> ent f' q = ent f q) /\ fresh f <= fresh f' /\
  (forall i, i < fresh f -> (over = true -> ent f l <> Some (File i)) -> cont f' i = cont f i).
Lemma change_refl f l o : change f f l o.
Proof. repeat split; auto. Qed.
Lemma rm_change f p ok f' o : rm f p = (ok, f') -> change f f' p o /\ (ent f' p = None /\ ok = true \/ f' = f /\ ok = false /\ ent f p = Some Dir) /\ cont f' = cont f /\ fresh f' = fresh f.
Proof.
  unfold rm. destruct (ent f p) as [[|i|t]|] eqn:E; intros R; injection R as <- <-.
  - split; [apply change_refl|]. auto.
  - split; [split; [intros; now apply put_other | split; auto]|]. rewrite put_same. auto.
  - split; [split; [intros; now apply put_other | split; auto]|]. rewrite put_same. auto.
  - split; [apply change_refl|]. auto.
Qed.
Lemma make_inv f l e ok f' : make f l e = (ok, f') -> ok = true /\ f' = put f l (Some e) /\ ent f l = None \/ ok = false /\ f' = f.
Proof. unfold make. destruct (is_dir f (removelast l)); destruct (ent f l); cbn; intros R; injection R as <- <-; auto. Qed.

Section Env.
Context (sym_ok : bool).
Notation update_backlink := (update_backlink sym_ok).
Notation update_all := (update_all sym_ok).
Notation update_post := (update_post sym_ok).
Notation update := (update sym_ok).

(* As current, but in terms of entries. *)
Definition cur (f : fs) (x : backlink) : Prop :=
  match ent f (b_target x) with
  | Some (File i) =>
    (ent f (b_link x) = Some (Sym (b_target x)) \/ exists j, ent f (b_link x) = Some (File j) /\ cont f j = cont f i) /\ kind sym_ok f x
  | _ => b_mode x = Overwrite \/ ent f (b_link x) = None
  end.
Lemma cur_current f x : (match ent f (b_target x) with None | Some (File _) => True | _ => False end) -> cur f x -> current sym_ok f x.
Proof.
  unfold cur, current, read. destruct (ent f (b_target x)) as [[|i|t]|] eqn:E; try contradiction; intros _ C; [|exact C]. destruct C as (C & K). split; [|exact K].
  destruct C as [-> |(j & -> & C)]; [now rewrite E | now rewrite C].
Qed.
Lemma kind_eq f f' x : ent f' (b_link x) = ent f (b_link x) -> ent f' (b_target x) = ent f (b_target x) -> kind sym_ok f x -> kind sym_ok f' x.
Proof. unfold kind. intros -> ->. auto. Qed.

Lemma step f x xs ok f' : sane xs -> regular f xs -> In x xs -> update_backlink f x = (ok, f') ->
  change f f' (b_link x) (is_over (b_mode x)) /\ (ok = true -> cur f' x) /\
  (match ent f' (b_link x) with
   | Some (File j) => match ent f (b_target x) with Some (File i) => j = i | _ => False end \/ ent f (b_link x) = Some (File j) \/ j = fresh f /\ j < fresh f'
   | _ => True end).
Proof.
  intros S (R1 & R2 & R3) I U. unfold BackModel.update_backlink in U. destruct (rmbacklink f x) as [ok1 f1] eqn:M.
  assert (LT : b_link x <> b_target x) by (apply S; auto).
  assert (A : change f f1 (b_link x) false /\ cont f1 = cont f /\ fresh f1 = fresh f /\ (ok1 = true -> is_over (b_mode x) = false -> ent f1 (b_link x) = None) /\ (is_over (b_mode x) = true \/ ok1 = false -> f1 = f)).
  { unfold rmbacklink in M. destruct (is_over (b_mode x)) eqn:O.
    - injection M as <- <-. split; [apply change_refl|]. repeat split; auto. discriminate.
    - apply (rm_change _ _ _ _ false) in M as (C & [[E ->]|(-> & -> & E)] & Q1 & Q2); (split; [exact C|]); repeat split; auto; try discriminate. intros [|]; discriminate. }
  destruct A as (C1 & Q1 & Q2 & E1 & E1'). assert (W : forall f2, change f1 f2 (b_link x) false -> change f f2 (b_link x) (is_over (b_mode x))).
  { intros f2 (A & A' & A''). destruct C1 as (B & B' & B''). split; [intros q N; rewrite A, B; auto|]. split; [lia|]. intros i L _. rewrite A'', B''; auto; [discriminate | lia | discriminate]. }
  assert (T1 : ent f1 (b_target x) = ent f (b_target x)) by (apply C1; congruence).
  destruct ok1; cbn [andthen] in U.
  2: { injection U as <- <-. rewrite E1' in * by auto. split; [apply change_refl|]. split; [discriminate|]. destruct (ent f (b_link x)) as [[|j|t]|] eqn:E; auto. }
  specialize (R1 x I). unfold read in U. rewrite T1 in U. destruct (ent f (b_target x)) as [[|i|t]|] eqn:ET; try contradiction.
  2: { injection U as <- <-. split; [apply W, change_refl|]. split.
       - intros _. unfold cur. rewrite T1. destruct (is_over (b_mode x)) eqn:O; [left; now destruct (b_mode x) | right; auto].
       - destruct (is_over (b_mode x)) eqn:O; [rewrite E1' by auto; destruct (ent f (b_link x)) as [[|j|t]|]; auto | rewrite E1 by auto; exact Logic.I]. }
  assert (SYM : forall ok f', mksym sym_ok f1 (b_target x) (b_link x) = (ok, f') -> (b_mode x = Symbolic \/ b_mode x = Link /\ sym_ok = true) ->
    change f f' (b_link x) (is_over (b_mode x)) /\ (ok = true -> cur f' x) /\
    (match ent f' (b_link x) with Some (File j) => j = i \/ ent f (b_link x) = Some (File j) \/ j = fresh f /\ j < fresh f' | _ => True end)).
  { clear U. intros ok' f2 K MO. assert (O : is_over (b_mode x) = false) by (destruct MO as [-> |[-> _]]; reflexivity). unfold mksym in K. destruct sym_ok eqn:SY.
    - apply make_inv in K as [(-> & -> & N)|(-> & ->)].
      + split; [apply W; split; [intros; now apply put_other | split; auto]|]. rewrite put_same. split; [|exact Logic.I]. intros _. unfold cur. rewrite put_other by congruence. rewrite T1. split; [left; apply put_same|]. unfold kind. rewrite put_same. destruct MO as [-> |[-> SY']]; [reflexivity | now rewrite ?SY].
      + split; [apply W, change_refl|]. split; [discriminate|]. now rewrite E1.
    - injection K as <- <-. split; [apply W, change_refl|]. split; [discriminate|]. now rewrite E1. }
  assert (HARD : forall ok f', mkhard f1 (b_target x) (b_link x) = (ok, f') -> (b_mode x = Hard \/ b_mode x = Link /\ sym_ok = false) ->
    change f f' (b_link x) (is_over (b_mode x)) /\ (ok = true -> cur f' x) /\
    (match ent f' (b_link x) with Some (File j) => j = i \/ ent f (b_link x) = Some (File j) \/ j = fresh f /\ j < fresh f' | _ => True end)).
  { clear U. intros ok' f2 K MO. assert (O : is_over (b_mode x) = false) by (destruct MO as [-> |[-> _]]; reflexivity). unfold mkhard in K. rewrite T1 in K. apply make_inv in K as [(-> & -> & N)|(-> & ->)].
    - split; [apply W; split; [intros; now apply put_other | split; auto]|]. rewrite put_same. split; [|now left]. intros _. unfold cur. rewrite put_other by congruence. rewrite T1. split; [right; exists i; split; [apply put_same | reflexivity]|]. unfold kind. rewrite put_same, put_other, T1 by congruence. destruct MO as [-> |[-> ->]]; eauto.
    - split; [apply W, change_refl|]. split; [discriminate|]. now rewrite E1. }
  assert (CP : forall ok f', cpfile f1 (b_target x) (b_link x) = (ok, f') -> b_mode x = Copy \/ b_mode x = Overwrite ->
    change f f' (b_link x) (is_over (b_mode x)) /\ (ok = true -> cur f' x) /\
    (match ent f' (b_link x) with Some (File j) => j = i \/ ent f (b_link x) = Some (File j) \/ j = fresh f /\ j < fresh f' | _ => True end)).
  { clear U. intros ok' f2 K MO. unfold cpfile, read in K. rewrite T1 in K. assert (LI : i < fresh f) by (eapply R2; eauto).
    destruct (ent f1 (b_link x)) as [[|j|t]|] eqn:EL.
    - injection K as <- <-. split; [apply W, change_refl|]. split; [discriminate|]. now rewrite EL.
    - injection K as <- <-. cbn [ent fresh]. destruct MO as [MO|MO]; [rewrite MO in E1; specialize (E1 eq_refl eq_refl); congruence|].
      rewrite E1' in * by (left; now rewrite MO). specialize (R3 x I MO). rewrite EL in R3.
      assert (JI : i <> j) by (intros ->; apply (R3 (b_target x)); [congruence | exact ET]).
      split.
      + split; [reflexivity|]. split; [cbn; lia|]. intros k K' N. cbn [cont]. destruct (k =? j) eqn:X; [|reflexivity]. apply Nat.eqb_eq in X. subst k. rewrite MO in N. exfalso. now apply N.
      + split; [|rewrite EL; auto]. intros _. unfold cur. cbn [ent cont]. rewrite ET, EL. split.
        * right. exists j. split; [reflexivity|]. cbn. rewrite Nat.eqb_refl. destruct (i =? j) eqn:X; [apply Nat.eqb_eq in X; contradiction | reflexivity].
        * unfold kind. cbn [ent]. rewrite MO, EL, ET. exists j. split; [reflexivity | congruence].
    - injection K as <- <-. split; [apply W, change_refl|]. split; [discriminate|]. now rewrite EL.
    - destruct (is_dir f1 (removelast (b_link x))) eqn:D.
      + assert (ok' = true) as -> by congruence. assert (f2 = mkfs (ent (put f1 (b_link x) (Some (File (fresh f1))))) (fun j => if j =? fresh f1 then cont f1 i else cont f1 j) (Datatypes.S (fresh f1))) as -> by congruence.
        split.
        * apply W. split; [intros; now apply put_other|]. split; [cbn; lia|]. intros k L _. cbn [cont]. destruct (k =? fresh f1) eqn:X; [apply Nat.eqb_eq in X; lia | reflexivity].
        * cbn [ent cont fresh]. rewrite put_same. split; [|right; right; lia]. intros _. unfold cur. cbn [ent cont]. rewrite put_other by congruence. rewrite T1, put_same. split.
          -- right. exists (fresh f1). split; [reflexivity|]. rewrite Nat.eqb_refl. destruct (i =? fresh f1) eqn:X; [apply Nat.eqb_eq in X; lia | reflexivity].
          -- assert (Z : exists k, ent (put f1 (b_link x) (Some (File (fresh f1)))) (b_link x) = Some (File k) /\ ent (put f1 (b_link x) (Some (File (fresh f1)))) (b_target x) <> Some (File k)).
             { exists (fresh f1). rewrite put_same, put_other, T1 by congruence. split; [reflexivity|]. intros Z. injection Z as Z. lia. }
             unfold kind. cbn [ent]. destruct MO as [-> | ->]; exact Z.
      + injection K as <- <-. split; [apply W, change_refl|]. split; [discriminate|]. now rewrite EL. }
  destruct (b_mode x) eqn:MO; cbn [is_over] in *.
  - destruct sym_ok eqn:SY; [apply SYM; auto | apply HARD; auto].
  - apply SYM; auto.
  - apply HARD; auto.
  - apply CP; auto.
  - apply CP; auto.
Qed.

Lemma regular_step f x xs ok f' : sane xs -> regular f xs -> In x xs -> update_backlink f x = (ok, f') -> regular f' xs.
Proof.
  intros S R I U. destruct (step _ _ _ _ _ S R I U) as ((A & B & C) & _ & J). destruct R as (R1 & R2 & R3).
  assert (NEW : forall q i, ent f' q = Some (File i) -> i < fresh f').
  { intros q i E. destruct (dir_eqb q (b_link x)) eqn:Q.
    - apply dir_eqb_iff in Q. subst q. rewrite E in J. destruct J as [J|[J|J]]; [|apply R2 in J; lia|lia].
      destruct (ent f (b_target x)) as [[|k|t]|] eqn:T; try contradiction. subst k. apply R2 in T. lia.
    - rewrite A in E by (intros ->; now rewrite dir_eqb_refl in Q). apply R2 in E. lia. }
  split; [|split; [exact NEW|]].
  - intros y Y. rewrite A by (intros E; apply (proj1 (proj2 (proj2 S)) x y I Y); congruence). now apply R1.
  - intros y Y MO. destruct (dir_eqb (b_link y) (b_link x)) eqn:Q.
    + apply dir_eqb_iff in Q. assert (y = x) as ->.
      { destruct S as (D & _). clear - D Q I Y. induction xs as [|z xs IH]; [destruct I|]. cbn in D. inversion D as [|? ? N D']; subst.
        destruct I as [<-|I], Y as [<-|Y]; auto; exfalso; apply N; [rewrite <- Q | rewrite Q]; now apply in_map. }
      (* what the link is after overwriting *)
      specialize (R3 x I MO). unfold BackModel.update_backlink, rmbacklink in U. rewrite MO in U. cbn [is_over andthen] in U.
      destruct (read f (b_target x)) as [c|] eqn:RD; [|injection U as <- <-; exact R3]. unfold cpfile in U. rewrite RD in U.
      destruct (ent f (b_link x)) as [[|j|t]|] eqn:E; try contradiction.
      * injection U as <- <-. cbn [ent]. rewrite E. exact R3.
      * destruct (is_dir f (removelast (b_link x))); [|injection U as <- <-; now rewrite E].
        assert (f' = mkfs (ent (put f (b_link x) (Some (File (fresh f))))) (fun j => if j =? fresh f then c else cont f j) (Datatypes.S (fresh f))) as -> by congruence.
        cbn [ent]. rewrite put_same. intros q N K. rewrite put_other in K by exact N. apply R2 in K. lia.
    + assert (QN : b_link y <> b_link x) by (intros X; rewrite X, dir_eqb_refl in Q; discriminate). rewrite A by exact QN. specialize (R3 y Y MO). destruct (ent f (b_link y)) as [[|j|t]|] eqn:E; auto.
      intros q N K. destruct (dir_eqb q (b_link x)) eqn:QX.
      * apply dir_eqb_iff in QX. subst q. rewrite K in J. destruct J as [J|[J|J]].
        -- destruct (ent f (b_target x)) as [[|k|t]|] eqn:T; try contradiction. subst k. apply (R3 (b_target x)); [|exact T].
           intros X. apply (proj1 (proj2 (proj2 S)) y x Y I). now symmetry.
        -- apply (R3 (b_link x)); [congruence | exact J].
        -- apply R2 in E. lia.
      * rewrite A in K by (intros X; rewrite X, dir_eqb_refl in QX; discriminate). now apply (R3 q).
Qed.
Lemma cur_step f x y xs ok f' : sane xs -> regular f xs -> In x xs -> In y xs -> b_link y <> b_link x -> update_backlink f x = (ok, f') -> cur f y -> cur f' y.
Proof.
  intros S R I Y N U C. destruct (step _ _ _ _ _ S R I U) as ((A & B & D) & _ & _). destruct R as (R1 & R2 & R3). unfold cur in *.
  assert (T : b_target y <> b_link x) by (intros E; apply (proj1 (proj2 (proj2 S)) x y I Y); congruence). rewrite !A by auto.
  destruct (ent f (b_target y)) as [[|i|t]|] eqn:E; auto.
  assert (K : forall q j, q <> b_link x -> ent f q = Some (File j) -> cont f' j = cont f j).
  { intros q j Q F. apply D; [eapply R2; eauto|]. intros O L. assert (MO : b_mode x = Overwrite) by (now destruct (b_mode x)). specialize (R3 x I MO). rewrite L in R3. now apply (R3 q). }
  destruct C as (C & KD). split; [|revert KD; apply kind_eq; apply A; auto]. destruct C as [C|(j & C & V)]; [now left|]. right. exists j. split; [exact C|]. rewrite (K (b_link y) j N C), (K (b_target y) i T E). exact V.
Qed.

Lemma update_all_ok xs0 xs f f' : sane xs0 -> regular f xs0 -> (forall x, In x xs -> In x xs0) -> NoDup (map b_link xs) ->
  update_all f xs = (true, f') -> regular f' xs0 /\ (forall x, In x xs -> cur f' x) /\
  (forall y, In y xs0 -> ~ In (b_link y) (map b_link xs) -> cur f y -> cur f' y).
Proof.
  intros S. revert f. induction xs as [|x xs IH]; intros f R I D U; cbn [BackModel.update_all] in U.
  - injection U as <-. repeat split; auto; try apply R. intros x [].
  - destruct (update_backlink f x) as [ok f1] eqn:X. destruct ok; cbn [andthen] in U; [|discriminate]. cbn in D. inversion D as [|? ? N D']; subst.
    destruct (step _ _ _ _ _ S R (I x (or_introl eq_refl)) X) as (_ & C & _). pose proof (regular_step _ _ _ _ _ S R (I x (or_introl eq_refl)) X) as R'.
    destruct (IH f1 R' (fun y Y => I y (or_intror Y)) D' U) as (R'' & A & B). split; [exact R''|]. split.
    + intros y [<-|Y]; [|now apply A]. apply B; auto. apply I. now left.
    + intros y Y M C'. apply B; auto; [intros K; apply M; now right|]. eapply (cur_step f x y xs0); eauto; [apply I; now left|]. intros E. apply M. left. now symmetry.
Qed.

(* What any execution changes. *)
Lemma update_all_change xs0 xs f ok f' : sane xs0 -> regular f xs0 -> (forall x, In x xs -> In x xs0) -> update_all f xs = (ok, f') ->
  regular f' xs0 /\ fresh f <= fresh f' /\ (forall q, ~ In q (map b_link xs) -> ent f' q = ent f q) /\
  (forall q i, ~ In q (map b_link xs) -> ent f q = Some (File i) -> cont f' i = cont f i).
Proof.
  intros S. revert f. induction xs as [|x xs IH]; intros f R I U; cbn [BackModel.update_all] in U.
  - injection U as _ <-. repeat split; auto; apply R.
  - destruct (update_backlink f x) as [ok1 f1] eqn:X.
    destruct (step _ _ _ _ _ S R (I x (or_introl eq_refl)) X) as ((A & B & D) & _ & _). pose proof (regular_step _ _ _ _ _ S R (I x (or_introl eq_refl)) X) as R'.
    assert (K : forall q i, q <> b_link x -> ent f q = Some (File i) -> cont f1 i = cont f i).
    { intros q i Q F. apply D; [eapply (proj1 (proj2 R)); eauto|]. intros O L. assert (MO : b_mode x = Overwrite) by (now destruct (b_mode x)).
      pose proof (proj2 (proj2 R) x (I x (or_introl eq_refl)) MO) as R3. rewrite L in R3. now apply (R3 q). }
    destruct ok1; cbn [andthen] in U.
    + destruct (IH f1 R' (fun y Y => I y (or_intror Y)) U) as (R'' & L & E & C). split; [exact R''|]. split; [lia|]. split.
      * intros q N. cbn in N. rewrite E by tauto. apply A. intros ->. apply N. now left.
      * intros q i N F. cbn in N. assert (q <> b_link x) by (intros ->; apply N; now left). rewrite (C q) by (try tauto; rewrite A; auto). now apply (K q).
    + injection U as _ <-. split; [exact R'|]. split; [exact B|]. split.
      * intros q N. apply A. intros ->. apply N. now left.
      * intros q i N F. apply (K q); [|exact F]. intros ->. apply N. now left.
Qed.

Lemma mkdir_p_inv n f d ok f' : n <= length d -> mkdir_p n f d = (ok, f') -> cont f' = cont f /\ fresh f' = fresh f /\
  (forall q, ent f' q = ent f q \/ ent f q = None /\ ent f' q = Some Dir /\ q <> [] /\ below d q) /\ (ok = true -> is_dir f' (firstn n d) = true).
Proof.
  revert f f' ok. induction n as [|n IH]; intros f f' ok L M.
  - cbn in M. injection M as <- <-. repeat split; auto.
  - cbn [mkdir_p] in M. destruct (mkdir_p n f d) as [ok1 f1] eqn:M1. destruct (IH f f1 ok1 ltac:(lia) M1) as (C & F & E & _).
    assert (NE : firstn (S n) d <> []) by (destruct d; [cbn in L; lia | discriminate]).
    assert (ISD : forall f, ent f (firstn (S n) d) = Some Dir -> is_dir f (firstn (S n) d) = true) by (intros g G; unfold is_dir; rewrite G; now destruct (firstn (S n) d)).
    destruct ok1; cbn [andthen] in M.
    + destruct (ent f1 (firstn (S n) d)) as [[|i|t]|] eqn:X.
      * injection M as <- <-. repeat split; auto.
      * injection M as <- <-. repeat split; auto. discriminate.
      * injection M as <- <-. repeat split; auto. discriminate.
      * injection M as <- <-. split; [exact C|]. split; [exact F|]. split.
        -- intros q. destruct (dir_eqb q (firstn (S n) d)) eqn:Q.
           ++ apply dir_eqb_iff in Q. subst q. rewrite put_same. right. destruct (E (firstn (S n) d)) as [Y|(Y & Z & _)]; [|congruence].
              split; [congruence|]. split; [reflexivity|]. split; [exact NE|]. exists (skipn (S n) d). now rewrite firstn_skipn.
           ++ rewrite put_other by (intros ->; rewrite dir_eqb_refl in Q; discriminate). apply E.
        -- intros _. apply ISD. apply put_same.
    + injection M as <- <-. repeat split; auto. discriminate.
Qed.
Lemma mkdir_regular f x xs ok f' : sane xs -> regular f xs -> In x xs -> mkdir_p (length (removelast (b_link x))) f (removelast (b_link x)) = (ok, f') -> regular f' xs.
Proof.
  intros S (R1 & R2 & R3) I M. apply mkdir_p_inv in M as (C & F & E & _); [|reflexivity]. destruct S as (_ & _ & _ & S4 & S5).
  assert (B : forall q i, ent f' q = Some (File i) -> ent f q = Some (File i)) by (intros q i Q; destruct (E q) as [X|(_ & X & _)]; congruence).
  split; [|split].
  - intros y Y. destruct (E (b_target y)) as [-> |(_ & _ & _ & X)]; [now apply R1|]. exfalso. now apply (S5 x y I Y).
  - intros q i Q. rewrite F. eapply R2; eauto.
  - intros y Y MO. specialize (R3 y Y MO). destruct (E (b_link y)) as [-> |(_ & _ & _ & X)]; [|exfalso; now apply (S4 y x Y I)].
    destruct (ent f (b_link y)) as [[|j|t]|]; auto. intros q N Q. apply (R3 q N). now apply B.
Qed.

Lemma drop_gone xs f : (forall x, In x xs -> b_mode x <> Overwrite -> gone (drop f xs) x) /\ cont (drop f xs) = cont f /\ (forall q, ~ In q (map b_link xs) -> ent (drop f xs) q = ent f q) /\
  (forall q, ent f q = None \/ ent f q = Some Dir -> ent (drop f xs) q = ent f q).
Proof.
  unfold drop. revert f. induction xs as [|x xs IH]; intros f; cbn [fold_left].
  - repeat split; auto. intros x [].
  - destruct (rmbacklink f x) as [ok f1] eqn:M. cbn [snd]. destruct (IH f1) as (A & B & C & D).
    assert (K : cont f1 = cont f /\ (forall q, q <> b_link x -> ent f1 q = ent f q) /\ (forall q, ent f q = None \/ ent f q = Some Dir -> ent f1 q = ent f q) /\ (b_mode x <> Overwrite -> gone f1 x)).
    { unfold rmbacklink in M. destruct (is_over (b_mode x)) eqn:O.
      - injection M as _ <-. repeat split; auto. intros N. exfalso. apply N. now destruct (b_mode x).
      - unfold rm in M. destruct (ent f (b_link x)) as [[|i|t]|] eqn:E; injection M as _ <-; (split; [reflexivity|]); (split; [intros; now rewrite ?put_other|]); split.
        all: try (intros q Q; reflexivity). all: unfold gone; rewrite ?put_same; auto.
        all: intros q Q; destruct (dir_eqb q (b_link x)) eqn:X; [apply dir_eqb_iff in X; subst q; rewrite E in Q; destruct Q; discriminate | apply put_other; intros ->; rewrite dir_eqb_refl in X; discriminate]. }
    destruct K as (K1 & K2 & K3 & K4). split; [|split; [congruence|split]].
    + intros y [<-|Y] MO; [|now apply A]. specialize (K4 MO). unfold gone in *. rewrite D; auto.
    + intros q N. cbn in N. rewrite C by tauto. apply K2. intros ->. apply N. now left.
    + intros q Q. rewrite D; [now apply K3|]. rewrite K3; auto.
Qed.
End Env.
