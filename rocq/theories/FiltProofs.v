(* Proofs about config.test. *)
From Verif Require Import Base FiltModel FiltSpec.

Lemma sub_iff p q : sub p q = true <-> prefix q p.
Proof.
  revert p. induction q as [| y q IH]; intros p.
  - split; [intros _; apply prefix_nil | destruct p; reflexivity].
  - destruct p as [| x p]; cbn; [split; [discriminate | intros [z H]; discriminate] |]. rewrite andb_true_iff, beqb_eq, IH. split.
    + intros [-> [z ->]]. exists z. reflexivity.
    + intros [z H]. injection H as -> ->. split; [reflexivity | exists z; reflexivity].
Qed.
Lemma same_path_iff p q : same_path p q = true <-> p = q.
Proof.
  revert q. induction p as [| x p IH]; intros [| y q]; cbn; try (split; congruence).
  rewrite andb_true_iff, beqb_eq, IH. split; [intros [-> ->]; reflexivity | intros [= -> ->]; auto].
Qed.
Lemma components_app x s : slash_free x -> components (x ++ b "/" ++ s) = x :: components s.
Proof.
  induction x as [| c x IH]; intros H; cbn; [reflexivity |]. destruct (ceqb c "/") eqn:E.
  - exfalso. apply H. left. apply ceqb_eq in E. exact E.
  - change ("/"%char :: s) with (b "/" ++ s). rewrite IH; [reflexivity |]. intros K. apply H. right. exact K.
Qed.
Lemma components_free x : slash_free x -> components x = [x].
Proof.
  induction x as [| c x IH]; intros H; cbn; [reflexivity |]. destruct (ceqb c "/") eqn:E.
  - exfalso. apply H. left. apply ceqb_eq in E. exact E.
  - rewrite IH; [reflexivity |]. intros K. apply H. right. exact K.
Qed.
Lemma id_path_joined p : p <> [] -> Forall (fun c => c <> [] /\ slash_free c) p -> id_path (joined p) = p.
Proof.
  intros N F. unfold id_path. assert (C : components (joined p) = p).
  { clear - N F. induction F as [| x p [_ S] F IH]; [congruence |]. destruct p as [| y p]; [apply components_free, S |].
    cbn [joined]. rewrite components_app by exact S. f_equal. apply IH. discriminate. }
  rewrite C. clear C N. induction F as [| x p [N _] F IH]; [reflexivity |]. cbn. destruct x; [congruence |]. cbn. rewrite IH. reflexivity.
Qed.

Lemma joined_nonempty p : p <> [] -> Forall (fun c => c <> [] /\ slash_free c) p -> joined p <> [].
Proof. intros N F. inversion F as [| x r [Nx _] _]; subst; [congruence |]. destruct x; [congruence |]. destruct r; discriminate. Qed.
Lemma written_id_ok p m : WrittenId p m -> simple m = true /\ empty m = false /\ typed m = false /\ no_path (dir m) = true /\ pair m = false /\ id_path (value m) = p.
Proof.
  intros (Q & D & T & P & V & N & F). unfold simple, empty, typed. rewrite Q, D, T, P, V. pose proof (joined_nonempty p N F) as J.
  rewrite id_path_joined by assumption. destruct (joined p); [congruence |]. repeat split.
Qed.
Lemma written_target_ok w n : WrittenTarget w n -> qualified n = false /\ typed n || negb (no_path (dir n)) = true.
Proof.
  destruct w as [d | d t v]; cbn.
  - intros (Q & D & N & T & V). split; [exact Q |]. rewrite D. destruct d; [congruence |]. apply orb_true_r.
  - intros (Q & D & T & N & V). split; [exact Q |]. unfold typed. rewrite T. destruct t; [congruence | reflexivity].
Qed.
Lemma sense_target w n r : WrittenTarget w n -> pair n = false -> sense n r = Some (Some n, None, r).
Proof. intros W P. destruct (written_target_ok w n W) as [Q T]. unfold sense. rewrite P, T. cbn. rewrite Q. reflexivity. Qed.
Lemma sense_id p n r : WrittenId p n -> sense n r = Some (None, Some n, r).
Proof. intros W. destruct (written_id_ok p n W) as (S & E & T & D & P & _). unfold sense. rewrite P, T, D. cbn. rewrite S, E. reflexivity. Qed.
Lemma sense_both w p n m r : WrittenTarget w n -> pair n = true -> WrittenId p m -> sense n (m :: r) = Some (Some n, Some m, r).
Proof.
  intros W P I. destruct (written_target_ok w n W) as [Q _]. destruct (written_id_ok p m I) as (S & E & _). unfold sense. rewrite P. cbn.
  rewrite Q, S, E. reflexivity.
Qed.

Section Search.
Context (search : name -> target -> bool) (denotes : path -> bytes -> bytes -> target -> Prop).
Context (search_ok : forall n d y v t, TypedName n d y v -> (tdir t = d /\ ttype t = y /\ tname t = v /\ search n t = true <-> denotes d y v t)).
Notation Matches := (Matches denotes).
Notation Tested := (Tested denotes).
Notation Asked := (Asked denotes).
Notation Executed := (Executed denotes).

Lemma is_target_iff w n t : WrittenTarget w n -> is_target search n t = true <-> Matches w t.
Proof.
  intros W. unfold is_target. destruct w as [d | d y v]; cbn in W |- *.
  - destruct W as (Q & D & N & T & V). unfold typed. rewrite T, D. cbn. apply sub_iff.
  - rewrite <- (search_ok n d y v t W). destruct W as (Q & D & T & N & V). unfold typed. rewrite T, D, V. destruct y as [| c y]; [congruence |]. cbn [no_bytes negb].
    rewrite !andb_true_iff, !beqb_eq, same_path_iff. tauto.
Qed.

Lemma test_spec es ns t : Written es ns -> forall fuel r, length ns <= fuel ->
  exists r', test_loop search fuel r t ns = Some r' /\
  (r' = true <-> (exists e w, In e es /\ target_of e = Some w /\ Matches w t) \/ (Forall (fun e => target_of e = None) es /\ r = true)).
Proof.
  induction 1 as [| w n es ns W P H IH | p n es ns I H IH | w p n m es ns W P I H IH]; intros fuel r L.
  - exists r. split; [destruct fuel; reflexivity |]. split; [intros ->; right; auto |]. intros [(e & w & [] & _) | [_ E]]. exact E.
  - destruct fuel as [| fuel]; cbn in L; [lia |]. cbn [test_loop]. rewrite (sense_target w n ns W P). destruct (is_target search n t) eqn:M.
    + exists true. split; [reflexivity |]. split; [| reflexivity]. intros _. left. exists (ETarget w), w. split; [left; reflexivity |].
      split; [reflexivity |]. apply (is_target_iff w n t W), M.
    + destruct (IH fuel false ltac:(lia)) as (r' & E & K). exists r'. split; [exact E |]. rewrite K. split.
      * intros [(e & w' & He & Te & Me) | [_ F]]; [left; exists e, w'; auto using in_cons | discriminate].
      * intros [(e & w' & [<- | He] & Te & Me) | [F _]].
        -- exfalso. injection Te as <-. apply (is_target_iff w n t W) in Me. congruence.
        -- left. exists e, w'. auto.
        -- inversion F; subst. discriminate.
  - destruct fuel as [| fuel]; cbn in L; [lia |]. cbn [test_loop]. rewrite (sense_id p n ns I).
    destruct (IH fuel r ltac:(lia)) as (r' & E & K). exists r'. split; [exact E |]. rewrite K. split.
    + intros [(e & w' & He & Te & Me) | [F R]]; [left; exists e, w'; auto using in_cons | right; auto].
    + intros [(e & w' & [<- | He] & Te & Me) | [F R]]; [discriminate | left; exists e, w'; auto |]. inversion F; subst. right. auto.
  - destruct fuel as [| fuel]; cbn in L; [lia |]. cbn [test_loop]. rewrite (sense_both w p n m ns W P I). destruct (is_target search n t) eqn:M.
    + exists true. split; [reflexivity |]. split; [| reflexivity]. intros _. left. exists (EBoth w p), w. split; [left; reflexivity |].
      split; [reflexivity |]. apply (is_target_iff w n t W), M.
    + destruct (IH fuel false ltac:(lia)) as (r' & E & K). exists r'. split; [exact E |]. rewrite K. split.
      * intros [(e & w' & He & Te & Me) | [_ F]]; [left; exists e, w'; auto using in_cons | discriminate].
      * intros [(e & w' & [<- | He] & Te & Me) | [F _]].
        -- exfalso. injection Te as <-. apply (is_target_iff w n t W) in Me. congruence.
        -- left. exists e, w'. auto.
        -- inversion F; subst. discriminate.
Qed.

Definition leads (d : path) (w : what) : Prop :=
  match w with Under d' => prefix d d' \/ prefix d' d | Target d' _ _ => prefix d d' end.
Lemma pass_entry d w n : WrittenTarget w n ->
  (let r := sub (dir n) d in if negb r && negb (typed n) then sub d (dir n) else r) = true <-> leads d w.
Proof.
  destruct w as [d' | d' y v]; cbn.
  - intros (Q & D & N & T & V). unfold typed. rewrite T, D. cbn. destruct (sub d' d) eqn:S; cbn.
    + apply sub_iff in S. tauto.
    + rewrite sub_iff. split; [auto |]. intros [K | K]; [apply sub_iff in K; congruence | exact K].
  - intros (Q & D & T & N & V). unfold typed. rewrite T, D. destruct y; [congruence |]. cbn. rewrite andb_false_r. apply sub_iff.
Qed.
Lemma pass_spec es ns d : Written es ns -> forall fuel r, length ns <= fuel ->
  exists r', pass_loop fuel r d ns = Some r' /\
  (r' = true <-> (exists e w, In e es /\ target_of e = Some w /\ leads d w) \/ (Forall (fun e => target_of e = None) es /\ r = true)).
Proof.
  assert (T : forall e w n es (rest : list name) (k : nat -> bool -> option bool), target_of e = Some w -> WrittenTarget w n ->
    (forall r, exists r', k 0 r = Some r' /\ (r' = true <-> (exists e w, In e es /\ target_of e = Some w /\ leads d w) \/ (Forall (fun e => target_of e = None) es /\ r = true))) ->
    exists r', (let r := sub (dir n) d in let r := if negb r && negb (typed n) then sub d (dir n) else r in if r then Some true else k 0 r) = Some r' /\
    (r' = true <-> (exists e' w, In e' (e :: es) /\ target_of e' = Some w /\ leads d w) \/ (Forall (fun e => target_of e = None) (e :: es) /\ false = true))).
  { clear es ns. intros e w n es rest k Te W IH. pose proof (pass_entry d w n W) as P. cbn zeta in *.
    destruct (if negb (sub (dir n) d) && negb (typed n) then sub d (dir n) else sub (dir n) d).
    - exists true. split; [reflexivity |]. split; [| reflexivity]. intros _. left. exists e, w. split; [left; reflexivity |]. split; [exact Te |]. apply P. reflexivity.
    - destruct (IH false) as (r' & E & K). exists r'. split; [exact E |]. rewrite K. split.
      + intros [(e' & w' & He & Te' & Me) | [_ F]]; [left; exists e', w'; auto using in_cons | discriminate].
      + intros [(e' & w' & [<- | He] & Te' & Me) | [_ F]]; [| left; exists e', w'; auto | discriminate].
        exfalso. rewrite Te in Te'. injection Te' as <-. apply P in Me. discriminate. }
  induction 1 as [| w n es ns W P H IH | p n es ns I H IH | w p n m es ns W P I H IH]; intros fuel r L.
  - exists r. split; [destruct fuel; reflexivity |]. split; [intros ->; right; auto |]. intros [(e & w & [] & _) | [_ E]]. exact E.
  - destruct fuel as [| fuel]; cbn in L; [lia |]. cbn [pass_loop]. rewrite (sense_target w n ns W P).
    destruct (T (ETarget w) w n es ns (fun _ r => pass_loop fuel r d ns) eq_refl W (fun r => IH fuel r ltac:(lia))) as (r' & E & K).
    exists r'. split; [exact E |]. rewrite K. split; (intros [X | [X Y]]; [left; exact X |]); [discriminate |]. inversion X; subst; discriminate.
  - destruct fuel as [| fuel]; cbn in L; [lia |]. cbn [pass_loop]. rewrite (sense_id p n ns I).
    destruct (IH fuel r ltac:(lia)) as (r' & E & K). exists r'. split; [exact E |]. rewrite K. split.
    + intros [(e & w' & He & Te & Me) | [F R]]; [left; exists e, w'; auto using in_cons | right; auto].
    + intros [(e & w' & [<- | He] & Te & Me) | [F R]]; [discriminate | left; exists e, w'; auto |]. inversion F; subst. right. auto.
  - destruct fuel as [| fuel]; cbn in L; [lia |]. cbn [pass_loop]. rewrite (sense_both w p n m ns W P I).
    destruct (T (EBoth w p) w n es ns (fun _ r => pass_loop fuel r d ns) eq_refl W (fun r => IH fuel r ltac:(lia))) as (r' & E & K).
    exists r'. split; [exact E |]. rewrite K. split; (intros [X | [X Y]]; [left; exact X |]); [discriminate |]. inversion X; subst; discriminate.
Qed.

Lemma asked_cons e es t p : Asked (e :: es) t p <-> match e with EId q => p = q | EBoth w q => p = q /\ Matches w t | ETarget _ => False end \/ Asked es t p.
Proof.
  unfold FiltSpec.Asked. cbn. split.
  - intros [[-> | H] | (w & [-> | H] & M)]; [left; reflexivity | right; left; exact H | left; auto | right; right; eauto].
  - intros [H | [H | (w & H & M)]]; [| left; right; exact H | right; exists w; auto]. destruct e as [w | q | w q].
    + contradiction.
    + subst. left. left. reflexivity.
    + destruct H as [-> M]. right. exists w. auto.
Qed.
Lemma test_id_spec es ns t id : Written es ns -> forall fuel r, length ns <= fuel ->
  exists r', test_id_loop search fuel r t id ns = Some r' /\
  (r' = true <-> (exists p, Asked es t p /\ (prefix p id \/ prefix id p)) \/ ((forall p, ~ Asked es t p) /\ r = true)).
Proof.
  assert (N : forall p n r, WrittenId p n -> exists x, sub (id_path (value n)) id || sub id (id_path (value n)) = x /\ (x = true <-> prefix p id \/ prefix id p) /\ r = r :> nat).
  { intros p n r I. destruct (written_id_ok p n I) as (_ & _ & _ & _ & _ & ->). eexists. split; [reflexivity |]. rewrite orb_true_iff, !sub_iff. tauto. }
  induction 1 as [| w n es ns W P H IH | p n es ns I H IH | w p n m es ns W P I H IH]; intros fuel r L.
  - exists r. split; [destruct fuel; reflexivity |]. split.
    + intros ->. right. split; [| reflexivity]. intros p [[] | (w & [] & _)].
    + intros [(p & [[] | (w & [] & _)] & _) | [_ E]]. exact E.
  - destruct fuel as [| fuel]; cbn in L; [lia |]. cbn [test_id_loop]. rewrite (sense_target w n ns W P).
    destruct (IH fuel r ltac:(lia)) as (r' & E & K). exists r'. split; [exact E |]. rewrite K. setoid_rewrite asked_cons. split.
    + intros [(q & A & B) | [F R]]; [left; exists q; auto |]. right. split; [| exact R]. intros q [[] | Y]. apply (F q), Y.
    + intros [(q & [[] | A] & B) | [F R]]; [left; exists q; auto |]. right. split; [| exact R]. intros q Y. apply (F q). auto.
  - destruct fuel as [| fuel]; cbn in L; [lia |]. cbn [test_id_loop]. rewrite (sense_id p n ns I).
    destruct (N p n 0 I) as (x & Ex & X & _). cbn zeta. rewrite Ex. destruct x.
    + exists true. split; [reflexivity |]. split; [| reflexivity]. intros _. left. exists p. split; [apply asked_cons; auto | apply X; reflexivity].
    + destruct (IH fuel false ltac:(lia)) as (r' & E & K). exists r'. split; [exact E |]. rewrite K. setoid_rewrite asked_cons. split.
      * intros [(q & A & B) | [_ F]]; [left; exists q; auto | discriminate].
      * intros [(q & [-> | A] & B) | [F _]]; [apply X in B; discriminate | left; exists q; auto | exfalso; apply (F p); auto].
  - destruct fuel as [| fuel]; cbn in L; [lia |]. cbn [test_id_loop]. rewrite (sense_both w p n m ns W P I).
    pose proof (is_target_iff w n t W) as M. destruct (is_target search n t); cbn [negb].
    + destruct (N p m 0 I) as (x & Ex & X & _). cbn zeta. rewrite Ex. assert (Mt : Matches w t) by (apply M; reflexivity). destruct x.
      * exists true. split; [reflexivity |]. split; [| reflexivity]. intros _. left. exists p. split; [apply asked_cons; auto | apply X; reflexivity].
      * destruct (IH fuel false ltac:(lia)) as (r' & E & K). exists r'. split; [exact E |]. rewrite K. setoid_rewrite asked_cons. split.
        -- intros [(q & A & B) | [_ F]]; [left; exists q; auto | discriminate].
        -- intros [(q & [[-> _] | A] & B) | [F _]]; [apply X in B; discriminate | left; exists q; auto | exfalso; apply (F p); auto].
    + assert (Mt : ~ Matches w t) by (intros Y; apply M in Y; discriminate).
      destruct (IH fuel r ltac:(lia)) as (r' & E & K). exists r'. split; [exact E |]. rewrite K. setoid_rewrite asked_cons. split.
      * intros [(q & A & B) | [F R]]; [left; exists q; auto |]. right. split; [| exact R]. intros q [[_ Y] | Y]; [contradiction | apply (F q), Y].
      * intros [(q & [[_ Y] | A] & B) | [F R]]; [contradiction | left; exists q; auto |]. right. split; [| exact R]. intros q Y. apply (F q). auto.
Qed.
End Search.

Lemma prefix_comparable {A} (p q r : list A) : prefix p r -> prefix q r -> prefix p q \/ prefix q p.
Proof.
  revert q r. induction p as [| x p IH]; intros q r [u E1] [v E2]; [left; apply prefix_nil |]. destruct q as [| y q]; [right; apply prefix_nil |].
  subst r. injection E2 as -> E2. destruct (IH q (q ++ v)) as [H | H]; [exists u; congruence | exists v; reflexivity | left | right]; apply prefix_cons; exact H.
Qed.
