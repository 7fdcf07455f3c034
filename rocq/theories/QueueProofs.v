From Coq Require Import Permutation.
From Verif Require Import Base QueueModel QueueSpec.

Section P.
  Context {A : Type}.
  Variable D : nat.
  Hypothesis HD : 0 < D.

  Notation tq := (@tq A).
  Notation world := (@world A).

  (* The i-th position after h. *)
  Definition pos (h i : nat) : nat := if h + i <? D then h + i else h + i - D.

  Ltac pp := unfold pos, up, down in *; repeat match goal with
    | |- context [?a <? ?b] => destruct (Nat.ltb_spec a b)
    | H : context [?a <? ?b] |- _ => destruct (Nat.ltb_spec a b)
    | |- context [?a =? ?b] => destruct (Nat.eqb_spec a b)
    | H : context [?a =? ?b] |- _ => destruct (Nat.eqb_spec a b)
    end; cbn [negb] in *.

  Lemma pos_lt h i : h < D -> i <= D -> pos h i < D.
  Proof. intros. pp; lia. Qed.
  Lemma pos_inj h i j : h < D -> i < D -> j < D -> pos h i = pos h j -> i = j.
  Proof. intros. pp; lia. Qed.
  Lemma pos_0 h : h < D -> pos h 0 = h.
  Proof. intros. pp; lia. Qed.
  Lemma up_pos h i : h < D -> i < D -> up D (pos h i) = pos h (S i).
  Proof. intros. pp; lia. Qed.
  Lemma pos_up h i : h < D -> i < D -> pos (up D h) i = pos h (S i).
  Proof. intros. pp; lia. Qed.
  Lemma down_pos h i : h < D -> i < D -> down D (pos h (S i)) = pos h i.
  Proof. intros. pp; lia. Qed.
  Lemma up_lt h : h < D -> up D h < D.
  Proof. intros. pp; lia. Qed.

  (* --- representation --- *)

  Definition tail_of (h n : nat) : nat := match n with 0 => h | S k => pos h k end.

  Definition Rep (q : tq) (c : list A) : Prop :=
    t_size q = length c /\ length c <= D /\ t_head q < D /\ t_tail q = tail_of (t_head q) (length c) /\
    match t_data q with
    | None => c = []
    | Some d => length d = D /\ forall i x, nth_error c i = Some x -> nth_error d (pos (t_head q) i) = Some (Some x)
    end.

  Lemma Rep_mark q c m : Rep q c -> Rep (set_mark q m) c.
  Proof. intros H. exact H. Qed.

  Lemma rep_new : Rep (new_queue D) [].
  Proof.
    split; [reflexivity|]. split; [simpl; lia|]. split; [exact HD|]. split; [reflexivity|].
    split; [apply repeat_length|]. intros [|i] x H; discriminate.
  Qed.

  Lemma rep_none : Rep no_queue [].
  Proof. repeat split; simpl; auto; lia. Qed.

  Lemma upd_length {X} (l : list X) i x : length (upd l i x) = length l.
  Proof. revert i; induction l as [|y l IH]; intros [|i]; simpl; auto. Qed.

  Lemma nth_upd {X} (l : list X) i x j :
    nth_error (upd l i x) j = if (i =? j) && (i <? length l) then Some x else nth_error l j.
  Proof.
    revert i j; induction l as [|y l IH]; intros i j; simpl.
    - rewrite andb_false_r. destruct j; reflexivity.
    - destruct i as [|i], j as [|j]; simpl; try reflexivity. apply IH.
  Qed.

  Lemma push_rep q c x : Rep q c ->
    if length c =? D then push D q x = Full
    else exists q', push D q x = Pushed q' /\ Rep q' (c ++ [x]) /\ t_head q' = t_head q /\
         t_mark q' = if t_mark q =? D then pos (t_head q) (length c) else t_mark q.
  Proof.
    intros [Hs [Hl [Hh [Ht Hd]]]]. unfold push. rewrite Hs. destruct (Nat.eqb_spec (length c) D) as [E|E]; [reflexivity|].
    cbn [negb].
    set (t := if negb (length c =? 0) then up D (t_tail q) else t_tail q).
    assert (t = pos (t_head q) (length c)) as Et.
    { unfold t. rewrite Ht. unfold tail_of. destruct (length c) as [|k]; simpl; [rewrite pos_0; auto|]. apply up_pos; lia. }
    set (d := match t_data q with Some d => d | None => new_data D end).
    assert (length d = D) as Ed.
    { unfold d. destruct (t_data q); [apply Hd|apply repeat_length]. }
    assert (t < D) as Htl by (rewrite Et; apply pos_lt; lia).
    assert (t <? length d = true) as -> by (apply Nat.ltb_lt; lia).
    eexists. split; [reflexivity|]. cbn [t_head t_mark]. split; [|split; [reflexivity|]].
    - unfold Rep. cbn [t_size t_head t_tail t_data]. rewrite app_length. cbn [length].
      split; [lia|]. split; [lia|]. split; [exact Hh|]. split.
      + rewrite Et. replace (length c + 1) with (S (length c)) by lia. reflexivity.
      + split; [rewrite upd_length; exact Ed|]. intros i y Hi. rewrite nth_upd.
        destruct (Nat.lt_ge_cases i (length c)) as [Hlt|Hge].
        * rewrite nth_error_app1 in Hi by exact Hlt.
          assert (t =? pos (t_head q) i = false) as ->.
          { apply Nat.eqb_neq. rewrite Et. intros Hx. apply pos_inj in Hx; lia. }
          cbn [andb]. unfold d. destruct (t_data q); [apply Hd; exact Hi|]. subst c. simpl in Hlt. lia.
        * rewrite nth_error_app2 in Hi by exact Hge. destruct (i - length c) as [|k] eqn:Ek; [|destruct k; discriminate].
          injection Hi as <-. replace i with (length c) by lia. rewrite Et, Nat.eqb_refl.
          assert (pos (t_head q) (length c) <? length d = true) as -> by (apply Nat.ltb_lt; lia). reflexivity.
    - rewrite Et. reflexivity.
  Qed.

  Lemma at_index_rep q c i x : Rep q c -> nth_error c i = Some x -> at_index q (pos (t_head q) i) = Some x.
  Proof.
    intros [_ [_ [_ [_ Hd]]]] Hi. unfold at_index. destruct (t_data q); [|subst; destruct i; discriminate].
    rewrite (proj2 Hd _ _ Hi). reflexivity.
  Qed.

  Lemma pop_front_rep q x c : Rep q (x :: c) ->
    exists q', pop_front D q = Some (x, q') /\ Rep q' c /\
      t_mark q' = (if (length c =? 0) || (t_head q =? t_mark q) then t_head q' else t_mark q) /\
      t_head q' = (if length c =? 0 then t_head q else up D (t_head q)).
  Proof.
    intros H. pose proof H as [Hs [Hl [Hh [Ht Hd]]]]. unfold pop_front.
    assert (at_index q (t_head q) = Some x) as ->.
    { rewrite <- (pos_0 (t_head q) Hh) at 1. eapply at_index_rep; [exact H|reflexivity]. }
    eexists. split; [reflexivity|]. cbn [t_head t_mark]. rewrite Hs. cbn [length] in *.
    replace (S (length c) - 1) with (length c) by lia.
    assert (negb (S (length c) =? 1) = negb (length c =? 0)) as -> by (destruct (length c); reflexivity).
    split; [|split; [reflexivity|destruct (length c =? 0); reflexivity]].
    unfold Rep. cbn [t_size t_head t_tail t_data]. split; [reflexivity|]. split; [lia|].
    destruct (Nat.eqb_spec (length c) 0) as [E|E]; cbn [negb].
    - split; [exact Hh|]. rewrite E in *. split; [rewrite Ht; simpl; apply pos_0; exact Hh|].
      destruct (t_data q); [|discriminate]. split; [apply Hd|]. destruct c; [|discriminate]. intros [|i] y Hi; discriminate.
    - split; [apply up_lt; exact Hh|]. split.
      + rewrite Ht. simpl. destruct (length c) as [|k] eqn:Ek; [lia|]. simpl. rewrite pos_up by lia. reflexivity.
      + destruct (t_data q); [|discriminate]. split; [apply Hd|]. intros i y Hi.
        assert (i < length c) by (apply nth_error_Some; congruence).
        rewrite pos_up by lia. apply (proj2 Hd). exact Hi.
  Qed.

  Lemma pop_back_rep q c x : Rep q (c ++ [x]) ->
    exists q', pop_back_begin D q = Some (x, FPop (t_tail q =? t_mark q) (t_mark q), q') /\ Rep q' c /\
      t_mark q' = D /\ t_head q' = t_head q.
  Proof.
    intros H. pose proof H as [Hs [Hl [Hh [Ht Hd]]]]. rewrite app_length in *. cbn [length] in *.
    replace (length c + 1) with (S (length c)) in * by lia. simpl in Ht.
    unfold pop_back_begin. rewrite Ht.
    assert (nth_error (c ++ [x]) (length c) = Some x) as Hn by (rewrite nth_error_app2, Nat.sub_diag by lia; reflexivity).
    rewrite (at_index_rep q _ _ _ H Hn). rewrite <- Ht. eexists. split; [reflexivity|]. cbn [t_head t_mark].
    split; [|split; reflexivity]. unfold Rep. cbn [t_size t_head t_tail t_data]. rewrite Hs.
    split; [lia|]. split; [lia|]. split; [exact Hh|]. split.
    - rewrite Ht. destruct (length c) as [|k]; [simpl; apply pos_0; exact Hh|].
      change (negb (S (S k) =? 1)) with true. cbn [tail_of]. apply down_pos; lia.
    - destruct (t_data q).
      + split; [apply Hd|]. intros i y Hi. apply (proj2 Hd). rewrite nth_error_app1; [exact Hi|].
        apply nth_error_Some. congruence.
      + destruct c; discriminate.
  Qed.

  (* --- C14: refinement to a deque --- *)

  Lemma snoc_case (c : list A) : c = [] \/ exists c' x, c = c' ++ [x].
  Proof. destruct c as [|y c] using rev_ind; [auto|right; eauto]. Qed.

  Lemma frame_end_rep f q c : Rep q c -> Rep (frame_end D f q) c.
  Proof.
    intros H. destruct f as [a om|[om|]|om]; simpl; auto.
    - destruct (t_size q =? 0); [exact H|]. destruct a; exact H.
    - destruct (om =? D); exact H.
  Qed.

  Lemma step_deque w o c : Rep (w_q w) c ->
    exists r w' c', step D w o = Some (r, w') /\ Rep (w_q w') c' /\ deque_step D c o r c'.
  Proof.
    intros H. destruct o; cbn [step].
    - pose proof (push_rep (w_q w) c x H) as Hp. destruct (Nat.eqb_spec (length c) D) as [E|E].
      + rewrite Hp. simpl. do 3 eexists. split; [reflexivity|]. split; [exact H|]. apply d_full. exact E.
      + destruct Hp as [q' [-> [Hr _]]]. do 3 eexists. split; [reflexivity|]. split; [exact Hr|].
        apply d_queue. destruct H as [_ [Hl _]]. lia.
    - unfold empty_front. destruct H as [Hs H']. pose proof (conj Hs H') as H. rewrite Hs. destruct c as [|x c]; simpl.
      + do 3 eexists. split; [reflexivity|]. split; [exact H|]. apply d_help_none.
      + destruct (pop_front_rep (w_q w) x c H) as [q' [-> [Hr _]]]. do 3 eexists. split; [reflexivity|].
        split; [exact Hr|apply d_help].
    - destruct (empty_back D (w_q w)) eqn:E.
      + do 3 eexists. split; [reflexivity|]. split; [exact H|apply d_work_none].
      + unfold empty_back in E. apply orb_false_iff in E. destruct E as [E1 E2]. apply Nat.eqb_neq in E1.
        destruct (snoc_case c) as [ -> | [c' [x ->]]]; [exfalso; apply E1; apply H|].
        destruct (pop_back_rep (w_q w) c' x H) as [q' [-> [Hr _]]]. do 3 eexists. split; [reflexivity|].
        split; [exact Hr|apply d_work].
    - unfold queue_mark. destruct (negb (t_mark (w_q w) =? D)); do 3 eexists; (split; [reflexivity|]); split; try exact H; apply d_mark.
    - destruct (w_frames w); do 3 eexists; (split; [reflexivity|]); split; try apply d_end; [exact H|].
      apply frame_end_rep. exact H.
  Qed.

  Lemma run_deque l : forall w c, Rep (w_q w) c ->
    exists rs w' c', run D w l = Some (rs, w') /\ Rep (w_q w') c' /\ deque_run D c l rs c'.
  Proof.
    induction l as [|o l IH]; intros w c H; simpl.
    - do 3 eexists. split; [reflexivity|]. split; [exact H|constructor].
    - destruct (step_deque w o c H) as [r [w1 [c1 [-> [H1 Hd]]]]].
      destruct (IH w1 c1 H1) as [rs [w2 [c2 [-> [H2 Hr]]]]]. do 3 eexists. split; [reflexivity|].
      split; [exact H2|]. econstructor; eauto.
  Qed.

  Lemma deque_perm (c : list A) l rs c' : deque_run D c l rs c' ->
    Permutation (c ++ queued l rs) (handed_out rs ++ c').
  Proof.
    intros H. induction H as [c|c o r c' l rs c'' Hs Hr IH]; simpl; [rewrite app_nil_r; reflexivity|].
    destruct Hs; simpl; auto.
    - rewrite <- app_assoc in IH. exact IH.
    - rewrite <- app_assoc. simpl. eapply Permutation_trans; [apply Permutation_sym, Permutation_middle|].
      constructor. exact IH.
  Qed.

  (* --- C15: levels --- *)

  (* mark [m] of a level with base [b] in a queue with head [h] whose elements
     up to [n] are to be considered *)
  Definition mark_ok (h m b n : nat) : Prop := b = 0 \/ exists j, m = pos h j /\ b <= j < n.

  Definition frame_mark (f : frame) : option nat :=
    match f with
    | FPop true _ => None
    | FPop false om => Some om
    | FMark o => o
    | FFull om => if om =? D then None else Some om
    end.

  (* bases: innermost first; frames f_k separate level k from level k + 1. *)
  Fixpoint frames_ok (h : nat) (fs : list frame) (bs : list nat) : Prop :=
    match fs, bs with
    | [], [b0] => b0 = 0
    | f :: fs', b :: (b' :: _) as bs' =>
        (match frame_mark f with None => True | Some om => mark_ok h om b' b end) /\
        b' <= b /\ frames_ok h fs' (b' :: tl bs')
    | _, _ => False
    end.

  Definition members_ok (c : list A) (b : nat) (L : list A) : Prop :=
    forall i x, b <= i -> nth_error c i = Some x -> In x L.

  Record Lv (w : world) (c : list A) (bs : list nat) (st : list (list A)) : Prop := {
    lv_rep : Rep (w_q w) c;
    lv_le : hd 0 bs <= length c;
    lv_cur : t_mark (w_q w) = D \/ mark_ok (t_head (w_q w)) (t_mark (w_q w)) (hd 0 bs) (length c);
    lv_frames : frames_ok (t_head (w_q w)) (w_frames w) bs;
    lv_mem : Forall2 (members_ok c) bs st
  }.

  Lemma frames_ok_hd h fs bs : frames_ok h fs bs -> exists b r, bs = b :: r.
  Proof. destruct fs, bs as [|b [|b' r]]; simpl; intros H; try destruct H; eauto. Qed.

  Lemma frames_base_le h fs : forall bs b, frames_ok h fs bs -> In b bs -> b <= hd 0 bs.
  Proof.
    induction fs as [|f fs IH]; intros bs b H Hin.
    - destruct bs as [|b0 [|? ?]]; simpl in H; try contradiction. subst. destruct Hin as [<-|[]]. simpl. lia.
    - destruct bs as [|b1 [|b2 r]]; simpl in H; try destruct H. destruct H0 as [Hle H0].
      destruct Hin as [<-|Hin]; [simpl; lia|]. specialize (IH _ b H0 Hin). simpl in *. lia.
  Qed.

  (* pop_front: everything moves by one *)
  Lemma mark_ok_front h m b n h' : h < D -> n <= D -> (h' = up D h \/ n <= 1) -> mark_ok h m b n ->
    mark_ok h' m (b - 1) (n - 1).
  Proof.
    intros Hh Hn Hc [ -> | [j [Hm Hj]]]; [left; reflexivity|].
    destruct j as [|j]; [left; lia|]. destruct Hc as [->|Hc]; [|lia].
    right. exists j. split; [|lia]. rewrite pos_up by lia. exact Hm.
  Qed.

  Lemma frames_front h fs : forall bs h', h < D -> hd 0 bs <= D -> (h' = up D h \/ hd 0 bs <= 1) ->
    frames_ok h fs bs -> frames_ok h' fs (map (fun b => b - 1) bs).
  Proof.
    induction fs as [|f fs IH]; intros bs h' Hh Hn Hc H.
    - destruct bs as [|b0 [|? ?]]; simpl in H; try contradiction. subst. reflexivity.
    - destruct bs as [|b1 [|b2 r]]; simpl in H; try destruct H. destruct H0 as [Hle H0]. simpl in *. split; [|split; [lia|]].
      + destruct (frame_mark f); [|exact I]. eapply mark_ok_front; [exact Hh|exact Hn|exact Hc|exact H].
      + apply (IH (b2 :: r)); simpl; try assumption; try lia.
  Qed.

  Lemma mark_ok_any_head h m b n h' : (h' = h \/ b = 0) -> mark_ok h m b n -> mark_ok h' m b n.
  Proof. intros [ -> | -> ] H; [exact H|left; reflexivity]. Qed.

  Lemma members_front x c b L : members_ok (x :: c) b L -> members_ok c (b - 1) L.
  Proof. intros H i y Hi Hy. apply (H (S i) y); [lia|exact Hy]. Qed.

  Lemma members_back c x b L : members_ok (c ++ [x]) b L -> members_ok c b L.
  Proof.
    intros H i y Hi Hy. apply (H i y Hi). rewrite nth_error_app1; [exact Hy|]. apply nth_error_Some. congruence.
  Qed.

  Lemma members_push c x b L : members_ok c b L -> members_ok (c ++ [x]) b (x :: L).
  Proof.
    intros H i y Hi Hy. destruct (Nat.lt_ge_cases i (length c)) as [Hlt|Hge].
    - right. rewrite nth_error_app1 in Hy by exact Hlt. eapply H; eauto.
    - rewrite nth_error_app2 in Hy by exact Hge. destruct (i - length c) as [|k]; [|destruct k; discriminate].
      injection Hy as <-. left; reflexivity.
  Qed.

  Lemma members_all c : members_ok c (length c) [].
  Proof. intros i y Hi Hy. assert (i < length c) by (apply nth_error_Some; congruence). lia. Qed.

  Lemma Forall2_map_l {X Y Z} (R : Y -> Z -> Prop) (f : X -> Y) l l' :
    Forall2 (fun x z => R (f x) z) l l' -> Forall2 R (map f l) l'.
  Proof. intros H; induction H; simpl; constructor; auto. Qed.
  Lemma Forall2_map_r {X Y Z} (R : X -> Z -> Prop) (f : Y -> Z) l l' :
    Forall2 (fun x y => R x (f y)) l l' -> Forall2 R l (map f l').
  Proof. intros H; induction H; simpl; constructor; auto. Qed.
  Lemma Forall2_imp {X Y} (R R' : X -> Y -> Prop) l l' : (forall x y, R x y -> R' x y) -> Forall2 R l l' -> Forall2 R' l l'.
  Proof. intros Hi H; induction H; constructor; auto. Qed.

  Definition bases_next (c : list A) (bs : list nat) (o : @op A) (r : @out A) : list nat :=
    match o, r with
    | Async _, RunNow _ => length c :: bs
    | Help, Task _ => map (fun b => b - 1) bs
    | Work, Task _ => (length c - 1) :: bs
    | Mark, _ => length c :: bs
    | EndLevel, _ => match bs with _ :: (_ :: _) as r => r | _ => bs end
    | _, _ => bs
    end.

  Lemma step_lv w c bs st o r w' : Lv w c bs st -> step D w o = Some (r, w') ->
    (exists c' bs', Lv w' c' bs' (level_pushes st [o] [r])) /\
    (forall x, o = Work -> r = Task x -> In x (hd [] st)).
  Proof.
    intros [HR Hle Hcur HF HM] Hs.
    destruct (frames_ok_hd _ _ _ HF) as [b [bt Eb]].
    destruct w as [q fs]. cbn [w_q w_frames] in *. pose proof HR as [Rs [Rl [Rh [Rt _]]]].
    destruct o; cbn [step w_q w_frames] in Hs; cbn [level_pushes].
    - (* Async *)
      split; [|discriminate]. pose proof (push_rep q c x HR) as Hp. destruct (Nat.eqb_spec (length c) D) as [E|E].
      + rewrite Hp in Hs. injection Hs as <- <-. exists c, (length c :: bs). constructor; cbn [w_q w_frames].
        * exact HR.
        * simpl; lia.
        * left; reflexivity.
        * rewrite Eb in *. cbn [frames_ok]. split; [|split; [exact Hle|exact HF]]. simpl frame_mark.
          destruct (Nat.eqb_spec (t_mark q) D) as [E2|E2]; [exact I|]. destruct Hcur as [Hc|Hc]; [contradiction|]. exact Hc.
        * constructor; [apply members_all|exact HM].
      + destruct Hp as [q' [Hp [HR' [Hh' Hm']]]]. rewrite Hp in Hs. injection Hs as <- <-.
        exists (c ++ [x]), bs. constructor; cbn [w_q w_frames].
        * exact HR'.
        * rewrite app_length. simpl. lia.
        * rewrite Hh', Hm'. rewrite app_length; cbn [length]. destruct (Nat.eqb_spec (t_mark q) D) as [E2|E2].
          -- right. right. exists (length c). split; [reflexivity|lia].
          -- right. destruct Hcur as [Hc|[Hc|[j [Hj1 Hj2]]]]; [contradiction|left; exact Hc|].
             right. exists j. split; [exact Hj1|lia].
        * rewrite Hh'. exact HF.
        * apply Forall2_map_r. eapply Forall2_imp; [|exact HM]. intros b0 L H. apply members_push. exact H.
    - (* Help *)
      split; [|discriminate]. unfold empty_front in Hs. rewrite Rs in Hs. destruct c as [|x c]; simpl in Hs.
      + injection Hs as <- <-. exists [], bs. constructor; auto.
      + destruct (pop_front_rep q x c HR) as [q' [Hp [HR' [Hm' Hh']]]]. rewrite Hp in Hs. injection Hs as <- <-.
        exists c, (map (fun b => b - 1) bs).
        assert (hd 0 (map (fun b => b - 1) bs) = b - 1) as Eh by (rewrite Eb; reflexivity).
        assert (t_head q' = up D (t_head q) \/ length (x :: c) <= 1) as Hc.
        { rewrite Hh'. destruct (Nat.eqb_spec (length c) 0); [right; simpl; lia|left; reflexivity]. }
        rewrite Eb in Hle, Hcur. cbn [hd] in Hle, Hcur. simpl length in *.
        constructor; cbn [w_q w_frames].
        * exact HR'.
        * rewrite Eh. lia.
        * rewrite Eh, Hm'. destruct (length c =? 0) eqn:E0; cbn [orb].
          -- right. left. apply Nat.eqb_eq in E0. lia.
          -- destruct (Nat.eqb_spec (t_head q) (t_mark q)) as [Ea|Ea].
             ++ right. left. destruct Hcur as [Hcur|[Hcur|[j [Hj1 Hj2]]]]; [lia|lia|].
                assert (j = 0); [|lia]. apply (pos_inj (t_head q)); try lia. rewrite pos_0 by exact Rh. congruence.
             ++ destruct Hcur as [Hcur|Hcur]; [left; exact Hcur|right].
                replace (length c) with (S (length c) - 1) by lia. eapply mark_ok_front; [exact Rh|lia| |exact Hcur].
                exact Hc.
        * eapply frames_front; [exact Rh| | |exact HF]; rewrite Eb; cbn [hd]; [lia|]. destruct Hc; [left; assumption|right; lia].
        * apply Forall2_map_l. eapply Forall2_imp; [|exact HM]. intros b0 L H. eapply members_front; exact H.
    - (* Work *)
      destruct (empty_back D q) eqn:Ee.
      + injection Hs as <- <-. split; [|discriminate]. exists c, bs. constructor; auto.
      + unfold empty_back in Ee. apply orb_false_iff in Ee. destruct Ee as [E1 E2]. apply Nat.eqb_neq in E1, E2.
        destruct (snoc_case c) as [ -> | [c' [x ->]]]; [exfalso; apply E1; exact Rs|].
        destruct (pop_back_rep q c' x HR) as [q' [Hp [HR' [Hm' Hh']]]]. rewrite Hp in Hs. injection Hs as <- <-.
        rewrite Eb in Hle, Hcur. cbn [hd] in Hle, Hcur. rewrite app_length in *. cbn [length] in *.
        assert (b <= length c') as Hb.
        { destruct Hcur as [Hcur|[Hcur|[j [Hj1 Hj2]]]]; [contradiction|lia|lia]. }
        assert (nth_error (c' ++ [x]) (length c') = Some x) as Hn by (rewrite nth_error_app2, Nat.sub_diag by lia; reflexivity).
        split.
        * exists c', (length c' :: bs). constructor; cbn [w_q w_frames].
          -- exact HR'.
          -- simpl; lia.
          -- left. exact Hm'.
          -- rewrite Eb, Hh' in *. cbn [frames_ok]. split; [|split; [exact Hb|exact HF]].
             destruct (Nat.eqb_spec (t_tail q) (t_mark q)) as [Ea|Ea]; [exact I|]. simpl frame_mark.
             destruct Hcur as [Hcur|[Hcur|[j [Hj1 Hj2]]]]; [contradiction|left; exact Hcur|].
             right. exists j. split; [exact Hj1|]. split; [lia|]. assert (j <> length c'); [|lia].
             intros ->. apply Ea. rewrite Hj1. rewrite Rt. replace (length c' + 1) with (S (length c')) by lia. reflexivity.
          -- constructor; [apply members_all|]. eapply Forall2_imp; [|exact HM]. intros b0 L H. eapply members_back; exact H.
        * intros y _ Hy. injection Hy as <-. rewrite Eb in HM. inversion HM as [|? L ? st' HM1 HM2]; subst. cbn [hd].
          eapply HM1; [exact Hb|exact Hn].
    - (* Mark *)
      split; [|discriminate]. unfold queue_mark in Hs.
      assert (exists f, (r, w') = (Void, mkworld (set_mark q D) (f :: fs)) /\
                        match frame_mark f with None => True | Some om => om = t_mark q /\ t_mark q <> D end) as [f [Ef Hf]].
      { destruct (Nat.eqb_spec (t_mark q) D) as [E|E]; cbn [negb] in Hs; injection Hs as <- <-.
        - exists (FMark None). split; [|exact I]. f_equal. f_equal. destruct q; simpl in *. subst. reflexivity.
        - exists (FMark (Some (t_mark q))). split; [reflexivity|]. split; [reflexivity|exact E]. }
      injection Ef as -> ->. exists c, (length c :: bs). constructor; cbn [w_q w_frames].
      + exact HR.
      + simpl; lia.
      + left; reflexivity.
      + rewrite Eb in *. cbn [frames_ok]. split; [|split; [exact Hle|exact HF]].
        destruct (frame_mark f) as [om|]; [|exact I]. destruct Hf as [-> Hf].
        destruct Hcur as [Hc|Hc]; [contradiction|]. exact Hc.
      + constructor; [apply members_all|exact HM].
    - (* EndLevel *)
      split; [|discriminate]. destruct fs as [|f fs].
      + injection Hs as <- <-. rewrite Eb in *. cbn [frames_ok] in HF. destruct bt; [|destruct HF]. 
        inversion HM as [|? L ? st' HM1 HM2]; subst. inversion HM2; subst.
        exists c, [0]. constructor; cbn [w_q w_frames frames_ok]; auto.
      + injection Hs as <- <-. rewrite Eb in *. cbn [frames_ok] in HF. destruct bt as [|b' bt]; [destruct HF|].
        cbn [tl hd] in *. destruct HF as [Hf [Hbb HF]].
        inversion HM as [|? L ? st' HM1 HM2]; subst. inversion HM2 as [|? L' ? st'' HM3 HM4]; subst.
        assert (t_head (frame_end D f q) = t_head q) as Hh.
        { destruct f as [a om|[om|]|om]; simpl; auto; [destruct (t_size q =? 0); [|destruct a]; reflexivity|destruct (om =? D); reflexivity]. }
        exists c, (b' :: bt). constructor; cbn [w_q w_frames hd].
        * apply frame_end_rep. exact HR.
        * lia.
        * rewrite Hh.
          assert (forall m, mark_ok (t_head q) m b' b -> mark_ok (t_head q) m b' (length c)) as Hup.
          { intros m [Hx|[j [Hj1 Hj2]]]; [left; exact Hx|right; exists j; split; [exact Hj1|lia]]. }
          assert (t_mark q = D \/ mark_ok (t_head q) (t_mark q) b' (length c)) as Hsame.
          { destruct Hcur as [Hcur|[Hcur|[j [Hj1 Hj2]]]]; [left; exact Hcur|right; left; lia|].
            right. right. exists j. split; [exact Hj1|lia]. }
          destruct f as [a om|[om|]|om]; cbn [frame_end].
          -- destruct (Nat.eqb_spec (t_size q) 0) as [E|E].
             ++ right. left. rewrite Rs in E. lia.
             ++ destruct a; [left; reflexivity|]. right. apply Hup. exact Hf.
          -- right. destruct (Nat.eqb_spec (t_size q) 0) as [E|E]; [left; rewrite Rs in E; lia|]. apply Hup. exact Hf.
          -- exact Hsame.
          -- simpl frame_mark in Hf. destruct (om =? D); cbn [negb]; [exact Hsame|].
             right. destruct (Nat.eqb_spec (t_size q) 0) as [E|E]; [left; rewrite Rs in E; lia|]. apply Hup. exact Hf.
        * rewrite Hh. exact HF.
        * constructor; assumption.
  Qed.

  Lemma level_pushes_cons st o r l rs : level_pushes st (o :: l) (r :: rs) = level_pushes (@level_pushes A st [o] [r]) l rs.
  Proof. reflexivity. Qed.

  Lemma run_lv l : forall w c bs st rs w', Lv w c bs st -> run D w l = Some (rs, w') ->
    exists c' bs', Lv w' c' bs' (level_pushes st l rs).
  Proof.
    induction l as [|o l IH]; intros w c bs st rs w' HL H; simpl in H.
    - injection H as <- <-. eauto.
    - destruct (step D w o) as [[r w1]|] eqn:Es; [|discriminate].
      destruct (run D w1 l) as [[rs1 w2]|] eqn:Er; [|discriminate]. injection H as <- <-.
      destruct (step_lv w c bs st o r w1 HL Es) as [[c1 [bs1 HL1]] _]. rewrite level_pushes_cons. eapply IH; eauto.
  Qed.

  Lemma lv_new : Lv (mkworld (new_queue D) []) [] [0] [[]].
  Proof.
    constructor; cbn [w_q w_frames]; [apply rep_new|simpl; lia|right; left; reflexivity|reflexivity|].
    constructor; [|constructor]. intros [|i] x _ H; discriminate.
  Qed.

  Lemma work_in_level l rs w (x : A) w' : run D (mkworld (new_queue D) []) l = Some (rs, w) ->
    step D w Work = Some (Task x, w') -> In x (hd [] (level_pushes [[]] l rs)).
  Proof.
    intros H Hs. destruct (run_lv l _ _ _ _ _ _ lv_new H) as [c [bs HL]].
    destruct (step_lv w c bs _ Work (Task x) w' HL Hs) as [_ Hx]. apply (Hx x eq_refl eq_refl).
  Qed.

  (* --- C15: without helpers and with complete levels --- *)

  Definition lcur (h m b n : nat) : Prop :=
    (b < n /\ m = pos h b) \/ (b = n /\ (m = D \/ (b = 0 /\ m = h))).

  Definition lframe (h : nat) (f : frame) (b b' : nat) : Prop :=
    match f with
    | FPop a om => om = pos h b' /\ a = (b =? b')
    | FMark None => b = b'
    | FMark (Some om) => om = pos h b' /\ (b' < b \/ b = 0)
    | FFull om => if om =? D then b = b' else om = pos h b' /\ (b' < b \/ b = 0)
    end.

  Fixpoint lframes (h : nat) (fs : list frame) (bs : list nat) : Prop :=
    match fs, bs with
    | [], [b0] => b0 = 0
    | f :: fs', b :: (b' :: _) as bs' => lframe h f b b' /\ b' <= b /\ lframes h fs' (b' :: tl bs')
    | _, _ => False
    end.

  Record Lf (w : world) (c : list A) (bs : list nat) : Prop := {
    lf_rep : Rep (w_q w) c;
    lf_cur : lcur (t_head (w_q w)) (t_mark (w_q w)) (hd 0 bs) (length c);
    lf_frames : lframes (t_head (w_q w)) (w_frames w) bs
  }.

  Lemma lframes_hd h fs bs : lframes h fs bs -> exists b r, bs = b :: r.
  Proof. destruct fs, bs as [|b [|b' r]]; simpl; intros H; try destruct H; eauto. Qed.

  Lemma step_lifo w c bs o r c' bs' : Lf w c bs -> lifo_step D (c, bs) o r (c', bs') ->
    exists w', step D w o = Some (r, w') /\ Lf w' c' bs'.
  Proof.
    intros [HR HC HF] Hs. destruct w as [q fs]. cbn [w_q w_frames] in *.
    destruct (lframes_hd _ _ _ HF) as [b [bt Eb]]. pose proof HR as [Rs [Rl [Rh [Rt _]]]].
    inversion Hs; subst; cbn [step w_q w_frames hd] in *.
    - (* queued *)
      pose proof (push_rep q c x HR) as Hp. destruct (Nat.eqb_spec (length c) D); [lia|].
      destruct Hp as [q' [Hp [HR' [Hh' Hm']]]]. rewrite Hp. eexists. split; [reflexivity|].
      constructor; cbn [w_q w_frames hd]; [exact HR'| |rewrite Hh'; exact HF].
      rewrite Hh', Hm'. rewrite app_length; cbn [length]. left.
      destruct HC as [[K1 K2]|[K1 [K2|[K2 K3]]]].
      + split; [lia|]. assert (pos (t_head q) b < D) by (apply pos_lt; lia).
        destruct (Nat.eqb_spec (t_mark q) D); [lia|exact K2].
      + split; [lia|]. rewrite K2, Nat.eqb_refl, K1. reflexivity.
      + split; [lia|]. destruct (Nat.eqb_spec (t_mark q) D); [lia|]. rewrite K2, pos_0; auto.
    - (* full *)
      pose proof (push_rep q c' x HR) as Hp. destruct (Nat.eqb_spec (length c') D); [|lia].
      rewrite Hp. cbn [full_begin]. eexists. split; [reflexivity|].
      constructor; cbn [w_q w_frames hd]; [exact HR| |].
      + right. split; [reflexivity|left; reflexivity].
      + cbn [lframes tl]. split; [|split; [|exact HF]].
        * simpl. destruct HC as [[K1 K2]|[K1 [K2|[K2 K3]]]].
          -- assert (pos (t_head q) b < D) by (apply pos_lt; lia). destruct (Nat.eqb_spec (t_mark q) D); [lia|]. split; [exact K2|lia].
          -- rewrite K2, Nat.eqb_refl. symmetry; exact K1.
          -- lia.
        * destruct HC as [[K1 K2]|[K1 _]]; lia.
    - (* work *)
      rewrite app_length in *; cbn [length] in *. match goal with H : _ :: _ = _ :: _ |- _ => injection H as -> -> end.
      assert (t_mark q = pos (t_head q) b) as Hm by (destruct HC as [[K1 K2]|[K1 _]]; [exact K2|lia]).
      assert (empty_back D q = false) as ->.
      { unfold empty_back. rewrite Rs. assert (pos (t_head q) b < D) by (apply pos_lt; lia).
        apply orb_false_iff; split; apply Nat.eqb_neq; lia. }
      destruct (pop_back_rep q c' x HR) as [q' [Hp [HR' [Hm' Hh']]]]. rewrite Hp. eexists. split; [reflexivity|].
      constructor; cbn [w_q w_frames hd]; [exact HR'| |].
      + right. split; [reflexivity|left; exact Hm'].
      + rewrite Hh'. cbn [lframes tl]. split; [|split; [lia|exact HF]]. simpl. split; [exact Hm|].
        rewrite Rt, Hm. replace (length c' + 1) with (S (length c')) by lia. cbn [tail_of].
        destruct (Nat.eqb_spec (length c') b) as [->|E]; [apply Nat.eqb_refl|]. apply Nat.eqb_neq. intros Hx.
        apply pos_inj in Hx; lia.
    - (* work, nothing *)
      assert (b = length c') as Ebc by (match goal with H : length _ :: _ = _ :: _ |- _ => injection H; intros; congruence end).
      assert (empty_back D q = true) as ->.
      { unfold empty_back. apply orb_true_iff. destruct HC as [[K1 _]|[K1 [K2|[K2 _]]]]; [lia|right|left]; apply Nat.eqb_eq; lia. }
      eexists. split; [reflexivity|]. match goal with H : length _ :: _ = _ :: _ |- _ => rewrite H end. constructor; auto.
    - (* mark *)
      unfold queue_mark. destruct (Nat.eqb_spec (t_mark q) D) as [E|E]; cbn [negb]; (eexists; split; [reflexivity|]);
        constructor; cbn [w_q w_frames hd]; try exact HR.
      + right. split; [reflexivity|left; exact E].
      + cbn [lframes tl]. assert (length c' = b) as Eb.
        { destruct HC as [[K1 K2]|[K1 _]]; [|lia]. assert (pos (t_head q) b < D) by (apply pos_lt; lia). lia. }
        split; [exact Eb|split; [lia|exact HF]].
      + right. split; [reflexivity|left; reflexivity].
      + cbn [lframes tl]. split; [|split; [destruct HC as [[K1 K2]|[K1 _]]; lia|exact HF]].
        simpl. destruct HC as [[K1 K2]|[K1 [K2|[K2 K3]]]].
        * split; [exact K2|lia].
        * contradiction.
        * rewrite K2, pos_0 by exact Rh. split; [exact K3|lia].
    - (* end *)
      match goal with H : _ :: _ = _ :: _ |- _ => injection H as <- <- end.
      destruct fs as [|f fs]; [destruct HF|]. cbn [lframes tl] in HF. destruct HF as [Hf [Hbb HF]].
      eexists. split; [reflexivity|].
      assert (t_head (frame_end D f q) = t_head q) as Hh.
      { destruct f as [a om|[om|]|om]; simpl; auto; [destruct (t_size q =? 0); [|destruct a]; reflexivity|destruct (om =? D); reflexivity]. }
      assert (length c' = 0 -> t_tail q = t_head q) as Ht0 by (intros E; rewrite Rt, E; reflexivity).
      assert (lcur (t_head q) (t_tail q) b0 (length c') \/ length c' <> 0) as Hz.
      { destruct (length c') eqn:E; [left|right; discriminate]. right. split; [lia|]. right. split; [lia|]. apply Ht0. reflexivity. }
      constructor; cbn [w_q w_frames hd]; [apply frame_end_rep; exact HR| |rewrite Hh; exact HF]. rewrite Hh.
      destruct f as [a om|[om|]|om]; cbn [frame_end].
      + destruct Hf as [-> ->]. rewrite Rs. destruct (Nat.eqb_spec (length c') 0) as [E|E]; [destruct Hz; [assumption|contradiction]|].
        destruct (Nat.eqb_spec (length c') b0) as [E2|E2]; cbn [t_mark set_mark].
        * right. split; [lia|left; reflexivity].
        * left. split; [lia|reflexivity].
      + destruct Hf as [-> Hx]. rewrite Rs. cbn [t_mark set_mark]. destruct (Nat.eqb_spec (length c') 0) as [E|E]; [destruct Hz; [assumption|contradiction]|].
        left. split; [lia|reflexivity].
      + simpl in Hf. destruct HC as [[K1 K2]|[K1 K2]]; [lia|]. right. split; [lia|]. destruct K2 as [K2|[K2 K3]]; [left; exact K2|right; split; [lia|exact K3]].
      + simpl in Hf. destruct (Nat.eqb_spec om D) as [E|E]; cbn [negb].
        * destruct HC as [[K1 K2]|[K1 K2]]; [lia|]. right. split; [lia|]. destruct K2 as [K2|[K2 K3]]; [left; exact K2|right; split; [lia|exact K3]].
        * destruct Hf as [-> Hx]. rewrite Rs. cbn [t_mark set_mark]. destruct (Nat.eqb_spec (length c') 0) as [E3|E3]; [destruct Hz; [assumption|contradiction]|].
          left. split; [lia|reflexivity].
  Qed.

  Lemma run_lifo s l rs s' : lifo_run D s l rs s' -> forall w, Lf w (fst s) (snd s) ->
    exists w', run D w l = Some (rs, w') /\ Lf w' (fst s') (snd s').
  Proof.
    induction 1 as [s|s o r s1 l rs s2 Hs Hr IH]; intros w HL; simpl; [eauto|].
    destruct s as [c bs], s1 as [c1 bs1]. destruct (step_lifo w c bs o r c1 bs1 HL Hs) as [w1 [-> HL1]].
    destruct (IH w1 HL1) as [w2 [-> HL2]]. eauto.
  Qed.

  Lemma lf_new : Lf (mkworld (new_queue D) []) [] [0].
  Proof.
    constructor; cbn [w_q w_frames]; [apply rep_new| |reflexivity]. right. split; [reflexivity|right; split; reflexivity].
  Qed.

  (* --- C19: sub-phases --- *)

  Definition total (qs : list tq) : nat := fold_right (fun q n => t_size q + n) 0 qs.

  Definition reps (ws : list world) (ds : list (list A)) : Prop := Forall2 (fun w c => Rep (w_q w) c) ws ds.

  Definition Saved (qs : list tq) (ds : list (list A)) : Prop :=
    Forall2 (fun q c => Rep q c) qs ds.

  Record Sc (s : sched) (ds : list (list A)) (ps : list (list (list A))) : Prop := {
    sc_reps : reps (s_ws s) ds;
    sc_count : s_count s = visible ds;
    sc_phases : Forall2 Saved (s_phases s) ps;
    sc_len : Forall (fun p => length p <= length ds) ps
  }.

  Lemma visible_cons c (ds : list (list A)) : visible (c :: ds) = length c + visible ds.
  Proof. unfold visible. simpl. apply app_length. Qed.
  Lemma visible_app (ds ds' : list (list A)) : visible (ds ++ ds') = visible ds + visible ds'.
  Proof. unfold visible. rewrite concat_app. apply app_length. Qed.

  Lemma reps_total ws ds : reps ws ds -> total (map w_q ws) = visible ds.
  Proof.
    intros H. induction H as [|w c ws ds Hw H IH]; [reflexivity|]. rewrite visible_cons. simpl. rewrite IH.
    destruct Hw as [-> _]. reflexivity.
  Qed.

  Lemma visible_zero (ds : list (list A)) : visible ds = 0 -> ds = map (fun _ => []) ds.
  Proof.
    induction ds as [|c ds IH]; [reflexivity|]. rewrite visible_cons. intros H. simpl. f_equal; [|apply IH; lia].
    destruct c; [reflexivity|simpl in H; lia].
  Qed.
  Lemma visible_none {X} (l : list X) : visible (map (fun _ => @nil A) l) = 0.
  Proof. induction l as [|x l IH]; [reflexivity|]. simpl map. rewrite visible_cons. simpl. exact IH. Qed.

  Lemma hide_reps ws ds : reps ws ds ->
    reps (map (fun p => mkworld (fst p) (w_frames (snd p)))
            (combine (map (fun q => if negb (t_size q =? 0) then no_queue else q) (map w_q ws)) ws))
         (map (fun _ => []) ds).
  Proof.
    intros H. induction H as [|w c ws ds Hw H IH]; simpl; constructor; [|exact IH].
    cbn [w_q fst]. destruct (Nat.eqb_spec (t_size (w_q w)) 0) as [E|E]; cbn [negb]; [|apply rep_none].
    assert (c = []) as -> by (destruct Hw as [Hs _]; destruct c; [reflexivity|simpl in Hs; lia]). exact Hw.
  Qed.

  Lemma hide_saved ws ds : reps ws ds ->
    Saved (map (fun q => if negb (t_size q =? 0) then q else no_queue) (map w_q ws)) ds.
  Proof.
    intros H. induction H as [|w c ws ds Hw H IH]; simpl; constructor; [|exact IH].
    destruct (Nat.eqb_spec (t_size (w_q w)) 0) as [E|E]; cbn [negb]; [|exact Hw].
    assert (c = []) as -> by (destruct Hw as [Hs _]; destruct c; [reflexivity|simpl in Hs; lia]). apply rep_none.
  Qed.

  Lemma unhide_reps saved cs : Saved saved cs -> forall ws ds, reps ws ds -> visible ds = 0 -> length cs <= length ds ->
    exists qs n, unhide (map w_q ws) saved = Some (qs, n) /\ n = visible cs /\
      reps (map (fun p => mkworld (fst p) (w_frames (snd p))) (combine qs ws))
           (cs ++ map (fun _ => []) (skipn (length cs) ds)).
  Proof.
    intros H. induction H as [|q c saved cs Hq H IH]; intros ws ds HR Hv Hl.
    - exists (map w_q ws), 0. split; [destruct (map w_q ws); reflexivity|]. split; [reflexivity|].
      simpl. rewrite <- (visible_zero ds Hv). clear Hv Hl. induction HR as [|w c ws ds Hw HR IHR]; simpl; constructor; auto.
    - destruct HR as [|w c0 ws ds Hw HR]; [simpl in Hl; lia|]. rewrite visible_cons in Hv. simpl in Hl.
      destruct (IH ws ds HR) as [qs [n [E [-> Hr]]]]; [lia|lia|]. simpl. rewrite E.
      assert (c0 = []) as -> by (destruct c0; [reflexivity|simpl in Hv; lia]).
      rewrite visible_cons. pose proof Hq as [Hs _].
      destruct (Nat.eqb_spec (t_size q) 0) as [E0|E0]; cbn [negb].
      + assert (c = []) as -> by (destruct c; [reflexivity|simpl in Hs; lia]).
        do 2 eexists. split; [reflexivity|]. split; [simpl; lia|]. simpl. constructor; [exact Hw|exact Hr].
      + do 2 eexists. split; [reflexivity|]. split; [lia|]. simpl. constructor; [exact Hq|exact Hr].
  Qed.

  Lemma F2len {X Y} (R : X -> Y -> Prop) l l' : Forall2 R l l' -> length l = length l'.
  Proof. intros H; induction H; simpl; congruence. Qed.

  Lemma upd_split {X} (l1 : list X) x l2 y : upd (l1 ++ x :: l2) (length l1) y = l1 ++ y :: l2.
  Proof. induction l1 as [|z l1 IH]; simpl; [reflexivity|]. f_equal. exact IH. Qed.

  Lemma deque_count (c : list A) o r c' : deque_step D c o r c' ->
    forall n, n + length c' = match r with Queued => n + length c + 1 | Task _ => n + length c - 1 | _ => n + length c end.
  Proof. intros H n. destruct H; simpl; rewrite ?app_length; simpl; lia. Qed.

  Lemma deque_count' (c : list A) o r c' : deque_step D c o r c' ->
    match r with Task _ => 1 <= length c | _ => True end.
  Proof. intros H. destruct H; simpl; rewrite ?app_length; simpl; auto; lia. Qed.

  Lemma sstep_multi s ds ps o r s' : Sc s ds ps -> sstep D s o = Some (r, s') ->
    exists ds' ps', multi_step D (ds, ps) o r (ds', ps') /\ Sc s' ds' ps'.
  Proof.
    intros [HR HC HP HL] H. destruct o as [|i o| |]; cbn [sstep] in H.
    - injection H as <- <-. do 2 eexists. split; [constructor|]. constructor; cbn [s_ws s_count s_phases].
      + apply Forall2_app; [exact HR|]. constructor; [apply rep_new|constructor].
      + rewrite visible_app. rewrite HC. unfold visible at 3. simpl. lia.
      + exact HP.
      + eapply Forall_impl; [|exact HL]. cbn beta. intros p. rewrite app_length. lia.
    - destruct (nth_error (s_ws s) i) as [w|] eqn:En; [|discriminate].
      apply nth_error_split in En. destruct En as [w1 [w2 [Ew Ei]]].
      unfold reps in HR. rewrite Ew in HR. apply Forall2_app_inv_l in HR. destruct HR as [d1 [d2 [HR1 [HR2 Ed]]]].
      inversion HR2 as [|? c ? d2' Hc HR3]; subst.
      destruct (step_deque w o c Hc) as [r0 [w' [c' [Es [Hc' Hd]]]]]. rewrite Es in H. injection H as <- <-.
      assert (length w1 = length d1) as El by (eapply F2len; exact HR1).
      exists (d1 ++ c' :: d2'), ps. split; [rewrite El; apply m_op; exact Hd|].
      constructor; cbn [s_ws s_count s_phases].
      + rewrite Ew, upd_split. apply Forall2_app; [exact HR1|]. constructor; assumption.
      + rewrite HC. rewrite !visible_app, !visible_cons.
        pose proof (deque_count _ _ _ _ Hd (visible d1 + visible d2')). pose proof (deque_count' _ _ _ _ Hd).
        destruct r0; lia.
      + exact HP.
      + eapply Forall_impl; [|exact HL]. cbn beta. intros p. rewrite !app_length. simpl. lia.
    - unfold push_phase in H. fold total in H.
      change (fold_right (fun q n => t_size q + n) 0 (map w_q (s_ws s))) with (total (map w_q (s_ws s))) in H.
      rewrite (reps_total _ _ HR), HC, Nat.sub_diag in H. simpl in H. injection H as <- <-.
      do 2 eexists. split; [constructor|]. constructor; cbn [s_ws s_count s_phases].
      + apply hide_reps. exact HR.
      + symmetry. apply visible_none.
      + constructor; [apply hide_saved; exact HR|exact HP].
      + constructor; [rewrite map_length; lia|]. eapply Forall_impl; [|exact HL]. cbn beta. intros p. rewrite map_length. lia.
    - destruct (s_phases s) as [|saved sp] eqn:Ep; [discriminate|]. inversion HP as [|? cs ? ps' Hsv HP']; subst.
      unfold pop_phase in H. destruct (Nat.eqb_spec (s_count s) 0) as [E|E]; [|discriminate].
      inversion HL as [|? ? Hl1 HL']; subst.
      destruct (unhide_reps saved cs Hsv _ _ HR) as [qs [n [Eu [-> Hr]]]]; [lia|exact Hl1|]. rewrite Eu in H.
      injection H as <- <-.
      exists (cs ++ map (fun _ => []) (skipn (length cs) ds)), ps'.
      split.
      + apply m_pop. rewrite HC in E. rewrite (visible_zero ds E) at 1. rewrite map_app.
        rewrite <- (firstn_skipn (length cs) ds) at 1. rewrite map_app. f_equal.
        assert (length (firstn (length cs) ds) = length cs) as Hf by (rewrite firstn_length; lia).
        revert Hf. generalize (firstn (length cs) ds). clear. revert cs.
        induction cs as [|c cs IH]; intros [|x l] Hf; simpl in *; try lia; [reflexivity|]. f_equal. apply IH. lia.
      + constructor; cbn [s_ws s_count s_phases].
        * exact Hr.
        * rewrite visible_app, visible_none. lia.
        * exact HP'.
        * eapply Forall_impl; [|exact HL']. cbn beta. intros p Hx. rewrite app_length, map_length, skipn_length. lia.
  Qed.

  Lemma srun_multi l : forall s ds ps rs s', Sc s ds ps -> srun D s l = Some (rs, s') ->
    exists ds' ps', multi_run D (ds, ps) l rs (ds', ps') /\ Sc s' ds' ps'.
  Proof.
    induction l as [|o l IH]; intros s ds ps rs s' HS H; simpl in H.
    - injection H as <- <-. do 2 eexists. split; [constructor|exact HS].
    - destruct (sstep D s o) as [[r s1]|] eqn:E; [|discriminate].
      destruct (srun D s1 l) as [[rs1 s2]|] eqn:Er; [|discriminate]. injection H as <- <-.
      destruct (sstep_multi _ _ _ _ _ _ HS E) as [ds1 [ps1 [Hm HS1]]].
      destruct (IH _ _ _ _ _ HS1 Er) as [ds2 [ps2 [Hm2 HS2]]]. do 2 eexists. split; [econstructor; eauto|exact HS2].
  Qed.

  Lemma sc_init : Sc (mksched [] 0 []) [] [].
  Proof. constructor; simpl; constructor. Qed.

  Lemma spush_ok s ds ps : Sc s ds ps -> sstep D s SPush <> None.
  Proof.
    intros [HR HC HP HL]. cbn [sstep]. unfold push_phase.
    change (fold_right (fun q n => t_size q + n) 0 (map w_q (s_ws s))) with (total (map w_q (s_ws s))).
    rewrite (reps_total _ _ HR), HC, Nat.sub_diag. discriminate.
  Qed.

  Lemma spop_ok s ds ps : Sc s ds ps -> ps <> [] -> visible ds = 0 -> sstep D s SPop <> None.
  Proof.
    intros [HR HC HP HL] Hne Hv. cbn [sstep]. destruct HP as [|sv cs sp ps' Hsv HP]; [contradiction|].
    unfold pop_phase. rewrite HC, Hv. simpl. inversion HL; subst.
    destruct (unhide_reps sv cs Hsv _ _ HR) as [qs [n [Eu [-> Hr]]]]; [exact Hv|assumption|]. rewrite Eu. discriminate.
  Qed.

  Lemma sop_ok s ds ps i o : Sc s ds ps -> i < length ds -> sstep D s (SOp i o) <> None.
  Proof.
    intros [HR HC HP HL] Hi. cbn [sstep]. destruct (nth_error (s_ws s) i) as [w|] eqn:E.
    - apply nth_error_split in E. destruct E as [w1 [w2 [Ew Ei]]].
      unfold reps in HR. rewrite Ew in HR. apply Forall2_app_inv_l in HR. destruct HR as [d1 [d2 [HR1 [HR2 Ed]]]].
      inversion HR2 as [|? c ? d2' Hc HR3]; subst.
      destruct (step_deque w o c Hc) as [r0 [w' [c' [Es _]]]]. rewrite Es. discriminate.
    - apply nth_error_None in E. apply F2len in HR. lia.
  Qed.
End P.
