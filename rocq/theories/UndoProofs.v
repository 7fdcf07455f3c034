(* Proofs about cleanups. *)
From Verif Require Import Base ImpModel ImpProofs UndoModel UndoSpec.

Lemma dir_eqb_refl p : dir_eqb p p = true.
Proof. now apply dir_eqb_eq. Qed.
Lemma sub_within p d : sub p d = true <-> within p d.
Proof. apply sub_iff. Qed.
Lemma sub_not p d : sub p d = false <-> ~ within p d.
Proof. rewrite <- sub_within. destruct (sub p d); split; congruence. Qed.
Lemma within_refl p : within p p.
Proof. exists []. now rewrite app_nil_r. Qed.
Lemma within_trans p q r : within p q -> within q r -> within p r.
Proof. intros (s & ->) (t & ->). exists (t ++ s). now rewrite app_assoc. Qed.
Lemma within_antisym p q : within p q -> within q p -> p = q.
Proof.
  intros (s & E) (t & E'). assert (L : length p = length p + length t + length s) by (rewrite E at 1; rewrite E'; rewrite !app_length; lia).
  destruct s; [now rewrite app_nil_r in E|]. cbn in L. lia.
Qed.
Lemma inside_iff p d : inside p d = true <-> within p d /\ p <> d.
Proof. unfold inside. rewrite andb_true_iff, negb_true_iff, dir_eqb_neq, sub_within. reflexivity. Qed.

Lemma look_in f p k : look f p = Some k -> In (p, k) f.
Proof.
  induction f as [|[q j] f IH]; cbn; [discriminate|]. destruct (dir_eqb q p) eqn:E; [|auto]. apply dir_eqb_eq in E. intros Q. injection Q as ->. left. congruence.
Qed.
Lemma in_look f p k : In (p, k) f -> look f p <> None.
Proof.
  induction f as [|[q j] f IH]; cbn; [contradiction|]. intros [E|I].
  - injection E as -> ->. rewrite dir_eqb_refl. discriminate.
  - destruct (dir_eqb q p); [discriminate | auto].
Qed.
Lemma look_filter P f p : look (filter (fun e => P (fst e)) f) p = if P p then look f p else None.
Proof.
  induction f as [|[q j] f IH]; cbn; [now destruct (P p)|]. destruct (P q) eqn:E; cbn.
  - destruct (dir_eqb q p) eqn:D; [apply dir_eqb_eq in D; subst; now rewrite E | exact IH].
  - rewrite IH. destruct (P p) eqn:F; [|reflexivity]. destruct (dir_eqb q p) eqn:D; [apply dir_eqb_eq in D; congruence | reflexivity].
Qed.
Lemma look_rm f p q : look (rm f p) q = if dir_eqb q p then None else look f q.
Proof. unfold rm. rewrite (look_filter (fun x => negb (dir_eqb x p))). now destruct (dir_eqb q p). Qed.
Lemma has_entries_iff f d : has_entries f d = true <-> exists s, s <> [] /\ look f (d ++ s) <> None.
Proof.
  unfold has_entries. rewrite existsb_exists. split.
  - intros ([q k] & I & H). apply inside_iff in H as [(s & E) N]. cbn in *. exists s. subst q. split; [intros ->; now rewrite app_nil_r in N|]. eapply in_look; eauto.
  - intros (s & N & L). destruct (look f (d ++ s)) as [k|] eqn:E; [|congruence]. apply look_in in E. exists (d ++ s, k). split; [exact E|].
    apply inside_iff. cbn. split; [now exists s|]. intros Q. apply N. apply (app_inv_head d). now rewrite app_nil_r.
Qed.

Lemma tree_up f d s k : tree f -> d <> [] -> s <> [] -> look f (d ++ s) = Some k -> look f d = Some true.
Proof.
  intros [_ T] D. revert k. induction s as [|x s IH] using rev_ind; intros k S L; [congruence|].
  rewrite app_assoc in L. apply T in L as [L|L].
  - destruct d; [congruence | discriminate].
  - destruct s as [|y s]; [now rewrite app_nil_r in L|]. eapply IH; [discriminate | exact L].
Qed.

Section Env.
Context (pm : list bytes -> list bytes -> bool) (cwd wdir : list bytes).
Notation rmdir := (rmdir cwd).
Notation rmdir_r := (rmdir_r cwd).
Notation rm_found := (rm_found cwd wdir).
Notation rm_all := (rm_all cwd wdir).
Notation clean1 := (clean1 pm cwd wdir).
Notation clean_all := (clean_all pm cwd wdir).
Notation clean := (clean pm cwd wdir).

(* Removal of a set: the rest stays. *)
Definition removes (R : list bytes -> Prop) (f g : fs) : Prop := forall p, look g p = look f p \/ look g p = None /\ R p.
Lemma removes_refl R f : removes R f f.
Proof. now left. Qed.
Lemma removes_trans R f g h : removes R f g -> removes R g h -> removes R f h.
Proof. intros A B p. destruct (B p) as [E|[E H]]; [rewrite E; apply A | right; auto]. Qed.
Lemma removes_weaken (R Q : list bytes -> Prop) f g : (forall p, R p -> Q p) -> removes R f g -> removes Q f g.
Proof. intros I A p. destruct (A p) as [E|[E H]]; auto. Qed.

Lemma rmfile_removes f p g : rmfile f p = Ok g -> look f p = Some false /\ look g p = None /\ removes (fun q => q = p) f g.
Proof.
  unfold rmfile. destruct (look f p) as [[|]|] eqn:L; try discriminate. intros E. injection E as <-. split; [reflexivity|]. rewrite look_rm, dir_eqb_refl.
  split; [reflexivity|]. intros q. rewrite look_rm. destruct (dir_eqb q p) eqn:D; [right; split; [auto | now apply dir_eqb_eq] | now left].
Qed.
Lemma rmdir_removes f p g : rmdir f p = Ok g -> look f p = Some true /\ look g p = None /\ removes (fun q => q = p) f g /\
  (forall s, s <> [] -> look f (p ++ s) = None) /\ ~ within cwd p.
Proof.
  unfold UndoModel.rmdir. destruct (sub cwd p) eqn:W; [discriminate|]. apply sub_not in W. destruct (look f p) as [[|]|] eqn:L; try discriminate.
  destruct (has_entries f p) eqn:H; [discriminate|]. intros E. injection E as <-. split; [reflexivity|]. rewrite look_rm, dir_eqb_refl.
  split; [reflexivity|]. split.
  - intros q. rewrite look_rm. destruct (dir_eqb q p) eqn:D; [right; split; [auto | now apply dir_eqb_eq] | now left].
  - split; [|exact W]. intros s S. destruct (look f (p ++ s)) eqn:Q; [|reflexivity]. exfalso. assert (X : has_entries f p = true); [|congruence].
    apply has_entries_iff. exists s. split; [exact S | congruence].
Qed.
Lemma rmdir_r_removes f p self g : rmdir_r f p self = Ok g -> look f p = Some true /\ (self = true -> look g p = None) /\
  (forall s, s <> [] -> look g (p ++ s) = None) /\ removes (fun q => within q p) f g.
Proof.
  unfold UndoModel.rmdir_r. destruct (sub cwd p); [discriminate|]. destruct (look f p) as [[|]|] eqn:L; try discriminate.
  intros E. injection E as <-. split; [reflexivity|].
  rewrite (look_filter (fun q => negb (if self then sub q p else inside q p))).
  split.
  - intros ->. now rewrite (proj2 (sub_within p p) (within_refl p)).
  - split.
    + intros s S. rewrite (look_filter (fun q => negb (if self then sub q p else inside q p))).
      assert (W : within (p ++ s) p) by now exists s. destruct self; [now rewrite (proj2 (sub_within _ _) W)|].
      rewrite (proj2 (inside_iff (p ++ s) p)); [reflexivity|]. split; [exact W|]. intros Q. apply S. apply (app_inv_head p). now rewrite app_nil_r.
    + intros q. rewrite (look_filter (fun q => negb (if self then sub q p else inside q p))).
      destruct (if self then sub q p else inside q p) eqn:Q; [right; split; [reflexivity|] | now left].
      destruct self; [now apply sub_within | now apply inside_iff in Q].
Qed.

Lemma in_insert p q l : In q (insert p l) <-> q = p \/ In q l.
Proof.
  induction l as [|x l IH]; cbn; [intuition congruence|]. destruct (length x <=? length p); cbn; [intuition congruence|]. rewrite IH. intuition congruence.
Qed.
Lemma in_found f pat dir q : In q (found pm f pat dir) <-> pm pat q = true /\ In (q, dir) f.
Proof.
  unfold found. assert (K : forall l, In q (fold_right insert [] l) <-> In q l).
  { induction l as [|x l IH]; cbn; [reflexivity|]. rewrite in_insert, IH. intuition congruence. }
  rewrite K, in_map_iff. split.
  - intros ([p k] & <- & I). apply filter_In in I as [I H]. apply andb_true_iff in H as [A B]. apply Bool.eqb_prop in B. cbn in *. subst. auto.
  - intros [A I]. exists (q, dir). split; [reflexivity|]. apply filter_In. split; [exact I|]. cbn. now rewrite A, Bool.eqb_reflx.
Qed.

Lemma rm_found_removes rec dir f p g : rm_found rec dir f p = Some g ->
  removes (fun q => if rec && dir then within q p else q = p) f g.
Proof.
  unfold UndoModel.rm_found. destruct dir; [destruct rec|].
  - destruct (rmdir_r f p (negb (dir_eqb p wdir))) eqn:E; try discriminate; intros Q; injection Q as <-; [apply rmdir_r_removes in E; tauto | apply removes_refl].
  - destruct (rmdir f p) eqn:E; try discriminate; intros Q; injection Q as <-; [apply rmdir_removes in E; tauto | apply removes_refl].
  - rewrite andb_false_r. destruct (rmfile f p) eqn:E; try discriminate; intros Q; injection Q as <-; [apply rmfile_removes in E; tauto | apply removes_refl].
Qed.
Lemma rm_all_removes rec dir ps : forall f g, rm_all rec dir f ps = Some g ->
  removes (fun q => exists p, In p ps /\ if rec && dir then within q p else q = p) f g.
Proof.
  induction ps as [|p ps IH]; intros f g; cbn [UndoModel.rm_all].
  - intros E. injection E as <-. apply removes_refl.
  - destruct (rm_found rec dir f p) as [h|] eqn:E; [|discriminate]. intros G. eapply removes_trans.
    + eapply removes_weaken; [|exact (rm_found_removes _ _ _ _ _ E)]. intros q Q. exists p. split; [now left | exact Q].
    + eapply removes_weaken; [|exact (IH _ _ G)]. intros q (x & I & Q). exists x. split; [now right | exact Q].
Qed.

Lemma last_split (p : list bytes) x : x <> [] -> last p [] = x -> p = removelast p ++ [x].
Proof. intros N E. assert (NE : p <> []) by (intros ->; cbn in E; congruence). rewrite (app_removelast_last [] NE) at 1. now rewrite E. Qed.
Lemma pattern_app p q : is_pattern (p ++ q) = is_pattern p || is_pattern q.
Proof. apply existsb_app. Qed.

Lemma clean1_body f c g (maybe : bool) : c_type c <> Never ->
  (let recursive := negb (c_dir c) && beqb (last (c_path c) []) (b "***") in
   let p := if recursive then removelast (c_path c) else c_path c in
   let dir := recursive || c_dir c in
   if is_pattern p then
      let l := found pm f p dir in
      match rm_all recursive dir f l with
      | None => None
      | Some f => match l with _ :: _ => Some f | [] => if maybe then Some f else None end
      end
    else if dir then
      match (if recursive then rmdir_r f p (negb (dir_eqb p wdir)) else rmdir f p) with
      | Ok f => Some f
      | NotExist => if maybe then Some f else None
      | _ => None
      end
    else
      match rmfile f p with
      | Ok f => Some f
      | NotExist => if maybe then Some f else None
      | _ => None
      end) = Some g -> removes (covers pm c) f g.
Proof.
  intros NV. cbn zeta. destruct (negb (c_dir c) && beqb (last (c_path c) []) (b "***")) eqn:R; cbn [orb].
  - apply andb_true_iff in R as [D P]. apply negb_true_iff in D. apply beqb_eq in P. apply last_split in P; [|discriminate].
    set (d := removelast (c_path c)) in *. destruct (is_pattern d) eqn:PAT.
    + destruct (rm_all true true f (found pm f d true)) as [h|] eqn:E; [|discriminate]. intros G.
      assert (h = g) by (destruct (found pm f d true); [destruct maybe|]; congruence). subst h. apply rm_all_removes in E. eapply removes_weaken; [|exact E].
      intros q (x & I & Q). apply in_found in I as [I _]. split; [exact NV|]. right. right. exists d. split; [exact P|]. split; [exact D|].
      right. split; [exact PAT|]. exists x. auto.
    + destruct (rmdir_r f d (negb (dir_eqb d wdir))) as [h| | |] eqn:E; try discriminate.
      * intros G. injection G as <-. apply rmdir_r_removes in E as (_ & _ & _ & E). eapply removes_weaken; [|exact E]. intros q Q. split; [exact NV|].
        right. right. exists d. auto.
      * destruct maybe; [|discriminate]. intros G. injection G as <-. apply removes_refl.
  - destruct (is_pattern (c_path c)) eqn:PAT.
    + destruct (rm_all false (c_dir c) f (found pm f (c_path c) (c_dir c))) as [h|] eqn:E; [|discriminate]. intros G.
      assert (h = g) by (destruct (found pm f (c_path c) (c_dir c)); [destruct maybe|]; congruence). subst h. apply rm_all_removes in E.
      eapply removes_weaken; [|exact E]. intros q (x & I & Q). apply in_found in I as [I _]. split; [exact NV|]. cbn in Q. subst x. right. left. auto.
    + destruct (c_dir c).
      * destruct (rmdir f (c_path c)) as [h| | |] eqn:E; try discriminate.
        -- intros G. injection G as <-. apply rmdir_removes in E as (_ & _ & E & _). eapply removes_weaken; [|exact E]. intros q Q. split; [exact NV|]. left. auto.
        -- destruct maybe; [|discriminate]. intros G. injection G as <-. apply removes_refl.
      * destruct (rmfile f (c_path c)) as [h| | |] eqn:E; try discriminate.
        -- intros G. injection G as <-. apply rmfile_removes in E as (_ & _ & E). eapply removes_weaken; [|exact E]. intros q Q. split; [exact NV|]. left. auto.
        -- destruct maybe; [|discriminate]. intros G. injection G as <-. apply removes_refl.
Qed.
Lemma clean1_removes f c g : clean1 f c = Some g -> removes (covers pm c) f g.
Proof.
  intros H. destruct (c_type c) eqn:T; [| |unfold UndoModel.clean1 in H; rewrite T in H; injection H as <-; apply removes_refl].
  1: apply (clean1_body f c g false); [congruence|]; unfold UndoModel.clean1 in H; rewrite T in H; exact H.
  apply (clean1_body f c g true); [congruence|]; unfold UndoModel.clean1 in H; rewrite T in H; exact H.
Qed.

Lemma clean_special_removes ps : forall f g, clean_special f ps = Some g -> removes (fun q => In q ps) f g /\ (forall p, In p ps -> look f p = Some false) .
Proof.
  induction ps as [|p ps IH]; intros f g; cbn [UndoModel.clean_special].
  - intros E. injection E as <-. split; [apply removes_refl | contradiction].
  - destruct (rmfile f p) as [h| | |] eqn:E; try discriminate. intros G. apply IH in G as [G1 G2]. apply rmfile_removes in E as (E1 & _ & E2). split.
    + eapply removes_trans; [eapply removes_weaken; [|exact E2]; intros q ->; now left | eapply removes_weaken; [|exact G1]; intros q I; now right].
    + intros q [<-|I]; [exact E1|]. apply G2 in I. destruct (E2 q) as [Q|[Q _]]; congruence.
Qed.
Lemma clean_all_removes cs : forall f g, clean_all f cs = Some g -> removes (fun q => exists c, In c cs /\ covers pm c q) f g.
Proof.
  induction cs as [|c cs IH]; intros f g; cbn [UndoModel.clean_all].
  - intros E. injection E as <-. apply removes_refl.
  - destruct (clean1 f c) as [h|] eqn:E; [|discriminate]. intros G. eapply removes_trans.
    + eapply removes_weaken; [|exact (clean1_removes _ _ _ E)]. intros q Q. exists c. split; [now left | exact Q].
    + eapply removes_weaken; [|exact (IH _ _ G)]. intros q (x & I & Q). exists x. split; [now right | exact Q].
Qed.
Lemma clean_removes f sp cs g : clean f sp cs = Some g -> removes (fun q => In q sp \/ exists c, In c cs /\ covers pm c q) f g.
Proof.
  unfold UndoModel.clean. destruct (clean_special f sp) as [h|] eqn:E; [|discriminate]. intros G. eapply removes_trans.
  - eapply removes_weaken; [|exact (proj1 (clean_special_removes _ _ _ E))]. auto.
  - eapply removes_weaken; [|exact (clean_all_removes _ _ _ G)]. intros q (c & I & Q). right. exists c. split; [now apply in_rev | exact Q].
Qed.

(* A cleanup of a plain path. *)
Lemma plain_not_rec c : is_pattern (c_path c) = false -> negb (c_dir c) && beqb (last (c_path c) []) (b "***") = false.
Proof.
  intros P. destruct (beqb (last (c_path c) []) (b "***")) eqn:E; [|apply andb_false_r]. apply beqb_eq in E. apply last_split in E; [|discriminate].
  rewrite E, pattern_app in P. apply orb_false_iff in P as [_ P]. discriminate.
Qed.
Lemma clean1_plain f c : is_pattern (c_path c) = false -> c_type c <> Never ->
  clean1 f c = match (if c_dir c then rmdir f (c_path c) else rmfile f (c_path c)) with
               | Ok g => Some g
               | NotExist => match c_type c with Maybe => Some f | _ => None end
               | _ => None
               end.
Proof.
  intros P N. unfold UndoModel.clean1. cbn zeta. rewrite (plain_not_rec c P). cbn [orb]. rewrite P.
  destruct (c_type c); [| |congruence]; destruct (c_dir c); reflexivity.
Qed.
Lemma clean1_gone f c g : is_pattern (c_path c) = false -> c_type c <> Never -> clean1 f c = Some g ->
  look g (c_path c) = None /\ (look f (c_path c) = Some (c_dir c) \/ look f (c_path c) = None /\ c_type c = Maybe).
Proof.
  intros P N. rewrite (clean1_plain f c P N). destruct (c_dir c).
  - destruct (rmdir f (c_path c)) eqn:E; try discriminate.
    + intros Q. injection Q as <-. apply rmdir_removes in E as (A & B & _). auto.
    + unfold UndoModel.rmdir in E. destruct (sub cwd (c_path c)); [discriminate|].
      assert (L : look f (c_path c) = None) by (destruct (look f (c_path c)) as [[|]|]; [destruct (has_entries f (c_path c)); discriminate | discriminate | reflexivity]).
      destruct (c_type c); try discriminate. intros Q. injection Q as <-. auto.
  - destruct (rmfile f (c_path c)) eqn:E; try discriminate.
    + intros Q. injection Q as <-. apply rmfile_removes in E as (A & B & _). auto.
    + unfold rmfile in E. assert (L : look f (c_path c) = None) by (destruct (look f (c_path c)) as [[|]|]; [discriminate | discriminate | reflexivity]).
      destruct (c_type c); try discriminate. intros Q. injection Q as <-. auto.
Qed.
(* And of everything in a directory. *)
Lemma clean1_rec f c g d : c_path c = d ++ [b "***"] -> c_dir c = false -> is_pattern d = false -> c_type c <> Never -> clean1 f c = Some g ->
  tree f -> d <> [] -> (forall s, s <> [] -> look g (d ++ s) = None) /\ (d <> wdir -> look g d = None) /\
  (look f d = Some true \/ look f d = None /\ c_type c = Maybe).
Proof.
  intros P D PD N E TR DN. unfold UndoModel.clean1 in E. cbn zeta in E. rewrite P, D, last_last, removelast_last in E. rewrite beqb_refl in E. cbn [negb andb orb] in E.
  rewrite PD in E. destruct (rmdir_r f d (negb (dir_eqb d wdir))) eqn:R.
  - assert (f0 = g) by (destruct (c_type c); congruence). subst f0. apply rmdir_r_removes in R as (A & B & C & _). split; [exact C|]. split; [|auto].
    intros Q. apply B. apply negb_true_iff. now apply dir_eqb_neq.
  - unfold UndoModel.rmdir_r in R. destruct (sub cwd d); [discriminate|]. destruct (look f d) as [[|]|] eqn:L; try discriminate.
    destruct (c_type c); try discriminate; try congruence. injection E as <-. split; [|auto]. intros s S. destruct (look f (d ++ s)) as [k|] eqn:Q; [|reflexivity].
    apply (tree_up f d s k TR DN S) in Q. congruence.
  - destruct (c_type c); try discriminate. congruence.
  - destruct (c_type c); try discriminate. congruence.
Qed.

Lemma gone_stays R f g p : removes R f g -> look f p = None -> look g p = None.
Proof. intros A L. destruct (A p) as [E|[E _]]; congruence. Qed.

Lemma tree_removes_one f g p : tree f -> removes (fun q => q = p) f g -> (forall s, s <> [] -> look f (p ++ s) = None) -> tree g.
Proof.
  intros [T0 T] R N. split; [eapply gone_stays; eauto|]. intros q n k L. destruct (R (q ++ [n])) as [E|[E _]]; [|congruence].
  rewrite E in L. destruct (T _ _ _ L) as [->|Q]; [now left|]. destruct (R q) as [E'|[E' ->]]; [right; congruence|].
  rewrite (N [n]) in L; discriminate.
Qed.
Lemma tree_file f p s : tree f -> p <> [] -> look f p = Some false -> s <> [] -> look f (p ++ s) = None.
Proof. intros T P L S. destruct (look f (p ++ s)) as [k|] eqn:E; [|reflexivity]. apply (tree_up f p s k T P S) in E. congruence. Qed.
End Env.
