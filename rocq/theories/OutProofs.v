(* Proofs about expressions over lines. *)
From Verif Require Import Base OutModel OutSpec.

Lemma mem_iff c s : mem c s = true <-> In c s.
Proof.
  unfold mem. rewrite existsb_exists. split.
  - intros (x & Hx & E). apply ceqb_eq in E. now subst.
  - intros H. exists c. split; [exact H | now apply ceqb_eq].
Qed.

(* The pool. *)
Definition extends (p q : pool) : Prop := exists n, q = n ++ p.
Lemma extends_refl p : extends p p.
Proof. now exists []. Qed.
Lemma extends_trans p q r : extends p q -> extends q r -> extends p r.
Proof. intros (n & ->) (m & ->). exists (m ++ n). now rewrite app_assoc. Qed.
Lemma get_extends p q i s : extends p q -> get p i = Some s -> get q i = Some s.
Proof.
  intros (n & ->) H. unfold get in *. rewrite rev_app_distr, nth_error_app1; [exact H|]. apply nth_error_Some. congruence.
Qed.
Lemma find_id_some s p i : find_id s p = Some i -> get p i = Some s.
Proof.
  induction p as [|x p IH]; cbn [find_id]; [discriminate|]. destruct (beqb x s) eqn:E.
  - apply beqb_eq in E. intros [= <-]. subst. unfold get. cbn [rev]. rewrite nth_error_app2; rewrite rev_length; [|lia]. now rewrite Nat.sub_diag.
  - intros H. eapply get_extends; [exists [x]; reflexivity | now apply IH].
Qed.
Lemma find_id_none s p : find_id s p = None -> ~ In s p.
Proof.
  induction p as [|x p IH]; cbn [find_id]; [intros _ []|]. destruct (beqb x s) eqn:E; [discriminate|]. intros H [-> | X]; [now rewrite beqb_refl in E | now apply IH].
Qed.
Lemma intern_spec p s q i : NoDup p -> intern p s = (q, i) -> NoDup q /\ extends p q /\ get q i = Some s.
Proof.
  intros N. unfold intern. destruct (find_id s p) as [j|] eqn:F; intros [= <- <-].
  - split; [exact N|]. split; [apply extends_refl | now apply find_id_some].
  - split; [constructor; [now apply find_id_none | exact N]|]. split; [now exists [s]|].
    unfold get. cbn [rev]. rewrite nth_error_app2; rewrite rev_length; [|lia]. now rewrite Nat.sub_diag.
Qed.
Lemma get_inj p i j s : NoDup p -> get p i = Some s -> get p j = Some s -> i = j.
Proof.
  intros N A C. unfold get in *. apply (proj1 (NoDup_nth_error (rev p)) (NoDup_rev N)); [apply nth_error_Some; congruence | congruence].
Qed.
Lemma intern_all_spec ls : forall p q is, NoDup p -> intern_all p ls = (q, is) -> NoDup q /\ extends p q /\ Forall2 (fun i s => get q i = Some s) is ls.
Proof.
  induction ls as [|l ls IH]; intros p q is N; cbn [intern_all].
  - intros [= <- <-]. split; [exact N|]. split; [apply extends_refl | constructor].
  - destruct (intern p l) as [p1 i] eqn:E1. destruct (intern_all p1 ls) as [p2 is2] eqn:E2. intros [= <- <-].
    destruct (intern_spec _ _ _ _ N E1) as (N1 & X1 & G1). destruct (IH _ _ _ N1 E2) as (N2 & X2 & F).
    split; [exact N2|]. split; [now apply extends_trans with p1|]. constructor; [now apply get_extends with p1 | exact F].
Qed.

Section E.
Context (rmatch : bool -> bytes -> bytes -> bool).
Section P.
Context (P : pool) (ND : NoDup P).
Notation m1 := (m1 rmatch P). Notation ms := (ms rmatch P). Notation ma := (ma rmatch P).
Definition strs (is : list nat) (ws : list bytes) : Prop := Forall2 (fun i s => get P i = Some s) is ws.
Definition denotes (it : item) (c : lchar) : Prop :=
  match it, c with
  | ILine (PText s), Lit i => get P i = Some s
  | ILine (PRegex ic s), Rgx ic' s' => ic = ic' /\ s = s'
  | IOp x, Special y => x = y
  | _, _ => False
  end.

Lemma ms_app a c w : ms (a ++ c) w <-> exists u v, w = u ++ v /\ ms a u /\ ms c v.
Proof.
  revert w. induction a as [|r a IH]; intros w; cbn [app].
  - split; [intros H; exists [], w; repeat split; [constructor | exact H]|]. intros (u & v & -> & H & H'). inversion H; subst. exact H'.
  - split.
    + intros H. inversion H as [|? ? u v H1 H2]; subst. apply IH in H2. destruct H2 as (u' & v' & -> & A & B). exists (u ++ u'), v'. rewrite app_assoc. repeat split; [now constructor | exact B].
    + intros (u & v & -> & A & B). inversion A as [|? ? u' v' H1 H2]; subst. rewrite <- app_assoc. constructor; [exact H1|]. apply IH. eauto.
Qed.
Lemma ms_one r w : ms [r] w <-> m1 r w.
Proof.
  split.
  - intros H. inversion H as [|? ? u v H1 H2]; subst. inversion H2; subst. now rewrite app_nil_r.
  - intros H. rewrite <- (app_nil_r w). constructor; [exact H | constructor].
Qed.
Lemma m_star r w : m1 (Rep false true r) w <-> exists n, iter (m1 r) n w.
Proof.
  split.
  - intros H. remember (Rep false true r) as q eqn:Q. revert r Q.
    assert (G : forall q w, OutModel.m1 rmatch P q w -> forall r, q = Rep false true r -> exists n, iter (OutModel.m1 rmatch P r) n w).
    { clear. fix F 3. intros q w H. destruct H as [c i E|i|alts w E|hi r0|lo hi r0 w E|lo r0 w w' E E']; intros r Q; try discriminate.
      - exists 0. constructor.
      - injection Q as -> -> ->. exists 1. rewrite <- (app_nil_r w). constructor; [exact E | constructor].
      - injection Q as -> ->. destruct (F _ _ E' r eq_refl) as (n & I). exists (S n). now constructor. }
    intros r0 Q. eapply G; eassumption.
  - intros (n & I). induction I as [|n u v Hu I IH]; [constructor | now apply m_more].
Qed.
Lemma m_plus r w : m1 (Rep true true r) w <-> exists n, iter (m1 r) (S n) w.
Proof.
  split.
  - intros H. remember (Rep true true r) as q eqn:Q. revert r Q.
    assert (G : forall q w, OutModel.m1 rmatch P q w -> forall r, q = Rep true true r -> exists n, iter (OutModel.m1 rmatch P r) (S n) w).
    { clear. fix F 3. intros q w H. destruct H as [c i E|i|alts w E|hi r0|lo hi r0 w E|lo r0 w w' E E']; intros r Q; try discriminate.
      - injection Q as -> -> ->. exists 0. rewrite <- (app_nil_r w). constructor; [exact E | constructor].
      - injection Q as -> ->. destruct (F _ _ E' r eq_refl) as (n & I). exists (S n). now constructor. }
    intros r0 Q. eapply G; eassumption.
  - intros (n & I). revert w I. induction n as [|n IH]; intros w I; inversion I as [|? u v Hu I']; subst.
    + inversion I'; subst. rewrite app_nil_r. now apply m_once.
    + apply m_more; [exact Hu | now apply IH].
Qed.
Lemma m_opt r w : m1 (Rep false false r) w <-> w = [] \/ m1 r w.
Proof.
  split.
  - intros H. inversion H; subst; auto.
  - intros [-> | H]; [constructor | now apply m_once].
Qed.

Definition means (seq : list re) (e : expr) : Prop := forall is ws, strs is ws -> (ms seq is <-> lang rmatch e ws).
Definition reads (cs : list lchar) (seq : list re) : Prop := forall d c fs, steps ((d, c) :: fs) cs = Some ((d, rev seq ++ c) :: fs).
Lemma steps_app a c : forall s, steps s (a ++ c) = match steps s a with Some s => steps s c | None => None end.
Proof. induction a as [|x a IH]; intros s; cbn [app steps]; [reflexivity|]. destruct (step s x); [apply IH | reflexivity]. Qed.
Lemma reads_app a c s t : reads a s -> reads c t -> reads (a ++ c) (s ++ t).
Proof. intros A C d k fs. rewrite steps_app, A, C, rev_app_distr, app_assoc. reflexivity. Qed.

Lemma strs_app is ws u v : strs is ws -> is = u ++ v -> exists x y, ws = x ++ y /\ strs u x /\ strs v y.
Proof. intros H ->. apply Forall2_app_inv_l in H. destruct H as (x & y & A & C & ->). eauto. Qed.
Lemma strs_app_r is ws x y : strs is ws -> ws = x ++ y -> exists u v, is = u ++ v /\ strs u x /\ strs v y.
Proof. intros H ->. apply Forall2_app_inv_r in H. destruct H as (u & v & A & C & ->). eauto. Qed.
Lemma strs_nil ws : strs [] ws -> ws = [].
Proof. intros H. now inversion H. Qed.
Lemma strs_nil_r is : strs is [] -> is = [].
Proof. intros H. now inversion H. Qed.
Lemma iter_means r e : (forall is ws, strs is ws -> (m1 r is <-> lang rmatch e ws)) -> forall n is ws, strs is ws -> (iter (m1 r) n is <-> iter (lang rmatch e) n ws).
Proof.
  intros M. induction n as [|n IH]; intros is ws S.
  - split; intros H; inversion H; subst; [apply strs_nil in S | apply strs_nil_r in S]; subst; constructor.
  - split; intros H.
    + inversion H as [|? u v Hu Hv E1 E2]; subst. destruct (strs_app _ _ u v S eq_refl) as (x & y & -> & A & C). constructor; [now apply (M u) | now apply (IH v)].
    + inversion H as [|? x y Hu Hv E1 E2]; subst. destruct (strs_app_r _ _ x y S eq_refl) as (u & v & -> & A & C). constructor; [now apply (M u x) | now apply (IH v y)].
Qed.

Definition not_rep (r : re) : Prop := match r with Rep _ _ _ => False | _ => True end.
Definition m_means (r : re) (e : expr) : Prop := forall is ws, strs is ws -> (m1 r is <-> lang rmatch e ws).
Lemma group_reads cs seq : reads cs seq -> reads (Special "(" :: cs ++ [Special ")"]) [Grp [seq]].
Proof. intros R d c fs. cbn [steps step]. cbn. rewrite steps_app, R. cbn. now rewrite app_nil_r, rev_involutive. Qed.
Lemma group_means seq e : means seq e -> m_means (Grp [seq]) e.
Proof.
  intros M is ws S. rewrite <- (M is ws S). split.
  - intros H. inversion H as [| |? ? H1| | |]; subst. inversion H1 as [q ? ? I H2]; subst. destruct I as [<-|[]]. exact H2.
  - intros H. constructor. econstructor; [now left | exact H].
Qed.
Lemma one_means r e : m_means r e -> means [r] e.
Proof. intros M is ws S. rewrite ms_one. now apply M. Qed.
Lemma group_denotes l cs : Forall2 denotes (group l) cs -> exists cs', cs = Special "(" :: cs' ++ [Special ")"] /\ Forall2 denotes l cs'.
Proof.
  unfold group. intros F. inversion F as [|? y ? l' D F']; subst. destruct y; cbn in D; try contradiction. subst.
  apply Forall2_app_inv_l in F'. destruct F' as (a & z & A & Z & ->). inversion Z as [|? y ? l' D' F'']; subst. destruct y; cbn in D'; try contradiction. subst. inversion F''; subst. eauto.
Qed.

Lemma quant_reads cs r x lo hi : not_rep r -> reads cs [r] -> (forall s, step s (Special x) = quant s lo hi) -> reads (cs ++ [Special x]) [Rep lo hi r].
Proof. intros N R Q d c fs. rewrite steps_app, R. cbn [rev app steps]. rewrite Q. cbn. destruct r; try contradiction; reflexivity. Qed.

Lemma written_reads e : forall cs, Forall2 denotes (written e) cs ->
  exists seq, reads cs seq /\ means seq e /\ match e with One _ | AnyLine => exists r, seq = [r] /\ not_rep r /\ m_means r e | _ => True end.
Proof.
  induction e as [p| | |x IHx y IHy|x IHx y IHy|x IHx|x IHx|x IHx]; intros cs F; cbn [written] in F.
  - inversion F as [|? c ? l D F']; subst. inversion F'; subst. exists [Chr c].
    assert (R : reads [c] [Chr c]). { intros d k fs. cbn [steps rev app]. destruct p, c; cbn in D; try contradiction; reflexivity. }
    assert (M : m_means (Chr c) (One p)).
    { intros is ws S. cbn [lang]. split.
      - intros H. inversion H as [? i E| | | | |]; subst. inversion S as [|? w ? ws' G S']; subst. inversion S'; subst. exists w. split; [reflexivity|].
        destruct p as [s|ic s], c as [z|j|ic' s']; cbn in D, E |- *; try contradiction.
        + subst. congruence.
        + destruct D as [-> ->]. destruct E as (w' & G' & E). assert (w' = w) by congruence. now subst.
      - intros (w & -> & L). inversion S as [|i ? is' ? G S']; subst. inversion S'; subst. constructor.
        destruct p as [s|ic s], c as [z|j|ic' s']; cbn in D, L |- *; try contradiction.
        + subst. now apply (get_inj P i j s).
        + destruct D as [-> ->]. eauto. }
    split; [exact R|]. split; [now apply one_means|]. exists (Chr c). repeat split; auto; apply M; auto.
  - inversion F as [|? c ? l D F']; subst. inversion F'; subst. destruct c; cbn in D; try contradiction. subst. exists [Any].
    assert (M : m_means Any AnyLine).
    { intros is ws S. cbn [lang]. split.
      - intros H. inversion H; subst. inversion S as [|? w ? ws' G S']; subst. inversion S'; subst. eauto.
      - intros (w & ->). inversion S as [|i ? is' ? G S']; subst. inversion S'; subst. constructor. }
    split; [intros d k fs; reflexivity|]. split; [now apply one_means|]. exists Any. repeat split; auto; apply M; auto.
  - inversion F; subst. exists []. split; [intros d k fs; reflexivity|]. split; [|exact Logic.I]. intros is ws S. cbn [lang]. split.
    + intros H. inversion H; subst. now apply strs_nil.
    + intros ->. apply strs_nil_r in S. subst. constructor.
  - apply Forall2_app_inv_l in F. destruct F as (a & c & A & C & ->). destruct (IHx _ A) as (s & R1 & M1 & _). destruct (IHy _ C) as (t & R2 & M2 & _).
    exists (s ++ t). split; [now apply reads_app|]. split; [|exact Logic.I]. intros is ws S. cbn [lang]. rewrite ms_app. split.
    + intros (u & v & -> & H1 & H2). destruct (strs_app _ _ u v S eq_refl) as (w1 & w2 & -> & S1 & S2). exists w1, w2. split; [reflexivity|]. split; [now apply (M1 u) | now apply (M2 v)].
    + intros (w1 & w2 & -> & H1 & H2). destruct (strs_app_r _ _ w1 w2 S eq_refl) as (u & v & -> & S1 & S2). exists u, v. split; [reflexivity|]. split; [now apply (M1 u w1) | now apply (M2 v w2)].
  - apply group_denotes in F. destruct F as (cs' & -> & F). apply Forall2_app_inv_l in F. destruct F as (a & c & A & C & ->).
    inversion C as [|? o ? c' D C']; subst. destruct o; cbn in D; try contradiction. subst.
    destruct (IHx _ A) as (s & R1 & M1 & _). destruct (IHy _ C') as (t & R2 & M2 & _). exists [Grp [s; t]]. split.
    + intros d k fs. cbn [steps step]. cbn. rewrite <- app_assoc, steps_app, R1. cbn. rewrite steps_app, R2. cbn. rewrite !app_nil_r, !rev_involutive. reflexivity.
    + split; [|exact Logic.I]. intros is ws S. cbn [lang]. rewrite ms_one, <- (M1 is ws S), <- (M2 is ws S). split.
      * intros H. inversion H as [| |? ? H1| | |]; subst. inversion H1 as [q ? ? I H2]; subst. destruct I as [<-|[<-|[]]]; auto.
      * intros [H|H]; constructor; econstructor; [now left | exact H | now right; left | exact H].
  - assert (G : exists a r, cs = a ++ [Special "?"] /\ reads a [r] /\ not_rep r /\ m_means r x).
    { apply Forall2_app_inv_l in F. destruct F as (a & c & A & C & ->). inversion C as [|? o ? c' D C']; subst. destruct o; cbn in D; try contradiction. subst. inversion C'; subst. exists a.
      destruct x; try (apply group_denotes in A; destruct A as (a' & -> & A); destruct (IHx _ A) as (s & R & M & _); exists (Grp [s]); split; [reflexivity|]; split; [now apply group_reads|]; split; [exact Logic.I | now apply group_means]).
      all: destruct (IHx _ A) as (s & R & M & r & -> & N & M'); exists r; auto. }
    destruct G as (a & r & -> & R & N & M). exists [Rep false false r]. split; [now apply quant_reads|]. split; [|exact Logic.I].
    intros is ws S. cbn [lang]. rewrite ms_one, m_opt, (M is ws S). split; (intros [-> |H]; [|now right]); [apply strs_nil in S | apply strs_nil_r in S]; now left.
  - assert (G : exists a r, cs = a ++ [Special "*"] /\ reads a [r] /\ not_rep r /\ m_means r x).
    { apply Forall2_app_inv_l in F. destruct F as (a & c & A & C & ->). inversion C as [|? o ? c' D C']; subst. destruct o; cbn in D; try contradiction. subst. inversion C'; subst. exists a.
      destruct x; try (apply group_denotes in A; destruct A as (a' & -> & A); destruct (IHx _ A) as (s & R & M & _); exists (Grp [s]); split; [reflexivity|]; split; [now apply group_reads|]; split; [exact Logic.I | now apply group_means]).
      all: destruct (IHx _ A) as (s & R & M & r & -> & N & M'); exists r; auto. }
    destruct G as (a & r & -> & R & N & M). exists [Rep false true r]. split; [now apply quant_reads|]. split; [|exact Logic.I].
    intros is ws S. cbn [lang]. rewrite ms_one, m_star. split; intros (n & H); exists n; now apply (iter_means r x M n is ws S).
  - assert (G : exists a r, cs = a ++ [Special "+"] /\ reads a [r] /\ not_rep r /\ m_means r x).
    { apply Forall2_app_inv_l in F. destruct F as (a & c & A & C & ->). inversion C as [|? o ? c' D C']; subst. destruct o; cbn in D; try contradiction. subst. inversion C'; subst. exists a.
      destruct x; try (apply group_denotes in A; destruct A as (a' & -> & A); destruct (IHx _ A) as (s & R & M & _); exists (Grp [s]); split; [reflexivity|]; split; [now apply group_reads|]; split; [exact Logic.I | now apply group_means]).
      all: destruct (IHx _ A) as (s & R & M & r & -> & N & M'); exists r; auto. }
    destruct G as (a & r & -> & R & N & M). exists [Rep true true r]. split; [now apply quant_reads|]. split; [|exact Logic.I].
    intros is ws S. cbn [lang]. rewrite ms_one, m_plus. split; intros (n & H); exists n; now apply (iter_means r x M (Datatypes.S n) is ws S).
Qed.
Lemma parse_written e cs : Forall2 denotes (written e) cs -> exists a, parse cs = Some a /\ forall is ws, strs is ws -> (ma a is <-> lang rmatch e ws).
Proof.
  intros F. destruct (written_reads e cs F) as (seq & R & M & _). exists [seq]. unfold parse. rewrite R, app_nil_r, rev_involutive. split; [reflexivity|].
  intros is ws S. rewrite <- (M is ws S). split.
  - intros H. inversion H as [q ? ? I H2]; subst. destruct I as [<-|[]]. exact H2.
  - intros H. econstructor; [now left | exact H].
Qed.
End P.
End E.
