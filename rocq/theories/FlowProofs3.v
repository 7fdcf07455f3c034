(* Proofs for scripts: line indexes. *)
From Verif Require Import Base FlowModel FlowSpec.

Section Index.
Context {St Val : Type} (env : environment St Val) (throw : bool).
Notation lenv := (logged env).
Notation runs := (runs lenv throw).
Notation run1 := (run1 lenv throw).
Notation runs_if := (runs_if lenv throw).
Notation runs_chain := (runs_chain lenv throw).
Notation runs_while := (runs_while lenv throw).
Notation runs_for := (runs_for lenv throw).
Notation LS := (St * list event)%type.

(* Plain: the index after is known. *)
Definition ends_at (n : nat) (r : res LS) : Prop := match r with Done li _ => li = n | _ => True end.
Lemma plain_exact :
  (forall s last ii li st r, run1 s last ii li st r -> plain_stmt s -> ends_at (li + size_stmt s) r) /\
  (forall b ii li st r, runs b ii li st r -> plain b -> ends_at (li + size b) r) /\
  (forall k neg id b c ii li st r, runs_if k neg id b c ii li st r -> plain_stmt (SIf k neg id b c) -> ends_at (S li + size b + size_chain c) r) /\
  (forall c ii li st r, runs_chain c ii li st r -> match c with CNone => True | CElse _ b => plain b | CElif _ _ _ _ _ => False end -> ends_at (li + size_chain c) r) /\
  (forall id b wi ii li st r, runs_while id b wi ii li st r -> plain b -> ends_at (S li + size b) r) /\
  (forall stream id b vs fi fli ii li st r, runs_for stream id b vs fi fli ii li st r -> plain b -> li = fli + size b -> ends_at (fli + size b) r).
Proof.
  apply runs_mutind; intros; cbn [ends_at size_stmt size size_chain] in *; try exact I; try lia.
  all: try (unfold exited; match goal with |- ends_at _ (if ?x then _ else _) => destruct x end; exact I).
  all: try (destruct r; try discriminate; exact I).
  - specialize (H0 H1). unfold ends_at in *. destruct r; auto. lia.
  - specialize (H0 H1). unfold ends_at in *. destruct r; auto. lia.
  - specialize (H1 H2 eq_refl). unfold ends_at in *. destruct r; auto.
  - specialize (H1 H2 eq_refl). unfold ends_at in *. destruct r; auto. lia.
  - destruct H3 as [H3 H4]. specialize (H0 H3). specialize (H2 H4). subst li'. unfold ends_at in *. destruct r; auto. lia.
  - destruct H2 as [-> [Hb Hc]]. specialize (H1 Hb). cbn [takes] in *. destruct c; [|cbn [size_rest size_chain] in *; lia|contradiction]. cbn in *. lia.
  - destruct H2 as [-> [Hb Hc]]. cbn [takes] in *. specialize (H1 Hc). unfold ends_at in *. destruct r; auto. lia.
  - auto.
  - auto.
  - auto.
  - auto.
  - auto.
  - auto.
Qed.

(* The index never gets ahead of the position. *)
Definition ends_by (lo hi : nat) (r : res LS) : Prop := match r with Done li _ => lo <= li /\ li <= hi | _ => True end.
Lemma size_rest_le c : size_rest c <= size_chain c.
Proof. destruct c; cbn; lia. Qed.
Lemma takes_le k : takes k <= 1.
Proof. destruct k; cbn; lia. Qed.
Lemma ends_le :
  (forall s last ii li st r, run1 s last ii li st r -> ends_by li (li + size_stmt s) r) /\
  (forall b ii li st r, runs b ii li st r -> ends_by li (li + size b) r) /\
  (forall k neg id b c ii li st r, runs_if k neg id b c ii li st r -> ends_by li (S li + size b + size_chain c) r) /\
  (forall c ii li st r, runs_chain c ii li st r -> ends_by li (li + size_chain c) r) /\
  (forall id b wi ii li st r, runs_while id b wi ii li st r -> ends_by li (S li + size b) r) /\
  (forall stream id b vs fi fli ii li st r, runs_for stream id b vs fi fli ii li st r -> fli <= li -> li <= fli + size b -> ends_by fli (fli + size b) r).
Proof.
  apply runs_mutind; intros; cbn [ends_by size_stmt size size_chain] in *; try exact I; try lia.
  all: try (unfold exited; match goal with |- ends_by _ _ (if ?x then _ else _) => destruct x end; exact I).
  all: try (destruct r; try discriminate; exact I).
  - unfold ends_by in *. destruct r; auto. lia.
  - unfold ends_by in *. destruct r; auto. lia.
  - unfold ends_by in *. destruct r; auto. lia.
  - unfold ends_by in *. destruct r; auto. lia.
  - unfold ends_by in *. destruct r; auto. lia.
  - pose proof (size_rest_le c). pose proof (takes_le k). lia.
  - pose proof (takes_le k). unfold ends_by in *. destruct r; auto. lia.
  - auto.
  - unfold ends_by in *. destruct r; auto. lia.
  - auto.
  - auto.
  - apply H3; lia.
  - apply H3; lia.
  - apply H3; lia.
Qed.

Lemma while_end :
  forall id b wi ii li st r, runs_while id b wi ii li st r -> ends_at (S li + size b) r.
Proof.
  intros id b wi ii li st r H. induction H; cbn; auto.
  - unfold exited. destruct (throw && negb (c =? 0)); exact I.
  - destruct r; try discriminate; exact I.
Qed.
Lemma plain_plain_loops b : plain b -> plain_loops b.
Proof.
  revert b. enough (H : (forall s, plain_stmt s -> plain_loops_stmt s) /\ (forall b, plain b -> plain_loops b) /\
    (forall c, match c with CNone => True | CElse _ b => plain b | CElif _ _ _ _ _ => False end -> plain_loops_chain c)) by apply H.
  apply program_ind; intros; cbn in *; try tauto. 
Qed.

(* What is added to the log. *)
Definition key (e : event) : list nat * nat := (snd (fst e), snd e).
Definition within (ii : list nat) (lo hi : nat) (e : event) : Prop := (exists p, snd (fst e) = p ++ ii) /\ lo <= snd e < hi.
Definition adds (ii : list nat) (lo hi : nat) (l l' : list event) : Prop := exists new, l' = new ++ l /\ NoDup (map key new) /\ Forall (within ii lo hi) new.
Definition upto (hi : nat) (r : res LS) : nat := match r with Done li _ => li | _ => hi end.
Definition fine (ii : list nat) (lo hi : nat) (st : LS) (r : res LS) : Prop := r = Assert \/ adds ii lo (upto hi r) (snd st) (log_of r).
Lemma adds_none ii lo hi l : adds ii lo hi l l.
Proof. exists []. repeat split; constructor. Qed.
Lemma adds_one ii lo hi l id : lo < hi -> adds ii lo hi l ((id, ii, lo) :: l).
Proof.
  intros H. exists [(id, ii, lo)]. split; [reflexivity|]. split; [cbn; constructor; [intros []|constructor]|].
  constructor; [|constructor]. split; [exists []; reflexivity|cbn; lia].
Qed.
Lemma NoDup_app_key (a c : list event) : NoDup (map key a) -> NoDup (map key c) -> (forall x y, In x a -> In y c -> key x <> key y) -> NoDup (map key (a ++ c)).
Proof.
  intros Ha Hc H. rewrite map_app. induction a as [|x a IH]; [exact Hc|]. cbn in *. inversion Ha; subst. constructor.
  - rewrite in_app_iff. intros [Hi|Hi]; [auto|]. apply in_map_iff in Hi as (y & Hy & Hi). eapply H; [left; reflexivity|exact Hi|symmetry; exact Hy].
  - apply IH; auto. 
Qed.
Lemma adds_weaken ii lo hi lo' hi' l l' : lo' <= lo -> hi <= hi' -> adds ii lo hi l l' -> adds ii lo' hi' l l'.
Proof. intros H1 H2 (n & E & Hn & Hf). exists n. split; [exact E|]. split; [exact Hn|]. eapply Forall_impl; [|exact Hf]. intros e [He Hl]. split; [exact He|lia]. Qed.
Lemma adds_seq ii lo mid mid' hi l1 l2 l3 : lo <= mid -> mid <= mid' -> mid' <= hi -> adds ii lo mid l1 l2 -> adds ii mid' hi l2 l3 -> adds ii lo hi l1 l3.
Proof.
  intros H1 H2 H3 (n1 & -> & Hn1 & Hf1) (n2 & -> & Hn2 & Hf2). exists (n2 ++ n1). split; [rewrite app_assoc; reflexivity|]. rewrite Forall_forall in Hf1, Hf2. split.
  - apply NoDup_app_key; auto. intros x y Hx Hy E. apply Hf2 in Hx as [_ Hx]. apply Hf1 in Hy as [_ Hy]. injection E as _ E. lia.
  - rewrite Forall_forall. intros x Hx. apply in_app_iff in Hx as [Hx|Hx]; [apply Hf2 in Hx|apply Hf1 in Hx]; destruct Hx as [Hx Hl]; (split; [exact Hx|lia]).
Qed.
(* Entries of iterations from wi on. *)
Definition within_from (ii : list nat) (wi lo hi : nat) (e : event) : Prop := (exists p w, wi <= w /\ snd (fst e) = p ++ w :: ii) /\ lo <= snd e < hi.
Definition adds_from (ii : list nat) (wi lo hi : nat) (l l' : list event) : Prop := exists new, l' = new ++ l /\ NoDup (map key new) /\ Forall (within_from ii wi lo hi) new.
Lemma adds_from_adds ii wi lo hi l l' : adds_from ii wi lo hi l l' -> adds ii lo hi l l'.
Proof.
  intros (n & E & Hn & Hf). exists n. split; [exact E|]. split; [exact Hn|]. eapply Forall_impl; [|exact Hf]. intros e [(p & w & _ & He) Hl]. split; [|exact Hl].
  exists (p ++ [w]). rewrite <-app_assoc. exact He.
Qed.
Lemma adds_iter ii wi lo hi l l' : adds (wi :: ii) lo hi l l' -> adds_from ii wi lo hi l l'.
Proof. intros (n & E & Hn & Hf). exists n. split; [exact E|]. split; [exact Hn|]. eapply Forall_impl; [|exact Hf]. intros e [[p He] Hl]. split; [|exact Hl]. exists p, wi. split; [lia|exact He]. Qed.
Lemma same_tail {A} (p q : list A) a c (r : list A) : p ++ a :: r = q ++ c :: r -> a = c.
Proof.
  intros E. assert (El : length p = length q) by (apply (f_equal (@length A)) in E; rewrite !app_length in E; cbn in E; lia).
  revert q E El. induction p as [|x p IH]; intros [|y q] E El; try discriminate; cbn in E; [congruence|]. injection E as _ E. apply (IH q); auto.
Qed.
Lemma adds_from_seq ii wi lo hi l1 l2 l3 : adds (wi :: ii) lo hi l1 l2 -> adds_from ii (S wi) lo hi l2 l3 -> adds_from ii wi lo hi l1 l3.
Proof.
  intros (n1 & -> & Hn1 & Hf1) (n2 & -> & Hn2 & Hf2). exists (n2 ++ n1). split; [rewrite app_assoc; reflexivity|]. rewrite Forall_forall in Hf1, Hf2. split.
  - apply NoDup_app_key; auto. intros x y Hx Hy E. apply Hf2 in Hx as [(p & w & Hw & Hx) _]. apply Hf1 in Hy as [[q Hy] _]. injection E as E _.
    rewrite Hx, Hy in E. apply same_tail in E. lia.
  - rewrite Forall_forall. intros x Hx. apply in_app_iff in Hx as [Hx|Hx]; [apply Hf2 in Hx|apply Hf1 in Hx].
    + destruct Hx as [(p & w & Hw & Hx) Hl]. split; [|exact Hl]. exists p, w. split; [lia|exact Hx].
    + destruct Hx as [[p Hx] Hl]. split; [|exact Hl]. exists p, wi. split; [lia|exact Hx].
Qed.
Definition fine_from (ii : list nat) (wi lo hi : nat) (st : LS) (r : res LS) : Prop := r = Assert \/ adds_from ii wi lo hi (snd st) (log_of r).

Lemma set_log id (st st' : LS) ok : e_set lenv id st = (st', ok) -> snd st' = snd st.
Proof. destruct st as [s0 l0]. cbn. destruct (e_set env id s0). intros [= <- _]. reflexivity. Qed.
Lemma values_log id (st st' : LS) ok : e_values lenv id st = (st', ok) -> snd st' = snd st.
Proof. destruct st as [s0 l0]. cbn. destruct (e_values env id s0). intros [= <- _]. reflexivity. Qed.
Lemma for_log id v (st st' : LS) ok : e_for lenv id v st = (st', ok) -> snd st' = snd st.
Proof. destruct st as [s0 l0]. cbn. destruct (e_for env id v s0). intros [= <- _]. reflexivity. Qed.
Lemma cmd_log id ii li single (st st' : LS) r : e_cmd lenv id ii li single st = (st', r) -> snd st' = (id, ii, li) :: snd st.
Proof. destruct st as [s0 l0]. cbn. destruct (e_cmd env id ii li single s0). intros [= <- _]. reflexivity. Qed.
Lemma cond_log id ii li (st st' : LS) r : e_cond lenv id ii li st = (st', r) -> snd st' = (id, ii, li) :: snd st.
Proof. destruct st as [s0 l0]. cbn. destruct (e_cond env id ii li s0). intros [= <- _]. reflexivity. Qed.
Lemma stream_log id ii li (st st' : LS) r : e_stream lenv id ii li st = (st', r) -> snd st' = (id, ii, li) :: snd st.
Proof. destruct st as [s0 l0]. cbn. destruct (e_stream env id ii li s0). intros [= <- _]. reflexivity. Qed.
Lemma null_log id (st st' : LS) r : e_null lenv id st = (st', r) -> snd st' = snd st.
Proof. destruct st as [s0 l0]. cbn. destruct (e_null env id s0). intros [= <- _]. reflexivity. Qed.
Lemma empty_log id (st st' : LS) r : e_empty lenv id st = (st', r) -> snd st' = snd st.
Proof. destruct st as [s0 l0]. cbn. destruct (e_empty env id s0). intros [= <- _]. reflexivity. Qed.
Lemma stream_end_log id (st st' : LS) r : e_stream_end lenv id st = (st', r) -> snd st' = snd st.
Proof. destruct st as [s0 l0]. cbn. destruct (e_stream_end env id s0). intros [= <- _]. reflexivity. Qed.
Lemma condition_log k neg id ii li (st st' : LS) r : condition lenv k neg id ii li st st' r -> adds ii li (li + takes k) (snd st) (snd st').
Proof.
  destruct k; intros (r0 & E & _).
  - apply cond_log in E. rewrite E. apply adds_one. cbn. lia.
  - apply null_log in E. rewrite E. apply adds_none.
  - apply empty_log in E. rewrite E. apply adds_none.
Qed.
Lemma finished_log stream id (st st' : LS) ok : finished lenv stream id st st' ok -> snd st' = snd st.
Proof. intros [_ ->|ok' _ E]; [reflexivity|]. eapply stream_end_log. exact E. Qed.
Lemma log_of_exited c (st : LS) : log_of (exited throw c st) = snd st.
Proof. unfold exited. destruct (throw && negb (c =? 0)); reflexivity. Qed.
Lemma upto_exited c (st : LS) n : upto n (exited throw c st) = n.
Proof. unfold exited. destruct (throw && negb (c =? 0)); reflexivity. Qed.

Lemma unique_log :
  (forall s last ii li st r, run1 s last ii li st r -> plain_loops_stmt s -> fine ii li (li + size_stmt s) st r) /\
  (forall b ii li st r, runs b ii li st r -> plain_loops b -> fine ii li (li + size b) st r) /\
  (forall k neg id b c ii li st r, runs_if k neg id b c ii li st r -> plain_loops b -> plain_loops_chain c -> fine ii li (S li + size b + size_chain c) st r) /\
  (forall c ii li st r, runs_chain c ii li st r -> plain_loops_chain c -> fine ii li (li + size_chain c) st r) /\
  (forall id b wi ii li st r, runs_while id b wi ii li st r -> plain_loops b -> fine_from ii wi li (S li + size b) st r) /\
  (forall stream id b vs fi fli ii li st r, runs_for stream id b vs fi fli ii li st r -> plain_loops b -> fine_from ii fi fli (fli + size b) st r).
Proof.
  apply runs_mutind; intros; unfold fine, fine_from in *; cbn [log_of upto size_stmt size size_chain plain_loops_stmt plain_loops plain_loops_chain] in *.
  - right. rewrite (set_log _ _ _ _ H). apply adds_none.
  - right. rewrite (set_log _ _ _ _ H). apply adds_none.
  - right. rewrite (cmd_log _ _ _ _ _ _ _ H). apply adds_one. lia.
  - right. rewrite log_of_exited, upto_exited, (cmd_log _ _ _ _ _ _ _ H). apply adds_one. lia.
  - right. rewrite (cmd_log _ _ _ _ _ _ _ H). apply adds_one. lia.
  - right. apply adds_none.
  - right. apply adds_none.
  - replace (li + S (size b + size_chain c)) with (S li + size b + size_chain c) by lia. apply H0; apply H1.
  - specialize (H0 H1). destruct H0 as [H0|H0]; [auto|]. right. apply adds_from_adds in H0.
    pose proof (proj1 (proj2 (proj2 (proj2 (proj2 ends_le)))) _ _ _ _ _ _ _ H) as He. 
    pose proof (while_end _ _ _ _ _ _ _ H) as Hw.
    eapply adds_weaken; [| |exact H0]; [lia|]. destruct r; cbn in *; lia.
  - specialize (H1 (plain_plain_loops _ H2)). destruct H1 as [H1|H1]; [auto|]. right. apply adds_from_adds in H1.
    rewrite (values_log _ _ _ _ H) in H1. eapply adds_weaken; [| |exact H1]; [lia|].
    pose proof (proj2 (proj2 (proj2 (proj2 (proj2 plain_exact)))) _ _ _ _ _ _ _ _ _ _ H0 H2 eq_refl) as He. destruct r; cbn in *; lia.
  - right. rewrite (values_log _ _ _ _ H). apply adds_none.
  - specialize (H1 (plain_plain_loops _ H2)). destruct H1 as [H1|H1]; [auto|]. right. apply adds_from_adds in H1.
    pose proof (proj2 (proj2 (proj2 (proj2 (proj2 plain_exact)))) _ _ _ _ _ _ _ _ _ _ H0 H2 eq_refl) as He.
    rewrite (stream_log _ _ _ _ _ _ H) in H1.
    eapply (adds_seq _ _ (S li) (S li)); [| | |apply adds_one|eapply adds_weaken; [| |exact H1]]; try lia; destruct r; cbn in *; lia.
  - right. rewrite (stream_log _ _ _ _ _ _ H). apply adds_one. lia.
  - right. apply adds_none.
  - destruct H3 as [Hs Hb]. destruct (H0 Hs) as [H3|H3]; [discriminate|]. destruct (H2 Hb) as [H4|H4]; [auto|]. right. cbn [log_of upto] in *.
    pose proof (proj1 ends_le _ _ _ _ _ _ H) as He1. pose proof (proj1 (proj2 ends_le) _ _ _ _ _ H1) as He2. cbn in He1.
    eapply (adds_seq _ _ li' li'); [| | |exact H3|eapply adds_weaken; [| |exact H4]]; try lia; destruct r; cbn in *; lia.
  - destruct H2 as [Hs Hb]. destruct (H0 Hs) as [H3|H3]; [auto|]. right. eapply adds_weaken; [| |exact H3]; [lia|]. destruct r; cbn in *; try discriminate; lia.
  - right. pose proof (takes_le k). eapply adds_weaken; [| |eapply condition_log; exact H]; lia.
  - right. pose proof (takes_le k). rewrite log_of_exited, upto_exited. eapply adds_weaken; [| |eapply condition_log; exact H]; lia.
  - destruct (H1 H2) as [H4|H4]; [discriminate|]. right. cbn [log_of upto] in *. pose proof (proj1 (proj2 ends_le) _ _ _ _ _ H0) as He. cbn in He.
    eapply (adds_seq _ _ (li + takes k) (li + takes k)); [| | |eapply condition_log; exact H|eapply adds_weaken; [| |exact H4]]; lia.
  - destruct (H1 H3) as [H5|H5]; [auto|]. right. pose proof (takes_le k).
    eapply (adds_seq _ _ (li + takes k) (li + takes k)); [| | |eapply condition_log; exact H|eapply adds_weaken; [| |exact H5]]; try lia; destruct r; cbn in *; try discriminate; lia.
  - destruct (H1 H3) as [H5|H5]; [auto|]. right. pose proof (takes_le k). pose proof (proj1 (proj2 (proj2 (proj2 ends_le))) _ _ _ _ _ H0) as He.
    eapply (adds_seq _ _ (li + takes k) (li + takes k + size b)); [| | |eapply condition_log; exact H|eapply adds_weaken; [| |exact H5]]; try lia; destruct r; cbn in *; lia.
  - right. apply adds_none.
  - apply H0. assumption.
  - replace (li + S (size b + size_chain c)) with (S li + size b + size_chain c) by lia. apply H0; apply H1.
  - right. rewrite (cond_log _ _ _ _ _ _ H). apply adds_iter, adds_one. lia.
  - right. rewrite log_of_exited, (cond_log _ _ _ _ _ _ H). apply adds_iter, adds_one. lia.
  - right. rewrite (cond_log _ _ _ _ _ _ H). apply adds_iter, adds_one. lia.
  - destruct (H1 H4) as [H5|H5]; [discriminate|]. destruct (H3 H4) as [H6|H6]; [auto|]. right. cbn [log_of upto] in *. rewrite (cond_log _ _ _ _ _ _ H) in H5.
    pose proof (proj1 (proj2 ends_le) _ _ _ _ _ H0) as He. cbn in He.
    eapply adds_from_seq; [|exact H6]. eapply (adds_seq _ _ (S li) (S li)); [| | |apply adds_one|eapply adds_weaken; [| |exact H5]]; lia.
  - destruct (H1 H4) as [H5|H5]; [discriminate|]. destruct (H3 H4) as [H6|H6]; [auto|]. right. cbn [log_of upto] in *. rewrite (cond_log _ _ _ _ _ _ H) in H5.
    eapply adds_from_seq; [|exact H6]. eapply (adds_seq _ _ (S li) (S li)); [| | |apply adds_one|eapply adds_weaken; [| |exact H5]]; lia.
  - destruct (H1 H2) as [H5|H5]; [discriminate|]. right. cbn [log_of upto] in *. rewrite (cond_log _ _ _ _ _ _ H) in H5.
    apply adds_iter. eapply (adds_seq _ _ (S li) (S li)); [| | |apply adds_one|eapply adds_weaken; [| |exact H5]]; lia.
  - destruct (H1 H3) as [H5|H5]; [auto|]. right. rewrite (cond_log _ _ _ _ _ _ H) in H5.
    apply adds_iter. eapply (adds_seq _ _ (S li) (S li)); [| | |apply adds_one|eapply adds_weaken; [| |exact H5]]; try lia; destruct r; cbn in *; try discriminate; lia.
  - right. rewrite (finished_log _ _ _ _ _ H). apply adds_iter, adds_none.
  - right. rewrite (finished_log _ _ _ _ _ H). apply adds_iter, adds_none.
  - right. rewrite (for_log _ _ _ _ _ H). apply adds_iter, adds_none.
  - destruct (H1 H4) as [H5|H5]; [discriminate|]. destruct (H3 H4) as [H6|H6]; [auto|]. right. cbn [log_of upto] in *. rewrite (for_log _ _ _ _ _ H) in H5.
    pose proof (proj1 (proj2 ends_le) _ _ _ _ _ H0) as He. cbn in He. eapply adds_from_seq; [|exact H6]. eapply adds_weaken; [| |exact H5]; lia.
  - destruct (H1 H4) as [H5|H5]; [discriminate|]. destruct (H3 H4) as [H6|H6]; [auto|]. right. cbn [log_of upto] in *. rewrite (for_log _ _ _ _ _ H) in H5.
    eapply adds_from_seq; [|exact H6]. exact H5.
  - destruct (H1 H4) as [H5|H5]; [discriminate|]. destruct (H3 H4) as [H6|H6]; [auto|]. right. cbn [log_of upto] in *. rewrite (for_log _ _ _ _ _ H) in H5.
    eapply adds_from_seq; [|exact H6]. exact H5.
  - destruct (H1 H2) as [H5|H5]; [discriminate|]. right. cbn [log_of upto] in *. rewrite (for_log _ _ _ _ _ H) in H5. apply adds_iter. exact H5.
  - destruct (H1 H3) as [H5|H5]; [discriminate|]. right. cbn [log_of upto] in *. rewrite (for_log _ _ _ _ _ H) in H5. rewrite (finished_log _ _ _ _ _ H2). apply adds_iter. exact H5.
  - destruct (H1 H3) as [H5|H5]; [discriminate|]. right. cbn [log_of upto] in *. rewrite (for_log _ _ _ _ _ H) in H5. rewrite (finished_log _ _ _ _ _ H2). apply adds_iter. exact H5.
Qed.

(* Plain: all commands are at their positions. *)
Definition at_positions (ps : list (nat * nat)) (l l' : list event) : Prop := exists new, l' = new ++ l /\ forall id ii li, In (id, ii, li) new -> In (id, li) ps.
Definition placed (ps : list (nat * nat)) (st : LS) (r : res LS) : Prop := r = Assert \/ at_positions ps (snd st) (log_of r).
Lemma at_none ps l : at_positions ps l l.
Proof. exists []. split; [reflexivity|]. intros ? ? ? []. Qed.
Lemma at_one id ii li ps l : In (id, li) ps -> at_positions ps l ((id, ii, li) :: l).
Proof. intros H. exists [(id, ii, li)]. split; [reflexivity|]. intros id' ii' li' [[= <- <- <-]|[]]. exact H. Qed.
Lemma at_seq ps l1 l2 l3 : at_positions ps l1 l2 -> at_positions ps l2 l3 -> at_positions ps l1 l3.
Proof. intros (n1 & -> & H1) (n2 & -> & H2). exists (n2 ++ n1). split; [rewrite app_assoc; reflexivity|]. intros id ii li Hi. apply in_app_iff in Hi as [Hi|Hi]; eauto. Qed.
Lemma at_incl ps ps' l l' : incl ps ps' -> at_positions ps l l' -> at_positions ps' l l'.
Proof. intros H (n & E & Hn). exists n. split; [exact E|]. intros. apply H. eauto. Qed.
Lemma positions_log :
  (forall s last ii li st r, run1 s last ii li st r -> plain_stmt s -> placed (positions_stmt s li) st r) /\
  (forall b ii li st r, runs b ii li st r -> plain b -> placed (positions b li) st r) /\
  (forall k neg id b c ii li st r, runs_if k neg id b c ii li st r -> plain_stmt (SIf k neg id b c) -> placed (positions_stmt (SIf k neg id b c) li) st r) /\
  (forall c ii li st r, runs_chain c ii li st r -> match c with CNone => True | CElse _ b => plain b | CElif _ _ _ _ _ => False end -> placed (positions_chain c li) st r) /\
  (forall id b wi ii li st r, runs_while id b wi ii li st r -> plain b -> placed ((id, li) :: positions b (S li)) st r) /\
  (forall stream id b vs fi fli ii li st r, runs_for stream id b vs fi fli ii li st r -> plain b -> placed (positions b fli) st r).
Proof.
  assert (Hcond : forall neg id ii li (st st' : LS) r, condition lenv KCmd neg id ii li st st' r -> snd st' = (id, ii, li) :: snd st).
  { intros neg id ii li st st' r (r0 & E & _). eapply cond_log. exact E. }
  apply runs_mutind; intros; unfold placed in *; cbn [log_of positions_stmt positions positions_chain plain_stmt plain] in *.
  - right. rewrite (set_log _ _ _ _ H). apply at_none.
  - right. rewrite (set_log _ _ _ _ H). apply at_none.
  - right. rewrite (cmd_log _ _ _ _ _ _ _ H). apply at_one. left. reflexivity.
  - right. rewrite log_of_exited, (cmd_log _ _ _ _ _ _ _ H). apply at_one. left. reflexivity.
  - right. rewrite (cmd_log _ _ _ _ _ _ _ H). apply at_one. left. reflexivity.
  - right. apply at_none.
  - right. apply at_none.
  - auto.
  - auto.
  - destruct (H1 H2) as [H3|H3]; [auto|]. right. rewrite (values_log _ _ _ _ H) in H3. exact H3.
  - right. rewrite (values_log _ _ _ _ H). apply at_none.
  - destruct (H1 H2) as [H3|H3]; [auto|]. right. rewrite (stream_log _ _ _ _ _ _ H) in H3.
    eapply at_seq; [apply at_one; left; reflexivity|]. eapply at_incl; [|exact H3]. apply incl_tl, incl_refl.
  - right. rewrite (stream_log _ _ _ _ _ _ H). apply at_one. left. reflexivity.
  - right. apply at_none.
  - destruct H3 as [Hs Hb]. destruct (H0 Hs) as [H3|H3]; [discriminate|]. destruct (H2 Hb) as [H4|H4]; [auto|]. right.
    pose proof (proj1 plain_exact _ _ _ _ _ _ H Hs) as He. cbn in He, H3. subst li'.
    eapply at_seq; [eapply at_incl; [|exact H3]; apply incl_appl, incl_refl|]. eapply at_incl; [|exact H4]. apply incl_appr, incl_refl.
  - destruct H2 as [Hs Hb]. destruct (H0 Hs) as [H3|H3]; [auto|]. right. eapply at_incl; [|exact H3]. apply incl_appl, incl_refl.
  - destruct H0 as [-> _]. right. rewrite (Hcond _ _ _ _ _ _ _ H). apply at_one. left. reflexivity.
  - destruct H0 as [-> _]. right. rewrite log_of_exited, (Hcond _ _ _ _ _ _ _ H). apply at_one. left. reflexivity.
  - destruct H2 as [-> [Hb Hc]]. destruct (H1 Hb) as [H4|H4]; [discriminate|]. right. cbn [log_of takes] in *. rewrite (Hcond _ _ _ _ _ _ _ H) in H4. rewrite Nat.add_1_r in H4.
    eapply at_seq; [apply at_one; left; reflexivity|]. eapply at_incl; [|exact H4]. apply incl_tl, incl_appl, incl_refl.
  - destruct H3 as [-> [Hb Hc]]. destruct (H1 Hb) as [H4|H4]; [auto|]. right. cbn [takes] in *. rewrite (Hcond _ _ _ _ _ _ _ H) in H4. rewrite Nat.add_1_r in H4.
    eapply at_seq; [apply at_one; left; reflexivity|]. eapply at_incl; [|exact H4]. apply incl_tl, incl_appl, incl_refl.
  - destruct H2 as [-> [Hb Hc]]. destruct (H1 Hc) as [H4|H4]; [auto|]. right. cbn [takes] in *. rewrite (Hcond _ _ _ _ _ _ _ H) in H4. rewrite Nat.add_1_r in H4.
    eapply at_seq; [apply at_one; left; reflexivity|]. eapply at_incl; [|exact H4]. apply incl_tl, incl_appr, incl_refl.
  - right. apply at_none.
  - auto.
  - contradiction.
  - right. rewrite (cond_log _ _ _ _ _ _ H). apply at_one. left. reflexivity.
  - right. rewrite log_of_exited, (cond_log _ _ _ _ _ _ H). apply at_one. left. reflexivity.
  - right. rewrite (cond_log _ _ _ _ _ _ H). apply at_one. left. reflexivity.
  - destruct (H1 H4) as [H5|H5]; [discriminate|]. destruct (H3 H4) as [H6|H6]; [auto|]. right. cbn [log_of] in *. rewrite (cond_log _ _ _ _ _ _ H) in H5.
    eapply at_seq; [apply at_one; left; reflexivity|]. eapply at_seq; [|exact H6]. eapply at_incl; [|exact H5]. apply incl_tl, incl_refl.
  - destruct (H1 H4) as [H5|H5]; [discriminate|]. destruct (H3 H4) as [H6|H6]; [auto|]. right. cbn [log_of] in *. rewrite (cond_log _ _ _ _ _ _ H) in H5.
    eapply at_seq; [apply at_one; left; reflexivity|]. eapply at_seq; [|exact H6]. eapply at_incl; [|exact H5]. apply incl_tl, incl_refl.
  - destruct (H1 H2) as [H5|H5]; [discriminate|]. right. cbn [log_of] in *. rewrite (cond_log _ _ _ _ _ _ H) in H5.
    eapply at_seq; [apply at_one; left; reflexivity|]. eapply at_incl; [|exact H5]. apply incl_tl, incl_refl.
  - destruct (H1 H3) as [H5|H5]; [auto|]. right. cbn [log_of] in *. rewrite (cond_log _ _ _ _ _ _ H) in H5.
    eapply at_seq; [apply at_one; left; reflexivity|]. eapply at_incl; [|exact H5]. apply incl_tl, incl_refl.
  - right. rewrite (finished_log _ _ _ _ _ H). apply at_none.
  - right. rewrite (finished_log _ _ _ _ _ H). apply at_none.
  - right. rewrite (for_log _ _ _ _ _ H). apply at_none.
  - destruct (H1 H4) as [H5|H5]; [discriminate|]. destruct (H3 H4) as [H6|H6]; [auto|]. right. cbn [log_of] in *. rewrite (for_log _ _ _ _ _ H) in H5. eapply at_seq; eassumption.
  - destruct (H1 H4) as [H5|H5]; [discriminate|]. destruct (H3 H4) as [H6|H6]; [auto|]. right. cbn [log_of] in *. rewrite (for_log _ _ _ _ _ H) in H5. eapply at_seq; eassumption.
  - destruct (H1 H4) as [H5|H5]; [discriminate|]. destruct (H3 H4) as [H6|H6]; [auto|]. right. cbn [log_of] in *. rewrite (for_log _ _ _ _ _ H) in H5. eapply at_seq; eassumption.
  - destruct (H1 H2) as [H5|H5]; [discriminate|]. right. cbn [log_of] in *. rewrite (for_log _ _ _ _ _ H) in H5. exact H5.
  - destruct (H1 H3) as [H5|H5]; [discriminate|]. right. cbn [log_of] in *. rewrite (for_log _ _ _ _ _ H) in H5. rewrite (finished_log _ _ _ _ _ H2). exact H5.
  - destruct (H1 H3) as [H5|H5]; [discriminate|]. right. cbn [log_of] in *. rewrite (for_log _ _ _ _ _ H) in H5. rewrite (finished_log _ _ _ _ _ H2). exact H5.
Qed.
End Index.
