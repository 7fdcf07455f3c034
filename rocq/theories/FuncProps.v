(* Properties of function calls. *)
From Coq Require Import Sorting.Sorted Sorting.Permutation.
From Verif Require Import Base FuncModel FuncSpec FuncProofs.

(* C58: a call is one of the best overload for its arguments, whatever is registered before or
   after. It is ambiguous if there is no best one among those that match and it is unmatched if none
   matches. The overload is called with arguments of types its parameters accept. *)
Definition whole (f : overload) : Prop := arg_max f = Some (length (arg_types f)).
Theorem C58_called u fs args i : Forall whole fs -> ((exists args', call u fs args = Some (Called i args')) <-> best fs args i).
Proof.
  intros W. rewrite best_singleton. unfold call. split.
  - intros (args' & H). destruct (resolve args fs 0 (None, [])) as [rank [|j [|j2 ovls]]] eqn:E; [discriminate H| |discriminate H]. pose proof (resolve_correct args fs) as (_ & R). rewrite E in R. cbn [fst snd] in R. destruct rank as [r|]; [|destruct R as [X _]; discriminate X].
    destruct (nth_error fs j) as [f|]; [|discriminate H]. assert (j = i) as ->; [|exists r; reflexivity]. destruct r as [|[|[|r]]]; try congruence. destruct (reverse u args (arg_types f)); congruence.
  - intros (r & E). rewrite E. pose proof (resolve_correct args fs) as (_ & R). rewrite E in R. cbn [fst snd] in R. destruct R as (_ & R & _). destruct (proj1 (R i) (or_introl eq_refl)) as (f & Hf & V1 & V2 & V3). rewrite Hf.
    rewrite Forall_forall in W. specialize (V2 _ (W f (nth_error_In _ _ Hf))). destruct (all_match_accepts u _ _ _ V3 V2) as (args' & Er & _). rewrite Er. destruct r as [|[|[|r]]]; eauto.
Qed.
Theorem C58_unmatched u fs args : call u fs args = Some Unmatched <-> forall f r, In f fs -> ~ viable args f r.
Proof.
  pose proof (resolve_correct args fs) as (_ & R). unfold call. destruct (resolve args fs 0 (None, [])) as [rank ovls]. cbn [fst snd] in R. split.
  - intros H. destruct ovls as [|i [|j ovls]]; [|exfalso; destruct (nth_error fs i); [|discriminate H]; destruct rank as [[|[|[|r]]]|]; try discriminate H; destruct (reverse u args (arg_types o)); discriminate H|discriminate H].
    destruct rank as [r|]; [destruct R as (R & _); contradiction|]. destruct R as (_ & R). intros f r I. apply In_nth_error in I. destruct I as (j & I). exact (R _ _ _ I).
  - intros H. destruct rank as [r|]; [|destruct R as (-> & _); reflexivity]. exfalso. destruct R as (Ne & R & _). destruct ovls as [|i ovls]; [contradiction|]. destruct (proj1 (R i) (or_introl eq_refl)) as (g & Hg & V). exact (H g r (nth_error_In _ _ Hg) V).
Qed.
Theorem C58_ambiguous u fs args : call u fs args = Some Ambiguous <-> exists i j f g r, i <> j /\ nth_error fs i = Some f /\ nth_error fs j = Some g /\ viable args f r /\ viable args g r /\ forall h q, In h fs -> viable args h q -> r <= q.
Proof.
  pose proof (resolve_correct args fs) as (Nd & R). unfold call. destruct (resolve args fs 0 (None, [])) as [rank ovls]. cbn [fst snd] in R, Nd. split.
  - intros H. destruct ovls as [|i [|j ovls]]; [discriminate H|exfalso; destruct (nth_error fs i); [|discriminate H]; destruct rank as [[|[|[|r]]]|]; try discriminate H; destruct (reverse u args (arg_types o)); discriminate H|].
    destruct rank as [r|]; [|destruct R as (R & _); discriminate R]. destruct R as (_ & R & Mn). destruct (proj1 (R i) (or_introl eq_refl)) as (f & Hf & Vf). destruct (proj1 (R j) (or_intror (or_introl eq_refl))) as (g & Hg & Vg). exists i, j, f, g, r. split; [intros ->; inversion Nd as [|? ? N]; apply N; left; reflexivity|]. repeat (split; [assumption|]).
    intros h q I V. apply In_nth_error in I. destruct I as (k & I). exact (Mn _ _ _ I V).
  - intros (i & j & f & g & r & N & Hf & Hg & Vf & Vg & Mn). destruct rank as [k|]; [|destruct R as (_ & R); destruct (R _ _ _ Hf Vf)]. destruct R as (Ne & R & Mk). assert (k = r) as ->.
    { apply Nat.le_antisymm; [exact (Mk _ _ _ Hf Vf)|]. destruct ovls as [|x ovls]; [contradiction|]. destruct (proj1 (R x) (or_introl eq_refl)) as (h & Hh & V). exact (Mn h k (nth_error_In _ _ Hh) V). }
    assert (I1 : In i ovls) by (apply R; exists f; auto). assert (I2 : In j ovls) by (apply R; exists g; auto). destruct ovls as [|x [|y ovls]]; [destruct I1| |reflexivity]. destruct I1 as [<-|[]]. destruct I2 as [<-|[]]. contradiction.
Qed.
(* There is no other outcome. *)
Theorem C58_total u fs args : Forall whole fs -> call u fs args <> None.
Proof.
  intros W. pose proof (resolve_correct args fs) as (_ & R). unfold call. destruct (resolve args fs 0 (None, [])) as [rank [|i [|j ovls]]]; try discriminate. cbn [fst snd] in R. destruct rank as [r|]; [|destruct R as [X _]; discriminate X]. destruct R as (_ & R & _). destruct (proj1 (R i) (or_introl eq_refl)) as (f & Hf & V1 & V2 & V3). rewrite Hf.
  rewrite Forall_forall in W. specialize (V2 _ (W f (nth_error_In _ _ Hf))). destruct (all_match_accepts u _ _ _ V3 V2) as (args' & Er & _). rewrite Er. destruct r as [|[|[|r]]]; discriminate.
Qed.
(* The arguments are those of the call, some made untyped. *)
Theorem C58_arguments u fs args i args' f : Forall whole fs -> call u fs args = Some (Called i args') -> nth_error fs i = Some f ->
  Forall2 (fun p a => accepts p (type a)) (firstn (length args) (arg_types f)) args' /\ Forall2 (fun a a' => a' = a \/ (type a <> None /\ a' = mkvalue None (u a))) args args' /\
  (viable args f 0 \/ viable args f 1 -> args' = args).
Proof.
  intros W H Hf. assert (B : best fs args i) by (apply (C58_called u); eauto). apply best_singleton in B. destruct B as (r & E). unfold call in H. rewrite E, Hf in H. pose proof (resolve_correct args fs) as (_ & R). rewrite E in R. cbn [fst snd] in R. destruct R as (_ & R & _). destruct (proj1 (R i) (or_introl eq_refl)) as (f' & Hf' & V). rewrite Hf in Hf'. injection Hf' as <-. pose proof V as (V1 & V2 & V3).
  rewrite Forall_forall in W. specialize (V2 _ (W f (nth_error_In _ _ Hf))). destruct (all_match_accepts u _ _ _ V3 V2) as (args2 & Er & Sm & F & G).
  assert (args2 = args') as <-. { destruct (Nat.eq_dec r 2) as [->|N]; [rewrite Er in H; congruence|]. assert (L : r < 2 \/ 3 <= r) by lia. destruct L as [L|L]; [rewrite Sm by exact L; destruct r as [|[|[|r]]]; congruence|]. exfalso. clear - V3 L. assert (K : r <= 2); [|lia]. clear L. induction V3; [lia|lia|]. inversion H; subst; lia. }
  split; [exact F|]. split; [exact G|]. intros [X|X]; rewrite (viable_unique _ _ _ _ V X) in Sm; apply Sm; lia.
Qed.
(* The order of registration does not matter. *)
Theorem C58_any_order u fs gs args i f args' : Permutation fs gs -> Forall whole fs -> call u fs args = Some (Called i args') -> nth_error fs i = Some f -> exists j, nth_error gs j = Some f /\ call u gs args = Some (Called j args').
Proof.
  intros P W H Hf. assert (W' : Forall whole gs) by (eapply Permutation_Forall; eassumption). assert (B : best fs args i) by (apply (C58_called u); eauto). destruct B as (f' & r & Hf' & V & Mn). rewrite Hf in Hf'. injection Hf' as <-.
  apply Permutation_nth_error in P. destruct P as (L & h & Inj & Nth). 
  assert (Sur : forall k x, nth_error fs k = Some x -> exists j, nth_error gs j = Some x /\ h j = k).
  { intros k x Hk. assert (Lk : k < length fs) by (apply nth_error_Some; congruence). assert (Bd : forall n, n < length fs -> h n < length fs). { intros n Ln. apply nth_error_Some. rewrite <- Nth. apply nth_error_Some. lia. }
    assert (Fs : exists j, j < length fs /\ h j = k). { destruct (FinFun.bInjective_bSurjective Bd) as [X _]. destruct X with (y := k) as (j & Lj & E); [intros a c _ _; apply Inj|exact Lk|]. exists j. auto. }
    destruct Fs as (j & Lj & <-). exists j. rewrite Nth. auto. }
  destruct (Sur i f Hf) as (j & Hj & Ej). exists j. split; [exact Hj|]. assert (B' : best gs args j).
  { exists f, r. split; [exact Hj|]. split; [exact V|]. intros k g q N Hg Vg. rewrite Nth in Hg. apply (Mn (h k) g q); [|exact Hg|exact Vg]. intros X. apply N, Inj. congruence. }
  apply (C58_called u) in B'; [|exact W']. destruct B' as (args2 & E2). rewrite E2. f_equal. f_equal.
  assert (K : forall fs i f args', Forall whole fs -> call u fs args = Some (Called i args') -> nth_error fs i = Some f -> viable args f r -> Some args' = match r with 2 => reverse u args (arg_types f) | _ => Some args end).
  { clear - u. intros fs i f args' W H Hf V. assert (B : best fs args i) by (apply (C58_called u); eauto). apply best_singleton in B. destruct B as (q & E). pose proof (resolve_correct args fs) as (_ & R). rewrite E in R. cbn [fst snd] in R. destruct R as (_ & R & _). destruct (proj1 (R i) (or_introl eq_refl)) as (f' & Hf' & V'). rewrite Hf in Hf'. injection Hf' as <-. rewrite (viable_unique _ _ _ _ V' V) in E.
    unfold call in H. rewrite E, Hf in H. destruct r as [|[|[|r]]]; try congruence. destruct (reverse u args (arg_types f)); congruence. }
  pose proof (K fs i f args' W H Hf V) as K1. pose proof (K gs j f args2 W' E2 Hj V) as K2. congruence.
Qed.
(* Any function of a family is found by the name of the family. *)
Theorem C58_family keys name : StronglySorted less_rel keys -> (defined_family keys name = true <-> exists k, In k keys /\ prefix name k /\ k <> name).
Proof. apply defined_family_correct. Qed.

(* Without all the parameters having an entry for the type the assertion before the arguments are
   made untyped can fail. *)
Theorem C58_total_refuted : ~ forall u fs args, Forall sane fs -> call u fs args <> None.
Proof. intros H. apply (H (fun _ => []) [mkoverload 1 None [Untyped]] [mkvalue (Some (VType 0 None)) []; mkvalue None []]); [repeat constructor|reflexivity]. Qed.

(* Cases. *)
Definition t_path := VType 0 None.
Definition t_dir := VType 1 (Some t_path).
Definition t_string := VType 2 None.
Definition f_path := mkoverload 1 (Some 1) [Typed t_path].
Definition f_string := mkoverload 1 (Some 2) [Typed t_string; Any].
Definition f_names := mkoverload 1 (Some 1) [Untyped].
Definition ex_u (v : value) : bytes := b "untyped " ++ data v.
Example ex_exact : call ex_u [f_names; f_path; f_string] [mkvalue (Some t_path) (b "x")] = Some (Called 1 [mkvalue (Some t_path) (b "x")]). Proof. reflexivity. Qed.
Example ex_derived : call ex_u [f_names; f_path; f_string] [mkvalue (Some t_dir) (b "x")] = Some (Called 1 [mkvalue (Some t_dir) (b "x")]). Proof. reflexivity. Qed.
Example ex_reversed : call ex_u [f_names; f_string] [mkvalue (Some t_dir) (b "x")] = Some (Called 0 [mkvalue None (b "untyped x")]). Proof. reflexivity. Qed.
Example ex_optional : call ex_u [f_names; f_string] [mkvalue (Some t_string) (b "x"); mkvalue None []] = Some (Called 1 [mkvalue (Some t_string) (b "x"); mkvalue None []]). Proof. reflexivity. Qed.
Example ex_unmatched : call ex_u [f_path; f_string] [mkvalue None (b "x")] = Some Unmatched. Proof. reflexivity. Qed.
Example ex_ambiguous : call ex_u [f_path; mkoverload 0 (Some 1) [Any]] [mkvalue (Some t_path) (b "x")] = Some Ambiguous. Proof. reflexivity. Qed.
Example ex_whole : Forall whole [f_names; f_path; f_string]. Proof. repeat constructor. Qed.
Example ex_family : defined_family [b "path.base"; b "string.trim"; b "strings"] (b "string.") = true /\ defined_family [b "path.base"; b "string.trim"; b "strings"] (b "strings.") = false. Proof. split; reflexivity. Qed.

Print Assumptions C58_called.
Print Assumptions C58_unmatched.
Print Assumptions C58_ambiguous.
Print Assumptions C58_total.
Print Assumptions C58_arguments.
Print Assumptions C58_any_order.
Print Assumptions C58_family.
Print Assumptions C58_total_refuted.
