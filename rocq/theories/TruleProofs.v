(* What apply () decides. *)
From Coq Require Import Lia.
From Verif Require Import Base TruleModel TruleSpec.

Lemma collect_on v ps : forall pts, collect_scripts v ps true true pts =
  (true, true, pts ++ map Some (map p_target (filter (fun p => p_normal p && p_script p) ps))).
Proof.
  induction ps as [|p ps IH]; intros pts; cbn.
  - now rewrite app_nil_r.
  - destruct (p_normal p); cbn; [|apply IH]. destruct (p_script p); cbn; [|apply IH]. rewrite IH, <- app_assoc. reflexivity.
Qed.

Lemma collect_start v ps : collect_scripts v ps false false [] =
  match map p_target (filter (fun p => p_normal p && p_script p) ps) with
  | [] => (false, false, [])
  | l => match v with VFalse => (true, false, []) | _ => (true, true, map Some l) end
  end.
Proof.
  induction ps as [|p ps IH]; cbn; [reflexivity|]. destruct (p_normal p); cbn; [|exact IH]. destruct (p_script p); cbn; [|exact IH].
  destruct v; cbn; try reflexivity; rewrite collect_on; reflexivity.
Qed.

Lemma io_step p : is_io p = p_normal p && (p_rt p || p_stdin p || p_stdout p || p_input p).
Proof. unfold is_io, is_stdin, is_stdout, is_input. destruct (p_normal p), (p_rt p), (p_stdin p), (p_stdout p), (p_input p); reflexivity. Qed.

Lemma in_step p : is_stdin p = p_normal p && (p_rt p || p_stdin p). Proof. reflexivity. Qed.
Lemma out_step p : is_stdout p = p_normal p && (p_rt p || p_stdout p). Proof. reflexivity. Qed.
Lemma input_step p : is_input p = p_normal p && p_input p. Proof. reflexivity. Qed.

(* The loop over prerequisites of a simple test from any point. *)
Lemma collect_io_from ps : forall i o l,
  length (map p_target (filter is_stdin ps)) + (match i with Some _ => 1 | None => 0 end) <= 1 ->
  length (map p_target (filter is_stdout ps)) + (match o with Some _ => 1 | None => 0 end) <= 1 ->
  (forall p, In p ps -> is_io p = true -> p_file p = true) ->
  collect_io ps (Some (i, o, l)) =
  Some (Some (match i with Some _ => i | None => hd_error (map p_target (filter is_stdin ps)) end,
              match o with Some _ => o | None => hd_error (map p_target (filter is_stdout ps)) end,
              l ++ map p_target (filter is_input ps))).
Proof.
  induction ps as [|p ps IH]; intros i o l Hi Ho Hf.
  - cbn. rewrite app_nil_r. destruct i, o; reflexivity.
  - assert (Hf' : forall p, In p ps -> is_io p = true -> p_file p = true) by (intros q Hq; apply Hf; right; exact Hq).
    pose proof (Hf p (or_introl eq_refl)) as Fp. cbn [collect_io]. revert Fp Hi Ho.
    cbn [filter map]. rewrite (io_step p), (in_step p), (out_step p), (input_step p). destruct (p_normal p); cbn [negb andb orb]; [|intros _ Hi Ho; apply IH; assumption].
    unfold add_io. destruct (p_rt p), (p_stdin p), (p_stdout p), (p_input p); cbn [orb andb negb map length hd_error]; intros Fp Hi Ho;
      try (specialize (Fp eq_refl); rewrite Fp; cbn [negb]); destruct i, o; cbn [length plus] in *; try lia;
      (rewrite IH; [|cbn in *; lia|cbn in *; lia|exact Hf']); rewrite <- ?app_assoc; try reflexivity.
Qed.

Lemma collect_io_more ps : forall i o l,
  collect_io ps (Some (i, o, l)) <> None ->
  length (map p_target (filter is_stdin ps)) + (match i with Some _ => 1 | None => 0 end) <= 1 /\
  length (map p_target (filter is_stdout ps)) + (match o with Some _ => 1 | None => 0 end) <= 1 /\
  (forall p, In p ps -> is_io p = true -> p_file p = true).
Proof.
  induction ps as [|p ps IH]; intros i o l; cbn [collect_io].
  - intros _. split; [cbn; destruct i; lia|]. split; [cbn; destruct o; lia|]. intros p [].
  - cbn [filter map]. rewrite (in_step p), (out_step p).
    assert (A : (is_io p = true -> p_file p = true) -> (forall q, In q ps -> is_io q = true -> p_file q = true) -> forall q, In q (p :: ps) -> is_io q = true -> p_file q = true).
    { intros A1 A2 q [<-|Q]; [exact A1|exact (A2 q Q)]. }
    rewrite (io_step p) in A.
    destruct (p_normal p); cbn [negb andb orb] in A |- *.
    2: { intros H. destruct (IH _ _ _ H) as (B1 & B2 & B3). repeat split; [exact B1|exact B2|apply A; [discriminate|exact B3]]. }
    unfold add_io. destruct (p_file p) eqn:Fp.
    + destruct (p_rt p), (p_stdin p), (p_stdout p), (p_input p); cbn [orb andb negb map length]; destruct i, o; intros H; try (exfalso; apply H; reflexivity);
        destruct (IH _ _ _ H) as (B1 & B2 & B3); (split; [cbn in *; lia|]); (split; [cbn in *; lia|]); (apply A; [auto|exact B3]).
    + destruct (p_rt p), (p_stdin p), (p_stdout p), (p_input p); cbn [orb andb negb map length]; intros H; try (exfalso; apply H; reflexivity).
      destruct (IH _ _ _ H) as (B1 & B2 & B3). repeat split; [exact B1|exact B2|apply A; [discriminate|exact B3]].
Qed.

Definition io_files (ps : list prereq) : option (option nat * option nat * list nat) :=
  if existsb is_io ps then
    Some (hd_error (map p_target (filter is_stdin ps)), hd_error (map p_target (filter is_stdout ps)), map p_target (filter is_input ps))
  else None.

Definition ps_proper (ps : list prereq) : Prop :=
  length (map p_target (filter is_stdin ps)) <= 1 /\ length (map p_target (filter is_stdout ps)) <= 1 /\
  (forall p, In p ps -> is_io p = true -> p_file p = true).

(* The first one is added as to nothing. *)
Lemma first_io ps p : existsb is_io ps = false -> is_io p = true -> forall r, collect_io (ps ++ p :: r) None = collect_io (p :: r) (Some (None, None, [])).
Proof.
  intros N P r. induction ps as [|q ps IH]; cbn [app existsb] in *.
  - rewrite io_step in P. cbn [collect_io]. destruct (p_normal p); cbn [negb andb] in *; [|discriminate]. rewrite P. reflexivity.
  - apply Bool.orb_false_iff in N as [N1 N2]. cbn [collect_io]. rewrite io_step in N1. destruct (p_normal q); cbn [negb andb] in *; [rewrite N1|]; apply IH, N2.
Qed.

Lemma collect_no_io ps x : existsb is_io ps = false -> collect_io ps x = Some x.
Proof.
  induction ps as [|q ps IH]; cbn [existsb collect_io]; intros N; [reflexivity|]. apply Bool.orb_false_iff in N as [N1 N2].
  rewrite io_step in N1. destruct (p_normal q); cbn [negb andb] in *; [rewrite N1|]; apply IH, N2.
Qed.

Lemma filter_no_io ps f : (forall p, f p = true -> is_io p = true) -> existsb is_io ps = false -> filter f ps = [].
Proof.
  intros F. induction ps as [|q ps IH]; cbn; intros N; [reflexivity|]. apply Bool.orb_false_iff in N as [N1 N2].
  destruct (f q) eqn:E; [rewrite (F q E) in N1; discriminate|]. apply IH, N2.
Qed.

Lemma split_io ps : existsb is_io ps = false \/ exists a p r, ps = a ++ p :: r /\ existsb is_io a = false /\ is_io p = true.
Proof.
  induction ps as [|q ps IH]; [left; reflexivity|]. destruct (is_io q) eqn:E.
  - right. exists [], q, ps. auto.
  - destruct IH as [N|(a & p & r & -> & N & P)]; [left; cbn; rewrite E; exact N|]. right. exists (q :: a), p, r. cbn. rewrite E. auto.
Qed.

Lemma f_in p : is_stdin p = true -> is_io p = true. Proof. unfold is_io. intros ->. reflexivity. Qed.
Lemma f_out p : is_stdout p = true -> is_io p = true. Proof. unfold is_io. intros ->. destruct (is_stdin p); reflexivity. Qed.
Lemma f_input p : is_input p = true -> is_io p = true. Proof. unfold is_io. intros ->. destruct (is_stdin p), (is_stdout p); reflexivity. Qed.

Lemma collect_io_ok ps : ps_proper ps -> collect_io ps None = Some (io_files ps).
Proof.
  intros (A & B & C). unfold io_files. destruct (split_io ps) as [N|(a & p & r & -> & N & P)].
  - rewrite N, (collect_no_io _ _ N). reflexivity.
  - rewrite (first_io _ _ N P). rewrite existsb_app, N. cbn [existsb orb]. rewrite P. cbn [orb].
    rewrite !filter_app, (filter_no_io _ _ f_in N), (filter_no_io _ _ f_out N), (filter_no_io _ _ f_input N) in *. cbn [app] in *.
    rewrite collect_io_from; [reflexivity|lia|lia|]. intros q Q. apply C, in_or_app. right. exact Q.
Qed.

Lemma collect_io_bad ps : collect_io ps None <> None -> ps_proper ps.
Proof.
  unfold ps_proper. destruct (split_io ps) as [N|(a & p & r & -> & N & P)].
  - intros _. rewrite (filter_no_io _ _ f_in N), (filter_no_io _ _ f_out N). cbn. repeat split; try lia.
    intros p Hp E. exfalso. assert (X : existsb is_io ps = true) by (apply existsb_exists; eauto). rewrite X in N. discriminate.
  - rewrite (first_io _ _ N P). intros H. apply collect_io_more in H as (A & B & C).
    rewrite !filter_app, (filter_no_io _ _ f_in N), (filter_no_io _ _ f_out N). cbn [app]. repeat split; try lia.
    intros q Hq E. apply in_app_or in Hq as [Hq|Hq]; [|apply (C q Hq E)]. exfalso.
    assert (X : existsb is_io a = true) by (apply existsb_exists; eauto). rewrite X in N. discriminate.
Qed.

Lemma some_of_map l : some_of (map Some l) = l.
Proof. induction l as [|x l IH]; cbn; [reflexivity|]. f_equal. exact IH. Qed.
