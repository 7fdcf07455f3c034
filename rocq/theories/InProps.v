(* Properties of the in rule. *)
From Verif Require Import Base DepdbModel DepdbSpec InModel InSpec InProofs InProofs2.

(* C55: the output is the text with its substitutions replaced, and there is none if and only if
   there is no such text (a substitution is not terminated or has no value). *)
Theorem C55_substitution e s o : (exists subs, process_file e s = (subs, Some o)) <-> output e s o.
Proof. apply process_file_correct. Qed.
Theorem C55_one_output e s o1 o2 : output e s o1 -> output e s o2 -> o1 = o2.
Proof. apply output_det. Qed.

(* In the strict mode a line is copied if its symbols are doubled, unless two are next to each
   other. *)
Definition doubled (y : ascii) (l : bytes) : bytes := flat_map (fun c => if ceqb c y then [y; y] else [c]) l.
Lemma doubled_read y l : (forall a z, l <> a ++ y :: y :: z) -> strictly y (doubled y l) (map Char l).
Proof.
  induction l as [|c l IH]; intros N; [constructor|]. assert (N' : forall a z, l <> a ++ y :: y :: z) by (intros a z ->; apply (N (c :: a) z); reflexivity). cbn [doubled flat_map map]. fold (doubled y l). destruct (ceqb c y) eqn:C.
  - apply ceqb_eq in C. subst c. apply st_escape; [|apply IH; exact N']. intros (r & E). destruct l as [|c l]; [discriminate E|]. cbn [doubled flat_map] in E. destruct (ceqb c y) eqn:C; [apply ceqb_eq in C; subst c; exact (N [] l eq_refl)|]. injection E as -> _. rewrite ceqb_same in C. discriminate C.
  - apply st_char; [|apply IH; exact N']. intros ->. rewrite ceqb_same in C. discriminate C.
Qed.
Lemma doubled_in y l c : In c (doubled y l) -> In c l.
Proof. unfold doubled. intros H. apply in_flat_map in H. destruct H as (d & I & H). destruct (ceqb d y) eqn:C; [apply ceqb_eq in C; subst d; destruct H as [<-|[<-|[]]]; exact I|destruct H as [<-|[]]; exact I]. Qed.
Lemma doubled_cr y l : ends_with CR (doubled y l) -> ends_with CR l.
Proof.
  induction l as [|c l IH] using rev_ind; intros (r & E); [destruct r; discriminate E|]. unfold doubled in E. rewrite flat_map_app in E. cbn [flat_map] in E. rewrite app_nil_r in E. exists l. f_equal. f_equal. destruct (ceqb c y) eqn:C.
  - apply ceqb_eq in C. subst c. change [y; y] with ([y] ++ [y]) in E. rewrite app_assoc in E. apply app_inj_tail in E. apply E.
  - apply app_inj_tail in E. apply E.
Qed.
Theorem C55_escape e l : strict e = true -> ~ In NL l -> ~ ends_with CR l -> (forall a z, l <> a ++ sym e :: sym e :: z) -> output e (doubled (sym e) l ++ [NL]) (l ++ [NL]).
Proof.
  intros St N Nc A. exists [(doubled (sym e) l, [NL])]. split; [apply li_lf; [intros H; apply N; eapply doubled_in; exact H|intros H; apply Nc; eapply doubled_cr; exact H|constructor]|]. right. split; [discriminate|].
  change [NL] with ([NL] ++ []) at 2. eapply el_line; [unfold reads; rewrite St; apply doubled_read; exact A| |constructor]. pose proof (expands_text e [NL] l [] [] [] (ex_end _ _)) as X. rewrite !app_nil_r in X. exact X.
Qed.
(* Two next to each other cannot be escaped: it is a substitution of a variable named with the
   symbol. *)
Definition ex_setup (y : ascii) (st : bool) (vs : list (bytes * bytes)) : setup :=
  mksetup y st (fun _ => None) None (fun n => match List.find (fun p => beqb (fst p) n) vs with Some (_, v) => String (Some v) | None => Undefined end).
Theorem C55_escape_refuted : ~ forall e l, strict e = true -> ~ In NL l -> ~ ends_with CR l -> output e (doubled (sym e) l ++ [NL]) (l ++ [NL]).
Proof.
  intros H. assert (O : output (ex_setup "$" true []) (b "$$$$" ++ [NL]) (b "$$" ++ [NL])).
  { apply (H (ex_setup "$" true []) (b "$$")); [reflexivity|intros [X|[X|[]]]; discriminate X|]. intros ([|x [|y [|z r]]] & X); discriminate X. }
  apply C55_substitution in O. destruct O as (sb & O). vm_compute in O. discriminate O.
Qed.
(* In the lax mode what looks like a name between the first two symbols of a line is replaced. *)
Theorem C55_lax e a n z ps : strict e = false -> ~ In (sym e) a -> n <> [] -> ~ In (sym e) n -> name_like n -> reads e (a ++ sym e :: n ++ sym e :: z) ps -> exists ps', ps = map Char a ++ Sub n :: ps'.
Proof.
  intros St. unfold reads. rewrite St. revert ps. induction a as [|c a IH]; intros ps Na Nn Ny Hl R; cbn [app] in R.
  - assert (Eq : forall m r, ~ In (sym e) m -> m ++ sym e :: r = n ++ sym e :: z -> m = n).
    { intros m r Nm E. pose proof (lax_end_complete (sym e) m r Nm []) as E1. rewrite E, (lax_end_complete (sym e) n z Ny []) in E1. injection E1 as E1 _. rewrite !app_nil_r in E1. rewrite <- (rev_involutive m), <- (rev_involutive n), E1. reflexivity. }
    inversion R as [|c s ps' N R'|s N|s ps' R' E|m s ps' Nm Nym Hm R' E|m s ps' Nm Nym Hm R' E]; subst.
    + contradiction.
    + exfalso. apply N. apply in_app_iff. right. left. reflexivity.
    + exfalso. destruct n as [|d n]; [contradiction|]. injection E as E _. apply Ny. left. symmetry. exact E.
    + apply Eq in E; [|exact Nym]. subst m. exists ps'. reflexivity.
    + apply Eq in E; [|exact Nym]. subst m. contradiction.
  - assert (Nc : c <> sym e) by (intros ->; apply Na; left; reflexivity). inversion R as [|c' s ps' N R'|s N|s ps' R' E|m s ps' Nm Nym Hm R' E|m s ps' Nm Nym Hm R' E]; subst; try (contradiction Nc; reflexivity).
    destruct (IH ps') as (ps2 & ->); auto; [intros X; apply Na; right; exact X|]. exists ps2. reflexivity.
Qed.
(* But not between any two. *)
Theorem C55_lax_refuted : ~ forall e a n z ps, strict e = false -> n <> [] -> ~ In (sym e) n -> name_like n -> reads e (a ++ sym e :: n ++ sym e :: z) ps -> In (Sub n) ps.
Proof.
  intros H. set (e := ex_setup "@" false []). assert (R : reads e (b "a@b and " ++ sym e :: b "v" ++ sym e :: []) (map Char (b "a@b and @v@"))).
  { change (b "a@b and " ++ sym e :: b "v" ++ sym e :: []) with ("a"%char :: "@"%char :: b "b and " ++ "@"%char :: b "v@"). unfold reads. cbn [e strict ex_setup sym]. apply lx_char; [discriminate|].
    apply (lx_not "@" (b "b and ") (b "v@") (map Char (b "v@"))); [discriminate|cbn; intuition discriminate| |].
    - intros N. apply variable_name_spec in N. vm_compute in N. discriminate N.
    - apply lx_char; [discriminate|]. apply lx_open. intros []. }
  assert (I : In (Sub (b "v")) (map Char (b "a@b and @v@"))).
  { apply (H e (b "a@b and ") (b "v") []); [reflexivity|discriminate|cbn; intuition discriminate|apply variable_name_spec; reflexivity|exact R]. }
  apply in_map_iff in I. destruct I as (c & X & _). discriminate X.
Qed.

Definition ex_in : bytes := b "v = $v$;" ++ [NL] ++ b "cost $$5 $x.y$" ++ [CR; NL] ++ b "end".
Example ex_output : output (ex_setup "$" true [(b "v", b "1"); (b "x.y", b "a" ++ [NL] ++ b "b")]) ex_in (b "v = 1;" ++ [NL] ++ b "cost $5 a" ++ [CR; NL] ++ b "b" ++ [CR; NL] ++ b "end" ++ [NL]).
Proof. apply C55_substitution. eexists. vm_compute. reflexivity. Qed.
Example ex_no_output : forall o, ~ output (ex_setup "$" true [(b "v", b "1")]) ex_in o.
Proof. intros o H. apply C55_substitution in H. destruct H as (sb & H). vm_compute in H. discriminate H. Qed.
Example ex_lax : output (ex_setup "@" false [(b "v", b "1")]) (b "a@@v@ @x y@ @" ++ [NL]) (b "a@1 @x y@ @" ++ [NL]).
Proof. apply C55_substitution. eexists. vm_compute. reflexivity. Qed.
Example ex_empty : output (ex_setup "$" true []) [] [NL].
Proof. apply C55_substitution. eexists. vm_compute. reflexivity. Qed.
(* The symbols of two substitutions next to each other are taken as an escape sequence. *)
Example ex_adjacent : output (ex_setup "$" true [(b "a", b "1"); (b "b", b "2"); (b "a$b", b "3")]) (b "$a$$b$" ++ [NL]) (b "3" ++ [NL]).
Proof. apply C55_substitution. eexists. vm_compute. reflexivity. Qed.
Example ex_escape : ~ In NL (b "a$b$") /\ ~ ends_with CR (b "a$b$") /\ (forall a z, b "a$b$" <> a ++ "$"%char :: "$"%char :: z) /\ doubled "$" (b "a$b$") = b "a$$b$$".
Proof.
  split; [cbn; intuition discriminate|]. split; [intros (r & E); destruct r as [|? [|? [|? [|? [|? ?]]]]]; discriminate E|]. split; [|reflexivity]. intros a z E. destruct a as [|? [|? [|? [|? ?]]]]; try discriminate E. injection E as _ _ _ _ E. destruct l; discriminate E.
Qed.

(* C56: after any history of edits, changes of variables and settings, removals and interrupted
   updates an update that succeeds makes the output that of the current text and values, it
   succeeds if there is such an output, and nothing is done if nothing has changed. *)
Section C56.
Context (id : bytes) (hash : bytes -> bytes) (used : bytes -> Prop).
Context (Hid : line_ok (id ++ b " 1")) (Hhash : good_hash hash used).
Theorem C56_up_to_date w0 w e path w' : fresh w0 -> steps id hash (storable_setup used) w0 w -> storable_setup used e path -> update id hash e path w = Some w' ->
  ins w' = ins w /\ exists s m o mt, ins w path = Some (s, m) /\ output e s o /\ tgt w' = Some (o, mt).
Proof. apply (updated id hash used Hid Hhash). Qed.
Theorem C56_succeeds w0 w e path s m o : fresh w0 -> steps id hash (storable_setup used) w0 w -> storable_setup used e path -> ins w path = Some (s, m) -> output e s o -> exists w', update id hash e path w = Some w'.
Proof. apply (updates id hash used Hid Hhash). Qed.
Theorem C56_no_more w0 w e path w1 e2 w2 : fresh w0 -> steps id hash (storable_setup used) w0 w -> storable_setup used e path -> update id hash e path w = Some w1 ->
  sym e2 = sym e -> strict e2 = strict e -> (forall n v, value_of e2 n v <-> value_of e n v) -> update id hash e2 path w1 = Some w2 -> ins w2 = ins w1 /\ tgt w2 = tgt w1 /\ clock w2 = clock w1.
Proof. apply (updated_again id hash used Hid Hhash). Qed.
End C56.

(* A history: an update, one with another value that is interrupted, and one more. *)
Definition ex_hash (v : bytes) : bytes := if beqb v (b "1") then b "01" else if beqb v (b "2") then b "02" else b "00".
Definition ex_used (v : bytes) : Prop := v = b "1" \/ v = b "2".
Example ex_good_hash : good_hash ex_hash ex_used.
Proof.
  split; [intros v; unfold ex_hash; destruct (beqb v (b "1")); [|destruct (beqb v (b "2"))]; split; cbn; intuition discriminate|]. intros v v' [-> | ->] [-> | ->]; intros E; try reflexivity; discriminate E.
Qed.
Definition ex_e (v : bytes) : setup := ex_setup "$" true [(b "v", v); (b "w", b "1")].
Example ex_storable v : ex_used v -> storable_setup ex_used (ex_e v) (b "c.in").
Proof.
  intros U. split; [split; cbn; [intuition discriminate|discriminate]|]. split; [split; cbn; [intuition discriminate|discriminate]|]. intros n x [X|[([X|[_ X]] & _)|[_ X]]]; try discriminate X; cbn in X.
  - destruct (beqb ["v"%char] n); [discriminate X|]. destruct (beqb ["w"%char] n); discriminate X.
  - assert (Y : x = v \/ x = b "1"); [|destruct Y as [-> | ->]; [exact U|left; reflexivity]]. destruct (beqb ["v"%char] n); [injection X as ->; left; reflexivity|]. destruct (beqb ["w"%char] n); [injection X as <-; right; reflexivity|discriminate X].
Qed.
Definition ex_w0 : world := set_ins (b "c.in") (Some (b "$w$ $v$", 1)) (mkworld (fun _ => None) None None 0).
Definition force (w : option world) : world := match w with Some w => w | None => ex_w0 end.
Definition ex_w1 : world := force (update (b "in") ex_hash (ex_e (b "1")) (b "c.in") ex_w0).
Definition ex_d : db := match perform_update (b "in") ex_hash (ex_e (b "2")) (b "c.in") (contents_of ex_w1) (newer ex_w1 1) (b "$w$ $v$") with Updating d _ => d | _ => open_db false None end.
Definition ex_w2 : world := mkworld (ins ex_w1) (Some (b "1 ", clock ex_w1)) (Some (image (closing TNone ex_d) 100, S (clock ex_w1))) (S (clock ex_w1)).
Definition ex_w3 : world := force (update (b "in") ex_hash (ex_e (b "2")) (b "c.in") ex_w2).
Example ex_history : fresh (mkworld (fun _ => None) None None 0) /\ steps (b "in") ex_hash (storable_setup ex_used) (mkworld (fun _ => None) None None 0) ex_w2.
Proof.
  split; [repeat split; discriminate|]. apply steps_more with ex_w1.
  - apply steps_more with ex_w0; [apply steps_more with (mkworld (fun _ => None) None None 0); [apply steps_none|apply (s_edit _ _ _ (b "c.in") (b "$w$ $v$"))]|]. apply s_update with (ex_e (b "1")) (b "c.in"); [apply ex_storable; left; reflexivity|]. unfold ex_w1. destruct (update (b "in") ex_hash (ex_e (b "1")) (b "c.in") ex_w0) eqn:E; [reflexivity|vm_compute in E; discriminate E].
  - apply s_interrupted with (ex_e (b "2")) (b "c.in"); [apply ex_storable; right; reflexivity|]. apply int_closing with (s := b "$w$ $v$") (m := 1) (o := b "1 2" ++ [NL]); [reflexivity| |vm_compute; reflexivity]. unfold ex_d. vm_compute. reflexivity.
Qed.
Example ex_updates : option_map fst (tgt ex_w1) = Some (b "1 1" ++ [NL]) /\ option_map fst (tgt ex_w2) = Some (b "1 ") /\ option_map fst (tgt ex_w3) = Some (b "1 2" ++ [NL]) /\ line_ok (b "in" ++ b " 1").
Proof. repeat split; vm_compute; try reflexivity; intuition discriminate. Qed.
(* The database of the interrupted update is that of one that has completed. *)
Example ex_closed : option_map fst (dd ex_w2) = option_map fst (dd ex_w3).
Proof. vm_compute. reflexivity. Qed.

Print Assumptions C55_substitution.
Print Assumptions C55_escape.
Print Assumptions C55_lax.
Print Assumptions C56_up_to_date.
Print Assumptions C56_succeeds.
Print Assumptions C56_no_more.
