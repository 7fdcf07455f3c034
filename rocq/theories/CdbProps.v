(* C82: what a compilation database contains. *)
From Verif Require Import Base CdbModel CdbSpec CdbProofs CdbProofs2 CdbProofs3 CdbProofs4.

Section P.
Context {cmd : Type}.
Context (ser : bytes -> cmd -> option bytes) (out_of : bytes -> option bytes) (under : bytes -> bytes -> bool).
Context (ser_ok : forall k c j, ser k c = Some j -> line_ok out_of k j).

(* For every history of sessions of a process, started with a file that holds l: the file holds what the history says. Sessions with
   failures and match-only sessions are last. *)
Theorem C82_history : forall l f (ss : list (list (@event cmd) * fin)) s',
  holds out_of f l ->
  Forall (fun x => inner (fst x) /\ Forall (valid ser) (fst x)) ss ->
  Forall (fun x => quiet (snd x)) (removelast ss) ->
  run ser out_of under (start f) (events ss) = Some s' ->
  exists l', holds out_of (s_file s') l' /\ history_ok ser under (fun _ => False) (fun k => find k l) ss (fun k => find k l').
Proof.
  intros l f ss s' H V Q R. eapply sessions; eauto. now apply start_ready.
Qed.

(* An update is forced if and only if there is no entry. *)
Theorem C82_forced : forall l f (es : list (@event cmd)) d s k ch s' r,
  holds out_of f l -> depth 1 es = Some d -> Forall (valid ser) es -> run ser out_of under (start f) (Pre :: es) = Some s ->
  match_ s k ch = Some (s', r) -> (r = true <-> find k l = None /\ ~ matched k es).
Proof. intros. eapply forced; eauto. Qed.

(* No assertion fails if called as intended. *)
Theorem C82_asserts_partial : forall l f (es : list (@event cmd)) p,
  holds out_of f l -> inner es -> Forall (valid ser) es -> calls_ok ser (fun k => find k l) es p ->
  run ser out_of under (start f) (Pre :: es ++ [Post p]) <> None.
Proof. intros l f es p H I V C E. destruct (session_total ser out_of under ser_ok l f es p H I V C) as (s & R). congruence. Qed.

(* If an entry cannot be serialized, then the file is left alone. *)
Theorem C82_invalid : forall l f (a rest : list (@event cmd)) k c p s',
  holds out_of f l -> inner (a ++ Exec k c :: rest) -> ser k c = None -> changed k a \/ find k l = None ->
  run ser out_of under (start f) (Pre :: (a ++ Exec k c :: rest) ++ [Post p]) = Some s' -> s_file s' = f.
Proof. intros. eapply invalid_session; eauto. Qed.

(* The same if the file is not recognized. *)
Theorem C82_foreign : forall f (es : list (@event cmd)) s',
  read out_of f = None -> run ser out_of under (start (Some f)) (Pre :: es) = Some s' -> s_file s' = Some f.
Proof.
  intros f es s' E R. cbn -[read] in R. rewrite E in R. apply run_failed in R; auto.
Qed.

(* If every change is followed by the execution, then entries are those of the commands recorded, for every history of builds. In
   particular, after a build everything that it has matched is current. *)
Theorem C82_current_partial : forall xs dd f, builds ser out_of under True xs dd f ->
  exists l, holds out_of f l /\ (forall k c t, dd k = Some c -> find k l = Some t -> ser k c = Some t) /\
    forall ys x k, xs = ys ++ [x] -> matched k (b_events x) -> find k l = ser k (b_cur x k).
Proof. intros. eapply current; eauto. Qed.

(* What is printed: an array of everything that is executed, also in nested contexts. *)
Theorem C82_stdout : forall (ss : list (list (@event cmd) * fin)) es p,
  Forall (fun x => inner (fst x) /\ Forall (valid ser) (fst x) /\ p_nested (snd x) = true /\ p_failed (snd x) = false) ss ->
  inner es -> Forall (valid ser) es -> p_nested p && negb (p_failed p) = false ->
  option_map o_out (orun ser (mkost OInit 0 []) (events (ss ++ [(es, p)]))) =
    Some (write (flat_map (fun x => printed ser (fst x)) ss ++ printed ser es)).
Proof.
  intros ss es p F I V P. rewrite (oprint ser ss es p (mkost OInit 0 []) [] []) by auto. reflexivity.
Qed.
End P.

(* What is written is read back. If it is cut, then it is either rejected or nothing is lost. *)
Theorem C82_roundtrip : forall out_of l,
  NoDup (map fst l) -> (forall k j, In (k, j) l -> line_ok out_of k j) -> read out_of (write (map snd l)) = Some l.
Proof. intros. now apply read_write. Qed.
Theorem C82_cut : forall out_of l p q,
  NoDup (map fst l) -> (forall k j, In (k, j) l -> line_ok out_of k j) -> p ++ q = write (map snd l) ->
  read out_of p = None \/ read out_of p = Some l.
Proof. intros. eapply read_prefix; eauto. Qed.

(* Only a file as it is written (with or without the final newline) is read, and as these entries, each with its own output. *)
Theorem C82_read : forall out_of f l, read out_of f = Some l ->
  (f = write (map snd l) \/ f ++ [NL] = write (map snd l)) /\ NoDup (map fst l) /\ forall k j, In (k, j) l -> out_of j = Some k.
Proof. intros out_of f l. apply read_only. Qed.

(* Filters: the last value for the name; any of the types for the name. *)
Theorem C82_filter_name : forall name a n v f, applies name n = true -> (forall n' v', In (n', v') f -> applies name n' = false) ->
  name_filter name (rev (a ++ (n, v) :: f)) = v /\ name_filter name (rev f) = false.
Proof. intros name a n v f A N. split; [now apply name_filter_last | now apply name_filter_none]. Qed.
Theorem C82_filter_partial : forall ttype (tname : ttype -> bytes) is_a is_obj is_bmi is_hbmi is_m name names nf of_ if_ ot it,
  (forall n t, In (n, t) of_ -> output_test tname is_a is_obj is_bmi is_hbmi ot t <> None) ->
  (forall n t, In (n, t) if_ -> input_test tname is_a is_m it t <> None) ->
  (filter_entry tname is_a is_obj is_bmi is_hbmi is_m name names (Some nf) (Some of_) (Some if_) ot it = Some true <->
   name_filter name (rev nf) = true /\ In name names /\
   (exists n t, In (n, t) of_ /\ applies name n = true /\ output_test tname is_a is_obj is_bmi is_hbmi ot t = Some true) /\
   (exists n t, In (n, t) if_ /\ applies name n = true /\ input_test tname is_a is_m it t = Some true)).
Proof.
  intros ttype tname is_a is_obj is_bmi is_hbmi is_m name names nf of_ if_ ot it O I.
  assert (EX : forall (test : bytes -> option bool) g, (forall n t, In (n, t) g -> test t <> None) ->
    exists v, type_filter test name (rev g) = Some v /\ (v = true <-> exists n t, In (n, t) g /\ applies name n = true /\ test t = Some true)).
  { intros test g K. rewrite type_filter_iff by (intros n t Q; apply in_rev in Q; eauto). eexists. split; [reflexivity|].
    rewrite existsb_exists. split.
    - intros ([n t] & Q & H). apply in_rev in Q. apply andb_true_iff in H as [H1 H2]. cbn in H1, H2. exists n, t. repeat split; auto.
      destruct (test t) as [[]|]; congruence.
    - intros (n & t & Q & H1 & H2). exists (n, t). split; [now apply in_rev in Q|]. cbn. now rewrite H1, H2. }
  destruct (EX _ of_ O) as (vo & EO & HO). destruct (EX _ if_ I) as (vi & EI & HI). rewrite <- HO, <- HI.
  unfold filter_entry. rewrite EO, EI. destruct (name_filter name (rev nf)); cbn [negb]; [|split; [discriminate | intros [? _]; discriminate]].
  destruct (existsb (beqb name) names) eqn:N; cbn [negb].
  - apply existsb_exists in N as (x & N1 & N2). apply beqb_eq in N2. subst x. destruct vo; [|split; [discriminate | intros (_ & _ & ? & _); discriminate]].
    split; [intros E; injection E as ->; auto | intros (_ & _ & _ & ->); reflexivity].
  - split; [discriminate|]. intros (_ & Q & _). exfalso. assert (existsb (beqb name) names = true); [|congruence].
    apply existsb_exists. exists name. split; [exact Q | apply beqb_refl].
Qed.

(* Examples. A line: {output|command}. *)
Definition ex_bad (c : ascii) : bool := ceqb c NL || ceqb c "|".
Definition ex_ser (k c : bytes) : option bytes :=
  if existsb ex_bad (k ++ c) then None else Some ("{"%char :: k ++ "|"%char :: c ++ ["}"%char]).
Fixpoint ex_until (s : bytes) : bytes := match s with [] => [] | c :: s => if ceqb c "|" then [] else c :: ex_until s end.
Definition ex_out (j : bytes) : option bytes := match j with c :: j => if ceqb c "{" then Some (ex_until j) else None | [] => None end.
Definition ex_under (d k : bytes) : bool := beqb (firstn (length d) k) d.

Lemma ex_ser_ok : forall k c j, ex_ser k c = Some j -> line_ok ex_out k j.
Proof.
  intros k c j E. unfold ex_ser in E. destruct (existsb ex_bad (k ++ c)) eqn:B; [discriminate|]. injection E as <-.
  assert (N : forall x, In x (k ++ c) -> ceqb x NL = false /\ ceqb x "|" = false).
  { intros x I. apply orb_false_iff. destruct (ceqb x NL || ceqb x "|") eqn:Q; [|reflexivity].
    assert (existsb ex_bad (k ++ c) = true); [|congruence]. apply existsb_exists. now exists x. }
  split; [|split; [|split]].
  - cbn. f_equal. assert (K : forall x, In x k -> ceqb x "|" = false) by (intros x I; apply N; apply in_or_app; now left).
    clear - K. induction k as [|x k IH]; cbn; [reflexivity|]. rewrite (K x) by now left. f_equal. apply IH. intros. apply K. now right.
  - intros [I|I]; [discriminate|]. apply in_app_or in I as [I|[I|I]].
    + destruct (N NL) as [Q _]; [apply in_or_app; now left | discriminate].
    + discriminate.
    + apply in_app_or in I as [I|[I|[]]]; [|discriminate]. destruct (N NL) as [Q _]; [apply in_or_app; now right | discriminate].
  - eauto.
  - exists ("{"%char :: k ++ "|"%char :: c). cbn. now rewrite <- app_assoc.
Qed.

Definition ex_ok (dirs : list bytes) : fin := mkfin false false dirs false false false.
Definition ex_failed : fin := mkfin false false [] true false false.
Definition ex_match_only : fin := mkfin false false [] false true false.
Definition ex_nested : fin := mkfin true false [] false false false.
Definition ex_run f es := option_map s_file (run ex_ser ex_out ex_under (start f) es).
Definition ex_old : list (bytes * bytes) := [(b "d/a", b "{d/a|1}"); (b "d/b", b "{d/b|1}"); (b "e/c", b "{e/c|1}")].

(* One output is current, one is changed, one is new, one is gone, one is in another directory; one is updated by a nested session. *)
Example C82_ex_history :
  ex_run (Some (write (map snd (ex_old ++ [(b "d/x", b "{d/x|1}"); (b "d/n", b "{d/n|1}")]))))
    (events [([Match (b "d/n") false], ex_nested);
             ([Match (b "d/a") false; Match (b "d/b") true; Exec (b "d/b") (b "2"); Match (b "d/z") true; Pre; Post ex_nested; Exec (b "d/z") (b "1")],
              ex_ok [b "d/"])])
  = Some (Some (write (map snd [(b "d/a", b "{d/a|1}"); (b "d/b", b "{d/b|2}"); (b "e/c", b "{e/c|1}"); (b "d/n", b "{d/n|1}"); (b "d/z", b "{d/z|1}")]))).
Proof. reflexivity. Qed.
Example C82_ex_holds : holds ex_out (Some (write (map snd ex_old))) ex_old.
Proof.
  split; [|split; [|now right]].
  - repeat constructor; cbn; intuition discriminate.
  - intros k j I. cbn in I. destruct I as [I|[I|[I|[]]]]; injection I as <- <-; apply (ex_ser_ok _ (b "1")); reflexivity.
Qed.
Example C82_ex_forced : option_map snd (match_ (mkst Open 1 [] 0 false None) (b "d/a") false) = Some true.
Proof. reflexivity. Qed.
Example C82_ex_calls : calls_ok ex_ser (fun k => find k ex_old) [Match (b "d/z") true; Exec (b "d/z") (b "1")] (ex_ok [b "d/"]).
Proof.
  split; [|split].
  - intros a c k ch E. destruct a as [|? [|? [|? a]]]; try discriminate; injection E; try discriminate. intros. intros (x & []).
  - intros a c k x E. destruct a as [|? [|? [|? a]]]; try discriminate; injection E; try discriminate. intros _ _ <- <-. exists true. now left.
  - intros _ k (ch & [E|[E|[]]]) _; [|discriminate]. injection E as <- _. cbn. discriminate.
Qed.
Example C82_ex_invalid : ex_run (Some (write (map snd ex_old)))
  (Pre :: ([Match (b "d/b") true] ++ Exec (b "d/b") (b "|") :: []) ++ [Post (ex_ok [b "d/"])]) = Some (Some (write (map snd ex_old))).
Proof. reflexivity. Qed.
Example C82_ex_foreign : read ex_out (b "[ ]") = None /\
  ex_run (Some (b "[ ]")) [Pre; Match (b "d/b") true; Exec (b "d/b") (b "2"); Post (ex_ok [b "d/"])] = Some (Some (b "[ ]")).
Proof. split; reflexivity. Qed.
Example C82_ex_cut : read ex_out (removelast (write (map snd ex_old))) = Some ex_old /\
  read ex_out (removelast (removelast (write (map snd ex_old)))) = None.
Proof. split; reflexivity. Qed.
Example C82_ex_stdout : option_map o_out (orun ex_ser (mkost OInit 0 [])
    (events [([Exec (b "a") (b "1")], ex_nested); ([Exec (b "b") (b "2")], ex_ok [])])) = Some (write [b "{a|1}"; b "{b|2}"]).
Proof. reflexivity. Qed.

(* Builds: a command is changed, and then an output is gone. *)
Definition ex_b1 : build := mkbuild (fun _ => b "1") [Match (b "d/a") true; Exec (b "d/a") (b "1")] (ex_ok [b "d/"]).
Definition ex_b2 : build := mkbuild (fun _ => b "2") [Match (b "d/a") true; Exec (b "d/a") (b "2")] (ex_ok [b "d/"]).
Definition ex_dd (c : bytes) : bytes -> option bytes := fun k => if beqb k (b "d/a") then Some c else None.

Lemma ex_holds1 c : ex_ser (b "d/a") c <> None -> holds ex_out (Some (write (map snd [(b "d/a", "{"%char :: b "d/a|" ++ c ++ b "}")]))) [(b "d/a", "{"%char :: b "d/a|" ++ c ++ b "}")].
Proof.
  intros V. split; [|split; [|now right]].
  - repeat constructor. intros [].
  - intros k j [E|[]]. injection E as <- <-. destruct (ex_ser (b "d/a") c) eqn:S; [|congruence]. pose proof S as S'. apply ex_ser_ok in S'.
    unfold ex_ser in S. destruct (existsb _ _); [discriminate|]. injection S as <-. exact S'.
Qed.
Lemma ex_proper all c dd old p : ex_ser (b "d/a") c <> None -> dd (b "d/a") <> Some c ->
  proper ex_ser all dd old (mkbuild (fun _ => c) [Match (b "d/a") true; Exec (b "d/a") c] p).
Proof.
  intros V D. split; [reflexivity|]. split; [repeat constructor; exact V|]. split; [|split].
  - intros k ch [E|[E|[]]]; [|discriminate]. injection E as <- <-. split; [discriminate | intros Q; exfalso; exact (D Q)].
  - intros k c' [E|[E|[]]]; [discriminate|]. injection E as <- <-. reflexivity.
  - intros _ k (ch & [E|[E|[]]]) _; [|discriminate]. injection E as <- _. cbn. auto.
Qed.
Lemma ex_recorded c dd p es : (forall k ch, In (Match k ch) es -> k = b "d/a") -> matched (b "d/a") es -> (forall k, dd k = None \/ k = b "d/a") ->
  recorded dd (ex_dd c) (mkbuild (fun _ => c) es p).
Proof.
  intros H M D k. unfold ex_dd. cbn [b_cur b_events]. split.
  - intros (ch & I). apply H in I. subst. reflexivity.
  - intros N. destruct (beqb k (b "d/a")) eqn:E; [apply beqb_eq in E; subst; contradiction | now right].
Qed.

Lemma ex_snoc all xs dd f l x dd' f' : builds ex_ser ex_out ex_under all xs dd f -> holds ex_out f l ->
  proper ex_ser all dd (fun k => find k l) x -> recorded dd dd' x ->
  ex_run f (Pre :: b_events x ++ [Post (b_fin x)]) = Some f' -> builds ex_ser ex_out ex_under all (xs ++ [x]) dd' f'.
Proof.
  intros B H P R E. unfold ex_run in E. destruct (run _ _ _ _ _) as [s|] eqn:Q; [|discriminate]. injection E as <-.
  eapply BSnoc; eauto.
Qed.

Example C82_ex_current : builds ex_ser ex_out ex_under True [ex_b1; ex_b2] (ex_dd (b "2")) (Some (write [b "{d/a|2}"])).
Proof.
  change [ex_b1; ex_b2] with (([] ++ [ex_b1]) ++ [ex_b2]).
  refine (ex_snoc True _ (ex_dd (b "1")) (Some (write [b "{d/a|1}"])) [(b "d/a", b "{d/a|1}")] ex_b2 (ex_dd (b "2")) _ _ _ _ _ eq_refl).
  - refine (ex_snoc True _ (fun _ => None) None [] ex_b1 (ex_dd (b "1")) _ (BNil _ _ _ _) _ _ _ eq_refl).
    + split; [constructor | split; [contradiction | now left]].
    + apply ex_proper; discriminate.
    + apply ex_recorded; [intros k ch [E|[E|[]]]; [now injection E | discriminate] | exists true; now left | auto].
  - apply (ex_holds1 (b "1")). discriminate.
  - apply ex_proper; discriminate.
  - apply ex_recorded; [intros k ch [E|[E|[]]]; [now injection E | discriminate] | exists true; now left |].
    intros k. unfold ex_dd. destruct (beqb k (b "d/a")) eqn:E; [apply beqb_eq in E; auto | auto].
Qed.

(* If something else fails (or only matching), then a change that has been recorded is not executed. The next build executes the command
   (since the database is newer than the output) but does not update the entry. *)
Definition ex_b2f : build := mkbuild (fun _ => b "2") [Match (b "d/a") true] ex_failed.
Definition ex_b3 : build := mkbuild (fun _ => b "2") [Match (b "d/a") false; Exec (b "d/a") (b "2")] (ex_ok [b "d/"]).
Theorem C82_current_refuted : exists xs x dd f l k c,
  builds ex_ser ex_out ex_under False (xs ++ [x]) dd f /\ quiet (b_fin x) /\ In (Exec k c) (b_events x) /\
  dd k = Some c /\ holds ex_out f l /\ exists t, find k l = Some t /\ ex_ser k c <> Some t.
Proof.
  exists [ex_b1; ex_b2f], ex_b3, (ex_dd (b "2")), (Some (write [b "{d/a|1}"])), [(b "d/a", b "{d/a|1}")], (b "d/a"), (b "2").
  split; [|split; [split; reflexivity | split; [cbn; auto | split; [reflexivity | split; [apply (ex_holds1 (b "1")); discriminate |]]]]].
  - change ([ex_b1; ex_b2f] ++ [ex_b3]) with ((([] ++ [ex_b1]) ++ [ex_b2f]) ++ [ex_b3]).
    refine (ex_snoc False _ (ex_dd (b "2")) (Some (write [b "{d/a|1}"])) [(b "d/a", b "{d/a|1}")] ex_b3 (ex_dd (b "2")) _ _ _ _ _ eq_refl).
    + refine (ex_snoc False _ (ex_dd (b "1")) (Some (write [b "{d/a|1}"])) [(b "d/a", b "{d/a|1}")] ex_b2f (ex_dd (b "2")) _ _ _ _ _ eq_refl).
      * refine (ex_snoc False _ (fun _ => None) None [] ex_b1 (ex_dd (b "1")) _ (BNil _ _ _ _) _ _ _ eq_refl).
        -- split; [constructor | split; [contradiction | now left]].
        -- apply ex_proper; discriminate.
        -- apply ex_recorded; [intros k ch [E|[E|[]]]; [now injection E | discriminate] | exists true; now left | auto].
      * apply (ex_holds1 (b "1")). discriminate.
      * split; [reflexivity|]. split; [repeat constructor|]. split; [|split].
        -- intros k ch [E|[]]. injection E as <- <-. cbn. split; discriminate.
        -- intros k c [E|[]]. discriminate.
        -- intros [[]|[Q _]]. discriminate.
      * apply ex_recorded; [intros k ch [E|[]]; now injection E | exists true; now left |].
        intros k. unfold ex_dd. destruct (beqb k (b "d/a")) eqn:E; [apply beqb_eq in E; auto | auto].
    + apply (ex_holds1 (b "1")). discriminate.
    + split; [reflexivity|]. split; [repeat constructor; discriminate|]. split; [|split].
      * intros k ch [E|[E|[]]]; [|discriminate]. injection E as <- <-. cbn. split; reflexivity.
      * intros k c [E|[E|[]]]; [discriminate|]. injection E as <- <-. reflexivity.
      * intros _ k (ch & [E|[E|[]]]) _; [|discriminate]. injection E as <- _. cbn. auto.
    + apply ex_recorded; [intros k ch [E|[E|[]]]; [now injection E | discriminate] | exists false; now left |].
      intros k. unfold ex_dd. destruct (beqb k (b "d/a")) eqn:E; [apply beqb_eq in E; auto | auto].
  - exists (b "{d/a|1}"). split; [reflexivity | discriminate].
Qed.

(* With two match-only operations an assertion fails on an output without an entry. *)
Theorem C82_asserts_refuted : exists (es : list (@event bytes)), calls_ok ex_ser (fun _ => None) es ex_match_only /\ inner es /\ Forall (valid ex_ser) es /\
  ex_run None (events [(es, ex_match_only)]) <> None /\ ex_run None (events [(es, ex_match_only); (es, ex_match_only)]) = None.
Proof.
  exists [Match (b "d/a") true]. split; [|split; [reflexivity | split; [repeat constructor | split; [discriminate | reflexivity]]]].
  split; [|split].
  - intros a c k ch E. destruct a as [|? [|? a]]; try discriminate. intros (x & []).
  - intros a c k x E. destruct a as [|? [|? a]]; try discriminate.
  - intros [_ Q]. discriminate.
Qed.

(* The input type S also accepts outputs of the unrelated type m and does not accept those derived from S. *)
Inductive ex_tt := TS | TM | TSsub.
Definition ex_tname (t : ex_tt) : bytes := match t with TS => b "S" | TM => b "m" | TSsub => b "s1" end.
Definition ex_isa (t : ex_tt) (n : bytes) : option bool :=
  if beqb n (b "S") then Some (match t with TM => false | _ => true end)
  else if beqb n (b "m") then Some (match t with TM => true | _ => false end) else None.
Definition ex_filter (ot it : ex_tt) (f : list (option bytes * bytes)) : option bool :=
  filter_entry ex_tname ex_isa (fun _ => true) (fun _ => false) (fun _ => false) (fun t => match t with TM => true | _ => false end)
    (b "db") [b "db"] (Some [(None, true)]) (Some [(None, b "obj")]) (Some f) ot it.
Theorem C82_filter_refuted : exists it it', ex_isa it (b "S") = Some false /\ ex_filter TS it [(None, b "S")] = Some true /\
  ex_isa it' (b "S") = Some true /\ ex_filter TS it' [(None, b "S")] = Some false.
Proof. exists TM, TSsub. repeat split; reflexivity. Qed.
Example C82_ex_filter : ex_filter TS TM [(Some (b "other"), b "m"); (None, b "m")] = Some true /\ ex_filter TS TSsub [(Some (b "other"), b "S"); (None, b "m")] = Some false.
Proof. split; reflexivity. Qed.

Print Assumptions C82_history.
Print Assumptions C82_forced.
Print Assumptions C82_asserts_partial.
Print Assumptions C82_invalid.
Print Assumptions C82_foreign.
Print Assumptions C82_current_partial.
Print Assumptions C82_stdout.
Print Assumptions C82_roundtrip.
Print Assumptions C82_cut.
Print Assumptions C82_read.
Print Assumptions C82_filter_name.
Print Assumptions C82_filter_partial.
Print Assumptions C82_current_refuted.
Print Assumptions C82_asserts_refuted.
Print Assumptions C82_filter_refuted.
