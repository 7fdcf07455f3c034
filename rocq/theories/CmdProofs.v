(* Proofs for command expressions and names of stream files. *)
From Coq Require Import Decimal DecimalString DecimalNat.
From Verif Require Import Base CmdModel CmdSpec.

Section Expr.
Context {P St : Type} (run_pipe : P -> nat -> bool -> St -> St * outcome).
Notation run_terms := (run_terms run_pipe).
Notation eval := (eval run_pipe).

Definition sum (ts : list (term P)) : nat := fold_right (fun t n => t_size t + n) 0 ts.
Lemma sum_app a c : sum (a ++ c) = sum a + sum c.
Proof. unfold sum. induction a; cbn [app fold_right]; lia. Qed.
Lemma sum_terms (e : expr P) : sum (terms e) = commands e.
Proof. induction e as [p n|l IH p n|l IH p n]; cbn [terms commands]; [cbn; lia| |]; rewrite sum_app; cbn [sum fold_right t_size]; lia. Qed.
Definition flag (tr : option nat) (i : nat) (print : bool) : bool := match tr with Some n => if S i =? n then true else print | None => print end.
Fixpoint flags (tr : option nat) (k i : nat) (print : bool) : bool := match k with O => print | S k => flags tr k (S i) (flag tr i print) end.
Lemma run_terms_snoc tr ts : forall t i ci r print st, run_terms tr (ts ++ [t]) i ci r print st =
  match run_terms tr ts i ci r print st with
  | (st, Returns r) => run_terms tr [t] (i + length ts) (ci + sum ts) r (flags tr (length ts) i print) st
  | o => o
  end.
Proof.
  induction ts as [|t0 ts IH]; intros t i ci r print st.
  - cbn [app length sum fold_right flags]. rewrite !Nat.add_0_r. reflexivity.
  - cbn [app CmdModel.run_terms length sum fold_right flags]. fold (flag tr i print).
    destruct (negb _).
    + destruct (run_pipe (t_pipe t0) ci (flag tr i print) st) as [st' [r'|]]; [|reflexivity].
      rewrite IH. destruct (run_terms tr ts (S i) (ci + t_size t0) r' (flag tr i print) st') as [st2 [r2|]]; [|reflexivity].
      replace (S i + length ts) with (i + S (length ts)) by lia. replace (ci + t_size t0 + sum ts) with (ci + (t_size t0 + fold_right (fun t n => t_size t + n) 0 ts)) by (unfold sum; lia). reflexivity.
    + rewrite IH. destruct (run_terms tr ts (S i) (ci + t_size t0) r (flag tr i print) st) as [st2 [r2|]]; [|reflexivity].
      replace (S i + length ts) with (i + S (length ts)) by lia. replace (ci + t_size t0 + sum ts) with (ci + (t_size t0 + fold_right (fun t n => t_size t + n) 0 ts)) by (unfold sum; lia). reflexivity.
Qed.
Lemma flags_spec tr k : forall i print, flags tr k i print = print || match tr with Some n => (i <? n) && (n <=? i + k) | None => false end.
Proof.
  induction k as [|k IH]; intros i print; cbn [flags].
  - destruct tr as [n|]; [|destruct print; reflexivity]. destruct (Nat.ltb_spec i n), (Nat.leb_spec n (i + 0)); cbn; try lia; destruct print; reflexivity.
  - rewrite IH. unfold flag. destruct tr as [n|]; [|reflexivity].
    destruct (Nat.eqb_spec (S i) n); destruct print; cbn [orb]; try reflexivity.
    + destruct (Nat.ltb_spec i n), (Nat.leb_spec n (i + S k)); try reflexivity; lia.
    + destruct (Nat.ltb_spec (S i) n), (Nat.leb_spec n (S i + k)), (Nat.ltb_spec i n), (Nat.leb_spec n (i + S k)); try reflexivity; lia.
Qed.
Lemma run_one tr t i ci r print st : run_terms tr [t] i ci r print st =
  if eqb r (is_or (t_op t)) then (st, Returns r) else run_pipe (t_pipe t) ci (flag tr i print) st.
Proof.
  cbn [CmdModel.run_terms]. fold (flag tr i print). destruct r, (is_or (t_op t)); cbn [andb orb negb eqb]; try reflexivity;
    destruct (run_pipe (t_pipe t) ci (flag tr i print) st) as [st' [r'|]]; reflexivity.
Qed.
Lemma terms_length (e : expr P) : 1 <= length (terms e).
Proof. induction e; cbn; try lia; rewrite app_length; cbn; lia. Qed.

(* Not printing: the mark is ahead or there is none. *)
Definition no_mark (tr : option nat) (e : expr P) : Prop := match tr with Some n => length (terms e) < n | None => True end.
Lemma run_quiet tr e : forall ci st, no_mark tr e -> run_terms tr (terms e) 0 ci false false st = eval false ci e st.
Proof.
  assert (HF : forall l p n o, no_mark tr (match o with OpOr => EOr l p n | OpAnd => EAnd l p n end) -> no_mark tr l /\ flag tr (0 + length (terms l)) (flags tr (length (terms l)) 0 false) = false).
  { intros l p n o. unfold no_mark, flag. rewrite flags_spec. destruct tr as [m|]; [|auto]. replace (length (terms (match o with OpOr => EOr l p n | OpAnd => EAnd l p n end))) with (S (length (terms l))) by (destruct o; cbn [terms]; rewrite app_length; cbn; lia).
    intros H. split; [lia|]. destruct (Nat.eqb_spec (S (0 + length (terms l))) m); [lia|]. destruct (Nat.leb_spec m (0 + length (terms l))); [lia|]. rewrite andb_false_r. reflexivity. }
  induction e as [p n|l IH p n|l IH p n]; intros ci st H.
  - cbn [terms]. rewrite run_one. cbn [eqb is_or t_op t_pipe CmdSpec.eval]. f_equal. unfold flag. destruct tr as [m|]; [|reflexivity]. cbn in H. destruct (Nat.eqb_spec 1 m); [lia|reflexivity].
  - destruct (HF l p n OpOr H) as [H1 H2]. cbn [terms]. rewrite run_terms_snoc, (IH _ _ H1). cbn [CmdSpec.eval]. destruct (eval false ci l st) as [st' [[]|]]; try reflexivity;
      rewrite run_one, H2, sum_terms; reflexivity.
  - destruct (HF l p n OpAnd H) as [H1 H2]. cbn [terms]. rewrite run_terms_snoc, (IH _ _ H1). cbn [CmdSpec.eval]. destruct (eval false ci l st) as [st' [[]|]]; try reflexivity;
      rewrite run_one, H2, sum_terms; reflexivity.
Qed.
(* The mark *)
Fixpoint mark (e : expr P) : nat := match e with EPipe _ _ => 1 | EOr l _ _ => S (length (terms l)) | EAnd l _ _ => mark l end.
Lemma mark_terms (e : expr P) : skip_ands (rev (terms e)) = mark e.
Proof.
  induction e as [p n|l IH p n|l IH p n]; [reflexivity| |]; cbn [terms mark]; rewrite rev_app_distr; cbn [rev app skip_ands is_or t_op].
  - cbn [length]. rewrite rev_length. reflexivity.
  - exact IH.
Qed.
Lemma mark_le e : 1 <= mark e <= length (terms e).
Proof. induction e as [p n|l IH p n|l IH p n]; cbn [mark terms length]; [lia| |]; rewrite app_length; cbn [length]; [lia|]. lia. Qed.
Lemma run_printing e : forall ci st, run_terms (Some (mark e)) (terms e) 0 ci false false st = eval true ci e st.
Proof.
  induction e as [p n|l IH p n|l IH p n]; intros ci st; cbn [mark terms].
  - rewrite run_one. reflexivity.
  - rewrite run_terms_snoc, run_quiet by (cbn; lia). cbn [CmdSpec.eval]. destruct (eval false ci l st) as [st' [[]|]]; try reflexivity;
      rewrite run_one, sum_terms; cbn [eqb is_or t_op t_pipe]; unfold flag; cbn [Nat.add]; rewrite Nat.eqb_refl; reflexivity.
  - rewrite run_terms_snoc, IH. cbn [CmdSpec.eval]. destruct (eval true ci l st) as [st' [[]|]]; try reflexivity;
      rewrite run_one, sum_terms; cbn [eqb is_or t_op t_pipe].
    pose proof (mark_le l) as Hm. f_equal. unfold flag. rewrite flags_spec.
    destruct (Nat.eqb_spec (S (0 + length (terms l))) (mark l)); [reflexivity|].
    destruct (Nat.ltb_spec 0 (mark l)), (Nat.leb_spec (mark l) (0 + length (terms l))); try reflexivity; lia.
Qed.
Lemma run_expr_eval e diag st : run_expr run_pipe (terms e) diag st = eval diag (match e with EPipe _ n => if n =? 1 then 0 else 1 | _ => 1 end) e st.
Proof.
  unfold run_expr.
  assert (E : match terms e with [t] => if t_size t =? 1 then 0 else 1 | _ => 1 end = match e with EPipe _ n => if n =? 1 then 0 else 1 | _ => 1 end).
  { destruct e as [p n|l p n|l p n]; [reflexivity| |]; cbn [terms]; pose proof (terms_length l) as Hl; destruct (terms l) as [|x [|y ts]]; cbn in Hl; try lia; reflexivity. }
  rewrite E. destruct diag; [rewrite mark_terms; apply run_printing|apply run_quiet; exact I].
Qed.

(* Diagnostics *)
Lemma eval_reports print ci e (st : St * list P) : forall st' o, CmdSpec.eval (reporting run_pipe) print ci e st = (st', o) ->
  match o with Returns false => if print then exists p, snd st' = p :: snd st else snd st' = snd st | _ => snd st' = snd st end.
Proof.
  assert (HP : forall pr p c (s s' : St * list P) o, reporting run_pipe p c pr s = (s', o) -> match o with Returns false => if pr then exists p, snd s' = p :: snd s else snd s' = snd s | _ => snd s' = snd s end).
  { intros pr p c [s l] s' o. unfold reporting. cbn [fst snd]. destruct (run_pipe p c pr s) as [s1 o1]. intros [= <- <-]. cbn [snd]. destruct o1 as [[]|]; try reflexivity. destruct pr; [eauto|reflexivity]. }
  revert print ci st. induction e as [p n|l IH p n|l IH p n]; intros print ci st st' o; cbn [CmdSpec.eval].
  - apply HP.
  - destruct (CmdSpec.eval (reporting run_pipe) false ci l st) as [s1 o1] eqn:E1. apply IH in E1. destruct o1 as [[]|].
    + intros [= <- <-]. exact E1.
    + intros E. apply HP in E. rewrite E1 in E. exact E.
    + intros [= <- <-]. exact E1.
  - destruct (CmdSpec.eval (reporting run_pipe) print ci l st) as [s1 o1] eqn:E1. apply IH in E1. destruct o1 as [[]|].
    + intros E. apply HP in E. rewrite E1 in E. exact E.
    + intros [= <- <-]. exact E1.
    + intros [= <- <-]. exact E1.
Qed.
End Expr.

(* Names of files *)
Definition dash : ascii := "-"%char.
Definition dashless (s : bytes) : Prop := ~ In dash s.
Definition segment (s : bytes) : bytes := dash :: s.
Definition join (l : list bytes) : bytes := concat (map segment l).
Lemma split_dash a c r r' : dashless a -> dashless c -> (r = [] \/ exists x, r = dash :: x) -> (r' = [] \/ exists x, r' = dash :: x) -> a ++ r = c ++ r' -> a = c /\ r = r'.
Proof.
  revert c. induction a as [|x a IH]; intros [|y c] Ha Hc Hr Hr' E; cbn in E.
  - auto.
  - exfalso. destruct Hr as [->|[z ->]]; [discriminate|]. injection E as <- _. apply Hc. left. reflexivity.
  - exfalso. destruct Hr' as [->|[z ->]]; [discriminate|]. injection E as -> _. apply Ha. left. reflexivity.
  - injection E as -> E. destruct (IH c) as [-> ->]; auto; intros Hi; [apply Ha|apply Hc]; right; exact Hi.
Qed.
Lemma join_shape l : join l = [] \/ exists x, join l = dash :: x.
Proof. destruct l as [|s l]; [left; reflexivity|right]. eexists. reflexivity. Qed.
Lemma join_inj l : forall l', Forall dashless l -> Forall dashless l' -> join l = join l' -> l = l'.
Proof.
  induction l as [|s l IH]; intros [|s' l'] Hl Hl' E; try discriminate; [reflexivity|].
  cbn in E. injection E as E. inversion Hl; inversion Hl'; subst. fold (join l) in E. fold (join l') in E.
  destruct (split_dash s s' (join l) (join l')) as [-> E']; auto using join_shape. f_equal. auto.
Qed.
Lemma to_string_inj m n : to_string m = to_string n -> m = n.
Proof.
  unfold to_string. intros E. apply (f_equal string_of_list_ascii) in E. rewrite !string_of_list_ascii_of_string in E.
  apply (f_equal NilEmpty.uint_of_string) in E. rewrite !NilEmpty.usu in E. injection E as E. apply Unsigned.to_uint_inj. exact E.
Qed.
Lemma to_string_dashless n : dashless (to_string n).
Proof. unfold to_string, dashless. generalize (Nat.to_uint n). intros d. induction d; cbn; [tauto|..]; intros [H|H]; try discriminate; auto. Qed.
Definition optional_segment (c : ascii) (n : nat) : list bytes := if n =? 0 then [] else [c :: to_string n].
Definition segments (ii : list nat) (li ci : nat) : list bytes := map (fun i => "i"%char :: to_string i) (rev ii) ++ optional_segment "n" li ++ optional_segment "c" ci.
Lemma insert_loop nm ii : forall s, fold_left (fun s i => insert_at (length nm) (b "-i" ++ to_string i) s) ii (nm ++ s) = nm ++ join (map (fun i => "i"%char :: to_string i) (rev ii)) ++ s.
Proof.
  induction ii as [|i ii IH]; intros s; [reflexivity|]. cbn [fold_left]. unfold insert_at at 2. rewrite firstn_app, Nat.sub_diag, firstn_all, skipn_app, Nat.sub_diag, skipn_all. cbn [firstn skipn]. rewrite app_nil_r. cbn [app].
  rewrite IH. cbn [rev]. rewrite map_app. unfold join. rewrite map_app, concat_app, <-app_assoc. cbn. rewrite app_nil_r, <-app_assoc. reflexivity.
Qed.
Lemma join_app a c : join (a ++ c) = join a ++ join c.
Proof. unfold join. rewrite map_app, concat_app. reflexivity. Qed.
Lemma std_name_join nm ii li ci : std_name nm ii li ci = nm ++ join (segments ii li ci).
Proof.
  unfold std_name. pose proof (insert_loop nm ii []) as E. rewrite app_nil_r in E. rewrite E, app_nil_r. unfold segments, optional_segment. rewrite !join_app.
  destruct (li =? 0), (ci =? 0); cbn [join map concat segment app]; rewrite ?app_nil_r, <-?app_assoc; reflexivity.
Qed.
Lemma segments_dashless ii li ci : Forall dashless (segments ii li ci).
Proof.
  unfold segments, optional_segment. assert (H : forall c n, c <> dash -> dashless (c :: to_string n)) by (intros c n Hc [Hd|Hd]; [congruence|eapply to_string_dashless; exact Hd]).
  repeat (apply Forall_app; split).
  - apply Forall_forall. intros x Hx. apply in_map_iff in Hx as (i & <- & _). apply H. discriminate.
  - destruct (li =? 0); repeat constructor. apply H. discriminate.
  - destruct (ci =? 0); repeat constructor. apply H. discriminate.
Qed.
Lemma head_map_rev (ii ii' : list nat) x y : (forall s, In s x \/ In s y -> exists c t, s = c :: t /\ c <> "i"%char) ->
  map (fun i => "i"%char :: to_string i) ii ++ x = map (fun i => "i"%char :: to_string i) ii' ++ y -> ii = ii' /\ x = y.
Proof.
  revert ii'. induction ii as [|i ii IH]; intros [|i' ii'] H E; cbn in E.
  - auto.
  - exfalso. subst x. destruct (H _ (or_introl (or_introl eq_refl))) as (c & t & [= <- <-] & Hc). contradiction.
  - exfalso. subst y. destruct (H _ (or_intror (or_introl eq_refl))) as (c & t & [= <- <-] & Hc). contradiction.
  - injection E as E1 E2. apply to_string_inj in E1. destruct (IH ii' H E2) as [-> ->]. subst. auto.
Qed.
Lemma segments_inj ii li ci ii' li' ci' : segments ii li ci = segments ii' li' ci' -> ii = ii' /\ li = li' /\ ci = ci'.
Proof.
  unfold segments. intros E. apply head_map_rev in E as [E1 E2].
  - split; [rewrite <-(rev_involutive ii), E1, rev_involutive; reflexivity|]. unfold optional_segment in E2.
    destruct (Nat.eqb_spec li 0), (Nat.eqb_spec ci 0), (Nat.eqb_spec li' 0), (Nat.eqb_spec ci' 0); cbn in E2; try discriminate; inversion E2;
      repeat match goal with H : to_string _ = to_string _ |- _ => apply to_string_inj in H end; split; congruence.
  - intros s [Hs|Hs]; unfold optional_segment in Hs; apply in_app_iff in Hs as [Hs|Hs];
      match type of Hs with In _ (if ?x then _ else _) => destruct x end; try contradiction; destruct Hs as [<-|[]]; eexists _, _; split; try reflexivity; discriminate.
Qed.
Lemma std_name_inj nm nm' ii li ci ii' li' ci' : dashless nm -> dashless nm' -> std_name nm ii li ci = std_name nm' ii' li' ci' -> nm = nm' /\ ii = ii' /\ li = li' /\ ci = ci'.
Proof.
  intros H H' E. rewrite !std_name_join in E. apply split_dash in E as [E1 E2]; auto using join_shape. split; [exact E1|].
  apply join_inj in E2; auto using segments_dashless. apply segments_inj. exact E2.
Qed.
