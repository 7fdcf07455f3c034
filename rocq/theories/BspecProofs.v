(* Proofs about buildspecs: joining. *)
From Verif Require Import Base BspecModel BspecSpec.
From Coq Require Import Lia.

Lemma back_snoc {A} (l : list A) x : back (l ++ [x]) = Some x.
Proof. induction l as [| y l IH]; [reflexivity |]. cbn. destruct l; [reflexivity | exact IH]. Qed.
Lemma on_last_snoc {A} (f : A -> A) l x : on_last f (l ++ [x]) = l ++ [f x].
Proof.
  induction l as [| y l IH]; [reflexivity |]. cbn [app on_last]. rewrite IH. destruct l; reflexivity.
Qed.
Lemma snoc_cases {A} (l : list A) : l = [] \/ exists l' x, l = l' ++ [x].
Proof. destruct l as [| x l] using rev_ind; [left; reflexivity | right; eauto]. Qed.
Lemma unnamed_true s : unnamed s = true <-> s = [].
Proof. destruct s; cbn; intuition congruence. Qed.
Lemma unnamed_false s : unnamed s = false <-> s <> [].
Proof. destruct s; cbn; intuition congruence. Qed.

(* Joining in general. *)
Section Join.
Context {A : Type} (un : A -> bool) (mg : A -> A -> A).
Context (P : A -> Prop).
Context (mg_un : forall a c, un a = true -> un c = true -> un (mg a c) = true)
        (mg_P : forall a c, P a -> P c -> P (mg a c))
        (mg_assoc : forall a c d, P a -> P c -> P d -> un a = true -> un c = true -> un d = true -> mg a (mg c d) = mg (mg a c) d).
Definition join (a : A) (l : list A) : list A :=
  match l with c :: r => if un a && un c then mg a c :: r else a :: l | [] => [a] end.
Definition joined (l : list A) : list A := fold_right join [] l.
Definition snoc (l : list A) (x : A) : list A :=
  match back l with Some y => if un y && un x then on_last (fun y => mg y x) l else l ++ [x] | None => [x] end.

Lemma join_P a l : P a -> Forall P l -> Forall P (join a l).
Proof.
  intros Ha Hl. destruct Hl as [| c r Hc Hr]; cbn; [auto |]. destruct (un a && un c); auto.
Qed.
Lemma joined_P l : Forall P l -> Forall P (joined l).
Proof. induction 1; cbn; [constructor | apply join_P; assumption]. Qed.
Lemma snoc_snoc l y x : snoc (l ++ [y]) x = if un y && un x then l ++ [mg y x] else (l ++ [y]) ++ [x].
Proof. unfold snoc. rewrite back_snoc. destruct (un y && un x); [exact (on_last_snoc (fun y => mg y x) l y) | reflexivity]. Qed.
Lemma join_snoc a l x : P a -> Forall P l -> P x -> join a (snoc l x) = snoc (join a l) x.
Proof.
  intros Ha Hl Hx. destruct l as [| c r].
  - unfold snoc. cbn. destruct (un a), (un x); reflexivity.
  - inversion Hl as [| ? ? Hc Hr]; subst. destruct (snoc_cases r) as [-> | (r' & y & ->)].
    + unfold snoc, join. cbn. destruct (un a) eqn:Ea, (un c) eqn:Ec, (un x) eqn:Ex; cbn;
        repeat (rewrite ?Ea, ?Ec, ?Ex, ?mg_un by assumption; cbn); try reflexivity.
      rewrite mg_assoc by assumption. reflexivity.
    + change (c :: r' ++ [y]) with ((c :: r') ++ [y]). rewrite snoc_snoc.
      assert (J : forall z, join a ((c :: r') ++ z) = (if un a && un c then mg a c :: r' else a :: c :: r') ++ z).
      { intros z. cbn. destruct (un a && un c); reflexivity. }
      rewrite J. destruct (un y && un x) eqn:E.
      * rewrite J, snoc_snoc, E. reflexivity.
      * rewrite <- app_assoc, J, snoc_snoc, E, <- app_assoc. reflexivity.
Qed.
Lemma joined_snoc l x : Forall P l -> P x -> joined (l ++ [x]) = snoc (joined l) x.
Proof.
  intros Hl Hx. induction Hl as [| a l Ha Hl IH]; [reflexivity |]. cbn [app joined fold_right]. fold (joined (l ++ [x])) (joined l).
  rewrite IH. apply join_snoc; [exact Ha | apply joined_P, Hl | exact Hx].
Qed.
Lemma joined_fold l xs : Forall P l -> Forall P xs -> joined (l ++ xs) = fold_left snoc xs (joined l).
Proof.
  intros Hl Hx. revert l Hl. induction Hx as [| x xs Hx Hxs IH]; intros l Hl; cbn; [rewrite app_nil_r; reflexivity |].
  replace (l ++ x :: xs) with ((l ++ [x]) ++ xs) by (rewrite <- app_assoc; reflexivity).
  rewrite IH by (apply Forall_app; auto). rewrite joined_snoc by assumption. reflexivity.
Qed.
Lemma join_join a c l : P a -> P c -> Forall P l -> un a = true -> un c = true -> join a (join c l) = join (mg a c) l.
Proof.
  intros Ha Hc Hl A' C. destruct Hl as [| d r Hd Hr]; cbn.
  - rewrite A', C. reflexivity.
  - rewrite C, (mg_un a c A' C). cbn [andb]. destruct (un d) eqn:D; cbn [join andb].
    + rewrite A', mg_un by assumption. cbn [andb]. rewrite mg_assoc by assumption. reflexivity.
    + rewrite A', C. reflexivity.
Qed.
Lemma joined_app_l l r : Forall P l -> Forall P r -> joined (joined l ++ r) = joined (l ++ r).
Proof.
  intros Hl Hr. induction Hl as [| a l Ha Hl IH]; [reflexivity |]. cbn [app joined fold_right]. fold (joined (l ++ r)) (joined l).
  rewrite <- IH. pose proof (joined_P l Hl) as Hj. destruct Hj as [| c q Hc Hq]; [reflexivity |]. cbn [join].
  destruct (un a && un c) eqn:E; [| reflexivity]. apply andb_true_iff in E. destruct E as [A' C].
  cbn [app joined fold_right]. fold (joined (q ++ r)). symmetry. apply join_join; auto. apply joined_P, Forall_app. auto.
Qed.
Lemma joined_idem l : Forall P l -> joined (joined l) = joined l.
Proof. intros H. pose proof (joined_app_l l [] H (Forall_nil _)) as E. rewrite !app_nil_r in E. exact E. Qed.
Lemma joined_app_r l r : Forall P r -> joined (l ++ joined r) = joined (l ++ r).
Proof. intros H. unfold joined at 1 3. rewrite !fold_right_app. fold (joined (joined r)) (joined r). rewrite joined_idem by exact H. reflexivity. Qed.
Lemma join_un a l : forallb un (join a l) = un a && forallb un l.
Proof.
  destruct l as [| c r]; cbn; [reflexivity |]. destruct (un a) eqn:A', (un c) eqn:C; cbn; rewrite ?A', ?C, ?mg_un by assumption; reflexivity.
Qed.
Lemma joined_un l : forallb un (joined l) = forallb un l.
Proof. induction l as [| a l IH]; [reflexivity |]. cbn. fold (joined l). rewrite join_un, IH. reflexivity. Qed.
Lemma joined_named l xs : Forall P l -> Forall P xs -> forallb (fun x => negb (un x)) xs = true -> joined (l ++ xs) = joined l ++ xs.
Proof.
  intros Hl Hx N. rewrite joined_fold by assumption. generalize (joined l). clear Hx. induction xs as [| x xs IH]; intros j; cbn; [rewrite app_nil_r; reflexivity |].
  cbn in N. apply andb_true_iff in N. destruct N as [Nx N]. apply negb_true_iff in Nx. rewrite IH by exact N.
  unfold snoc. rewrite Nx. destruct (snoc_cases j) as [-> | (j' & y & ->)]; [reflexivity |]. rewrite back_snoc, andb_false_r, <- app_assoc. reflexivity.
Qed.
Lemma join_all c l : P c -> un c = true -> Forall P l -> forallb un l = true -> exists d, joined (c :: l) = [d].
Proof.
  intros Hc C Hl. revert c Hc C. induction Hl as [| d l Hd Hl IH]; intros c Hc C N; cbn in *; [eauto |].
  apply andb_true_iff in N. destruct N as [D N]. destruct (IH d Hd D N) as (e & E). fold (joined l). cbn in E. fold (joined l) in E. rewrite E.
  cbn. assert (U : un e = true). { assert (X : forallb un (join d (joined l)) = true) by (rewrite join_un, joined_un, D, N; reflexivity). rewrite E in X. cbn in X. rewrite andb_true_r in X. exact X. }
  rewrite C, U. cbn. eauto.
Qed.
End Join.

(* Operations. *)
Definition oun (o : opspec) : bool := unnamed (oname o).
Definition omg (o o' : opspec) : opspec := mkop [] [] (targets o ++ targets o').
Definition OP (o : opspec) : Prop := oname o = [] -> oparams o = [].
Lemma join_ops_eq o l : join_ops o l = join oun omg o l.
Proof. destruct l as [| o' r]; unfold join_ops, join, oun; destruct (oname o); cbn; try reflexivity. destruct (oname o'); reflexivity. Qed.
Lemma joined_ops_eq l : joined_ops l = joined oun omg l.
Proof. induction l as [| o l IH]; [reflexivity |]. cbn. fold (joined_ops l) (joined oun omg l). rewrite IH. apply join_ops_eq. Qed.
Lemma omg_un a c : oun a = true -> oun c = true -> oun (omg a c) = true. Proof. reflexivity. Qed.
Lemma omg_P a c : OP a -> OP c -> OP (omg a c). Proof. intros _ _ _. reflexivity. Qed.
Lemma omg_assoc a c d : OP a -> OP c -> OP d -> oun a = true -> oun c = true -> oun d = true -> omg a (omg c d) = omg (omg a c) d.
Proof. intros. unfold omg. cbn. rewrite app_assoc. reflexivity. Qed.

(* Meta-operations. *)
Definition mun (m : metaopspec) : bool := unnamed (mname m).
Definition mmg (m m' : metaopspec) : metaopspec := mkmeta [] [] (joined_ops (ops m ++ ops m')).
Definition MP (m : metaopspec) : Prop := Forall OP (ops m) /\ joined_ops (ops m) = ops m /\ (mname m = [] -> mparams m = []).
Lemma join_metas_eq o l : join_metas o l = join mun mmg o l.
Proof. destruct l as [| o' r]; unfold join_metas, join, mun; destruct (mname o); cbn; try reflexivity. destruct (mname o'); reflexivity. Qed.
Lemma joined_metas_eq l : joined_metas l = joined mun mmg l.
Proof. induction l as [| o l IH]; [reflexivity |]. cbn. fold (joined_metas l) (joined mun mmg l). rewrite IH. apply join_metas_eq. Qed.
Lemma mmg_un a c : mun a = true -> mun c = true -> mun (mmg a c) = true. Proof. reflexivity. Qed.
Lemma joined_ops_OP l : Forall OP l -> Forall OP (joined_ops l).
Proof. rewrite joined_ops_eq. apply joined_P. exact omg_P. Qed.
Lemma joined_ops_idem l : Forall OP l -> joined_ops (joined_ops l) = joined_ops l.
Proof. rewrite !joined_ops_eq. apply joined_idem with (P := OP); [exact omg_un | exact omg_P | exact omg_assoc]. Qed.
Lemma MP_joined n ps l : Forall OP l -> (n = [] -> ps = []) -> MP (mkmeta n ps (joined_ops l)).
Proof. intros H N. split; [apply joined_ops_OP, H |]. split; [apply joined_ops_idem, H | exact N]. Qed.
Lemma mmg_P a c : MP a -> MP c -> MP (mmg a c).
Proof. intros (Ha & _) (Hc & _). apply MP_joined; [apply Forall_app; auto | reflexivity]. Qed.
Lemma mmg_assoc a c d : MP a -> MP c -> MP d -> mun a = true -> mun c = true -> mun d = true -> mmg a (mmg c d) = mmg (mmg a c) d.
Proof.
  intros (Ha & _) (Hc & _) (Hd & _) _ _ _. unfold mmg. cbn. f_equal. rewrite !joined_ops_eq.
  rewrite (joined_app_r oun omg OP) by (try apply Forall_app; auto using omg_un, omg_P, omg_assoc).
  rewrite (joined_app_l oun omg OP) by (try apply Forall_app; auto using omg_un, omg_P, omg_assoc).
  rewrite app_assoc. reflexivity.
Qed.
