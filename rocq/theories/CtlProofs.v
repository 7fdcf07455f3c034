(* Proofs about flow control in buildfiles: steps. *)
From Verif Require Import Base CtlModel CtlSpec.

Scheme stmt_rec' := Induction for stmt Sort Prop
with block_rec' := Induction for block Sort Prop
with body_rec' := Induction for body Sort Prop
with branches_rec' := Induction for branches Sort Prop
with switch_rec' := Induction for switch Sort Prop.
Combined Scheme ast_ind from stmt_rec', block_rec', body_rec', branches_rec', switch_rec'.

(* Skipping *)
Lemma balanced_app x y : balanced x -> balanced y -> balanced (x ++ y).
Proof.
  intros B. induction B as [ | l r N1 N2 B IH | z r Bz IHz B IH ]; intros Y; cbn; auto.
  - constructor; auto.
  - rewrite <- app_assoc. cbn. apply bal_block; auto.
Qed.
Lemma balanced_plain ls : Forall (fun l => l <> Open /\ l <> Close) ls -> balanced ls.
Proof. induction 1 as [ | l r [A B] _ IH ]; constructor; auto. Qed.
Lemma balanced_block x : balanced x -> balanced (Open :: x ++ [Close]).
Proof. intros B. apply bal_block; [ exact B | constructor ]. Qed.
Lemma skip_balanced x : balanced x -> forall d rest,
  skip_block d (x ++ rest) = (x ++ fst (skip_block d rest), snd (skip_block d rest)).
Proof.
  induction 1 as [ | l r N1 N2 B IH | z r Bz IHz B IH ]; intros d rest.
  - cbn. now destruct (skip_block d rest).
  - cbn. rewrite (IH d rest). cbn. destruct l; try reflexivity; congruence.
  - cbn. rewrite <- app_assoc. cbn. rewrite (IHz (S d)). cbn. rewrite (IH d rest). cbn. now rewrite <- app_assoc.
Qed.
Lemma simple_line x : simple x -> exists l, print x = [l] /\ balanced [l] /\ l <> Open /\ l <> Close /\ l <> Multi /\ l <> Unmulti.
Proof.
  destruct x as [ | | c [vs | ] [ | ] | | | | | | [ | ] ]; cbn; intros S; try easy; eexists; (split; [ reflexivity | ]); repeat split; try discriminate;
  (apply bal_line; [ discriminate | discriminate | constructor ]).
Qed.
Lemma balanced_print :
  (forall x, wf x -> balanced (print x)) /\ (forall b, wfs b -> balanced (prints b)) /\ (forall b, wf_body b -> balanced (print_body b))
  /\ (forall r, wf_branches r -> balanced (print_branches r)) /\ (forall c, wf_switch c -> balanced (print_switch c)).
Proof.
  assert (BL : forall ls, balanced (map Case ls)) by (induction ls; cbn; constructor; auto; discriminate).
  apply ast_ind; cbn; intros; repeat match goal with H : _ /\ _ |- _ => destruct H end;
  try (apply bal_line; [ discriminate | discriminate | ]); try (now constructor); auto using balanced_app.
  - apply balanced_app.
    + destruct vars as [ vs | ]; cbn; [ | constructor ]. apply balanced_block. apply balanced_plain. apply Forall_forall. intros l I.
      apply in_map_iff in I as (v & <- & _). now split.
    + induction H as [ | r rs [B _] _ IH ]; cbn; [ constructor | ]. constructor; [ discriminate | discriminate | ].
      rewrite <- app_assoc. apply balanced_app; [ exact B | ]. cbn. constructor; [ discriminate | discriminate | exact IH ].
  - apply balanced_block. auto.
  - apply balanced_block. auto.
  - destruct c; constructor; try discriminate; constructor.
  - apply balanced_block. auto.
  - destruct (simple_line x H0) as (l & -> & B & _). exact B.
  - apply balanced_app; [ apply BL | ]. constructor; [ discriminate | discriminate | auto ].
Qed.
Lemma skip_prints b rest : wfs b -> skip_block 0 (prints b ++ Close :: rest) = (prints b, Close :: rest).
Proof. intros W. rewrite (skip_balanced _ (proj1 (proj2 balanced_print) b W)). cbn. now rewrite app_nil_r. Qed.

(* What can follow. *)
Definition follow1 (ls : list line) : Prop := match ls with (Open | Multi) :: _ => False | _ => True end.
Definition follow2 (ls : list line) : Prop := match ls with (Open | Multi | Elif _ _ _ | Else) :: _ => False | _ => True end.
Lemma follow21 ls : follow2 ls -> follow1 ls.
Proof. destruct ls as [ | [] ]; cbn; auto. Qed.
Lemma follow_prints b r : follow2 r -> follow2 (prints b ++ r).
Proof. intros F. destruct b as [ | x b ]; [ exact F | ]. destruct x as [ | | | | | | | | [ | ] ]; exact I. Qed.
Lemma follow_branches rest r : follow1 r -> follow1 (print_branches rest ++ r).
Proof. intros F. destruct rest; cbn; auto. Qed.
Lemma follow_switch cs r : wf_switch cs -> follow1 (print_switch cs ++ Close :: r).
Proof.
  destruct cs as [ | ls b | ls b cs ]; cbn; auto.
  - intros _. destruct ls; exact I.
  - intros (N & _). destruct ls; [ congruence | exact I ].
Qed.

Lemma recipes_print rs rest :
  Forall (fun r => balanced r /\ ~ In Unmulti r) rs -> follow1 rest -> recipes None (flat_map print_recipe rs ++ rest) = Some (rs, rest).
Proof.
  intros F R. induction F as [ | r rs [_ N] _ IH ]; cbn.
  - destruct rest as [ | [] ]; cbn in *; easy.
  - replace ((r ++ [Unmulti]) ++ flat_map print_recipe rs) with (r ++ Unmulti :: flat_map print_recipe rs) by (rewrite <- app_assoc; reflexivity).
    rewrite <- app_assoc. cbn.
    assert (G : forall acc, recipes (Some acc) (r ++ Unmulti :: flat_map print_recipe rs ++ rest) = Some ((acc ++ r) :: rs, rest)).
    { clear - N IH. induction r as [ | l r IHr ]; intros acc; cbn.
      - rewrite IH. now rewrite app_nil_r.
      - assert (l <> Unmulti) by (intros ->; apply N; now left).
        assert (X : recipes (Some (acc ++ [l])) (r ++ Unmulti :: flat_map print_recipe rs ++ rest) = Some ((acc ++ l :: r) :: rs, rest)).
        { rewrite IHr by (intros I; apply N; now right). now rewrite <- app_assoc. }
        destruct l; try exact X; congruence. }
    apply (G []).
Qed.
Lemma variables_print vs rest : variables (map Assign vs ++ Close :: rest) = Some (vs, rest).
Proof. induction vs as [ | v vs IH ]; cbn; [ reflexivity | now rewrite IH ]. Qed.
Lemma saved_block b rest : wfs b -> saved (print_body (Block b) ++ rest) = Some (true, prints b ++ [Close], rest).
Proof. intros W. cbn. rewrite <- app_assoc. cbn. now rewrite skip_prints. Qed.
Lemma saved_line x rest : simple x -> saved (print_body (Line x) ++ rest) = Some (false, print x, rest).
Proof. intros W. destruct (simple_line x W) as (l & E & B & N1 & N2 & _). cbn. rewrite E. cbn. destruct l; try reflexivity; congruence. Qed.

Section Steps.
Context {state val elem : Type}.
Context (eval : nat -> state -> option val) (truth null empty : val -> option bool)
        (compare : val -> option nat -> nat -> state -> option (bool * val))
        (elems : nat -> state -> option (list elem)) (touch : nat -> state -> state) (assign : nat -> elem -> state -> option state)
        (exec : nat -> state -> option state) (enter : nat -> state -> option state) (leave : state -> state -> state)
        (declare : nat -> list nat -> list (list line) -> state -> option state).
Notation Clause := (clause eval truth null empty compare elems touch assign exec enter leave declare).
Notation Branch := (branch eval truth null empty compare elems touch assign exec enter leave declare).
Notation IfElse := (if_else eval truth null empty compare elems touch assign exec enter leave declare).
Notation Cases := (cases eval truth null empty compare elems touch assign exec enter leave declare).
Notation Each := (each eval truth null empty compare elems touch assign exec enter leave declare).
Notation Repeat := (repeat eval truth null empty compare elems touch assign exec enter leave declare).

Definition fin (rest : list line) (o : @outcome state) : result := match o with Normal s => Done rest s | Jump c s => Thrown c s | Error => Failed end.
Definition thru (o : @outcome state) (f : state -> result) : @result state := match o with Normal s => f s | Jump c s => Thrown c s | Error => Failed end.
Lemma and_then_fin rest o f : and_then (fin rest o) f = thru o (f rest).
Proof. now destruct o. Qed.
Lemma thru_fin rest o : thru o (fun s => Done rest s) = fin rest o.
Proof. reflexivity. Qed.

(* Unfolding *)
Lemma if_else_S n level taken l r s :
  IfElse (S n) level taken (l :: r) s =
  match
    (match l with
     | If k neg e | Elif k neg e => if taken then Some false else condition eval truth null empty k neg e s
     | Else => Some (negb taken)
     | _ => None
     end)
  with
  | None => Failed
  | Some take =>
      and_then (Branch n level true take r s) (fun ls s =>
      match l, ls with
      | Else, _ => Done ls s
      | _, (Elif _ _ _ | Else) :: _ => IfElse n level (taken || take) ls s
      | _, _ => Done ls s
      end)
  end.
Proof. reflexivity. Qed.
Definition after n level taken s vs seen take r :=
  if match r with (Case _ | Default) :: _ => negb take && negb taken | _ => false end then Cases n level vs taken false r s
  else
    match special seen r with
    | None => Failed
    | Some (seen, r) => and_then (Branch n level false take r s) (Cases n level vs (taken || take) seen)
    end.
Lemma cases_close n level vs taken seen r s : Cases (S n) level vs taken seen (Close :: r) s = Done r s.
Proof. reflexivity. Qed.
Lemma cases_case n level vs taken ps r s :
  Cases (S n) level vs taken false (Case ps :: r) s =
  if taken then after n level taken s vs false false r
  else match patterns compare vs ps s with None => Failed | Some (take, vs) => after n level taken s vs false take r end.
Proof. reflexivity. Qed.
Lemma cases_default n level vs taken r s : Cases (S n) level vs taken false (Default :: r) s = after n level taken s vs true (negb taken) r.
Proof. reflexivity. Qed.
Lemma each_S n level v xs block body s :
  Each (S n) level v xs block body s =
  match xs with
  | [] => Done [] s
  | x :: xs =>
      match assign v x s with
      | None => Failed
      | Some s =>
          match Clause n (S level) false false body s with
          | Done ls s => if complete block ls then Each n level v xs block body s else Failed
          | Thrown Cont s => Each n level v xs block body s
          | Thrown Brk s => Done [] s
          | r => r
          end
      end
  end.
Proof. reflexivity. Qed.
Lemma repeat_S n level neg e block body s :
  Repeat (S n) level neg e block body s =
  match condition eval truth null empty Truth neg e s with
  | None => Failed
  | Some false => Done [] s
  | Some true =>
      match Clause n (S level) false false body s with
      | Done ls s => if complete block ls then Repeat n level neg e block body s else Failed
      | Thrown Cont s => Repeat n level neg e block body s
      | Thrown Brk s => Done [] s
      | r => r
      end
  end.
Proof. reflexivity. Qed.
Lemma branch_block n level strict r s :
  Branch (S n) level strict true (Open :: r) s =
  and_then (Clause n level false false r s) (fun ls s => match ls with Close :: r => Done r s | _ => Failed end).
Proof. reflexivity. Qed.
Lemma branch_line n level strict l r s : l <> Open -> l <> Close -> l <> Multi -> l <> Unmulti ->
  Branch (S n) level strict true (l :: r) s = Clause n level true false (l :: r) s.
Proof. intros. destruct l; try reflexivity; congruence. Qed.
(* Statements *)
Definition of_stmt n level x rest s : result :=
  match x with
  | SPlain c | SAssign c => fin rest (of_option (exec c s))
  | SDecl c vars rs => fin rest (of_option (declare c (match vars with Some vs => vs | None => [] end) rs s))
  | SScope d b =>
      match enter d s with
      | None => Failed
      | Some s' =>
          match Clause n level false false (prints b ++ Close :: rest) s' with
          | Done (Close :: r) s' => Done r (leave s s')
          | Done _ _ => Failed
          | Thrown c s' => Thrown c (leave s s')
          | r => r
          end
      end
  | SIf k neg e b r => IfElse n level false (If k neg e :: print_body b ++ print_branches r ++ rest) s
  | SSwitch es cs => match values eval es s with Some vs => Cases n level vs false false (print_switch cs ++ Close :: rest) s | None => Failed end
  | SFor v e b =>
      match elems e s with
      | None => Failed
      | Some xs =>
          and_then (match b with
                    | Block b => Each n level v xs true (prints b ++ [Close]) (touch v s)
                    | Line x => Each n level v xs false (print x) (touch v s)
                    end) (fun _ s => Done rest s)
      end
  | SWhile neg e b =>
      and_then (match b with
                | Block b => Repeat n level neg e true (prints b ++ [Close]) s
                | Line x => Repeat n level neg e false (print x) s
                end) (fun _ s => Done rest s)
  | SJump c => if level =? 0 then Failed else Thrown c s
  end.
Lemma clause_stmt n level one parsed x rest s : one && parsed = false -> wf x -> follow1 rest ->
  Clause (S n) level one parsed (print x ++ rest) s = and_then (of_stmt n level x rest s) (Clause n level one true).
Proof.
  intros O W F. destruct x as [ c | c | c vars rs | d b | k neg e b r | es cs | v e b | neg e b | c ]; cbn [print app of_stmt].
  - cbn -[app]. rewrite O. now destruct (exec c s).
  - cbn -[app]. rewrite O. now destruct (exec c s).
  - assert (V : variable_block ((print_vars vars ++ flat_map print_recipe rs) ++ rest)
      = Some (match vars with Some vs => vs | None => [] end, flat_map print_recipe rs ++ rest)).
    { destruct vars as [ vs | ]; cbn.
      - rewrite <- !app_assoc. cbn. now rewrite variables_print.
      - destruct rs; cbn; [ | reflexivity ]. destruct rest as [ | [] ]; cbn in *; easy. }
    cbn -[app variable_block]. rewrite O. rewrite V, recipes_print by easy. now destruct (declare c _ rs s).
  - rewrite <- app_assoc. cbn -[app]. rewrite O. cbn [app]. destruct (enter d s) as [ s' | ]; [ | reflexivity ].
    now destruct (Clause n level false false (prints b ++ Close :: rest) s') as [ [ | [] ] | | | ].
  - rewrite <- app_assoc. cbn -[app]. now rewrite O.
  - rewrite <- app_assoc. cbn -[app]. rewrite O. cbn [app]. now destruct (values eval es s).
  - destruct b as [ b | x ].
    + cbn -[app saved print_body]. rewrite O, saved_block by exact W. now destruct (elems e s).
    + cbn -[app saved print_body]. rewrite O, saved_line by exact W. now destruct (elems e s).
  - destruct b as [ b | x ].
    + cbn -[app saved print_body]. now rewrite O, saved_block by exact W.
    + cbn -[app saved print_body]. now rewrite O, saved_line by exact W.
  - destruct c; cbn -[app]; rewrite O; now destruct (level =? 0).
Qed.
Lemma clause_close n level one parsed rest s : Clause (S n) level one parsed (Close :: rest) s = Done (Close :: rest) s.
Proof. cbn. now destruct (one && parsed). Qed.
Lemma clause_eos n level one parsed s : Clause (S n) level one parsed [] s = Done [] s.
Proof. reflexivity. Qed.
Lemma clause_one n level r s : Clause (S n) level true true r s = Done r s.
Proof. now destruct r. Qed.

(* Conditions *)
Notation Holds := (holds eval truth null empty).
Lemma condition_some k neg e s x : condition eval truth null empty k neg e s = Some x <-> Holds k neg e s x.
Proof.
  unfold condition. split.
  - destruct (eval e s) as [ v | ] eqn:E; [ | discriminate ].
    destruct (match k with Truth => truth v | Null => null v | Empty => empty v end) as [ y | ] eqn:T; [ | discriminate ].
    intros [= <-]. replace (if neg then negb y else y) with (xorb neg y) by (destruct neg, y; reflexivity). econstructor; [ exact E | ]. destruct k; exact T.
  - intros [ v y E T ]. rewrite E. replace (match k with Truth => truth v | Null => null v | Empty => empty v end) with (Some y) by (destruct k; congruence).
    f_equal. destruct neg, y; reflexivity.
Qed.
Lemma condition_none k neg e s : condition eval truth null empty k neg e s = None <-> senseless eval truth null empty k neg e s.
Proof.
  unfold senseless. split.
  - intros E x H. apply condition_some in H. congruence.
  - intros H. destruct (condition eval truth null empty k neg e s) eqn:E; [ | reflexivity ]. apply condition_some in E. now apply H in E.
Qed.

(* Switch *)
Lemma alts_iff f s ps : ps <> [] -> forall v r, alternatives compare v ps f s = r <-> alts compare f s v ps r.
Proof.
  induction ps as [ | p ps IH ]; [ congruence | ]. intros _ v r. cbn. split.
  - destruct (compare v f p s) as [ [t v'] | ] eqn:E; [ | intros <-; now constructor ].
    destruct ps as [ | q ps ]; [ intros <-; destruct t; now constructor | ].
    destruct t; [ intros <-; now constructor | ]. intros H. eapply alts_next; [ exact E | ]. apply IH; [ discriminate | exact H ].
  - intros H. inversion H; subst; match goal with E : compare _ _ _ _ = _ |- _ => rewrite E end; [ reflexivity | now destruct ps | reflexivity | ].
    match goal with E : alts _ _ _ _ _ _ |- _ => apply IH in E; [ exact E | discriminate ] end.
Qed.
Lemma pats_iff s ps : ps <> [] -> Forall (fun p => p <> []) ps -> forall vs r, patterns compare vs ps s = r <-> pats compare s vs ps r.
Proof.
  intros N F. induction F as [ | p ps Np F IH ]; [ congruence | ]. intros vs r. destruct vs as [ | [v f] vs ]; cbn.
  - split; [ intros <-; constructor | now inversion 1 ].
  - pose proof (alts_iff f s p Np v) as A. split.
    + destruct (alternatives compare v p f s) as [ [[] v'] | ] eqn:E; pose proof (proj1 (A _) eq_refl) as H.
      * destruct ps as [ | q ps ]; [ intros <-; now constructor | ].
        destruct (patterns compare vs (q :: ps) s) as [ [t vs'] | ] eqn:P; intros <-.
        -- apply (pats_next compare s v f vs p q ps v' (Some (t, vs'))); [ exact H | ]. now apply IH.
        -- apply (pats_next compare s v f vs p q ps v' None); [ exact H | ]. now apply IH.
      * intros <-. now constructor.
      * intros <-. now constructor.
    + intros H. inversion H; subst; match goal with E : alts _ _ _ _ _ _ |- _ => apply A in E; rewrite E end; try reflexivity.
      match goal with E : pats _ _ _ _ _ |- _ => apply IH in E; [ rewrite E | discriminate ] end.
      unfold with_val. now destruct r0 as [ [] | ].
Qed.
Lemma values_some es s vs : values eval es s = Some vs <-> switch_values eval es s vs.
Proof.
  revert vs. induction es as [ | [e f] es IH ]; intros vs; cbn.
  - split; [ intros [= <-]; constructor | now inversion 1 ].
  - split.
    + destruct (eval e s) as [ v | ] eqn:E; [ | discriminate ]. destruct (values eval es s) as [ us | ]; [ | discriminate ].
      intros [= <-]. constructor; [ now split | now apply IH ].
    + intros H. inversion H as [ | ? [v g] ? us [A B] F ]; subst. cbn in *. rewrite A. apply IH in F. rewrite F. now subst.
Qed.
Lemma values_none es s : values eval es s = None <-> forall vs, ~ switch_values eval es s vs.
Proof.
  split.
  - intros E vs H. apply values_some in H. congruence.
  - intros H. destruct (values eval es s) eqn:E; [ | reflexivity ]. apply values_some in E. now apply H in E.
Qed.

(* Skipped branches *)
Lemma branch_skip n level strict b rest s : wf_body b -> Branch (S n) level strict false (print_body b ++ rest) s = Done rest s.
Proof.
  destruct b as [ b | x ]; cbn -[skip_block]; intros W.
  - rewrite <- app_assoc. cbn -[skip_block]. now rewrite skip_prints.
  - destruct (simple_line x W) as (l & -> & B & N1 & N2 & N3 & N4). cbn. destruct l; try reflexivity; congruence.
Qed.
Fixpoint size (r : branches) : nat := match r with BEnd => 0 | BElse _ => 2 | BElif _ _ _ _ r => S (S (size r)) end.
Lemma if_skip r : wf_branches r -> r <> BEnd -> forall rest, follow2 rest -> forall n level s,
  (IfElse n level true (print_branches r ++ rest) s = More \/ IfElse n level true (print_branches r ++ rest) s = Done rest s)
  /\ (size r <= n -> IfElse n level true (print_branches r ++ rest) s = Done rest s).
Proof.
  induction r as [ | b | k neg e b r IH ]; intros W N rest F n level s; [ congruence | | ].
  - cbn in W. destruct n as [ | [ | n ] ].
    + cbn. split; [ now left | lia ].
    + cbn. split; [ now left | lia ].
    + split; [ right | intros _ ]; cbn [print_branches app]; rewrite if_else_S; cbn [negb]; rewrite branch_skip by exact W; reflexivity.
  - destruct W as [W1 W2]. destruct n as [ | [ | n ] ]; [ cbn; split; [ now left | lia ].. | ].
    assert (E : IfElse (S (S n)) level true (print_branches (BElif k neg e b r) ++ rest) s
      = match r with BEnd => Done rest s | _ => IfElse (S n) level true (print_branches r ++ rest) s end).
    { cbn [print_branches app]. rewrite <- app_assoc, if_else_S, branch_skip by exact W1. cbn [and_then orb].
      destruct r as [ | b' | k' neg' e' b' r' ]; cbn [print_branches app]; try reflexivity.
      destruct rest as [ | [] ]; try reflexivity; cbn in F; tauto. }
    rewrite E. destruct r as [ | b' | k' neg' e' b' r' ]; [ split; auto | | ].
    + destruct (IH W2 ltac:(discriminate) rest F (S n) level s) as [A B]. split; [ exact A | intros L; apply B; cbn in *; lia ].
    + destruct (IH W2 ltac:(discriminate) rest F (S n) level s) as [A B]. split; [ exact A | intros L; apply B; cbn in *; lia ].
Qed.
End Steps.
