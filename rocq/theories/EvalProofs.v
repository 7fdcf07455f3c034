(* The fuel is enough, and the equations of the parser without it. *)
From Verif Require Import Base EvalModel.

Section Proofs.
Context {A B V : Type} (w : world A B V).
Notation toks := (list (tok A B)).
Notation log := (list (event A B)).
Notation res := (@res A B).

(* More fuel does not change the result. *)
Definition le {X} (r r' : res X) : Prop := r = Stuck \/ r = r'.
Lemma le_refl {X} (r : res X) : le r r. Proof. right. reflexivity. Qed.
Lemma le_stuck {X} (r : res X) : le Stuck r. Proof. left. reflexivity. Qed.
Lemma le_andthen {X Y} (r r' : res X) (k k' : X -> toks -> res Y) : le r r' -> (forall v ts, le (k v ts) (k' v ts)) -> le (andthen r k) (andthen r' k').
Proof.
  intros [->| ->] Hk; [left; reflexivity|]. destruct r' as [v l ts|l|]; try apply le_refl. cbn. destruct (Hk v ts) as [->| ->]; [left; reflexivity|apply le_refl].
Qed.
Ltac mono :=
  repeat first
    [ apply le_refl | apply le_stuck | apply le_andthen
    | match goal with
      | |- forall _, _ => intro
      | |- le (match ?x with _ => _ end) _ => destruct x
      | H : _ |- _ => apply H
      end ].
Lemma mono n : forall m, n <= m ->
  (forall pp ts, le (p_eval w n pp ts) (p_eval w m pp ts)) /\
  (forall pp ts, le (p_comma w n pp ts) (p_comma w m pp ts)) /\
  (forall pp vs ts, le (p_comma_loop w n pp vs ts) (p_comma_loop w m pp vs ts)) /\
  (forall f pp ts, le (p_ternary w n f pp ts) (p_ternary w m f pp ts)) /\
  (forall f pp ts, le (p_or w n f pp ts) (p_or w m f pp ts)) /\
  (forall pp v ts, le (p_or_loop w n pp v ts) (p_or_loop w m pp v ts)) /\
  (forall f pp ts, le (p_and w n f pp ts) (p_and w m f pp ts)) /\
  (forall pp v ts, le (p_and_loop w n pp v ts) (p_and_loop w m pp v ts)) /\
  (forall f pp ts, le (p_comp w n f pp ts) (p_comp w m f pp ts)) /\
  (forall pp v ts, le (p_comp_loop w n pp v ts) (p_comp_loop w m pp v ts)) /\
  (forall f pp ts, le (p_value w n f pp ts) (p_value w m f pp ts)) /\
  (forall pp ts, le (p_bare w n pp ts) (p_bare w m pp ts)) /\
  (forall pp ts, le (p_operand w n pp ts) (p_operand w m pp ts)).
Proof.
  induction n as [|n IH]; intros [|m] Hm; try (repeat split; intros; apply le_stuck); [lia|].
  destruct (IH m ltac:(lia)) as (I1 & I2 & I3 & I4 & I5 & I6 & I7 & I8 & I9 & I10 & I11 & I12 & I13). clear IH.
  repeat split; intros; cbn [p_eval p_comma p_comma_loop p_ternary p_or p_or_loop p_and p_and_loop p_comp p_comp_loop p_value p_bare p_operand]; mono.
Qed.

(* What is left is not more than there was. *)
Definition good {X} (k : nat) (r : res X) : Prop := match r with Ok _ _ rest => length rest <= k | Fail _ => True | Stuck => False end.
Lemma good_weaken {X} k k' (r : res X) : good k r -> k <= k' -> good k' r.
Proof. destruct r; cbn; auto; lia. Qed.
Lemma good_andthen {X Y} k k' (r : res X) (f : X -> toks -> res Y) : good k r -> (forall v ts, length ts <= k -> good k' (f v ts)) -> good k' (andthen r f).
Proof. destruct r as [v l ts|l|]; cbn; auto. intros H K. specialize (K v ts H). destruct (f v ts); cbn in *; auto. Qed.
Lemma good_need {X} (o : option X) ts : good (length ts) (need o ts : res X).
Proof. destruct o; cbn; auto. Qed.
Ltac hyp := match goal with H : forall _, _ |- _ => apply H end.
Lemma enough n :
  (forall pp ts, 16 * length ts + 9 <= n -> good (length ts) (p_eval w n pp ts)) /\
  (forall pp ts, 16 * length ts + 8 <= n -> good (length ts) (p_comma w n pp ts)) /\
  (forall pp vs ts, 16 * length ts + 1 <= n -> good (length ts) (p_comma_loop w n pp vs ts)) /\
  (forall f pp ts, 16 * length ts + 7 <= n -> good (length ts) (p_ternary w n f pp ts)) /\
  (forall f pp ts, 16 * length ts + 6 <= n -> good (length ts) (p_or w n f pp ts)) /\
  (forall pp v ts, 16 * length ts + 1 <= n -> good (length ts) (p_or_loop w n pp v ts)) /\
  (forall f pp ts, 16 * length ts + 5 <= n -> good (length ts) (p_and w n f pp ts)) /\
  (forall pp v ts, 16 * length ts + 1 <= n -> good (length ts) (p_and_loop w n pp v ts)) /\
  (forall f pp ts, 16 * length ts + 4 <= n -> good (length ts) (p_comp w n f pp ts)) /\
  (forall pp v ts, 16 * length ts + 1 <= n -> good (length ts) (p_comp_loop w n pp v ts)) /\
  (forall f pp ts, 16 * length ts + 3 <= n -> good (length ts) (p_value w n f pp ts)) /\
  (forall pp ts, 16 * length ts + 2 <= n -> good (length ts) (p_bare w n pp ts)) /\
  (forall pp ts, 16 * length ts + 1 <= n -> good (length ts) (p_operand w n pp ts)).
Proof.
  induction n as [|n (I1 & I2 & I3 & I4 & I5 & I6 & I7 & I8 & I9 & I10 & I11 & I12 & I13)]; [repeat split; intros; lia|].
  repeat split; intros; cbn [p_eval p_comma p_comma_loop p_ternary p_or p_or_loop p_and p_and_loop p_comp p_comp_loop p_value p_bare p_operand].
  all: try (lazymatch goal with |- good _ (andthen (match ?ts with _ => _ end) _) => apply (good_andthen (length ts)); [destruct ts as [|[] ?]; cbn; lia|intros ? ? ?] end).
  all: repeat match goal with
    | |- good _ (andthen _ _) => eapply good_andthen; [first [apply good_need|hyp; cbn [length] in *; lia]|intros ? ? ?]
    | |- good _ (need _ _) => eapply good_weaken; [apply good_need|cbn [length] in *; lia]
    | |- good _ (Ok _ _ _) => cbn [good length] in *; lia
    | |- good _ (Fail _) => exact I
    | |- good _ (match ?x with _ => _ end) => destruct x
    | |- good _ _ => eapply good_weaken; [hyp; cbn [length] in *; lia|cbn [length] in *; lia]
    end.
Qed.
(* Without the fuel. *)
Definition big (ts : toks) : nat := 16 * length ts + 9.
Definition P_eval (pp : bool) (ts : toks) := p_eval w (big ts) pp ts.
Definition P_comma (pp : bool) (ts : toks) := p_comma w (big ts) pp ts.
Definition P_comma_loop (pp : bool) (vs : list V) (ts : toks) := p_comma_loop w (big ts) pp vs ts.
Definition P_ternary (f pp : bool) (ts : toks) := p_ternary w (big ts) f pp ts.
Definition P_or (f pp : bool) (ts : toks) := p_or w (big ts) f pp ts.
Definition P_or_loop (pp : bool) (v : V) (ts : toks) := p_or_loop w (big ts) pp v ts.
Definition P_and (f pp : bool) (ts : toks) := p_and w (big ts) f pp ts.
Definition P_and_loop (pp : bool) (v : V) (ts : toks) := p_and_loop w (big ts) pp v ts.
Definition P_comp (f pp : bool) (ts : toks) := p_comp w (big ts) f pp ts.
Definition P_comp_loop (pp : bool) (v : V) (ts : toks) := p_comp_loop w (big ts) pp v ts.
Definition P_value (f pp : bool) (ts : toks) := p_value w (big ts) f pp ts.
Definition P_bare (pp : bool) (ts : toks) := p_bare w (big ts) pp ts.
Definition P_operand (pp : bool) (ts : toks) := p_operand w (big ts) pp ts.
Lemma le_good {X} k (r r' : res X) : le r r' -> good k r -> r = r'.
Proof. intros [->|H]; [intros []|auto]. Qed.
Ltac pick := match goal with H : forall _, _ |- _ => apply H end.
Ltac stable n m := unfold big in *; apply (le_good n); [destruct (mono n m ltac:(lia)) as (?&?&?&?&?&?&?&?&?&?&?&?&?); pick|].
Lemma P_eval_eq n pp ts : big ts <= n -> p_eval w n pp ts = P_eval pp ts.
Proof.
  intros H. symmetry. unfold P_eval. apply (le_good (length ts)).
  - destruct (mono (big ts) n H) as (?&?&?&?&?&?&?&?&?&?&?&?&?). pick.
  - destruct (enough (big ts)) as (?&?&?&?&?&?&?&?&?&?&?&?&?). pick. unfold big. lia.
Qed.
Lemma P_eval_good pp ts : good (length ts) (P_eval pp ts).
Proof. unfold P_eval. destruct (enough (big ts)) as (?&?&?&?&?&?&?&?&?&?&?&?&?). pick. unfold big. lia. Qed.
Lemma P_comma_eq n pp ts : big ts <= n -> p_comma w n pp ts = P_comma pp ts.
Proof.
  intros H. symmetry. unfold P_comma. apply (le_good (length ts)).
  - destruct (mono (big ts) n H) as (?&?&?&?&?&?&?&?&?&?&?&?&?). pick.
  - destruct (enough (big ts)) as (?&?&?&?&?&?&?&?&?&?&?&?&?). pick. unfold big. lia.
Qed.
Lemma P_comma_good pp ts : good (length ts) (P_comma pp ts).
Proof. unfold P_comma. destruct (enough (big ts)) as (?&?&?&?&?&?&?&?&?&?&?&?&?). pick. unfold big. lia. Qed.
Lemma P_comma_loop_eq n pp vs ts : big ts <= n -> p_comma_loop w n pp vs ts = P_comma_loop pp vs ts.
Proof.
  intros H. symmetry. unfold P_comma_loop. apply (le_good (length ts)).
  - destruct (mono (big ts) n H) as (?&?&?&?&?&?&?&?&?&?&?&?&?). pick.
  - destruct (enough (big ts)) as (?&?&?&?&?&?&?&?&?&?&?&?&?). pick. unfold big. lia.
Qed.
Lemma P_comma_loop_good pp vs ts : good (length ts) (P_comma_loop pp vs ts).
Proof. unfold P_comma_loop. destruct (enough (big ts)) as (?&?&?&?&?&?&?&?&?&?&?&?&?). pick. unfold big. lia. Qed.
Lemma P_ternary_eq n f pp ts : big ts <= n -> p_ternary w n f pp ts = P_ternary f pp ts.
Proof.
  intros H. symmetry. unfold P_ternary. apply (le_good (length ts)).
  - destruct (mono (big ts) n H) as (?&?&?&?&?&?&?&?&?&?&?&?&?). pick.
  - destruct (enough (big ts)) as (?&?&?&?&?&?&?&?&?&?&?&?&?). pick. unfold big. lia.
Qed.
Lemma P_ternary_good f pp ts : good (length ts) (P_ternary f pp ts).
Proof. unfold P_ternary. destruct (enough (big ts)) as (?&?&?&?&?&?&?&?&?&?&?&?&?). pick. unfold big. lia. Qed.
Lemma P_or_eq n f pp ts : big ts <= n -> p_or w n f pp ts = P_or f pp ts.
Proof.
  intros H. symmetry. unfold P_or. apply (le_good (length ts)).
  - destruct (mono (big ts) n H) as (?&?&?&?&?&?&?&?&?&?&?&?&?). pick.
  - destruct (enough (big ts)) as (?&?&?&?&?&?&?&?&?&?&?&?&?). pick. unfold big. lia.
Qed.
Lemma P_or_good f pp ts : good (length ts) (P_or f pp ts).
Proof. unfold P_or. destruct (enough (big ts)) as (?&?&?&?&?&?&?&?&?&?&?&?&?). pick. unfold big. lia. Qed.
Lemma P_or_loop_eq n pp v ts : big ts <= n -> p_or_loop w n pp v ts = P_or_loop pp v ts.
Proof.
  intros H. symmetry. unfold P_or_loop. apply (le_good (length ts)).
  - destruct (mono (big ts) n H) as (?&?&?&?&?&?&?&?&?&?&?&?&?). pick.
  - destruct (enough (big ts)) as (?&?&?&?&?&?&?&?&?&?&?&?&?). pick. unfold big. lia.
Qed.
Lemma P_or_loop_good pp v ts : good (length ts) (P_or_loop pp v ts).
Proof. unfold P_or_loop. destruct (enough (big ts)) as (?&?&?&?&?&?&?&?&?&?&?&?&?). pick. unfold big. lia. Qed.
Lemma P_and_eq n f pp ts : big ts <= n -> p_and w n f pp ts = P_and f pp ts.
Proof.
  intros H. symmetry. unfold P_and. apply (le_good (length ts)).
  - destruct (mono (big ts) n H) as (?&?&?&?&?&?&?&?&?&?&?&?&?). pick.
  - destruct (enough (big ts)) as (?&?&?&?&?&?&?&?&?&?&?&?&?). pick. unfold big. lia.
Qed.
Lemma P_and_good f pp ts : good (length ts) (P_and f pp ts).
Proof. unfold P_and. destruct (enough (big ts)) as (?&?&?&?&?&?&?&?&?&?&?&?&?). pick. unfold big. lia. Qed.
Lemma P_and_loop_eq n pp v ts : big ts <= n -> p_and_loop w n pp v ts = P_and_loop pp v ts.
Proof.
  intros H. symmetry. unfold P_and_loop. apply (le_good (length ts)).
  - destruct (mono (big ts) n H) as (?&?&?&?&?&?&?&?&?&?&?&?&?). pick.
  - destruct (enough (big ts)) as (?&?&?&?&?&?&?&?&?&?&?&?&?). pick. unfold big. lia.
Qed.
Lemma P_and_loop_good pp v ts : good (length ts) (P_and_loop pp v ts).
Proof. unfold P_and_loop. destruct (enough (big ts)) as (?&?&?&?&?&?&?&?&?&?&?&?&?). pick. unfold big. lia. Qed.
Lemma P_comp_eq n f pp ts : big ts <= n -> p_comp w n f pp ts = P_comp f pp ts.
Proof.
  intros H. symmetry. unfold P_comp. apply (le_good (length ts)).
  - destruct (mono (big ts) n H) as (?&?&?&?&?&?&?&?&?&?&?&?&?). pick.
  - destruct (enough (big ts)) as (?&?&?&?&?&?&?&?&?&?&?&?&?). pick. unfold big. lia.
Qed.
Lemma P_comp_good f pp ts : good (length ts) (P_comp f pp ts).
Proof. unfold P_comp. destruct (enough (big ts)) as (?&?&?&?&?&?&?&?&?&?&?&?&?). pick. unfold big. lia. Qed.
Lemma P_comp_loop_eq n pp v ts : big ts <= n -> p_comp_loop w n pp v ts = P_comp_loop pp v ts.
Proof.
  intros H. symmetry. unfold P_comp_loop. apply (le_good (length ts)).
  - destruct (mono (big ts) n H) as (?&?&?&?&?&?&?&?&?&?&?&?&?). pick.
  - destruct (enough (big ts)) as (?&?&?&?&?&?&?&?&?&?&?&?&?). pick. unfold big. lia.
Qed.
Lemma P_comp_loop_good pp v ts : good (length ts) (P_comp_loop pp v ts).
Proof. unfold P_comp_loop. destruct (enough (big ts)) as (?&?&?&?&?&?&?&?&?&?&?&?&?). pick. unfold big. lia. Qed.
Lemma P_value_eq n f pp ts : big ts <= n -> p_value w n f pp ts = P_value f pp ts.
Proof.
  intros H. symmetry. unfold P_value. apply (le_good (length ts)).
  - destruct (mono (big ts) n H) as (?&?&?&?&?&?&?&?&?&?&?&?&?). pick.
  - destruct (enough (big ts)) as (?&?&?&?&?&?&?&?&?&?&?&?&?). pick. unfold big. lia.
Qed.
Lemma P_value_good f pp ts : good (length ts) (P_value f pp ts).
Proof. unfold P_value. destruct (enough (big ts)) as (?&?&?&?&?&?&?&?&?&?&?&?&?). pick. unfold big. lia. Qed.
Lemma P_bare_eq n pp ts : big ts <= n -> p_bare w n pp ts = P_bare pp ts.
Proof.
  intros H. symmetry. unfold P_bare. apply (le_good (length ts)).
  - destruct (mono (big ts) n H) as (?&?&?&?&?&?&?&?&?&?&?&?&?). pick.
  - destruct (enough (big ts)) as (?&?&?&?&?&?&?&?&?&?&?&?&?). pick. unfold big. lia.
Qed.
Lemma P_bare_good pp ts : good (length ts) (P_bare pp ts).
Proof. unfold P_bare. destruct (enough (big ts)) as (?&?&?&?&?&?&?&?&?&?&?&?&?). pick. unfold big. lia. Qed.
Lemma P_operand_eq n pp ts : big ts <= n -> p_operand w n pp ts = P_operand pp ts.
Proof.
  intros H. symmetry. unfold P_operand. apply (le_good (length ts)).
  - destruct (mono (big ts) n H) as (?&?&?&?&?&?&?&?&?&?&?&?&?). pick.
  - destruct (enough (big ts)) as (?&?&?&?&?&?&?&?&?&?&?&?&?). pick. unfold big. lia.
Qed.
Lemma P_operand_good pp ts : good (length ts) (P_operand pp ts).
Proof. unfold P_operand. destruct (enough (big ts)) as (?&?&?&?&?&?&?&?&?&?&?&?&?). pick. unfold big. lia. Qed.

Lemma andthen_ext {X Y} k (r r' : res X) (f g : X -> toks -> res Y) : r = r' -> good k r' -> (forall v ts, length ts <= k -> f v ts = g v ts) -> andthen r f = andthen r' g.
Proof. intros ->. destruct r' as [v l ts|l|]; cbn; auto. intros H K. rewrite (K v ts H). reflexivity. Qed.
Lemma andthen_assoc {X Y Z} (r : res X) (f : X -> toks -> res Y) (g : Y -> toks -> res Z) : andthen (andthen r f) g = andthen r (fun v ts => andthen (f v ts) g).
Proof.
  destruct r as [v l ts|l|]; try reflexivity. cbn. destruct (f v ts) as [v' l' ts'|l'|]; try reflexivity. cbn. destruct (g v' ts'); cbn; rewrite ?app_assoc; reflexivity.
Qed.

Ltac pgood := first [apply good_need | apply P_eval_good | apply P_comma_good | apply P_comma_loop_good | apply P_ternary_good | apply P_or_good | apply P_or_loop_good | apply P_and_good | apply P_and_loop_good | apply P_comp_good | apply P_comp_loop_good | apply P_value_good | apply P_bare_good | apply P_operand_good].
Ltac peq := first [apply P_eval_eq | apply P_comma_eq | apply P_comma_loop_eq | apply P_ternary_eq | apply P_or_eq | apply P_or_loop_eq | apply P_and_eq | apply P_and_loop_eq | apply P_comp_eq | apply P_comp_loop_eq | apply P_value_eq | apply P_bare_eq | apply P_operand_eq].
Ltac size := unfold big in *; cbn [length] in *; lia.
Ltac ext := repeat first
  [ reflexivity
  | lazymatch goal with
    | |- andthen (match ?ts with _ => _ end) _ = _ => apply (andthen_ext (length ts)); [reflexivity|destruct ts as [|[] ?]; cbn; lia|intros ? ? ?]
    | |- andthen (Ok ?v ?l ?ts) _ = _ => apply (andthen_ext (length ts)); [reflexivity|cbn; lia|intros ? ? ?]
    | |- andthen _ _ = _ => eapply andthen_ext; [ | |intros ? ? ?]; [first [reflexivity|peq; size]|pgood|]
    | |- match ?x with _ => _ end = _ => destruct x
    | |- (let _ := _ in _) = _ => cbv zeta
    | |- _ => peq; size
    end ].
Lemma P_eval_unfold (pp : bool) (ts : toks) : P_eval pp ts =

      match ts with
      | TRparen :: _ => Ok [] [] ts
      | _ => andthen (P_comma pp ts) (fun vs ts => match ts with TRparen :: _ => Ok vs [] ts | _ => Fail [] end)
      end.
Proof.
  rewrite <- (P_eval_eq (S (big ts))) by lia. cbn [p_eval]. ext.
Qed.
Lemma P_comma_unfold (pp : bool) (ts : toks) : P_comma pp ts =
 andthen (P_ternary true pp ts) (fun v ts => P_comma_loop pp (if pp then [] else [v]) ts).
Proof.
  rewrite <- (P_comma_eq (S (big ts))) by lia. cbn [p_comma]. ext.
Qed.
Lemma P_comma_loop_unfold (pp : bool) (vs : list V) (ts : toks) : P_comma_loop pp vs ts =

      match ts with
      | TComma :: ts => andthen (P_ternary false pp ts) (fun v ts => P_comma_loop pp (if pp then vs else vs ++ [v]) ts)
      | _ => Ok vs [] ts
      end.
Proof.
  rewrite <- (P_comma_loop_eq (S (big ts))) by lia. cbn [p_comma_loop]. ext.
Qed.
Lemma P_ternary_unfold (first pp : bool) (ts : toks) : P_ternary first pp ts =

      andthen (P_or first pp ts) (fun lhs ts =>
        match ts with
        | TQuestion :: ts =>
            andthen (need (if pp then Some true else to_bool w lhs) ts) (fun q ts =>
              andthen (P_ternary false (if pp then pp else negb q) ts) (fun mhs ts =>
                match ts with
                | TColon :: ts =>
                    andthen (P_ternary false (if pp then pp else q) ts) (fun rhs ts => Ok (if q then mhs else rhs) [] ts)
                | _ => Fail []
                end))
        | _ => Ok lhs [] ts
        end).
Proof.
  rewrite <- (P_ternary_eq (S (big ts))) by lia. cbn [p_ternary]. ext.
Qed.
Lemma P_or_unfold (first pp : bool) (ts : toks) : P_or first pp ts =
 andthen (P_and first pp ts) (fun lhs ts => P_or_loop pp lhs ts).
Proof.
  rewrite <- (P_or_eq (S (big ts))) by lia. cbn [p_or]. ext.
Qed.
Lemma P_or_loop_unfold (pp : bool) (lhs : V) (ts : toks) : P_or_loop pp lhs ts =

      match ts with
      | TOr :: ts =>
          andthen (need (if pp then Some false else to_bool w lhs) ts) (fun c ts =>
            let pp := if negb pp && c then true else pp in
            andthen (P_and false pp ts) (fun rhs ts =>
              if pp then P_or_loop pp lhs ts
              else andthen (need (to_bool w rhs) ts) (fun x ts => P_or_loop pp (of_bool w x) ts)))
      | _ => Ok lhs [] ts
      end.
Proof.
  rewrite <- (P_or_loop_eq (S (big ts))) by lia. cbn [p_or_loop]. ext.
Qed.
Lemma P_and_unfold (first pp : bool) (ts : toks) : P_and first pp ts =
 andthen (P_comp first pp ts) (fun lhs ts => P_and_loop pp lhs ts).
Proof.
  rewrite <- (P_and_eq (S (big ts))) by lia. cbn [p_and]. ext.
Qed.
Lemma P_and_loop_unfold (pp : bool) (lhs : V) (ts : toks) : P_and_loop pp lhs ts =

      match ts with
      | TAnd :: ts =>
          andthen (need (if pp then Some true else to_bool w lhs) ts) (fun c ts =>
            let pp := if negb pp && negb c then true else pp in
            andthen (P_comp false pp ts) (fun rhs ts =>
              if pp then P_and_loop pp lhs ts
              else andthen (need (to_bool w rhs) ts) (fun x ts => P_and_loop pp (of_bool w x) ts)))
      | _ => Ok lhs [] ts
      end.
Proof.
  rewrite <- (P_and_loop_eq (S (big ts))) by lia. cbn [p_and_loop]. ext.
Qed.
Lemma P_comp_unfold (first pp : bool) (ts : toks) : P_comp first pp ts =
 andthen (P_value first pp ts) (fun lhs ts => P_comp_loop pp lhs ts).
Proof.
  rewrite <- (P_comp_eq (S (big ts))) by lia. cbn [p_comp]. ext.
Qed.
Lemma P_comp_loop_unfold (pp : bool) (lhs : V) (ts : toks) : P_comp_loop pp lhs ts =

      match ts with
      | TCmp o :: ts =>
          andthen (P_value false pp ts) (fun rhs ts =>
            if pp then P_comp_loop pp lhs ts
            else andthen (need (cmp w o lhs rhs) ts) (fun x ts => P_comp_loop pp (of_bool w x) ts))
      | _ => Ok lhs [] ts
      end.
Proof.
  rewrite <- (P_comp_loop_eq (S (big ts))) by lia. cbn [p_comp_loop]. ext.
Qed.
Lemma P_value_unfold (first pp : bool) (ts : toks) : P_value first pp ts =

      andthen (match ts with TAttr c :: ts => Ok (Some c) (if pp then [] else [EAttr c]) ts | _ => Ok None [] ts end) (fun at_ ts => 
        andthen (P_bare pp ts) (fun v ts =>
          match first, ts with
          | true, TColon :: ts => 
              match at_ with
              | Some _ => Fail []
              | None =>
                  andthen (P_operand pp ts) (fun name ts =>
                    match ts with
                    | TRparen :: _ => if pp then Ok v [] ts else need (qual w v name) ts
                    | _ => Fail []
                    end)
              end
          | _, _ => 
              if pp then Ok v [] ts
              else match at_ with None => Ok v [] ts | Some c => need (attr w c v) ts end
          end)).
Proof.
  rewrite <- (P_value_eq (S (big ts))) by lia. cbn [p_value]. ext.
Qed.
Lemma P_bare_unfold (pp : bool) (ts : toks) : P_bare pp ts =

      match ts with
      | TNot :: ts =>
          andthen (P_value false pp ts) (fun v ts =>
            if pp then Ok v [] ts else andthen (need (to_bool w v) ts) (fun x ts => Ok (of_bool w (negb x)) [] ts))
      | [] => Fail []
      | t :: _ => if no_value t then Ok (empty w) [] ts else P_operand pp ts
      end.
Proof.
  rewrite <- (P_bare_eq (S (big ts))) by lia. cbn [p_bare]. ext.
Qed.
Lemma P_operand_unfold (pp : bool) (ts : toks) : P_operand pp ts =

      match ts with
      | TVal a :: ts =>
          if pp then Ok (empty w) [] ts else match value_of w a with Some v => Ok v [EVal a] ts | None => Fail [EVal a] end
      | TLparen :: ts =>
          andthen (P_eval pp ts) (fun vs ts =>
            match ts with
            | TRparen :: ts =>
                if pp then Ok (empty w) [] ts
                else match vs with [] => Ok (empty w) [] ts | [v] => Ok v [] ts | _ => Fail [] end
            | _ => Fail []
            end)
      | _ => Fail []
      end.
Proof.
  rewrite <- (P_operand_eq (S (big ts))) by lia. cbn [p_operand]. ext.
Qed.
End Proofs.
