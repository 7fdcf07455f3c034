(* Proofs for scripts: executing the lines of a program is running the program. *)
From Verif Require Import Base FlowModel FlowSpec.

(* fcend *)
Definition addp (pre : list line) (k : nat) (o : option (list line * line * list line * nat)) :=
  match o with Some (p, l, q, m) => Some (pre ++ p, l, q, k + m) | None => None end.
Lemma addp_addp p k q m o : addp p k (addp q m o) = addp (p ++ q) (k + m) o.
Proof. destruct o as [[[[p' l] q'] n]|]; cbn; [|reflexivity]. rewrite app_assoc, Nat.add_assoc. reflexivity. Qed.
Lemma addp_nil o : addp [] 0 o = o.
Proof. destruct o as [[[[p l] q] n]|]; reflexivity. Qed.
Definition step e (l : line) n ls := match fcend e n ls with Some (p, x, q, k) => Some (l :: p, x, q, counts (fst l) + k) | None => None end.
Lemma step_addp e l n ls : step e l n ls = addp [l] (counts (fst l)) (fcend e n ls).
Proof. unfold step. destruct (fcend e n ls) as [[[[p x] q] k]|]; reflexivity. Qed.
Lemma fcend_start e n t id ls : starts t = true -> is_end t = false -> fcend e n ((t, id) :: ls) = addp [(t, id)] (counts t) (fcend e (S n) ls).
Proof. intros H H'. rewrite <-(step_addp e (t, id)). cbn -[starts is_end stops counts]. rewrite H. cbn -[starts is_end stops counts]. rewrite H'. reflexivity. Qed.
Lemma fcend_plain e n t id ls : starts t = false -> is_end t = false -> (n =? 0) && stops e t = false -> fcend e n ((t, id) :: ls) = addp [(t, id)] (counts t) (fcend e n ls).
Proof. intros H H' H2. rewrite <-(step_addp e (t, id)). cbn -[starts is_end stops counts]. rewrite H. cbn -[starts is_end stops counts]. rewrite H2, H'. reflexivity. Qed.
Lemma fcend_end e n id ls : fcend e (S n) ((LEnd, id) :: ls) = addp [(LEnd, id)] 0 (fcend e n ls).
Proof. rewrite <-(step_addp e (LEnd, id)). cbn. rewrite Nat.sub_0_r. reflexivity. Qed.

Lemma fcend_program :
  (forall s e n tl, fcend e n (lines_of_stmt s ++ tl) = addp (lines_of_stmt s) (size_stmt s) (fcend e n tl)) /\
  (forall b e n tl, fcend e n (lines_of b ++ tl) = addp (lines_of b) (size b) (fcend e n tl)) /\
  (forall c e n tl, fcend e (S n) (lines_of_chain c ++ tl) = addp (lines_of_chain c) (size_chain c) (fcend e n tl)).
Proof.
  apply program_ind; intros; cbn [lines_of_stmt lines_of lines_of_chain size_stmt size size_chain app].
  - apply fcend_plain; try reflexivity. destruct e; apply andb_false_r.
  - apply fcend_plain; try reflexivity. destruct e; apply andb_false_r.
  - apply fcend_plain; try reflexivity. destruct e; apply andb_false_r.
  - apply fcend_plain; try reflexivity. destruct e; apply andb_false_r.
  - rewrite fcend_start by reflexivity. rewrite <-app_assoc, H, H0, !addp_addp. cbn. reflexivity.
  - rewrite fcend_start by reflexivity. rewrite <-app_assoc, H. cbn [app end_line]. unfold end_line. rewrite fcend_end, !addp_addp. cbn. rewrite Nat.add_0_r. reflexivity.
  - rewrite fcend_start by (destruct stream; reflexivity). rewrite <-app_assoc, H. cbn [app end_line]. unfold end_line. rewrite fcend_end, !addp_addp.
    cbn. rewrite Nat.add_0_r. destruct stream; reflexivity.
  - symmetry. apply addp_nil.
  - rewrite <-app_assoc, H, H0, addp_addp. reflexivity.
  - unfold end_line. rewrite fcend_end. reflexivity.
  - rewrite fcend_plain by reflexivity. rewrite <-app_assoc, H. cbn [app]. unfold end_line. rewrite fcend_end, !addp_addp. cbn. rewrite Nat.add_0_r. reflexivity.
  - rewrite fcend_plain by reflexivity. rewrite <-app_assoc, H, H0, !addp_addp. cbn. reflexivity.
Qed.
Lemma fcend_block b e n tl : fcend e n (lines_of b ++ tl) = addp (lines_of b) (size b) (fcend e n tl).
Proof. apply fcend_program. Qed.
Lemma fcend_body b e tl : fcend e 0 (lines_of b ++ end_line :: tl) = Some (lines_of b, end_line, tl, size b).
Proof. rewrite fcend_block. cbn. rewrite app_nil_r, Nat.add_0_r. reflexivity. Qed.
Definition chain_hd (c : chain) : line := match c with CNone => end_line | CElse id _ => (LElse, id) | CElif k neg id _ _ => (LElif k neg, id) end.
Definition chain_tl (c : chain) : list line := match c with CNone => [] | CElse _ b => lines_of b ++ [end_line] | CElif _ _ _ b c => lines_of b ++ lines_of_chain c end.
Lemma chain_hd_tl c : lines_of_chain c = chain_hd c :: chain_tl c.
Proof. destruct c; reflexivity. Qed.
Lemma fcend_then b c tl : fcend false 0 (lines_of b ++ lines_of_chain c ++ tl) = Some (lines_of b, chain_hd c, chain_tl c ++ tl, size b).
Proof. rewrite fcend_block, chain_hd_tl. cbn [app]. destruct c; cbn; rewrite app_nil_r, Nat.add_0_r; reflexivity. Qed.
Lemma fcend_chain c : forall tl, exists p, fcend true 0 (lines_of_chain c ++ tl) = Some (p, end_line, tl, size_chain c).
Proof.
  induction c as [|id b|k neg id b c IH]; intros tl; cbn [lines_of_chain app].
  - eexists. reflexivity.
  - rewrite fcend_plain by reflexivity. rewrite <-app_assoc. cbn [app]. rewrite fcend_body. eexists. reflexivity.
  - rewrite fcend_plain by reflexivity. rewrite <-app_assoc, fcend_block. destruct (IH tl) as [p E]. rewrite E. eexists. reflexivity.
Qed.
Lemma fcend_rest c tl : is_end (fst (chain_hd c)) = false -> exists p, fcend true 0 (chain_tl c ++ tl) = Some (p, end_line, tl, size_rest c).
Proof.
  destruct c as [|id b|k neg id b c]; cbn [chain_hd fst is_end]; intros H; [discriminate| |]; cbn [chain_tl size_rest size_chain]; rewrite <-app_assoc.
  - cbn [app]. rewrite fcend_body. eauto.
  - rewrite fcend_block. destruct (fcend_chain c tl) as [p E]. rewrite E. cbn. eauto.
Qed.
Lemma forallb_is_var b : forallb is_var (lines_of b) = only_vars b.
Proof.
  revert b. enough (H : (forall s : stmt, True) /\ (forall b, forallb is_var (lines_of b) = only_vars b) /\ (forall c : chain, True)) by apply H.
  apply program_ind; intros; auto.
  destruct s; cbn; try reflexivity; [assumption|]. destruct stream; reflexivity.
Qed.

Section Exec.
Context {St Val : Type} (env : environment St Val) (throw : bool).
Notation exec := (exec env throw).
Notation runs := (runs env throw).
Notation run1 := (run1 env throw).
Notation runs_if := (runs_if env throw).
Notation runs_chain := (runs_chain env throw).
Notation runs_while := (runs_while env throw).
Notation runs_for := (runs_for env throw).

(* What exec does, one case at a time. *)
Definition branch ii ls f (st : St) li (r : result bool) : option (res St) :=
  match r with
  | Fails => Some (Failed st)
  | Exits c => Some (leave throw c st)
  | Ok true =>
      match fcend false 0 ls with
      | None => Some Assert
      | Some (body, l, rest, _) =>
          match exec f ii (TLines body li) st with
          | Some (Done li st) =>
              if is_end (fst l) then exec f ii (TLines rest li) st
              else match fcend true 0 rest with
                   | None => Some Assert
                   | Some (_, _, rest, k) => exec f ii (TLines rest (li + k)) st
                   end
          | r => r
          end
      end
  | Ok false =>
      match fcend false 0 ls with
      | None => Some Assert
      | Some (_, l, rest, k) => exec f ii (TLines (if is_end (fst l) then rest else l :: rest) (li + k)) st
      end
  end.
Lemma exec_nil f ii li st : exec (S f) ii (TLines [] li) st = Some (Done li st).
Proof. reflexivity. Qed.
Lemma exec_var f ii id ls li st : exec (S f) ii (TLines ((LVar, id) :: ls) li) st =
  let '(st, ok) := e_set env id st in if ok then exec f ii (TLines ls li) st else Some (Failed st).
Proof. reflexivity. Qed.
Lemma exec_cmd f ii id ls li st : exec (S f) ii (TLines ((LCmd, id) :: ls) li) st =
  let '(st, r) := e_cmd env id ii li ((li =? 1) && forallb is_var ls) st in
  match r with Ok _ => exec f ii (TLines ls (S li)) st | Exits c => Some (leave throw c st) | Fails => Some (Failed st) end.
Proof. reflexivity. Qed.
Lemma exec_if f ii k neg id ls li st : exec (S f) ii (TLines ((LIf k neg, id) :: ls) li) st =
  let '(st, li, r) := test env k neg id ii li st in branch ii ls f st li r.
Proof. reflexivity. Qed.
Lemma exec_elif f ii k neg id ls li st : exec (S f) ii (TLines ((LElif k neg, id) :: ls) li) st =
  let '(st, li, r) := test env k neg id ii li st in branch ii ls f st li r.
Proof. reflexivity. Qed.
Lemma exec_else f ii id ls li st : exec (S f) ii (TLines ((LElse, id) :: ls) li) st = branch ii ls f st li (Ok true).
Proof. reflexivity. Qed.
Lemma exec_while f ii id ls li st : exec (S f) ii (TLines ((LWhile, id) :: ls) li) st = exec f ii (TWhile 1 li id ls) st.
Proof. reflexivity. Qed.
Lemma exec_for_stream f ii id ls li st : exec (S f) ii (TLines ((LForStream, id) :: ls) li) st =
  let '(st, r) := e_stream env id ii li st in match r with Some vs => exec f ii (TFor true id 1 (S li) vs ls (Some (S li)) false) st | None => Some (Failed st) end.
Proof. reflexivity. Qed.
Lemma exec_for_args f ii id ls li st : exec (S f) ii (TLines ((LForArgs, id) :: ls) li) st =
  let '(st, r) := e_values env id st in match r with Some vs => exec f ii (TFor false id 1 li vs ls (Some li) false) st | None => Some (Failed st) end.
Proof. reflexivity. Qed.
Lemma exec_TWhile f ii wi wli id b tl st : exec (S f) ii (TWhile wi wli id (lines_of b ++ end_line :: tl)) st =
  let '(st, r) := e_cond env id (wi :: ii) wli st in
  match r with
  | Fails => Some (Failed st)
  | Exits c => Some (leave throw c st)
  | Ok false => exec f ii (TLines tl (S wli + size b)) st
  | Ok true =>
      match exec f (wi :: ii) (TLines (lines_of b) (S wli)) st with
      | Some (Done _ st) | Some (Loop false st) => exec f ii (TWhile (S wi) wli id (lines_of b ++ end_line :: tl)) st
      | Some (Loop true st) => exec f ii (TLines tl (S wli + size b)) st
      | r => r
      end
  end.
Proof. cbn [FlowModel.exec]. rewrite fcend_body. destruct (e_cond env id (wi :: ii) wli st) as [st' r]. reflexivity. Qed.
Definition finish (stream : bool) id (st : St) (r : St -> option (res St)) : option (res St) :=
  if stream then let '(st, ok) := e_stream_end env id st in if ok then r st else Some (Failed st) else r st.
Lemma exec_TFor_nil f ii stream id fi fli b tl li found st : exec (S f) ii (TFor stream id fi fli [] (lines_of b ++ end_line :: tl) li found) st =
  finish stream id st (fun st => exec f ii (TLines tl (match li with None => fli + size b | Some li => if found then li else li + size b end)) st).
Proof. cbn [FlowModel.exec]. rewrite fcend_body. reflexivity. Qed.
Lemma exec_TFor_cons f ii stream id fi fli v vs b tl li found st : exec (S f) ii (TFor stream id fi fli (v :: vs) (lines_of b ++ end_line :: tl) li found) st =
  let '(st, ok) := e_for env id v st in
  if ok then
    match exec f (fi :: ii) (TLines (lines_of b) fli) st with
    | Some (Done li st) => exec f ii (TFor stream id (S fi) fli vs (lines_of b ++ end_line :: tl) (Some li) true) st
    | Some (Loop false st) => exec f ii (TFor stream id (S fi) fli vs (lines_of b ++ end_line :: tl) None true) st
    | Some (Loop true st) => exec f ii (TFor stream id (S fi) fli [] (lines_of b ++ end_line :: tl) None true) st
    | Some (Exit c st) => finish stream id st (fun st => Some (Exit c st))
    | r => r
    end
  else Some (Failed st).
Proof. cbn [FlowModel.exec]. rewrite fcend_body. reflexivity. Qed.
Lemma branch_block ii b c tl f st li r : branch ii (lines_of b ++ lines_of_chain c ++ tl) f st li r =
  match r with
  | Fails => Some (Failed st)
  | Exits c => Some (leave throw c st)
  | Ok true => match exec f ii (TLines (lines_of b) li) st with
               | Some (Done li st) => exec f ii (TLines tl (li + size_rest c)) st
               | r => r
               end
  | Ok false => exec f ii (TLines (match c with CNone => tl | c => lines_of_chain c ++ tl end) (li + size b)) st
  end.
Proof.
  unfold branch. destruct r as [[]|c0|]; try reflexivity; rewrite fcend_then.
  - destruct (exec f ii (TLines (lines_of b) li) st) as [[li' st'|c' st'|brk st'|st'|]|]; try reflexivity.
    destruct (is_end (fst (chain_hd c))) eqn:E.
    + destruct c; cbn in E; try discriminate. cbn. rewrite Nat.add_0_r. reflexivity.
    + destruct (fcend_rest c tl E) as [p E2]. rewrite E2. reflexivity.
  - destruct c; cbn [chain_hd fst is_end chain_tl app lines_of_chain end_line]; reflexivity.
Qed.

(* More steps do no harm. *)
Lemma exec_more f : forall ii t st r, exec f ii t st = Some r -> exec (S f) ii t st = Some r.
Proof.
  induction f as [|f IH]; intros ii t st r E; [discriminate|].
  assert (HB : forall ii ls st li r0 r, branch ii ls f st li r0 = Some r -> branch ii ls (S f) st li r0 = Some r).
  { clear - IH. intros ii ls st li r0 r. unfold branch. destruct r0 as [[]|c|]; auto.
    - destruct (fcend false 0 ls) as [[[[body l] rest] k]|]; auto. intros E.
      destruct (exec f ii (TLines body li) st) as [r1|] eqn:E1; [|discriminate]. rewrite (IH _ _ _ _ E1).
      destruct r1 as [li' st'|c' st'|brk st'|st'|]; auto.
      destruct (is_end (fst l)); auto. destruct (fcend true 0 rest) as [[[[? ?] ?] ?]|]; auto.
    - destruct (fcend false 0 ls) as [[[[body l] rest] k]|]; auto. }
  assert (HF : forall stream id st (k k' : St -> option (res St)) r, (forall st r, k st = Some r -> k' st = Some r) -> finish stream id st k = Some r -> finish stream id st k' = Some r).
  { clear. intros stream id st k k' r H. unfold finish. destruct stream; auto. destruct (e_stream_end env id st) as [st' [|]]; auto. }
  remember (S f) as g eqn:Eg. destruct t as [[|[t id] ls] li|wi wli id ls|stream id fi fli vs ls li found].
  - subst g. exact E.
  - destruct t; subst g.
    + rewrite exec_var in E |- *. destruct (e_set env id st) as [st' [|]]; auto.
    + rewrite exec_cmd in E |- *. destruct (e_cmd env id ii li ((li =? 1) && forallb is_var ls) st) as [st' [u|c|]]; auto.
    + rewrite exec_if in E |- *. destruct (test env k neg id ii li st) as [[st' li'] r0]; auto.
    + rewrite exec_elif in E |- *. destruct (test env k neg id ii li st) as [[st' li'] r0]; auto.
    + rewrite exec_else in E |- *. auto.
    + rewrite exec_while in E |- *. auto.
    + rewrite exec_for_stream in E |- *. destruct (e_stream env id ii li st) as [st' [vs|]]; auto.
    + rewrite exec_for_args in E |- *. destruct (e_values env id st) as [st' [vs|]]; auto.
    + exact E.
    + exact E.
    + exact E.
  - subst g. change ((let '(st, r) := e_cond env id (wi :: ii) wli st in
      match fcend true 0 ls with None => Some Assert | Some (body, _, rest, k) =>
      match r with Fails => Some (Failed st) | Exits c => Some (leave throw c st) | Ok false => exec (S f) ii (TLines rest (S wli + k)) st
      | Ok true => match exec (S f) (wi :: ii) (TLines body (S wli)) st with
        | Some (Done _ st) | Some (Loop false st) => exec (S f) ii (TWhile (S wi) wli id ls) st
        | Some (Loop true st) => exec (S f) ii (TLines rest (S wli + k)) st | r => r end end end) = Some r).
    change ((let '(st, r) := e_cond env id (wi :: ii) wli st in
      match fcend true 0 ls with None => Some Assert | Some (body, _, rest, k) =>
      match r with Fails => Some (Failed st) | Exits c => Some (leave throw c st) | Ok false => exec f ii (TLines rest (S wli + k)) st
      | Ok true => match exec f (wi :: ii) (TLines body (S wli)) st with
        | Some (Done _ st) | Some (Loop false st) => exec f ii (TWhile (S wi) wli id ls) st
        | Some (Loop true st) => exec f ii (TLines rest (S wli + k)) st | r => r end end end) = Some r) in E.
    destruct (e_cond env id (wi :: ii) wli st) as [st' r0]. destruct (fcend true 0 ls) as [[[[body x] rest] k]|]; auto.
    destruct r0 as [[]|c|]; auto.
    destruct (exec f (wi :: ii) (TLines body (S wli)) st') as [r1|] eqn:E1; [|discriminate]. rewrite (IH _ _ _ _ E1).
    destruct r1 as [li' st2|c' st2|[] st2|st2|]; auto.
  - subst g. change (match fcend true 0 ls with None => Some Assert | Some (body, _, rest, k) =>
      match vs with
      | [] => finish stream id st (fun st => exec (S f) ii (TLines rest (match li with None => fli + k | Some li => if found then li else li + k end)) st)
      | v :: vs => let '(st, ok) := e_for env id v st in if ok then match exec (S f) (fi :: ii) (TLines body fli) st with
        | Some (Done li st) => exec (S f) ii (TFor stream id (S fi) fli vs ls (Some li) true) st
        | Some (Loop false st) => exec (S f) ii (TFor stream id (S fi) fli vs ls None true) st
        | Some (Loop true st) => exec (S f) ii (TFor stream id (S fi) fli [] ls None true) st
        | Some (Exit c st) => finish stream id st (fun st => Some (Exit c st)) | r => r end else Some (Failed st) end end = Some r).
    change (match fcend true 0 ls with None => Some Assert | Some (body, _, rest, k) =>
      match vs with
      | [] => finish stream id st (fun st => exec f ii (TLines rest (match li with None => fli + k | Some li => if found then li else li + k end)) st)
      | v :: vs => let '(st, ok) := e_for env id v st in if ok then match exec f (fi :: ii) (TLines body fli) st with
        | Some (Done li st) => exec f ii (TFor stream id (S fi) fli vs ls (Some li) true) st
        | Some (Loop false st) => exec f ii (TFor stream id (S fi) fli vs ls None true) st
        | Some (Loop true st) => exec f ii (TFor stream id (S fi) fli [] ls None true) st
        | Some (Exit c st) => finish stream id st (fun st => Some (Exit c st)) | r => r end else Some (Failed st) end end = Some r) in E.
    destruct (fcend true 0 ls) as [[[[body x] rest] k]|]; auto. destruct vs as [|v vs].
    + revert E. apply HF. auto.
    + destruct (e_for env id v st) as [st' [|]]; auto.
      destruct (exec f (fi :: ii) (TLines body fli) st') as [r1|] eqn:E1; [|discriminate]. rewrite (IH _ _ _ _ E1).
      destruct r1 as [li' st2|c' st2|[] st2|st2|]; auto.
Qed.
Lemma exec_le f g ii t st r : f <= g -> exec f ii t st = Some r -> exec g ii t st = Some r.
Proof. intros H E. induction H; auto. apply exec_more. exact IHle. Qed.

Lemma test_condition k neg id ii li st st' li' r : test env k neg id ii li st = (st', li', r) <-> condition env k neg id ii li st st' r /\ li' = li + takes k.
Proof.
  unfold test, condition. destruct k; cbn [takes].
  - destruct (e_cond env id ii li st) as [s0 r0]. rewrite Nat.add_1_r. split.
    + intros [= <- <- <-]. split; [|reflexivity]. exists r0. split; [reflexivity|]. destruct r0; [|reflexivity..]. destruct neg, x; reflexivity.
    + intros [[r1 [[= -> ->] ->]] ->]. f_equal. destruct r1; [|reflexivity..]. destruct neg, x; reflexivity.
  - destruct (e_null env id st) as [s0 r0]. rewrite Nat.add_0_r. split.
    + intros [= <- <- <-]. split; [|reflexivity]. exists r0. split; [reflexivity|]. destruct r0 as [x|]; [|reflexivity..]. destruct neg, x; reflexivity.
    + intros [[r1 [[= -> ->] ->]] ->]. f_equal. destruct r1 as [x|]; [|reflexivity..]. destruct neg, x; reflexivity.
  - destruct (e_empty env id st) as [s0 r0]. rewrite Nat.add_0_r. split.
    + intros [= <- <- <-]. split; [|reflexivity]. exists r0. split; [reflexivity|]. destruct r0 as [x|]; [|reflexivity..]. destruct neg, x; reflexivity.
    + intros [[r1 [[= -> ->] ->]] ->]. f_equal. destruct r1 as [x|]; [|reflexivity..]. destruct neg, x; reflexivity.
Qed.

(* After r1 the block b is executed, if it completed. *)
Definition then_ (r1 : res St) b ii r : Prop := match r1 with Done li st => runs b ii li st r | _ => r = r1 end.
Definition cont_li (li : option nat) (found : bool) fli b : nat := match li with None => fli + size b | Some li => if found then li else li + size b end.

Lemma runs_no_assert :
  (forall s l ii li st r, run1 s l ii li st r -> r <> Assert) /\
  (forall b ii li st r, runs b ii li st r -> r <> Assert) /\
  (forall k neg id b c ii li st r, runs_if k neg id b c ii li st r -> r <> Assert) /\
  (forall c ii li st r, runs_chain c ii li st r -> r <> Assert) /\
  (forall id b wi ii li st r, runs_while id b wi ii li st r -> r <> Assert) /\
  (forall stream id b vs fi fli ii li st r, runs_for stream id b vs fi fli ii li st r -> r <> Assert).
Proof.
  apply runs_mutind; intros; try discriminate; try assumption.
  all: unfold exited; match goal with |- (if ?x then _ else _) <> _ => destruct x end; discriminate.
Qed.
Lemma exec_sound f :
  (forall b ii li st r, exec f ii (TLines (lines_of b) li) st = Some r -> runs b ii li st r) /\
  (forall c b ii li st r, c <> CNone -> exec f ii (TLines (lines_of_chain c ++ lines_of b) li) st = Some r -> exists r1, runs_chain c ii li st r1 /\ then_ r1 b ii r) /\
  (forall id w b wi ii li st r, exec f ii (TWhile wi li id (lines_of w ++ end_line :: lines_of b)) st = Some r -> exists r1, runs_while id w wi ii li st r1 /\ then_ r1 b ii r) /\
  (forall stream id w b vs fi fli ii li found st r, exec f ii (TFor stream id fi fli vs (lines_of w ++ end_line :: lines_of b) li found) st = Some r ->
     exists r1, runs_for stream id w vs fi fli ii (cont_li li found fli w) st r1 /\ then_ r1 b ii r).
Proof.
  induction f as [|f (IHb & IHc & IHw & IHf)]; [split; [|split; [|split]]; intros; discriminate|].
  assert (IHthen : forall b ii li st r, exec f ii (TLines (lines_of b) li) st = Some r -> then_ (Done li st) b ii r) by (intros; cbn; auto).
  (* if *)
  assert (HI : forall k neg id b c b' ii li st r,
    (let '(st, li, r) := test env k neg id ii li st in branch ii (lines_of b ++ lines_of_chain c ++ lines_of b') f st li r) = Some r ->
    exists r1, runs_if k neg id b c ii li st r1 /\ then_ r1 b' ii r).
  { intros k neg id b c b' ii li st r E. destruct (test env k neg id ii li st) as [[st' li'] r0] eqn:Et.
    apply test_condition in Et as [Hc ->]. rewrite branch_block in E. destruct r0 as [[]|code|].
    - destruct (exec f ii (TLines (lines_of b) (li + takes k)) st') as [r1|] eqn:E1; [|discriminate].
      apply IHb in E1. destruct r1 as [li2 st2|c2 st2|brk st2|st2|].
      + exists (Done (li2 + size_rest c) st2). split; [econstructor; eassumption|]. auto.
      + exists r. (cbv beta iota in E; injection E as <-). split; [eapply i_then_stop; eauto|reflexivity].
      + exists r. (cbv beta iota in E; injection E as <-). split; [eapply i_then_stop; eauto|reflexivity].
      + exists r. (cbv beta iota in E; injection E as <-). split; [eapply i_then_stop; eauto|reflexivity].
      + exists r. (cbv beta iota in E; injection E as <-). split; [eapply i_then_stop; eauto|reflexivity].
    - destruct c as [|id' b0|k' neg' id' b0 c'].
      + exists (Done (li + takes k + size b) st'). split; [eapply i_else; [eassumption|constructor]|auto].
      + apply IHc in E as (r1 & H1 & H2); [|discriminate]. exists r1. split; [|exact H2]. eapply i_else; eassumption.
      + apply IHc in E as (r1 & H1 & H2); [|discriminate]. exists r1. split; [|exact H2]. eapply i_else; eassumption.
    - (cbv beta iota in E; injection E as <-). exists (leave throw code st'). split; [|unfold leave; destruct (throw && negb (code =? 0)); reflexivity]. eapply i_exit; eassumption.
    - (cbv beta iota in E; injection E as <-). exists (Failed st'). split; [|reflexivity]. eapply i_fail; eassumption. }
  assert (HS : forall s b ii li st r1 r, run1 s (only_vars b) ii li st r1 -> then_ r1 b ii r -> runs (BCons s b) ii li st r).
  { intros s b ii li st r1 r H1 H2. destruct r1; cbn in H2; [eapply r_next; eassumption| | | |]; subst r; apply r_stop; auto. }
  split; [|split; [|split]].
  - intros b ii li st r E. destruct b as [|s b]; [(cbv beta iota in E; injection E as <-); constructor|].
    destruct s as [id|id|id|id|k neg id b0 c|id w|stream id w]; cbn [lines_of lines_of_stmt app] in E.
    + rewrite exec_var in E. destruct (e_set env id st) as [st' [|]] eqn:E1.
      * eapply HS; [constructor; eassumption|]. auto.
      * (cbv beta iota in E; injection E as <-). eapply HS; [eapply r_var_fail; eassumption|reflexivity].
    + rewrite exec_cmd, forallb_is_var in E. destruct (e_cmd env id ii li ((li =? 1) && only_vars b) st) as [st' [u|c|]] eqn:E1.
      * eapply HS; [econstructor; eassumption|]. auto.
      * (cbv beta iota in E; injection E as <-). eapply HS; [eapply r_cmd_exit; eassumption|]. unfold exited, leave. destruct (throw && negb (c =? 0)); reflexivity.
      * (cbv beta iota in E; injection E as <-). eapply HS; [eapply r_cmd_fail; eassumption|reflexivity].
    + (cbv beta iota in E; injection E as <-). eapply HS; [constructor|reflexivity].
    + (cbv beta iota in E; injection E as <-). eapply HS; [constructor|reflexivity].
    + rewrite exec_if, <-app_assoc in E. apply HI in E as (r1 & H1 & H2). eapply HS; [|exact H2]. constructor. exact H1.
    + rewrite exec_while, <-app_assoc in E. apply IHw in E as (r1 & H1 & H2). eapply HS; [|exact H2]. constructor. exact H1.
    + rewrite <-app_assoc in E. destruct stream; cbn [for_type] in E.
      * rewrite exec_for_stream in E. destruct (e_stream env id ii li st) as [st' [vs|]] eqn:E1.
        -- apply IHf in E as (r1 & H1 & H2). eapply HS; [|exact H2]. eapply r_for_stream; [eassumption|]. exact H1.
        -- (cbv beta iota in E; injection E as <-). eapply HS; [eapply r_for_stream_fail; eassumption|reflexivity].
      * rewrite exec_for_args in E. destruct (e_values env id st) as [st' [vs|]] eqn:E1.
        -- apply IHf in E as (r1 & H1 & H2). eapply HS; [|exact H2]. eapply r_for_args; [eassumption|]. exact H1.
        -- (cbv beta iota in E; injection E as <-). eapply HS; [eapply r_for_args_fail; eassumption|reflexivity].
  - intros c b ii li st r Hc E. destruct c as [|id b0|k neg id b0 c]; [contradiction| |]; cbn [lines_of_chain app] in E.
    + rewrite exec_else in E. rewrite <-app_assoc in E. change ([end_line] ++ lines_of b) with (lines_of_chain CNone ++ lines_of b) in E. rewrite branch_block in E.
      destruct (exec f ii (TLines (lines_of b0) li) st) as [r1|] eqn:E1; [|discriminate]. apply IHb in E1.
      exists r1. split; [constructor; exact E1|]. destruct r1; cbn in E |- *; try congruence. rewrite Nat.add_0_r in E. auto.
    + rewrite exec_elif, <-app_assoc in E. apply HI in E as (r1 & H1 & H2). exists r1. split; [|exact H2]. constructor. exact H1.
  - intros id w b wi ii li st r E. rewrite exec_TWhile in E. destruct (e_cond env id (wi :: ii) li st) as [st' [[]|c|]] eqn:E1.
    + destruct (exec f (wi :: ii) (TLines (lines_of w) (S li)) st') as [r1|] eqn:E2; [|discriminate]. apply IHb in E2.
      destruct r1 as [li2 st2|c2 st2|[] st2|st2|].
      * apply IHw in E as (r1 & H1 & H2). exists r1. split; [|exact H2]. eapply w_done; eassumption.
      * (cbv beta iota in E; injection E as <-). eexists. split; [eapply w_stop; [eassumption..|reflexivity]|reflexivity].
      * eexists. split; [eapply w_break; eassumption|]. cbn -[Nat.add]. auto.
      * apply IHw in E as (r1 & H1 & H2). exists r1. split; [|exact H2]. eapply w_continue; eassumption.
      * (cbv beta iota in E; injection E as <-). eexists. split; [eapply w_stop; [eassumption..|reflexivity]|reflexivity].
      * (cbv beta iota in E; injection E as <-). eexists. split; [eapply w_stop; [eassumption..|reflexivity]|reflexivity].
    + eexists. split; [eapply w_end; eassumption|]. cbn -[Nat.add]. auto.
    + (cbv beta iota in E; injection E as <-). eexists. split; [eapply w_exit; eassumption|]. unfold exited, leave. destruct (throw && negb (c =? 0)); reflexivity.
    + (cbv beta iota in E; injection E as <-). eexists. split; [eapply w_fail; eassumption|]. reflexivity.
  - intros stream id w b vs fi fli ii li found st r E. destruct vs as [|v vs].
    + rewrite exec_TFor_nil in E. fold (cont_li li found fli w) in E. unfold finish in E.
      destruct stream.
      * destruct (e_stream_end env id st) as [st' [|]] eqn:E1.
        -- eexists. split; [eapply f_end, f_stream; eauto|]. auto.
        -- (cbv beta iota in E; injection E as <-). eexists. split; [eapply f_end_fail, f_stream; eauto|reflexivity].
      * eexists. split; [eapply f_end, f_args; reflexivity|]. auto.
    + rewrite exec_TFor_cons in E. destruct (e_for env id v st) as [st' [|]] eqn:E1.
      * destruct (exec f (fi :: ii) (TLines (lines_of w) fli) st') as [r1|] eqn:E2; [|discriminate]. apply IHb in E2.
        destruct r1 as [li2 st2|c2 st2|[] st2|st2|].
        -- apply IHf in E as (r1 & H1 & H2). exists r1. split; [|exact H2]. eapply f_done; eassumption.
        -- unfold finish in E. destruct stream.
           ++ destruct (e_stream_end env id st2) as [st3 [|]] eqn:E3; (cbv beta iota in E; injection E as <-).
              ** eexists. split; [eapply f_exit; [eassumption..|apply f_stream; eauto]|reflexivity].
              ** eexists. split; [eapply f_exit_fail; [eassumption..|apply f_stream; eauto]|reflexivity].
           ++ (cbv beta iota in E; injection E as <-). eexists. split; [eapply f_exit; [eassumption..|apply f_args; eauto]|reflexivity].
        -- apply IHf in E as (r1 & H1 & H2). exists r1. split; [|exact H2]. eapply f_break; eassumption.
        -- apply IHf in E as (r1 & H1 & H2). exists r1. split; [|exact H2]. eapply f_continue; eassumption.
        -- (cbv beta iota in E; injection E as <-). eexists. split; [eapply f_fail; eassumption|reflexivity].
        -- exfalso. apply runs_no_assert in E2. congruence.
      * (cbv beta iota in E; injection E as <-). eexists. split; [eapply f_set_fail; eassumption|reflexivity].
Qed.

Definition conts (r : res St) (ls : list line) ii r' : Prop := match r with Done li st => exists f, exec f ii (TLines ls li) st = Some r' | _ => r' = r end.
Lemma conts_stop r ls ii r' : completed r = false -> conts r ls ii r' -> r' = r.
Proof. destruct r; cbn; auto. discriminate. Qed.
Lemma conts_exited c st ls ii r' : conts (exited throw c st) ls ii r' -> r' = leave throw c st.
Proof. apply conts_stop. unfold leave, exited. destruct (throw && negb (c =? 0)); reflexivity. Qed.
Ltac more E := let H := fresh in pose proof E as H; eapply exec_le in H; [rewrite H; clear H|lia].

Lemma exec_complete :
  (forall s last ii li st r, run1 s last ii li st r -> forall ls r', forallb is_var ls = last -> conts r ls ii r' -> exists f, exec f ii (TLines (lines_of_stmt s ++ ls) li) st = Some r') /\
  (forall b ii li st r, runs b ii li st r -> exists f, exec f ii (TLines (lines_of b) li) st = Some r) /\
  (forall k neg id b c ii li st r, runs_if k neg id b c ii li st r -> forall ls r', conts r ls ii r' ->
     exists f, (let '(st, li, r) := test env k neg id ii li st in branch ii (lines_of b ++ lines_of_chain c ++ ls) f st li r) = Some r') /\
  (forall c ii li st r, runs_chain c ii li st r -> forall ls r', conts r ls ii r' ->
     exists f, exec f ii (TLines (match c with CNone => ls | c => lines_of_chain c ++ ls end) li) st = Some r') /\
  (forall id b wi ii li st r, runs_while id b wi ii li st r -> forall ls r', conts r ls ii r' ->
     exists f, exec f ii (TWhile wi li id (lines_of b ++ end_line :: ls)) st = Some r') /\
  (forall stream id b vs fi fli ii li st r, runs_for stream id b vs fi fli ii li st r -> forall lo found ls r', cont_li lo found fli b = li -> conts r ls ii r' ->
     exists f, exec f ii (TFor stream id fi fli vs (lines_of b ++ end_line :: ls) lo found) st = Some r').
Proof.
  apply runs_mutind.
  - intros id last ii li st st' H ls r' _ [f Hc]. exists (S f). cbn [lines_of_stmt app]. rewrite exec_var, H. exact Hc.
  - intros id last ii li st st' H ls r' _ Hc. cbn in Hc. subst r'. exists 1. cbn [lines_of_stmt app]. rewrite exec_var, H. reflexivity.
  - intros id last ii li st st' u H ls r' Hl [f Hc]. exists (S f). cbn [lines_of_stmt app]. rewrite exec_cmd, Hl, H. exact Hc.
  - intros id last ii li st st' c H ls r' Hl Hc. apply conts_exited in Hc as ->. exists 1. cbn [lines_of_stmt app]. rewrite exec_cmd, Hl, H. reflexivity.
  - intros id last ii li st st' H ls r' Hl Hc. cbn in Hc. subst r'. exists 1. cbn [lines_of_stmt app]. rewrite exec_cmd, Hl, H. reflexivity.
  - intros id last ii li st ls r' _ Hc. cbn in Hc. subst r'. exists 1. reflexivity.
  - intros id last ii li st ls r' _ Hc. cbn in Hc. subst r'. exists 1. reflexivity.
  - intros k neg id b c last ii li st r _ IH ls r' _ Hc. destruct (IH ls r' Hc) as [f E]. exists (S f). cbn [lines_of_stmt app]. rewrite exec_if, <-app_assoc. exact E.
  - intros id b last ii li st r _ IH ls r' _ Hc. destruct (IH ls r' Hc) as [f E]. exists (S f). cbn [lines_of_stmt app]. rewrite exec_while, <-app_assoc. exact E.
  - intros id b last ii li st st' vs r H _ IH ls r' _ Hc. destruct (IH (Some li) false ls r' eq_refl Hc) as [f E]. exists (S f).
    cbn [lines_of_stmt app for_type]. rewrite exec_for_args, <-app_assoc, H. exact E.
  - intros id b last ii li st st' H ls r' _ Hc. cbn in Hc. subst r'. exists 1. cbn [lines_of_stmt app for_type]. rewrite exec_for_args, H. reflexivity.
  - intros id b last ii li st st' vs r H _ IH ls r' _ Hc. destruct (IH (Some (S li)) false ls r' eq_refl Hc) as [f E]. exists (S f).
    cbn [lines_of_stmt app for_type]. rewrite exec_for_stream, <-app_assoc, H. exact E.
  - intros id b last ii li st st' H ls r' _ Hc. cbn in Hc. subst r'. exists 1. cbn [lines_of_stmt app for_type]. rewrite exec_for_stream, H. reflexivity.
  - intros ii li st. exists 1. reflexivity.
  - intros s b ii li st li' st' r _ IH _ [f E]. cbn [lines_of]. apply IH; [apply forallb_is_var|]. exists f. exact E.
  - intros s b ii li st r _ IH Hr. cbn [lines_of]. apply IH; [apply forallb_is_var|]. destruct r; try discriminate; reflexivity.
  - intros k neg id b c ii li st st' Hc ls r' Hr. cbn in Hr. subst r'. exists 1. destruct (test env k neg id ii li st) as [[st0 li0] r0] eqn:Et.
    rewrite (proj2 (test_condition k neg id ii li st st' _ _) (conj Hc eq_refl)) in Et. injection Et as <- <- <-. reflexivity.
  - intros k neg id b c ii li st st' code Hc ls r' Hr. apply conts_exited in Hr as ->. exists 1.
    rewrite (proj2 (test_condition k neg id ii li st st' _ _) (conj Hc eq_refl)). reflexivity.
  - intros k neg id b c ii li st st' li' st'' Hc _ [f1 E1] ls r' [f2 E2]. exists (f1 + f2).
    rewrite (proj2 (test_condition k neg id ii li st st' _ _) (conj Hc eq_refl)), branch_block. more E1. more E2. reflexivity.
  - intros k neg id b c ii li st st' r Hc _ [f1 E1] Hr ls r' Hr'. apply (conts_stop _ _ _ _ Hr) in Hr' as ->. exists f1.
    rewrite (proj2 (test_condition k neg id ii li st st' _ _) (conj Hc eq_refl)), branch_block. more E1. destruct r; try discriminate; reflexivity.
  - intros k neg id b c ii li st st' r Hc _ IH ls r' Hr. destruct (IH ls r' Hr) as [f E]. exists f.
    rewrite (proj2 (test_condition k neg id ii li st st' _ _) (conj Hc eq_refl)), branch_block. exact E.
  - intros ii li st ls r' Hr. exact Hr.
  - intros id b ii li st r _ [f1 E1] ls r' Hr. cbn [lines_of_chain app].
    destruct r as [li' st'|c st'|brk st'|st'|].
    + destruct Hr as [f2 E2]. exists (S (f1 + f2)). rewrite exec_else, <-app_assoc.
      change ([end_line] ++ ls) with (lines_of_chain CNone ++ ls). rewrite branch_block. more E1. cbn [size_rest size_chain]. rewrite Nat.add_0_r. more E2. reflexivity.
    + exists (S f1). rewrite exec_else, <-app_assoc. change ([end_line] ++ ls) with (lines_of_chain CNone ++ ls). rewrite branch_block, E1. cbn in Hr. subst r'. reflexivity.
    + exists (S f1). rewrite exec_else, <-app_assoc. change ([end_line] ++ ls) with (lines_of_chain CNone ++ ls). rewrite branch_block, E1. cbn in Hr. subst r'. reflexivity.
    + exists (S f1). rewrite exec_else, <-app_assoc. change ([end_line] ++ ls) with (lines_of_chain CNone ++ ls). rewrite branch_block, E1. cbn in Hr. subst r'. reflexivity.
    + exists (S f1). rewrite exec_else, <-app_assoc. change ([end_line] ++ ls) with (lines_of_chain CNone ++ ls). rewrite branch_block, E1. cbn in Hr. subst r'. reflexivity.
  - intros k neg id b c ii li st r _ IH ls r' Hr. destruct (IH ls r' Hr) as [f E]. exists (S f). cbn [lines_of_chain app]. rewrite exec_elif, <-app_assoc. exact E.
  - intros id b wi ii li st st' H ls r' Hr. cbn in Hr. subst r'. exists 1. rewrite exec_TWhile, H. reflexivity.
  - intros id b wi ii li st st' c H ls r' Hr. apply conts_exited in Hr as ->. exists 1. rewrite exec_TWhile, H. reflexivity.
  - intros id b wi ii li st st' H ls r' [f E]. exists (S f). rewrite exec_TWhile, H. exact E.
  - intros id b wi ii li st st' li' st'' r H _ [f1 E1] _ IH ls r' Hr. destruct (IH ls r' Hr) as [f2 E2]. exists (S (f1 + f2)). rewrite exec_TWhile, H. more E1. more E2. reflexivity.
  - intros id b wi ii li st st' st'' r H _ [f1 E1] _ IH ls r' Hr. destruct (IH ls r' Hr) as [f2 E2]. exists (S (f1 + f2)). rewrite exec_TWhile, H. more E1. more E2. reflexivity.
  - intros id b wi ii li st st' st'' H _ [f1 E1] ls r' [f2 E2]. exists (S (f1 + f2)). rewrite exec_TWhile, H. more E1. more E2. reflexivity.
  - intros id b wi ii li st st' r H _ [f1 E1] Hr ls r' Hr'. exists (S f1). rewrite exec_TWhile, H. more E1.
    destruct r; try discriminate; cbn in Hr'; subst r'; reflexivity.
  - intros stream id b fi fli ii li st st' H lo found ls r' Hl [f E]. exists (S f). rewrite exec_TFor_nil. fold (cont_li lo found fli b). rewrite Hl. unfold finish.
    inversion H; subst; [exact E|]. destruct (e_stream_end env id st) as [s0 ok0]. injection H1 as -> ->. exact E.
  - intros stream id b fi fli ii li st st' H lo found ls r' Hl Hr. cbn in Hr. subst r'. exists 1. rewrite exec_TFor_nil. unfold finish.
    inversion H; subst. destruct (e_stream_end env id st) as [s0 ok0]. injection H1 as -> ->. reflexivity.
  - intros stream id b v vs fi fli ii li st st' H lo found ls r' Hl Hr. cbn in Hr. subst r'. exists 1. rewrite exec_TFor_cons, H. reflexivity.
  - intros stream id b v vs fi fli ii li st st' li' st'' r H _ [f1 E1] _ IH lo found ls r' Hl Hr. destruct (IH (Some li') true ls r' eq_refl Hr) as [f2 E2].
    exists (S (f1 + f2)). rewrite exec_TFor_cons, H. more E1. more E2. reflexivity.
  - intros stream id b v vs fi fli ii li st st' st'' r H _ [f1 E1] _ IH lo found ls r' Hl Hr. destruct (IH None true ls r' eq_refl Hr) as [f2 E2].
    exists (S (f1 + f2)). rewrite exec_TFor_cons, H. more E1. more E2. reflexivity.
  - intros stream id b v vs fi fli ii li st st' st'' r H _ [f1 E1] _ IH lo found ls r' Hl Hr. destruct (IH None true ls r' eq_refl Hr) as [f2 E2].
    exists (S (f1 + f2)). rewrite exec_TFor_cons, H. more E1. more E2. reflexivity.
  - intros stream id b v vs fi fli ii li st st' st'' H _ [f1 E1] lo found ls r' Hl Hr. cbn in Hr. subst r'.
    exists (S f1). rewrite exec_TFor_cons, H. more E1. reflexivity.
  - intros stream id b v vs fi fli ii li st st' st'' st3 c H _ [f1 E1] Hf lo found ls r' Hl Hr. cbn in Hr. subst r'.
    exists (S f1). rewrite exec_TFor_cons, H. more E1. unfold finish. inversion Hf; subst; [reflexivity|]. destruct (e_stream_end env id st'') as [s0 ok0]. injection H1 as -> ->. reflexivity.
  - intros stream id b v vs fi fli ii li st st' st'' st3 c H _ [f1 E1] Hf lo found ls r' Hl Hr. cbn in Hr. subst r'.
    exists (S f1). rewrite exec_TFor_cons, H. more E1. unfold finish. inversion Hf; subst. destruct (e_stream_end env id st'') as [s0 ok0]. injection H1 as -> ->. reflexivity.
Qed.

(* Without break or continue outside of loops. *)
Definition no_loop (r : res St) : Prop := match r with Loop _ _ => False | _ => True end.
Lemma runs_no_loop :
  (forall s last ii li st r, run1 s last ii li st r -> in_loops_stmt false s -> no_loop r) /\
  (forall b ii li st r, runs b ii li st r -> in_loops false b -> no_loop r) /\
  (forall k neg id b c ii li st r, runs_if k neg id b c ii li st r -> in_loops false b /\ in_loops_chain false c -> no_loop r) /\
  (forall c ii li st r, runs_chain c ii li st r -> in_loops_chain false c -> no_loop r) /\
  (forall id b wi ii li st r, runs_while id b wi ii li st r -> no_loop r) /\
  (forall stream id b vs fi fli ii li st r, runs_for stream id b vs fi fli ii li st r -> no_loop r).
Proof.
  apply runs_mutind; intros; try exact I; try assumption.
  all: try (unfold exited; match goal with |- no_loop (if ?x then _ else _) => destruct x end; exact I).
  all: try (cbn in *; discriminate).
  all: cbn [in_loops_stmt in_loops in_loops_chain] in *; try tauto.
  destruct r; try discriminate; exact I.
Qed.
End Exec.
