(* C38: saving the configuration. *)
From Verif Require Import Base ConfModel ConfSpec ConfProofs ConfProofs2.
From Coq Require Import Permutation Sorted.

(* The last rule that applies decides. *)
Theorem C38_last_rule_decides : forall path_match name before pat c save warn after inherited unused,
  path_match name pat = true -> concerns c inherited unused = true ->
  (forall r, In r after -> inapplicable path_match name inherited unused r) ->
  save_config_variable path_match name (Some (before ++ (pat, rule_text c save warn) :: after)) inherited unused = Decided save warn.
Proof.
  intros pm name before pat c sv w after i u M C H. unfold save_config_variable.
  rewrite rev_app_distr. cbn [rev]. rewrite <- app_assoc. rewrite persisted_skip_all by (intros r I; apply H; apply in_rev; exact I).
  cbn [app]. rewrite persisted_hit by assumption. reflexivity.
Qed.
Print Assumptions C38_last_rule_decides.

(* And there are defaults. *)
Theorem C38_default_rule : forall path_match name persist inherited unused,
  (forall l r, persist = Some l -> In r l -> inapplicable path_match name inherited unused r) ->
  save_config_variable path_match name persist inherited unused = Decided (fst (default inherited unused)) (snd (default inherited unused)).
Proof.
  intros pm name persist i u H. unfold save_config_variable.
  assert (E : match persist with Some l => persisted pm name i u (rev l) | None => None end = None).
  { destruct persist as [l|]; [|reflexivity]. rewrite <- (app_nil_r (rev l)). rewrite persisted_skip_all; [reflexivity|]. intros r I. apply (H l); [reflexivity | apply in_rev; exact I]. }
  rewrite E. destruct i, u; reflexivity.
Qed.
Print Assumptions C38_default_rule.

(* A rule with an unknown condition or action is diagnosed, once reached. *)
Theorem C38_invalid_rule : forall path_match name before pat t after inherited unused,
  path_match name pat = true ->
  (forall c rest, t <> condition_text c ++ b "=" ++ rest) \/
  (exists c rest, t = condition_text c ++ b "=" ++ rest /\ concerns c inherited unused = true /\ forall save warn, t <> rule_text c save warn) ->
  (forall r, In r after -> inapplicable path_match name inherited unused r) ->
  save_config_variable path_match name (Some (before ++ (pat, t) :: after)) inherited unused = Invalid.
Proof.
  intros pm name before pat t after i u M B H. unfold save_config_variable.
  rewrite rev_app_distr. cbn [rev]. rewrite <- app_assoc. rewrite persisted_skip_all by (intros r I; apply H; apply in_rev; exact I). cbn [app].
  destruct B as [B | (c & rest & -> & C & B)].
  - rewrite persisted_bad_condition by assumption. reflexivity.
  - rewrite persisted_bad_action; [reflexivity | assumption | assumption|]. intros sv w E. apply (B sv w). unfold rule_text. rewrite E. reflexivity.
Qed.
Print Assumptions C38_invalid_rule.

Definition star_match (n p : bytes) : bool := beqb p (b "**") || beqb n p.
Example C38_rules_ex :
  let persist := Some [(b "**", rule_text CUnused true true); (b "config.x", rule_text CUnused false false); (b "config.x", rule_text CInherited true false)] in
  save_config_variable star_match (b "config.x") persist false true = Decided false false /\
  save_config_variable star_match (b "config.y") persist false true = Decided true true /\
  save_config_variable star_match (b "config.x") persist true true = Decided true false /\
  save_config_variable star_match (b "config.y") persist true true = Decided true true /\
  save_config_variable star_match (b "config.y") (Some [(b "**", b "unused=keep")]) false true = Invalid.
Proof. repeat split. Qed.

(* Each variable that is found to be unused is saved or dropped as the rules say, all the
   others are left as they are, and what is said about each is what was done. *)
Theorem C38_unused : forall path_match {V N} persist quiet rvars (ms ms' : list (@smodule V N)) warnings,
  Forall (prefix (b "config.")) rvars -> NoDup (map mname ms) -> mark_unused path_match persist quiet rvars ms = Some (ms', warnings) ->
  (forall v, find_variable v ms' <> None <->
     find_variable v ms <> None \/
     (In v rvars /\ ~ of_config v /\ ~ of_develop v /\ exists w, save_config_variable path_match v persist false true = Decided true w)) /\
  (NoDup rvars ->
   NoDup (map fst warnings) /\
   forall v save, In (v, save) warnings <->
     In v rvars /\ find_variable v ms = None /\ ~ of_config v /\ ~ of_develop v /\
     save_config_variable path_match v persist false true = Decided save true /\ (save = true -> quiet v = false)).
Proof.
  intros pm V N persist quiet rvars ms ms' w C D H. rewrite Forall_forall in C. destruct (mark_all pm persist quiet rvars ms ms' w H D) as (_ & _ & F & W). split.
  - intro v. rewrite F. unfold saves. rewrite special_correct. split; (intros [X | (I & X & Y & Z)]; [auto | right; repeat (split; [assumption|])]; apply (develop_correct v (C v I)) in Y; auto).
  - intros U. destruct (W U) as [W1 W2]. split; [exact W1|]. intros v save. rewrite W2, special_correct. split; intros (I & X & Y & Z & R); repeat (split; [assumption|]); (split; [apply (develop_correct v (C v I)); exact Z | exact R]).
Qed.
Print Assumptions C38_unused.
(* And nothing else makes this fail than a bad rule. *)
Theorem C38_unused_fails : forall path_match {V N} persist quiet rvars (ms : list (@smodule V N)),
  NoDup (map mname ms) -> mark_unused path_match persist quiet rvars ms = None ->
  exists v, In v rvars /\ find_variable v ms = None /\ save_config_variable path_match v persist false true = Invalid.
Proof. intros pm V N persist quiet rvars ms D H. destruct (mark_fails pm persist quiet rvars ms D H) as (v & I & _ & _ & F & X). eauto. Qed.
Print Assumptions C38_unused_fails.

(* A variable that is also overridden comes up twice and so is warned about twice. *)
Theorem C38_warned_once_refuted : exists ms', mark_unused (V := unit) (N := unit) star_match None (fun _ => false) [b "config.x"; b "config.x"] [] = Some (ms', [(b "config.x", false); (b "config.x", false)]).
Proof. eexists. reflexivity. Qed.

Example C38_unused_ex :
  mark_unused (V := unit) (N := unit) star_match (Some [(b "config.foo.x", rule_text CUnused true true)]) (fun _ => false)
    [b "config.build.loaded"; b "config.foo.develop"; b "config.foo.x"; b "config.foo.y"; b "config.cxx"]
    [mksmodule (b "config.cxx") 200 [mksaved (b "config.cxx") (Some no_flags) None]] =
  Some ([mksmodule (b "config.cxx") 200 [mksaved (b "config.cxx") (Some no_flags) None]; mksmodule (b "config.foo") 0 [mksaved (b "config.foo.x") (Some no_flags) None]],
        [(b "config.foo.x", true); (b "config.foo.y", false)]).
Proof. reflexivity. Qed.

(* If modules are registered before variables, then each variable is saved once, whatever
   was registered and found to be unused. *)
Theorem C38_saved_once : forall path_match {V N} persist quiet rvars mods (vars : list (@saved V N)) ms ms' warnings,
  run (map (fun m => SaveModule (fst m) (snd m)) mods ++ map SaveVariable vars) = Some ms ->
  mark_unused path_match persist quiet rvars ms = Some (ms', warnings) ->
  NoDup (map mname ms) /\ NoDup (all_saved ms').
Proof.
  intros pm V N persist quiet rvars mods vars ms ms' w R H.
  assert (A : forall mods (ms : list smodule), valid ms -> all_saved ms = [] -> exists ms', fold_left run_op (map (fun m => SaveModule (V := V) (N := N) (fst m) (snd m)) mods) (Some ms) = Some ms' /\ valid ms').
  { clear. induction mods as [|m mods IH]; intros ms Hv E; [exists ms; auto|]. cbn. destruct (save_module_valid (fst m) (snd m) ms Hv E) as [V1 E1]. apply IH; assumption. }
  assert (B : forall (vars : list (@saved V N)) (ms ms' : list (@smodule V N)), valid ms -> fold_left run_op (map SaveVariable vars) (Some ms) = Some ms' -> valid ms').
  { clear. induction vars as [|v vars IH]; intros ms ms' Hv E; cbn in E; [injection E as <-; exact Hv|].
    destruct (save_variable v ms) as [ms1|] eqn:S; [exact (IH ms1 ms' (save_variable_valid _ _ _ Hv S) E)|].
    exfalso. clear -E. induction vars as [|x vars IH]; [discriminate | exact (IH E)]. }
  unfold run in R. rewrite fold_left_app in R. destruct (A mods [] ltac:(split; [constructor | intros m []]) eq_refl) as (ms1 & E1 & V1). rewrite E1 in R.
  pose proof (B _ _ _ V1 R) as V2. split; [apply V2|]. apply valid_unique. destruct (mark_all pm persist quiet rvars ms ms' w H (proj1 V2)) as (_ & V3 & _). exact (V3 V2).
Qed.
Print Assumptions C38_saved_once.
(* Otherwise not. *)
Theorem C38_saved_once_in_any_order_refuted :
  let s := mksaved (V := unit) (N := unit) (b "config.cxx.foo.x") (Some no_flags) None in
  exists ms, run [SaveVariable s; SaveModule (b "cxx.foo") 0; SaveVariable s] = Some ms /\ all_saved ms = [b "config.cxx.foo.x"; b "config.cxx.foo.x"].
Proof. eexists. split; reflexivity. Qed.
Example C38_saved_once_ex :
  exists ms, run (V := unit) (N := unit) (map (fun m => SaveModule (fst m) (snd m)) [(b "cxx", 200%Z)] ++
    map SaveVariable [mksaved (b "config.cxx") (Some no_flags) None; mksaved (b "config.x.y") None None; mksaved (b "config.cxx.std") (Some no_flags) None; mksaved (b "config.cxx") (Some no_flags) None]) = Some ms /\
  all_saved ms = [b "config.cxx"; b "config.cxx.std"; b "config.x.y"].
Proof. eexists. split; reflexivity. Qed.

(* The modules are written in the order of priority, those with the same in the order
   registered. *)
Theorem C38_order : forall {V N} (ms : list (@smodule V N)),
  Permutation ms (order ms) /\ StronglySorted (fun x y => (prio x <= prio y)%Z) (order ms) /\
  forall p, filter (fun x => (prio x =? p)%Z) (order ms) = filter (fun x => (prio x =? p)%Z) ms.
Proof. intros V N ms. apply order_spec. Qed.
Print Assumptions C38_order.

Section Write.
Context (path_match : bytes -> bytes -> bool) {V N : Type} (vnull vempty vfalse : V -> bool) (nempty : N -> bool) (names_of : V -> N).
Notation wr := (write path_match vnull vempty vfalse nempty names_of).

(* The value from outer project (or a global override) is a base for ours. *)
Definition based (rs : list (@project V N)) (sname v : bytes) (outer : option (@looked V)) (y : V) : Prop :=
  exists o l j r, outer = Some o /\ ovr o = Some l /\ lvalue l = y /\ nth_error rs j = Some r /\ lplace l = Outer j /\ takes_care path_match r sname v /\ (same o = false -> configured r = true).

(* What becomes of a variable with a value. *)
Definition fate (inherit : bool) (rs : list (@project V N)) (sname : bytes) (only : bool) (s : @saved V N) (f : flags) (l : @looked V) (x : @lookup V) (outer : option (@looked V)) (o : outcome) : Prop :=
  let v := lvalue x in
  let default := exists d, org l = Some d /\ ldefault d = true /\ same l = true in
  match o with
  | Omit =>
      (vnull v = true /\ null_omitted f = true) \/ (vnull v = false /\ vempty v = true /\ empty_omitted f = true) \/ (vnull v = false /\ vempty v = false /\ vfalse v = true /\ false_omitted f = true) \/
      (of_configured (svar s) /\ (vfalse v = false \/ only = false)) \/
      (default /\ default_omitted f = true /\ default_commented f = false) \/
      (empty_omitted f = true /\ vnull v = false /\ match custom s with Some g => exists base, (base = None \/ exists y, base = Some y /\ use_base f = true /\ inherit = true /\ based rs sname (svar s) outer y) /\ nempty (fst (g v base)) = true | None => nempty (names_of v) = true end)
  | Inherit =>
      inherit = true /\ lplace x <> Own /\ exists j r, nth_error rs j = Some r /\ (lplace x = Global \/ lplace x = Outer j) /\ takes_care path_match r sname (svar s) /\ (lplace x = Global \/ same l = false -> configured r = true)
  | Comment => default /\ default_commented f = true
  | Null => vnull v = true
  | Line op t =>
      vnull v = false /\ exists base, (base = None \/ exists y, base = Some y /\ use_base f = true /\ inherit = true /\ based rs sname (svar s) outer y) /\
      exists n, (n, op) = match custom s with Some g => g v base | None => (names_of v, b "=") end /\ t = (if nempty n then None else Some n)
  | Fail =>
      inherit = true /\
      ((exists r ms p, In r rs /\ pmodules r = Some (ms, Some p) /\ save_config_variable path_match (svar s) (Some p) false true = Invalid) \/
       (lplace x <> Own /\ lplace x <> Global /\ forall j, j < length rs -> lplace x <> Outer j) \/
       (use_base f = true /\ exists o y, outer = Some o /\ ovr o = Some y /\ forall j, j < length rs -> lplace y <> Outer j))
  end.
Theorem C38_fate_of_each : forall inherit rs sname only s f l x outer,
  sflags s = Some f -> ovr l = Some x -> fate inherit rs sname only s f l x outer (wr inherit rs sname only s l outer).
Proof.
  intros inherit rs sname only s f l x outer Hf Hx. unfold write. rewrite Hf, Hx. cbv zeta.
  destruct (if vnull (lvalue x) then null_omitted f else if vempty (lvalue x) then empty_omitted f else false_omitted f && vfalse (lvalue x)) eqn:O.
  { cbn [fate]. destruct (vnull (lvalue x)) eqn:A; [auto|]. destruct (vempty (lvalue x)) eqn:B; [right; left; auto|]. apply andb_prop in O. right. right. left. tauto. }
  set (write_it := fun base : option V => if ends_with (svar s) (b ".build.configured") && (negb (vfalse (lvalue x)) || negb only) then Omit
    else if match org l with Some o => ldefault o | None => false end && same l && (default_commented f || default_omitted f) then (if default_commented f then Comment else Omit)
    else if vnull (lvalue x) then Null
    else let '(t, op) := match custom s with Some g => g (lvalue x) base | None => (names_of (lvalue x), b "=") end in
         if nempty t && empty_omitted f then Omit else Line op (if nempty t then None else Some t)).
  assert (W : forall base, (base = None \/ exists y, base = Some y /\ use_base f = true /\ inherit = true /\ based rs sname (svar s) outer y) -> fate inherit rs sname only s f l x outer (write_it base)).
  { intros base Hb. unfold write_it. destruct (ends_with (svar s) (b ".build.configured") && (negb (vfalse (lvalue x)) || negb only)) eqn:C.
    { cbn [fate]. apply andb_prop in C. destruct C as [C1 C2]. do 3 right. left. split; [apply ends_with_correct, C1|]. destruct (vfalse (lvalue x)), only; auto; discriminate. }
    destruct (match org l with Some o => ldefault o | None => false end && same l && (default_commented f || default_omitted f)) eqn:D.
    { apply andb_prop in D. destruct D as [D D3]. apply andb_prop in D. destruct D as [D1 D2]. destruct (org l) as [d|] eqn:Og; [|discriminate].
      destruct (default_commented f) eqn:Dc; cbn [fate]; [rewrite Og; split; eauto|]. do 4 right. left. rewrite Og. split; [eauto|]. cbn in D3. auto. }
    destruct (vnull (lvalue x)) eqn:Nl; [exact Nl|].
    destruct (match custom s with Some g => g (lvalue x) base | None => (names_of (lvalue x), b "=") end) as [t op] eqn:T.
    destruct (nempty t && empty_omitted f) eqn:E.
    - apply andb_prop in E. destruct E as [E1 E2]. cbn [fate]. do 5 right. split; [exact E2|]. split; [exact Nl|]. destruct (custom s) as [g|]; [|injection T as <- _; exact E1].
      exists base. split; [exact Hb|]. rewrite T. exact E1.
    - cbn [fate]. split; [exact Nl|]. exists base. split; [exact Hb|]. exists t. rewrite T. auto. }
  change (fate inherit rs sname only s f l x outer
    (if inherit then
       match (match lplace x with Own => NotInherited false | p => find_inherited path_match sname (svar s) p (same l) (match p with Global => true | _ => false end) rs end) with
       | Broken => Fail
       | Inherited => Inherit
       | NotInherited _ =>
           if use_base f then
             match match outer with Some o => option_map (fun y => (y, same o)) (ovr o) | None => None end with
             | Some (y, sm) =>
                 if vnull (lvalue y) || vempty (lvalue y) then write_it None
                 else match find_inherited path_match sname (svar s) (lplace y) sm false rs with Broken => Fail | Inherited => write_it (Some (lvalue y)) | NotInherited _ => write_it None end
             | None => write_it None
             end
           else write_it None
       end
     else write_it None)).
  destruct inherit; [|apply W; auto].
  assert (Base : fate true rs sname only s f l x outer
    (if use_base f then
       match match outer with Some o => option_map (fun y => (y, same o)) (ovr o) | None => None end with
       | Some (y, sm) =>
           if vnull (lvalue y) || vempty (lvalue y) then write_it None
           else match find_inherited path_match sname (svar s) (lplace y) sm false rs with Broken => Fail | Inherited => write_it (Some (lvalue y)) | NotInherited _ => write_it None end
       | None => write_it None
       end
     else write_it None)).
  { destruct (use_base f) eqn:Ub; [|apply W; auto]. destruct outer as [o|]; [|apply W; auto]. destruct (ovr o) as [y|] eqn:Oy; cbn [option_map]; [|apply W; auto].
    destruct (vnull (lvalue y) || vempty (lvalue y)); [apply W; auto|]. destruct (find_inherited path_match sname (svar s) (lplace y) (same o) false rs) eqn:Fi; [|apply W; auto|].
    - apply W. right. exists (lvalue y). repeat split; auto. destruct (find_inherited_inherited _ _ _ _ _ _ _ Fi) as (j & r & E1 & [E2 | E2] & E3 & E4); [discriminate|]. exists o, y, j, r. repeat split; auto.
    - cbn [fate]. split; [reflexivity|]. destruct (find_inherited_broken _ _ _ _ _ _ _ Fi) as [[_ E] | E]; [right; right; split; [exact Ub|]; exists o, y; auto | auto]. }
  destruct (lplace x) as [|k| |] eqn:Pl; [exact Base | | |].
  all: cbv beta iota zeta.
  1: destruct (find_inherited path_match sname (svar s) (Outer k) (same l) false rs) eqn:Fi.
  4: destruct (find_inherited path_match sname (svar s) Global (same l) true rs) eqn:Fi.
  7: destruct (find_inherited path_match sname (svar s) Elsewhere (same l) false rs) eqn:Fi.
  all: try exact Base.
  all: cbn [fate]; split; [reflexivity|].
  all: try (split; [congruence|]; destruct (find_inherited_inherited _ _ _ _ _ _ _ Fi) as (j & r & E1 & E2 & E3 & E4); exists j, r; rewrite Pl; split; [exact E1|]; split; [destruct E2 as [E2 | E2]; auto; discriminate|]; split; [exact E3|]; intros [E5 | E5]; apply E4; auto; discriminate).
  all: destruct (find_inherited_broken _ _ _ _ _ _ _ Fi) as [[E0 E] | E]; [|left; exact E].
  - right. left. rewrite Pl. repeat split; [discriminate | discriminate | exact E].
  - discriminate.
  - right. left. rewrite Pl. repeat split; [discriminate | discriminate | exact E].
Qed.

(* In particular, the value of a variable set in this project (or of any if inherited values
   are to be saved) is always written, unless the variable is registered not to be. *)
Theorem C38_own_values_written : forall inherit rs sname only s l x outer,
  sflags s = Some no_flags -> ovr l = Some x -> (inherit = false \/ lplace x = Own) -> ~ of_configured (svar s) -> custom s = None ->
  wr inherit rs sname only s l outer = if vnull (lvalue x) then Null else Line (b "=") (if nempty (names_of (lvalue x)) then None else Some (names_of (lvalue x))).
Proof.
  intros inherit rs sname only s l x outer Hf Hx P E C. apply not_ends_with in E. unfold write. rewrite Hf, Hx, C, E. cbv zeta. cbn [no_flags null_omitted empty_omitted false_omitted default_commented default_omitted use_base orb andb].
  assert (O : (if vnull (lvalue x) then false else if vempty (lvalue x) then false else false) = false) by (destruct (vnull (lvalue x)), (vempty (lvalue x)); reflexivity). rewrite O. clear O.
  rewrite !Bool.andb_false_r. destruct P as [-> | ->]; [|destruct inherit]; reflexivity.
Qed.
(* And a variable with a value in the outer project which no longer cares for it becomes
   ours. *)
Theorem C38_abandoned_values_written : forall rs sname only s l x outer j r,
  sflags s = Some no_flags -> ovr l = Some x -> lplace x = Outer j -> nth_error rs j = Some r -> ~ takes_care path_match r sname (svar s) ->
  (forall ms p, pmodules r = Some (ms, Some p) -> save_config_variable path_match (svar s) (Some p) false true <> Invalid) ->
  ~ of_configured (svar s) -> custom s = None ->
  wr true rs sname only s l outer = if vnull (lvalue x) then Null else Line (b "=") (if nempty (names_of (lvalue x)) then None else Some (names_of (lvalue x))).
Proof.
  intros rs sname only s l x outer j r Hf Hx P Hj T Iv E C. apply not_ends_with in E. unfold write. rewrite Hf, Hx, C, E, P. cbv zeta. cbn [no_flags null_omitted empty_omitted false_omitted default_commented default_omitted use_base orb andb].
  assert (O : (if vnull (lvalue x) then false else if vempty (lvalue x) then false else false) = false) by (destruct (vnull (lvalue x)), (vempty (lvalue x)); reflexivity). rewrite O. clear O.
  assert (L : forall rs i, nth_error rs (j - i) = Some r -> i <= j -> exists c, outer_loop path_match sname (svar s) (Outer j) (same l) false i rs = Some (false, c, false)).
  { clear rs Hj. induction rs as [|y rs IH]; intros i Hj Le; [destruct (j - i); discriminate|]. cbn [outer_loop orb]. destruct (belongs (Outer j) i) eqn:B; cbn in B.
    - apply Nat.eqb_eq in B. subst i. rewrite Nat.sub_diag in Hj. injection Hj as ->. destruct (pmodules r) as [[ms persist]|] eqn:Pm; [|eexists; reflexivity].
      destruct (find_module sname ms) as [m|] eqn:M; [|eexists; reflexivity]. apply find_module_some in M. destruct M as [Im Em].
      destruct (find_saved (svar s) (svars m)) as [t|] eqn:F.
      + exfalso. apply T. exists ms, persist, m. repeat split; auto. left. apply find_saved_some in F. destruct F as [F1 F2]. apply in_map_iff. eauto.
      + destruct persist as [q|]; [|eexists; reflexivity]. destruct (save_config_variable path_match (svar s) (Some q) false true) as [|[] w] eqn:D; [exfalso; exact (Iv ms q eq_refl D) | | eexists; reflexivity].
        exfalso. apply T. exists ms, (Some q), m. repeat split; auto. right. eauto.
    - apply Nat.eqb_neq in B. destruct (j - i) as [|k] eqn:K; [lia|]. apply (IH (S i)); [|lia]. replace (j - S i) with k by lia. exact Hj. }
  destruct (L rs 0) as [c Hc]; [rewrite Nat.sub_0_r; exact Hj | lia|].
  unfold find_inherited. rewrite Hc. cbn [orb andb]. rewrite !Bool.andb_false_r. reflexivity.
Qed.
End Write.
Print Assumptions C38_fate_of_each.
Print Assumptions C38_own_values_written.
Print Assumptions C38_abandoned_values_written.

(* There is a warning about it, unless the value is an override, but only if that project could have
   taken care of it. *)
Theorem C38_previously_inherited : forall path_match {V N} sname v p (same : bool) (rs : list (@project V N)), (forall r ms persist, In r rs -> pmodules r = Some (ms, persist) -> NoDup (map mname ms)) ->
  (find_inherited path_match sname v p same false rs = NotInherited true <->
   same = true /\ exists j r ms persist, p = Outer j /\ nth_error rs j = Some r /\ pmodules r = Some (ms, persist) /\ ~ takes_care path_match r sname v /\
     ((exists m, In m ms /\ mname m = sname) -> persist = None \/ save_config_variable path_match v persist false true <> Invalid)).
Proof. intros. apply previously_inherited. assumption. Qed.
Print Assumptions C38_previously_inherited.
Example C38_previously_inherited_ex :
  let r := mkproject (Some ([mksmodule (b "config.cxx") 0 [mksaved (b "config.cxx") (Some no_flags) None]], None)) true in
  find_inherited (V := bytes) (N := bytes) star_match (b "config.cxx") (b "config.cxx.std") (Outer 0) true false [r] = NotInherited true /\
  find_inherited (V := bytes) (N := bytes) star_match (b "config.cxx") (b "config.cxx.std") (Outer 0) false false [r] = NotInherited false.
Proof. split; reflexivity. Qed.

(* What is registered and has a value does end up in the file, in the right place. *)
Theorem C38_written_as_decided : forall path_match {V N} vnull vempty vfalse nempty (names_of : V -> N) inherit rs look look_outer ms m s,
  In m ms -> In s (svars m) ->
  In (svar s, write path_match vnull vempty vfalse nempty names_of inherit rs (mname m) (length (svars m) =? 1) s (look (svar s)) (look_outer (svar s)))
     (save_config path_match vnull vempty vfalse nempty names_of inherit rs look look_outer ms).
Proof.
  intros pm V N vn ve vf ne no inherit rs look lo ms m s Im Is. unfold save_config. apply in_flat_map. exists m. split; [apply (Permutation_in _ (proj1 (order_spec ms))); exact Im|].
  apply in_map_iff. exists s. auto.
Qed.
Print Assumptions C38_written_as_decided.

(* An example: a global override of a variable to be based on the value inherited. The
   outer project saves the variable but is not being configured. *)
Definition env_flags := mkflags false false false true false true.
Definition env : @saved bytes bytes := mksaved (b "config.config.environment") (Some env_flags) (Some (fun v _ => (v, b "="))).
Definition gl : @looked bytes := mklooked None (Some (mklookup (b "CC") Global false)) false.
Theorem C38_base_refuted :
  let outer_project := mkproject (Some ([mksmodule (b "config.config") 0 [env]], None)) false in
  write star_match (fun _ => false) (fun v => beqb v []) (fun _ => false) (fun v => beqb v []) (fun v => v) true [outer_project] (b "config.config") true env gl (Some gl) = Fail.
Proof. reflexivity. Qed.
Example C38_write_ex :
  let outer_project c := mkproject (Some ([mksmodule (b "config.cxx") 0 [mksaved (b "config.cxx") (Some no_flags) None]], None)) c in
  let wr := write (V := bytes) (N := bytes) star_match (fun _ => false) (fun v => beqb v []) (fun _ => false) (fun v => beqb v []) (fun v => v) in
  let s n := mksaved n (Some no_flags) None in
  let at_ p := let l := Some (mklookup (b "g++") p false) in mklooked l l true in
  wr true [outer_project false] (b "config.cxx") false (s (b "config.cxx")) (at_ (Outer 0)) None = Inherit /\
  wr true [outer_project false] (b "config.cxx") false (s (b "config.cxx.std")) (at_ (Outer 0)) None = Line (b "=") (Some (b "g++")) /\
  wr true [outer_project false] (b "config.cxx") false (s (b "config.cxx")) (at_ Own) None = Line (b "=") (Some (b "g++")) /\
  wr false [outer_project false] (b "config.cxx") false (s (b "config.cxx")) (at_ (Outer 0)) None = Line (b "=") (Some (b "g++")) /\
  wr true [outer_project false] (b "config.cxx") false (s (b "config.cxx")) (mklooked None (Some (mklookup (b "clang++") (Outer 0) false)) false) None = Line (b "=") (Some (b "clang++")) /\
  wr true [outer_project true] (b "config.cxx") false (s (b "config.cxx")) (mklooked None (Some (mklookup (b "clang++") (Outer 0) false)) false) None = Inherit.
Proof. repeat split. Qed.
