(* C34: looking up variables. *)
From Verif Require Import Base NameModel NameProofs VarModel VarSpec VarProofs.

Section Lookup.
Context {V N K : Type} (w : vops V N).
Implicit Types (chain : list (scope V N K)) (t : target V N K).

(* C34: for a target (with key k and groups gs), the value is the one that is found
   first among what is visible, innermost scope first and, in each scope, what is
   specific to the target first. *)
Theorem C34_lookup vis k gs limit chain :
  fst (lookup_scope w vis (Some (k, gs)) limit chain) =
  meaning w (negb (is_target vis)) (negb limit) 0 (places (k :: gs) (visible vis chain)).
Proof.
  unfold lookup_scope. destruct vis; try (apply look_meaning; [discriminate|reflexivity|lia]). reflexivity.
Qed.
Theorem C34_lookup_scope vis chain :
  fst (lookup_scope w vis None false chain) = meaning w (negb (is_target vis)) true 0 (places [] (visible vis chain)).
Proof.
  unfold lookup_scope. destruct vis; try (apply (look_meaning_scope w); [discriminate|lia]). reflexivity.
Qed.

(* C34: what is not visible does not matter. *)
Lemma visible_idem vis chain : visible vis (visible vis chain) = visible vis chain.
Proof.
  assert (P : project (project chain) = project chain).
  { induction chain as [|s outer IH]; [reflexivity|]. cbn [project]. destruct (root s); [reflexivity|]. rewrite IH. reflexivity. }
  destruct vis; cbn [visible]; try reflexivity; try exact P. destruct chain; reflexivity.
Qed.
Theorem C34_visibility vis ks limit chain chain' : visible vis chain = visible vis chain' -> (ks = None -> limit = false) ->
  fst (lookup_scope w vis ks limit chain) = fst (lookup_scope w vis ks limit chain').
Proof.
  intros H L. destruct ks as [[k gs]|]; [rewrite !C34_lookup, H; reflexivity|]. rewrite (L eq_refl), !C34_lookup_scope, H. reflexivity.
Qed.
Theorem C34_visibility_outside vis ks chain : 
  fst (lookup_scope w vis ks false (visible vis chain)) = fst (lookup_scope w vis ks false chain).
Proof. apply C34_visibility; [apply visible_idem|reflexivity]. Qed.

(* C34: the value of the innermost scope that has one, and how deep that is. *)
Theorem C34_innermost vis chain inner s outer v : vis <> VTarget ->
  visible vis chain = inner ++ s :: outer -> (forall i, In i inner -> svars i = None) -> svars s = Some v ->
  lookup_scope w vis None false chain = (Some (v, MScope (sid s)), Some (S (length inner))).
Proof.
  intros Ht Hv Hi Hs. assert (Hp : vis <> VPrereq) by (intros ->; destruct inner; discriminate).
  assert (L : lookup_scope w vis None false chain = look w vis None false 1 0 chain) by (destruct vis; try reflexivity; contradiction). rewrite L.
  assert (G : forall chain inner d, visible vis chain = inner ++ s :: outer -> (forall i, In i inner -> svars i = None) ->
    look w vis None false 1 d chain = (Some (v, MScope (sid s)), Some (S (length inner) + d))).
  { clear - Hs Hp Ht. induction chain as [|x chain IH]; intros inner d Hv Hi; [destruct vis, inner; discriminate|].
    rewrite visible_cons in Hv by exact Hp. cbn [look]. unfold in_scope. assert (is_target vis = false) as -> by (destruct vis; try reflexivity; contradiction). cbn [Nat.leb negb andb].
    destruct inner as [|i inner]; cbn [app] in Hv; injection Hv as E1 E2; subst x; [rewrite Hs; reflexivity|].
    rewrite (Hi i (or_introl eq_refl)). destruct (stops vis i); [destruct inner; discriminate|]. rewrite (IH inner (S d) E2 (fun j J => Hi j (or_intror J))). cbn [length]. do 2 f_equal. lia. }
  rewrite (G chain inner 0 Hv Hi). do 2 f_equal. lia.
Qed.
Theorem C34_nowhere vis k gs limit chain : (forall s, In s (visible vis chain) -> nothing (k :: gs) s) ->
  fst (lookup_scope w vis (Some (k, gs)) limit chain) = None /\ fst (lookup_scope w vis None false chain) = None.
Proof.
  intros H. rewrite C34_lookup, C34_lookup_scope.
  assert (G : forall plain all (ks : list K) ss, (forall s, In s ss -> nothing ks s) -> meaning w plain all 0 (places ks ss) = None).
  { intros plain all ks ss. induction ss as [|s ss IH]; intros Hn; [reflexivity|]. rewrite places_cons. destruct (Hn s (or_introl eq_refl)) as [N1 N2].
    assert (T : forall r j, (forall x, In x r -> In x ks) -> meaning w plain all 0 (specific s j r ++ Plain s :: places ks ss) = None).
    { induction r as [|x r IHr]; intros j Hr.
      - cbn [specific app meaning]. rewrite N1. destruct (plain && all); apply IH; intros y Hy; apply Hn; right; exact Hy.
      - cbn [specific app meaning]. destruct (j <? 0); [|rewrite (N2 x (Hr x (or_introl eq_refl)))]; apply IHr; intros y Hy; apply Hr; right; exact Hy. }
    apply T. auto. }
  split; apply G; [exact H|]. intros s Hs. split; [exact (proj1 (H s Hs))|intros x []].
Qed.
(* C34: what is specific to the target in a scope overrides what is in that scope and
   in the outer ones. *)
Theorem C34_specific_first vis k gs limit chain s outer m v : visible vis chain = s :: outer -> sfind s k = Some (m, PAssign v) ->
  lookup_scope w vis (Some (k, gs)) limit chain = (Some (v, MPattern (sid s) m), Some 1).
Proof.
  intros Hv Hs. assert (Hp : vis <> VPrereq) by (intros ->; discriminate).
  assert (L : lookup_scope w vis (Some (k, gs)) limit chain = look w vis (Some (k, gs)) limit 1 0 chain) by (destruct vis; try reflexivity; contradiction). rewrite L.
  destruct chain as [|x chain]; [destruct vis; discriminate|]. rewrite visible_cons in Hv by exact Hp. injection Hv as -> _. cbn [look Nat.leb]. rewrite Hs. reflexivity.
Qed.

(* C34: the depth says where the value was found: the n-th (from 0) visible scope has
   depth n + 1 if not looking for a target and 3n + 1 (specific to the target), 3n + 2
   (specific to its group), or 3n + 3 if looking for one. If nothing is found
   then there is no depth. *)
Theorem C34_depth vis k gs limit chain : vis <> VPrereq ->
  match lookup_scope w vis (Some (k, gs)) limit chain with
  | (None, d) => d = None
  | (Some (_, m), d) => exists n s, nth_error (visible vis chain) n = Some s /\
      ((m = MScope (sid s) /\ d = Some (3 * n + 3)) \/ exists p, m = MPattern (sid s) p /\ (d = Some (3 * n + 1) \/ d = Some (3 * n + 2)))
  end.
Proof.
  intros Hp. assert (L : lookup_scope w vis (Some (k, gs)) limit chain = look w vis (Some (k, gs)) limit 1 0 chain) by (destruct vis; try reflexivity; contradiction). rewrite L.
  pose proof (look_depth w vis Hp chain k gs limit 1 0) as H. destruct (look _ _ _ _ _ _ _) as [[[v m]|] d]; cbn [fst snd at_depth] in H; [|exact H].
  destruct H as (n & s & j & H1 & H2 & H3). exists n, s. split; [exact H1|]. subst d. destruct m as [x|x p|x]; [|right|contradiction].
  - left. destruct H3 as [-> ->]. split; [reflexivity|f_equal; lia].
  - destruct H3 as [-> [_ [->| ->]]]; exists p; (split; [reflexivity|]); [left|right]; f_equal; lia.
Qed.
Theorem C34_depth_scope vis chain : vis <> VPrereq ->
  match lookup_scope w vis None false chain with
  | (None, d) => d = None
  | (Some (_, m), d) => exists n s, nth_error (visible vis chain) n = Some s /\ m = MScope (sid s) /\ d = Some (n + 1)
  end.
Proof.
  intros Hp. assert (L : lookup_scope w vis None false chain = look w vis None false 1 0 chain) by (destruct vis; try reflexivity; contradiction). rewrite L.
  pose proof (look_depth_scope w vis Hp chain false 1 0) as H. destruct (look _ _ _ _ _ _ _) as [[[v m]|] d]; cbn [fst snd at_depth] in H; [|exact H].
  destruct H as (n & s & j & H1 & H2 & H3). exists n, s. split; [exact H1|]. subst d. destruct m as [x|x p|x]; [|destruct H3 as [_ [E _]]; discriminate E|contradiction].
  destruct H3 as [-> ->]. split; [reflexivity|f_equal; lia].
Qed.

(* C34: a target's own value, then that of its group, then the scopes. *)
Definition has_value (o : option V) : Prop := exists v, o = Some v /\ null w v = false.
Theorem C34_target_own vis l t v : tvars t = Some v -> null w v = false -> lookup_target w vis l t = (Some (v, MTarget (tid t)), Some 1).
Proof. intros H Hn. unfold lookup_target. rewrite H. cbn [set_]. rewrite Hn. reflexivity. Qed.
Theorem C34_target_group vis l t g v : ~ has_value (tvars t) -> group t = Some (g, Some v) -> null w v = false ->
  lookup_target w vis l t = (Some (v, MTarget g), Some 2).
Proof.
  intros H Hg Hn. unfold lookup_target. rewrite Hg. unfold set_ at 2. rewrite Hn. cbn [negb].
  destruct (tvars t) as [u|] eqn:E; cbn [set_]; [|reflexivity]. destruct (null w u) eqn:En; [reflexivity|]. exfalso. apply H. exists u. auto.
Qed.
Theorem C34_target_scopes vis t : ~ has_value (tvars t) -> (forall g o, group t = Some (g, o) -> ~ has_value o) ->
  let keys := key t :: match group t with Some _ => group_key t | None => [] end in
  fst (lookup_target w vis LNone t) = meaning w (negb (is_target vis)) true 0 (places keys (visible vis (base t))) /\
  fst (lookup_target w vis LTargetType t) = meaning w (negb (is_target vis)) false 0 (places keys (visible vis (base t))).
Proof.
  intros H Hg keys. assert (E1 : match tvars t with Some v => set_ w (Some (v, MTarget (tid t))) | None => false end = false).
  { destruct (tvars t) as [u|]; [|reflexivity]. cbn [set_]. destruct (null w u) eqn:En; [reflexivity|]. exfalso. apply H. exists u. auto. }
  unfold lookup_target. subst keys. rewrite <- (C34_lookup vis (key t) _ false (base t)), <- (C34_lookup vis (key t) _ true (base t)).
  destruct (tvars t) as [u|]; [rewrite E1|cbn [set_]].
  all: destruct (group t) as [[g [v|]]|]; [assert (E2 : set_ w (Some (v, MTarget g)) = false) by (cbn [set_]; destruct (null w v) eqn:En; [reflexivity|exfalso; apply (Hg g (Some v) eq_refl); exists v; auto]); rewrite E2| |].
  all: try rewrite E1; cbn [set_ fst]; auto.
Qed.
Theorem C34_target_limit vis t v m : fst (lookup_target w vis LTarget t) = Some (v, m) ->
  (tvars t = Some v /\ m = MTarget (tid t)) \/ exists g, group t = Some (g, Some v) /\ m = MTarget g.
Proof.
  unfold lookup_target. destruct (tvars t) as [u|]; cbn [set_].
  - destruct (negb (null w u)); cbn [fst]; [intros E; injection E as -> <-; auto|].
    destruct (group t) as [[g [x|]]|]; cbn [set_]; [destruct (negb (null w x))|destruct (negb (null w u))|destruct (negb (null w u))]; cbn [fst]; intros E; injection E as <- <-; eauto.
  - destruct (group t) as [[g [x|]]|]; cbn [set_]; [destruct (negb (null w x))| |]; cbn [fst]; intros E; try discriminate E; injection E as <- <-; eauto.
Qed.
End Lookup.
Print Assumptions C34_lookup.
Print Assumptions C34_lookup_scope.
Print Assumptions C34_visibility.
Print Assumptions C34_visibility_outside.
Print Assumptions C34_innermost.
Print Assumptions C34_nowhere.
Print Assumptions C34_specific_first.
Print Assumptions C34_depth.
Print Assumptions C34_depth_scope.
Print Assumptions C34_target_own.
Print Assumptions C34_target_group.
Print Assumptions C34_target_scopes.
Print Assumptions C34_target_limit.

(* C34: the value that is specific to the target type and name is the one of the most
   derived type that has a matching pattern with the variable and, among those, of the
   most specific pattern. ps: what is assigned for each type, in any order. *)
Theorem C34_most_specific {X Y} (matches : pattern -> bool) (value : X -> option Y) hier (ps : nat -> option (list (pattern * X))) :
  let maps t := option_map (fun l => fold_left (fun m i => pattern_insert (fst i) (snd i) m) l []) (ps t) in
  let candidate t p x y := exists l, ps t = Some l /\ assigned p x l /\ matches p = true /\ value x = Some y in
  match find matches value hier maps with
  | None => forall t p x y, In t hier -> ~ candidate t p x y
  | Some y => exists before t after p x, hier = before ++ t :: after /\ candidate t p x y /\
      (forall u q z y', In u before -> ~ candidate u q z y') /\
      (forall q z y', candidate t q z y' -> q = p \/ more_specific p q)
  end.
Proof.
  intros maps candidate. induction hier as [|t hier IH]; cbn [find]; [intros t p x y []|].
  unfold maps at 1. destruct (ps t) as [l|] eqn:El; cbn [option_map].
  - set (m := fold_left _ l []). assert (S : sorted m) by (apply filled_sorted; exact I).
    assert (I : forall p x, In (p, x) m <-> assigned p x l). { intros p x. unfold m. rewrite filled_in by exact I. cbn. tauto. }
    destruct (find_in matches value (rev m)) as [y|] eqn:E.
    + destruct (find_in_spec matches value y m S E) as (p & x & K1 & [K2 K3] & K4). exists [], t, hier, p, x.
      split; [reflexivity|]. split; [exists l; rewrite <- I; auto|]. split; [intros u q z y' []|]. intros q z y' (l' & J1 & J2 & J3 & J4). rewrite El in J1. injection J1 as <-.
      apply I in J2. destruct (K4 q z y' J2 (conj J3 J4)) as [J|J]; [injection J as -> ->; auto|auto].
    + assert (No : forall p x y, ~ candidate t p x y).
      { intros p x y (l' & J1 & J2 & J3 & J4). rewrite El in J1. injection J1 as <-. apply I in J2. exact (proj1 (find_in_none matches value m) E _ _ _ J2 (conj J3 J4)). }
      destruct (find matches value hier maps) as [y|].
      * destruct IH as (bf & u & af & p & x & -> & K1 & K2 & K3). exists (t :: bf), u, af, p, x. split; [reflexivity|]. split; [exact K1|]. split; [|exact K3].
        intros u' q z y' [<-|J]; [apply No|apply K2; exact J].
      * intros u p x y [<-|J]; [apply No|apply IH; exact J].
  - assert (No : forall p x y, ~ candidate t p x y) by (intros p x y (l' & J1 & _); congruence).
    destruct (find matches value hier maps) as [y|].
    + destruct IH as (bf & u & af & p & x & -> & K1 & K2 & K3). exists (t :: bf), u, af, p, x. split; [reflexivity|]. split; [exact K1|]. split; [|exact K3].
      intros u' q z y' [<-|J]; [apply No|apply K2; exact J].
    + intros u p x y [<-|J]; [apply No|apply IH; exact J].
Qed.
Print Assumptions C34_most_specific.
(* Being more specific leaves no choice. *)
Theorem C34_specific_order : (forall p, ~ more_specific p p) /\ (forall p q r, more_specific p q -> more_specific q r -> more_specific p r) /\
  forall p q, p = q \/ more_specific p q \/ more_specific q p.
Proof. split; [exact more_irrefl|]. split; [exact more_trans|exact more_total]. Qed.
Print Assumptions C34_specific_order.

(* Values as lists of numbers, or NULL. *)
Definition ex_ops : vops (option (list nat)) (list nat) :=
  mkvops _ _ (fun v => match v with None => true | _ => false end) (fun o => match o with Some v => v | None => None end)
    (fun v n => Some (n ++ match v with Some l => l | None => [] end)) (fun v n => Some (match v with Some l => l | None => [] end ++ n)).
Definition global : scope (option (list nat)) (list nat) nat := mkscope 0 false (Some (Some [0])) (fun _ => None).
Definition proj_root : scope (option (list nat)) (list nat) nat := mkscope 1 true None (fun k => if k =? 7 then Some (0, PAppend (Some [1])) else None).
Definition src : scope (option (list nat)) (list nat) nat := mkscope 2 false None (fun k => if k =? 7 then Some (0, PPrepend (Some [2])) else if k =? 8 then Some (1, PAssign (Some [8])) else None).
Example C34_ex : lookup_scope ex_ops VGlobal None false [src; proj_root; global] = (Some (Some [0], MScope 0), Some 3) /\
  lookup_scope ex_ops VProject None false [src; proj_root; global] = (None, None) /\
  lookup_scope ex_ops VGlobal (Some (7, [8])) false [src; proj_root; global] = (Some (Some [2; 8], MPattern 2 0), Some 1) /\
  lookup_scope ex_ops VGlobal (Some (7, [])) false [src; proj_root; global] = (Some (Some [2; 0; 1], MPattern 2 0), Some 1) /\
  lookup_scope ex_ops VTarget (Some (7, [])) false [src; proj_root; global] = (Some (Some [2; 1], MPattern 2 0), Some 1) /\
  lookup_scope ex_ops VGlobal (Some (9, [8])) false [proj_root; global] = (Some (Some [0], MScope 0), Some 6).
Proof. repeat split. Qed.
Example C34_innermost_ex : visible VGlobal [src; proj_root; global] = [src; proj_root] ++ global :: [] /\ (forall i, In i [src; proj_root] -> svars i = None) /\ svars global = Some (Some [0]).
Proof. repeat split. intros i [<-|[<-|[]]]; reflexivity. Qed.
Example C34_visibility_ex : visible VProject [src; proj_root; global] = visible VProject [src; proj_root] /\ visible VScope [src; proj_root; global] = [src].
Proof. split; reflexivity. Qed.
Example C34_nowhere_ex : forall s, In s (visible VProject [src; proj_root; global]) -> nothing [9; 10] s.
Proof. intros s [<-|[<-|[]]]; split; try reflexivity; intros k [<-|[<-|[]]]; reflexivity. Qed.
Example C34_target_ex :
  lookup_target ex_ops VGlobal LNone (mktarget 5 None (Some (6, Some (Some [6]))) 7 [8] [src; proj_root; global]) = (Some (Some [6], MTarget 6), Some 2) /\
  lookup_target ex_ops VGlobal LNone (mktarget 5 None (Some (6, None)) 7 [8] [src; proj_root; global]) = (Some (Some [2; 8], MPattern 2 0), Some 3).
Proof. split; reflexivity. Qed.
(* file{*.c}: x = 1; file{f*.c}: x = 2; file{~/x/}: x = 3; all match. *)
Example C34_most_specific_ex :
  let ps := [(mkpattern false (b "f*.c"), 2); (mkpattern false (b "*.c"), 1); (mkpattern false (b "*.h"), 4)] in
  let run l := find (fun p => negb (beqb (text p) (b "*.h"))) (fun x => Some x) [5; 6] (fun t => if t =? 6 then Some (fold_left (fun m i => pattern_insert (fst i) (snd i) m) l []) else None) in
  run ps = Some 2 /\ run (rev ps) = Some 2 /\ run ((mkpattern true (b "x"), 3) :: ps) = Some 3.
Proof. repeat split. Qed.

(* A NULL value of a target does not hide what is in the scopes (while that of a scope
   does hide what is in the outer ones). *)
Theorem C34_null_of_target_refuted :
  ~ (forall (t : target (option (list nat)) (list nat) nat) v, tvars t = Some v -> fst (lookup_target ex_ops VGlobal LNone t) = Some (v, MTarget (tid t))) /\
  (forall (chain : list (scope (option (list nat)) (list nat) nat)) s outer v, visible VGlobal chain = s :: outer -> svars s = Some v -> fst (lookup_scope ex_ops VGlobal None false chain) = Some (v, MScope (sid s))).
Proof.
  split.
  - intros H. specialize (H (mktarget 5 (Some None) None 9 [] [global]) None eq_refl). vm_compute in H. discriminate.
  - intros chain s outer v H Hs. rewrite (C34_innermost ex_ops VGlobal chain [] s outer v); [reflexivity|discriminate|exact H|intros i []|exact Hs].
Qed.
Print Assumptions C34_null_of_target_refuted.
