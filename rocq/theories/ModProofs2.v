(* Proofs: booting and initializing. *)
From Verif Require Import Base ModModel ModSpec ModProofs.

Lemma entry_name l m e : entry l m = Some e -> ms_name e = m /\ In e l.
Proof. induction l as [|x l IH]; cbn; [discriminate|]. destruct (beqb (ms_name x) m) eqn:B; [intros H; injection H; intros ->; split; [now apply beqb_eq|now left]|]. intros H. destruct (IH H). auto. Qed.
Lemma entry_none l m : entry l m = None <-> ~ In m (map ms_name l).
Proof.
  induction l as [|x l IH]; cbn; [now split|]. destruct (beqb (ms_name x) m) eqn:B.
  - apply beqb_eq in B. split; [discriminate|]. intros N. exfalso. apply N. now left.
  - rewrite IH. split; [|tauto]. intros N [H|H]; [subst; now rewrite beqb_refl in B|tauto].
Qed.
Lemma entry_app l m e m' : ms_name e = m -> entry l m = None -> entry (l ++ [e]) m' = if beqb m m' then Some e else entry l m'.
Proof.
  intros <-. induction l as [|x l IH]; cbn; intros N; [reflexivity|]. destruct (beqb (ms_name x) (ms_name e)) eqn:B; [discriminate|]. rewrite (IH N).
  destruct (beqb (ms_name x) m') eqn:B'; [|reflexivity]. apply beqb_eq in B'. subst m'. destruct (beqb (ms_name e) (ms_name x)) eqn:B2; [|reflexivity]. apply beqb_eq in B2. rewrite B2, beqb_refl in B. discriminate.
Qed.
Lemma entry_set l m e m' : ms_name e = m -> entry l m <> None -> entry (set_entry m e l) m' = if beqb m m' then Some e else entry l m'.
Proof.
  intros N. induction l as [|x l IH]; cbn; [easy|]. destruct (beqb (ms_name x) m) eqn:B.
  - intros _. rewrite N. destruct (beqb m m') eqn:B'; [reflexivity|]. apply beqb_eq in B. rewrite B, B'. clear IH. induction l as [|y l IH]; cbn; [reflexivity|].
    destruct (beqb (ms_name y) m) eqn:By; [|now rewrite IH]. apply beqb_eq in By. now rewrite N, By, B', IH.
  - intros H. specialize (IH H). unfold set_entry in IH. rewrite IH. destruct (beqb (ms_name x) m') eqn:B'; [|reflexivity]. apply beqb_eq in B'. subst m'. destruct (beqb m (ms_name x)) eqn:B2; [|reflexivity]. apply beqb_eq in B2. rewrite B2, beqb_refl in B. discriminate.
Qed.
Lemma names_set l m e : ms_name e = m -> map ms_name (set_entry m e l) = map ms_name l.
Proof. intros N. unfold set_entry. rewrite map_map. apply map_ext. intros x. destruct (beqb (ms_name x) m) eqn:B; [|reflexivity]. apply beqb_eq in B. congruence. Qed.
Lemma nodup_app (l : list bytes) m : NoDup l -> ~ In m l -> NoDup (l ++ [m]).
Proof.
  induction l as [|x l IH]; cbn; intros D N; [constructor; [easy|constructor]|]. inversion D; subst. constructor; [|apply IH; tauto]. rewrite in_app_iff. cbn. intros [H|[H|[]]]; [contradiction|]. subst. tauto.
Qed.

Section Init.
  Context (imp : nat -> bytes -> bool -> bool -> bool -> imp_result) (funs : bytes -> bytes -> list func) (bundled : bytes -> bool).
  Context (WF : proper funs).

  Definition has (s : st) (p : nat) (m : bytes) : Prop := exists e, entry (loaded s p) m = Some e /\ ms_boot e = None.
  (* X: modules about to be called. *)
  Record invi (X : nat -> bytes -> Prop) (s : st) : Prop := {
    i_var : forall p sc m v, getv (vars s) (p, sc, m) = Some v -> match v with Some (false, _) => entry (loaded s p) m = None /\ notfound s p m | _ => has s p m end;
    i_enter : forall p m, entered p m (log s) -> has s p m;
    i_left : forall p sc m, left_in p sc m (log s) -> exists c, getv (vars s) (p, sc, m) = Some (Some (true, c));
    i_first : forall p m, 1 <= stage s p -> has s p m -> X p m \/ entered p m (log s);
    i_none : forall p, stage s p = 0 -> (forall sc m, getv (vars s) (p, sc, m) = None) /\ forall m, ~ entered p m (log s) }.
  Definition inv (s : st) : Prop := inv0 imp funs bundled s /\ invi (fun _ _ => False) s.

  Lemma entered_only p m s s' : (exists l, log s' = l ++ log s /\ Forall is_import l) -> entered p m (log s') <-> entered p m (log s).
  Proof.
    intros (l & -> & F). split; intros (sc & f & o & H); exists sc, f, o; [|apply in_app_iff; now right]. apply in_app_iff in H. destruct H as [H|H]; [|assumption].
    rewrite Forall_forall in F. now apply F in H.
  Qed.
  Lemma left_only p sc m s s' : (exists l, log s' = l ++ log s /\ Forall is_import l) -> left_in p sc m (log s') <-> left_in p sc m (log s).
  Proof.
    intros (l & -> & F). split; intros (c & H); exists c; [|apply in_app_iff; now right]. apply in_app_iff in H. destruct H as [H|H]; [|assumption].
    rewrite Forall_forall in F. now apply F in H.
  Qed.
  Lemma grows_invi X s s' : grows s s' -> invi X s -> invi X s'.
  Proof.
    intros [G1 G2 G3 G4 G5 G6] [A B C D E]. constructor.
    - intros p sc m v. rewrite G5. intros H. specialize (A p sc m v H). unfold has in *. rewrite G4. destruct v as [[[|] c]|]; auto. destruct A. auto.
    - intros p m H. apply (entered_only _ _ _ _ G3) in H. unfold has. rewrite G4. now apply B.
    - intros p sc m H. apply (left_only _ _ _ _ _ G3) in H. rewrite G5. now apply C.
    - intros p m. unfold has. rewrite G4, G6. intros St H. destruct (D p m St H) as [Hx|Hx]; [now left|]. right. now apply (entered_only _ _ _ _ G3).
    - intros p. rewrite G6, G5. intros St. destruct (E p St) as [X1 X2]. split; [assumption|]. intros m H. apply (entered_only _ _ _ _ G3) in H. now apply (X2 m).
  Qed.

  (* Changes of the modules of a project. *)
  Lemma core_loaded s p l : core imp funs bundled s -> NoDup (map ms_name l) ->
    (forall m e, entry l m = Some e -> f_name (ms_fun e) = m /\ (exists d, In (ms_fun e) (funs (main m) d)) /\ get (imported s p) (main m) = Some true) ->
    core imp funs bundled (set_loaded p l s).
  Proof.
    intros [A B C D] N H. constructor; cbn [set_loaded libs imported loaded log]; auto.
    - intros q m e. destruct (Nat.eq_dec q p) as [->|Nq]; [rewrite upd_same; apply H|rewrite (upd_other _ _ _ _ Nq); apply C].
    - intros q. destruct (Nat.eq_dec q p) as [->|Nq]; [now rewrite upd_same|now rewrite (upd_other _ _ _ _ Nq)].
  Qed.
  Lemma inv0_loaded s p l : inv0 imp funs bundled s -> NoDup (map ms_name l) ->
    (forall m e, entry l m = Some e -> f_name (ms_fun e) = m /\ (exists d, In (ms_fun e) (funs (main m) d)) /\ get (imported s p) (main m) = Some true) ->
    inv0 imp funs bundled (set_loaded p l s).
  Proof. intros (C & O & L) N H. split; [now apply core_loaded|]. now split. Qed.
  Lemma invi_loaded (X Y : nat -> bytes -> Prop) s p l : invi X s -> (forall q m, X q m -> Y q m) ->
    (forall m, has s p m -> exists e, entry l m = Some e /\ ms_boot e = None) ->
    (forall m, entry (loaded s p) m = None -> notfound s p m -> entry l m = None) ->
    (forall m e, 1 <= stage s p -> entry l m = Some e -> ms_boot e = None -> Y p m \/ has s p m) ->
    invi Y (set_loaded p l s).
  Proof.
    intros [A B C D E] XY H1 H2 H3.
    assert (Hs : forall q m, has s q m -> has (set_loaded p l s) q m).
    { intros q m H. unfold has. cbn [set_loaded loaded]. destruct (Nat.eq_dec q p) as [->|Nq]; [rewrite upd_same; now apply H1|now rewrite (upd_other _ _ _ _ Nq)]. }
    constructor; cbn [set_loaded vars log stage]; auto.
    - intros q sc m v G. specialize (A q sc m v G). destruct v as [[[|] c]|]; auto. destruct A as [A1 A2]. split; [|exact A2]. cbn [set_loaded loaded].
      destruct (Nat.eq_dec q p) as [->|Nq]; [rewrite upd_same; now apply H2|now rewrite (upd_other _ _ _ _ Nq)].
    - intros q m St (e & E1 & E2). cbn [set_loaded loaded] in E1. destruct (Nat.eq_dec q p) as [->|Nq].
      + rewrite upd_same in E1. destruct (H3 m e St E1 E2) as [Hy|Hy]; [now left|]. destruct (D p m St Hy) as [Hx|Hx]; [left; now apply XY|now right].
      + rewrite (upd_other _ _ _ _ Nq) in E1. destruct (D q m St (ex_intro _ e (conj E1 E2))) as [Hx|Hx]; [left; now apply XY|now right].
  Qed.

  (* Booting: at that time the project has no calls. *)
  Definition pending (s s' : st) (p : nat) : Prop := forall m, has s' p m -> has s p m.
  Definition boot_ok (p : nat) (s : st) (r : R unit) : Prop :=
    match r with
    | (s', Done _) => inv s' /\ stage s' = stage s /\ (forall q, q <> p -> loaded s' q = loaded s q) /\ pending s s' p /\ (forall m, entry (loaded s p) m <> None -> entry (loaded s' p) m <> None)
    | (s', _) => log_ok imp bundled (log s')
    end.
  Lemma each_boot p (f : bytes -> st -> R unit) : (forall m s, inv s -> stage s p = 0 -> boot_ok p s (f m s)) ->
    forall ms s, inv s -> stage s p = 0 -> boot_ok p s (each f ms s).
  Proof.
    intros F. induction ms as [|m ms IH]; intros s I St; cbn [each].
    - cbn [boot_ok]. split; [assumption|]. split; [reflexivity|]. split; [reflexivity|]. split; [intros m H; exact H|auto].
    - specialize (F m s I St). destruct (f m s) as [s1 [[]| | |]]; cbn [bind boot_ok] in *; auto. destruct F as (I1 & S1 & L1 & P1 & K1).
      specialize (IH s1 I1). rewrite S1 in IH. specialize (IH St). destruct (each f ms s1) as [s2 [[]| | |]]; cbn [boot_ok] in *; auto.
      destruct IH as (I2 & S2 & L2 & P2 & K2). split; [assumption|]. split; [congruence|]. split; [intros q Nq; now rewrite L2, L1|]. split; [intros m' H; now apply P1, P2|].
      intros m' H. now apply K2, K1.
  Qed.
  Lemma stage0_has s p : inv s -> stage s p = 0 -> (forall sc m v, getv (vars s) (p, sc, m) = Some v -> False) /\ forall m, ~ entered p m (log s).
  Proof. intros [_ I] St. destruct (i_none _ _ I p St) as [A B]. split; [|assumption]. intros sc m v. now rewrite A. Qed.
  (* With no calls nor values, any change of the modules is fine. *)
  Lemma invi_boot s p l : invi (fun _ _ => False) s -> stage s p = 0 -> invi (fun _ _ => False) (set_loaded p l s).
  Proof.
    intros [A B C D E] St. destruct (E p St) as [E1 E2].
    assert (Hs : forall q m, q <> p -> has (set_loaded p l s) q m <-> has s q m) by (intros q m Nq; unfold has; cbn [set_loaded loaded]; now rewrite (upd_other _ _ _ _ Nq)).
    constructor; cbn [set_loaded vars log stage]; auto.
    - intros q sc m v G. destruct (Nat.eq_dec q p) as [->|Nq]; [rewrite E1 in G; discriminate|]. specialize (A q sc m v G). destruct v as [[[|] c]|]; try (now apply (Hs q m Nq)).
      cbn [set_loaded loaded]. rewrite (upd_other _ _ _ _ Nq). exact A.
    - intros q m H. destruct (Nat.eq_dec q p) as [->|Nq]; [now apply E2 in H|]. apply (Hs q m Nq). now apply B.
    - intros q m Sq H. destruct (Nat.eq_dec q p) as [->|Nq]; [rewrite St in Sq; inversion Sq|]. apply (Hs q m Nq) in H. now apply D.
  Qed.
  Lemma boot_spec n : forall p m s, inv s -> stage s p = 0 -> boot_ok p s (boot_module imp funs bundled n p m s).
  Proof.
    induction n as [|n IH]; intros p m s I St; cbn [boot_module]; [apply I|]. destruct (entry (loaded s p) m) as [e|] eqn:E.
    - destruct (ms_boot e) eqn:Eb; [|apply I]. cbn [boot_ok]. split; [assumption|]. split; [reflexivity|]. split; [reflexivity|]. split; [intros m' H; exact H|auto].
    - destruct I as [I0 Ii]. pose proof (find_spec imp funs bundled WF p m true false s I0) as F. destruct (find_module imp funs bundled p m true false s) as [s1 [[f|]| | |]]; cbn [bind found_post] in *; try apply F; try contradiction.
      2:{ destruct F as (I1 & G & _). cbn [boot_ok]. split; [split; [assumption|]; now apply (grows_invi _ s)|]. destruct G as [G1 G2 G3 G4 G5 G6]. split; [assumption|]. split; [intros; now rewrite G4|].
          unfold pending, has. rewrite G4. split; auto. }
      destruct F as (I1 & G & N & D & Im & _). pose proof (grows_invi _ _ _ G Ii) as Ii1. assert (G4 := g_loaded _ _ G). assert (G6 := g_stage _ _ G).
      destruct (f_boot f) as [[[bs post] v]|]; [|apply I1].
      assert (C1 : forall m e, entry (loaded s1 p) m = Some e -> f_name (ms_fun e) = m /\ (exists d, In (ms_fun e) (funs (main m) d)) /\ get (imported s1 p) (main m) = Some true) by (apply (c_ent _ _ _ _ (proj1 I1))).
      assert (E1 : entry (loaded s1 p) m = None) by now rewrite G4.
      set (s2 := set_loaded p (loaded s1 p ++ [mkms m f None None]) s1).
      assert (I2 : inv s2).
      { split; [|apply invi_boot; [assumption|now rewrite G6]]. apply inv0_loaded; [assumption| |].
        - rewrite map_app. cbn [map ms_name]. apply nodup_app; [apply (c_nd _ _ _ _ (proj1 I1))|now apply entry_none].
        - intros m' e' E'. rewrite (entry_app _ m) in E'; [|reflexivity|assumption]. destruct (beqb m m') eqn:B; [|now apply C1]. apply beqb_eq in B. subst m'. injection E'; intros <-. cbn [ms_fun]. auto. }
      assert (S2 : stage s2 p = 0) by (cbn; now rewrite G6).
      pose proof (each_boot p (boot_module imp funs bundled n p) (IH p) bs s2 I2 S2) as Eb.
      destruct (each (boot_module imp funs bundled n p) bs s2) as [s3 [[]| | |]]; cbn [bind boot_ok] in *; auto. destruct Eb as (I3 & S3 & L3 & P3 & K3).
      assert (E2 : entry (loaded s2 p) m = Some (mkms m f None None)) by (unfold s2; cbn [set_loaded loaded]; rewrite upd_same, (entry_app _ m); [now rewrite beqb_refl|reflexivity|assumption]).
      assert (E3 : entry (loaded s3 p) m <> None) by (apply K3; rewrite E2; discriminate).
      assert (C3 := c_ent _ _ _ _ (proj1 (proj1 I3))).
      split; [split|].
      + apply inv0_loaded; [apply I3|rewrite names_set; [apply (c_nd _ _ _ _ (proj1 (proj1 I3)))|reflexivity]|]. intros m' e' E'. rewrite entry_set in E'; [|reflexivity|assumption].
        destruct (beqb m m') eqn:B; [|now apply C3]. apply beqb_eq in B. subst m'. injection E'; intros <-. cbn [ms_fun]. split; [assumption|]. split; [assumption|].
        destruct (entry (loaded s3 p) m) as [e3|] eqn:Ee; [|contradiction]. now destruct (C3 p m e3 Ee) as (_ & _ & X).
      + apply invi_boot; [apply I3|]. congruence.
      + cbn [set_loaded stage loaded]. split; [rewrite S3; cbn; exact G6|]. split; [intros q Nq; rewrite (upd_other _ _ _ _ Nq), (L3 q Nq); cbn; now rewrite (upd_other _ _ _ _ Nq), G4|]. split.
        * intros m' (e' & H1 & H2). cbn [set_loaded loaded] in H1. rewrite upd_same, entry_set in H1; [|reflexivity|assumption]. destruct (beqb m m') eqn:B; [injection H1; intros; subst; discriminate|].
          destruct (P3 m' (ex_intro _ e' (conj H1 H2))) as (e2 & X1 & X2). unfold s2 in X1. cbn [set_loaded loaded] in X1. rewrite upd_same, (entry_app _ m) in X1; [|reflexivity|assumption]. rewrite B, G4 in X1.
          now exists e2.
        * intros m' H. rewrite upd_same, entry_set; [|reflexivity|assumption]. destruct (beqb m m') eqn:B; [discriminate|]. apply K3. unfold s2. cbn [set_loaded loaded].
          rewrite upd_same, (entry_app _ m); [|reflexivity|assumption]. now rewrite B, G4.
  Qed.

  (* Initializing. *)
  Record keeps (p : nat) (s s' : st) : Prop := {
    k_stage : stage s' = stage s;
    k_log : exists l, log s' = l ++ log s;
    k_other : forall q, q <> p -> loaded s' q = loaded s q;
    k_mode : forall m e' v, entry (loaded s' p) m = Some e' -> ms_boot e' = Some v -> exists e, entry (loaded s p) m = Some e /\ ms_boot e = Some v;
    k_entry : forall m, entry (loaded s p) m <> None -> entry (loaded s' p) m <> None }.
  Lemma keeps_refl p s : keeps p s s.
  Proof. constructor; eauto. now exists []. Qed.
  Lemma keeps_trans p s1 s2 s3 : keeps p s1 s2 -> keeps p s2 s3 -> keeps p s1 s3.
  Proof.
    intros [A (la & B) C D E] [A' (lb & B') C' D' E']. constructor; auto; try congruence.
    - exists (lb ++ la). now rewrite B', B, app_assoc.
    - intros q Nq. now rewrite C', C.
    - intros m e' v H1 H2. destruct (D' m e' v H1 H2) as (e & H3 & H4). eauto.
  Qed.
  Lemma grows_keeps p s s' : grows s s' -> keeps p s s'.
  Proof. intros [G1 G2 (l & G3 & _) G4 G5 G6]. constructor; rewrite ?G4; eauto. Qed.

  Definition obtained (p : nat) (m : bytes) (opt : bool) (s : st) (r : R (option func * bool)) : Prop :=
    match r with
    | (s', Done (fn, f)) =>
        inv0 imp funs bundled s' /\ invi (fun q m' => q = p /\ m' = m /\ f = true) s' /\ keeps p s s' /\
        (f = false <-> entered p m (log s')) /\
        (f = true -> forall sc, match getv (vars s') (p, sc, m) with None => True | Some (Some (false, _)) => fn = None | _ => False end) /\
        match fn with
        | Some fn => has s' p m /\ f_name fn = m /\ exists d, In fn (funs (main m) d)
        | None => entry (loaded s' p) m = None /\ notfound s' p m /\ opt = true
        end
    | (s', Crashed) => False
    | (s', _) => log_ok imp bundled (log s')
    end.
  Lemma find_opt p m s s' : find_module imp funs bundled p m false false s = (s', Done None) -> False.
  Proof.
    unfold find_module. cbv zeta. destruct (match get (imported s p) (main m) with Some false => _ | _ => _ end) as [s1 [[[n f]|]| | |]]; cbn [bind orb]; try discriminate.
    destruct (beqb n m); discriminate.
  Qed.
  Lemma obtain_spec p m opt s : inv s -> 1 <= stage s p -> obtained p m opt s (obtain imp funs bundled p m opt s).
  Proof.
    intros [I0 Ii] St. unfold obtain. destruct (entry (loaded s p) m) as [e|] eqn:E.
    - destruct (c_ent _ _ _ _ (proj1 I0) p m e E) as (N & D & Im). destruct (entry_name _ _ _ E) as [En _].
      destruct (ms_boot e) as [v|] eqn:Eb; cbn [obtained].
      + set (e1 := mkms (ms_name e) (ms_fun e) (ms_post e) None).
        assert (Hn : ~ has s p m) by (intros (e' & X & Y); congruence).
        assert (Hx : forall m', entry (set_entry m e1 (loaded s p)) m' = if beqb m m' then Some e1 else entry (loaded s p) m') by (intros m'; apply entry_set; [exact En|rewrite E; discriminate]).
        assert (Nm : forall m', ~ (m' = m) -> entry (set_entry m e1 (loaded s p)) m' = entry (loaded s p) m') by (intros m' Nm; rewrite Hx, beqb_neq; [reflexivity|congruence]).
        split; [apply inv0_loaded; [assumption|rewrite names_set; [apply (c_nd _ _ _ _ (proj1 I0))|exact En]|]|].
        { intros m' e' E'. rewrite Hx in E'. destruct (beqb m m') eqn:B; [|now apply (c_ent _ _ _ _ (proj1 I0))]. apply beqb_eq in B. subst m'. injection E'; intros <-. cbn [e1 ms_fun]. auto. }
        split; [apply (invi_loaded (fun _ _ => False)); [assumption|easy| | |]|].
        { intros m' H. rewrite Hx. destruct (beqb m m') eqn:B; [now exists e1|exact H]. }
        { intros m' H1 H2. rewrite Hx. destruct (beqb m m') eqn:B; [|assumption]. apply beqb_eq in B. subst m'. congruence. }
        { intros m' e' _ H1 H2. rewrite Hx in H1. destruct (beqb m m') eqn:B; [left; apply beqb_eq in B; auto|]. right. now exists e'. }
        split; [constructor; cbn [set_loaded stage log loaded]; auto|].
        { now exists []. } { intros q Nq. now rewrite (upd_other _ _ _ _ Nq). }
        { intros m' e' v' H1 H2. rewrite upd_same, Hx in H1. destruct (beqb m m') eqn:B; [injection H1; intros <-; discriminate|]. eauto. }
        { intros m' H. rewrite upd_same, Hx. now destruct (beqb m m'). }
        split; [split; [discriminate|]; intros H; exfalso; now apply Hn, (i_enter _ _ Ii)|].
        split; [|split; [exists e1; cbn [set_loaded loaded]; rewrite upd_same, Hx, beqb_refl; auto|auto]].
        intros _ sc. cbn [set_loaded vars]. destruct (getv (vars s) (p, sc, m)) as [w|] eqn:Gv; [|exact Logic.I]. pose proof (i_var _ _ Ii _ _ _ _ Gv) as V.
        destruct w as [[[|] c]|]; try (now apply Hn). destruct V; congruence.
      + assert (Hs : has s p m) by now exists e.
        split; [assumption|]. split; [destruct Ii as [A B C Df Ee]; constructor; auto; intros q m' Sq H; destruct (Df q m' Sq H) as [[]|X]; now right|]. split; [apply keeps_refl|].
        split; [split; [intros _; destruct (i_first _ _ Ii p m St Hs) as [[]|X]; exact X|reflexivity]|]. split; [discriminate|]. auto.
    - pose proof (find_spec imp funs bundled WF p m false opt s I0) as F. destruct (find_module imp funs bundled p m false opt s) as [s1 [[f|]| | |]] eqn:Ef; cbn [bind found_post] in *; try apply F; try contradiction.
      + destruct F as (I1 & G & N & D & Im & Lm). pose proof (grows_invi _ _ _ G Ii) as Ii1. assert (G4 := g_loaded _ _ G). assert (G6 := g_stage _ _ G).
        destruct (f_boot f); [apply I1|]. cbn [obtained]. set (e1 := mkms m f None None).
        assert (E1 : entry (loaded s1 p) m = None) by now rewrite G4.
        assert (Hx : forall m', entry (loaded s1 p ++ [e1]) m' = if beqb m m' then Some e1 else entry (loaded s1 p) m') by (intros m'; now apply entry_app).
        assert (Hn : ~ has s1 p m) by (intros (e' & X & Y); congruence).
        split; [apply inv0_loaded; [assumption| |]|].
        { rewrite map_app. cbn [map ms_name e1]. apply nodup_app; [apply (c_nd _ _ _ _ (proj1 I1))|now apply entry_none]. }
        { intros m' e' E'. rewrite Hx in E'. destruct (beqb m m') eqn:B; [|now apply (c_ent _ _ _ _ (proj1 I1))]. apply beqb_eq in B. subst m'. injection E'; intros <-. cbn [e1 ms_fun]. auto. }
        assert (Nf : ~ notfound s1 p m) by (intros [X|[_ X]]; congruence).
        split; [apply (invi_loaded (fun _ _ => False)); [assumption|easy| | |]|].
        { intros m' H. rewrite Hx. destruct (beqb m m') eqn:B; [now exists e1|exact H]. }
        { intros m' H1 H2. rewrite Hx. destruct (beqb m m') eqn:B; [|assumption]. apply beqb_eq in B. subst m'. contradiction. }
        { intros m' e' _ H1 H2. rewrite Hx in H1. destruct (beqb m m') eqn:B; [left; apply beqb_eq in B; auto|]. right. now exists e'. }
        split; [apply (keeps_trans _ _ s1); [now apply grows_keeps|]; constructor; cbn [set_loaded stage log loaded]; auto|].
        { now exists []. } { intros q Nq. now rewrite (upd_other _ _ _ _ Nq). }
        { intros m' e' v' H1 H2. rewrite upd_same, Hx in H1. destruct (beqb m m') eqn:B; [injection H1; intros <-; discriminate|]. eauto. }
        { intros m' H. rewrite upd_same, Hx. now destruct (beqb m m'). }
        split; [split; [discriminate|]; intros H; exfalso; now apply Hn, (i_enter _ _ Ii1)|].
        split; [|split; [exists e1; cbn [set_loaded loaded]; rewrite upd_same, Hx, beqb_refl; auto|auto]].
        intros _ sc. cbn [set_loaded vars]. destruct (getv (vars s1) (p, sc, m)) as [w|] eqn:Gv; [|exact Logic.I]. pose proof (i_var _ _ Ii1 _ _ _ _ Gv) as V.
        destruct w as [[[|] c]|]; try (now apply Hn). destruct V; contradiction.
      + destruct F as (I1 & G & Nf). pose proof (grows_invi _ _ _ G Ii) as Ii1. assert (G4 := g_loaded _ _ G). cbn [obtained].
        assert (E1 : entry (loaded s1 p) m = None) by now rewrite G4.
        assert (Hn : ~ has s1 p m) by (intros (e' & X & Y); congruence).
        split; [assumption|]. split; [destruct Ii1 as [A B C Df Ee]; constructor; auto; intros q m' Sq H; destruct (Df q m' Sq H) as [[]|X]; now right|]. split; [now apply grows_keeps|].
        split; [split; [discriminate|]; intros H; exfalso; now apply Hn, (i_enter _ _ Ii1)|].
        split; [|split; [assumption|split; [assumption|]]].
        * intros _ sc. destruct (getv (vars s1) (p, sc, m)) as [w|] eqn:Gv; [|exact Logic.I]. pose proof (i_var _ _ Ii1 _ _ _ _ Gv) as V. destruct w as [[[|] c]|]; try (now apply Hn). reflexivity.
        * destruct opt; [reflexivity|]. now apply find_opt in Ef.
  Qed.
End Init.
