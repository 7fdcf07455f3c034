(* Proofs: initializing, with all that it leads to, and loading of projects. *)
From Verif Require Import Base ModModel ModSpec ModProofs ModProofs2.

Lemma visible_get l p sc m v : visible l p sc m = Some v -> exists sc', getv l (p, sc', m) = Some (Some v).
Proof.
  induction sc as [|x sc IH]; cbn [visible]; destruct (getv l (p, _, m)) as [w|] eqn:G; try discriminate; try (intros ->; eauto). exact IH.
Qed.
Lemma visible_here l p sc m v : getv l (p, sc, m) = Some v -> visible l p sc m = v.
Proof. intros G. destruct sc; cbn [visible]; now rewrite G. Qed.

Section Runs.
  Context (imp : nat -> bytes -> bool -> bool -> bool -> imp_result) (funs : bytes -> bytes -> list func) (bundled : bytes -> bool).
  Context (WF : proper funs).
  Notation inv := (inv imp funs bundled).
  Notation inv0 := (inv0 imp funs bundled).
  Notation lok := (log_ok imp bundled).

  Lemma invi_setv X s p sc m v : invi X s -> 1 <= stage s p -> match v with Some (false, _) => entry (loaded s p) m = None /\ notfound s p m | _ => has s p m end ->
    (left_in p sc m (log s) -> exists c, v = Some (true, c)) -> invi X (setv (p, sc, m) v s).
  Proof.
    intros [A B C D E] St V Lf. constructor; cbn [setv vars log stage]; auto.
    - intros q sc' m' w G. rewrite getv_cons in G. destruct (key_eqb (q, sc', m') (p, sc, m)) eqn:K; [|exact (A q sc' m' w G)]. apply key_eqb_eq in K. injection K; intros; subst.
      injection G; intros <-. exact V.
    - intros q sc' m' H. rewrite getv_cons. destruct (key_eqb (q, sc', m') (p, sc, m)) eqn:K; [|now apply C]. apply key_eqb_eq in K. injection K; intros; subst. destruct (Lf H) as (c & ->). eauto.
    - intros q Sq. destruct (E q Sq) as [E1 E2]. split; [|assumption]. intros sc' m'. rewrite getv_cons, key_eqb_neq; [apply E1|]. intros K. injection K; intros; subst. rewrite Sq in St. inversion St.
  Qed.
  Lemma inv0_setv s k v : inv0 s -> inv0 (setv k v s).
  Proof. intros ([A B C D] & O & L). split; [now constructor|]. now split. Qed.
  Lemma inv0_log s e : inv0 s -> ~ is_import e -> ok imp bundled e (log s) -> inv0 (logev e s).
  Proof.
    intros (C & O & L) Ni Ok. split; [now apply core_log|]. split; [|now apply log_ok_cons]. intros p mm (b & o & d & [H|H]); [subst e; now destruct Ni|]. apply O. now exists b, o, d.
  Qed.
  Lemma keeps_same p s s' : stage s' = stage s -> loaded s' = loaded s -> (exists l, log s' = l ++ log s) -> keeps p s s'.
  Proof. intros A B C. constructor; auto; rewrite B; eauto. Qed.

  Definition good (p : nat) (s : st) (Q : bool -> st -> Prop) (r : R bool) : Prop :=
    match r with
    | (s', Done b) => inv s' /\ keeps p s s' /\ Q b s'
    | (s', Crashed) => lok (log s') /\ ~ strict funs
    | (s', _) => lok (log s')
    end.
  Definition ini_ok (p : nat) (ini : scope -> bytes -> bool -> st -> R bool) : Prop :=
    forall sc m opt s, inv s -> 1 <= stage s p ->
      good p s (fun b s' => (exists l c, getv (vars s') (p, sc, m) = Some (Some (l, c)) /\ b = l && c) /\ (strict funs -> opt = false -> b = true)) (ini sc m opt s).

  Lemma inv_ok s : inv s -> lok (log s).
  Proof. intros ((_ & _ & L) & _). exact L. Qed.

  Lemma ask_spec p ini : ini_ok p ini -> forall k sc m s, inv s -> 1 <= stage s p ->
    good p s (fun b s' => exists l c, visible (vars s') p sc m = Some (l, c) /\ (b = l && c \/ k = Load /\ b = true /\ l = true)) (ask ini p k sc m s).
  Proof.
    intros Ik k sc m s I St. destruct k as [opt|opt|]; cbn [ask].
    - specialize (Ik sc m opt s I St). destruct (ini sc m opt s) as [s' [bb| | |]]; cbn [good] in *; auto. destruct Ik as (I' & K & ((l & c & G & E) & _)).
      split; [assumption|]. split; [assumption|]. exists l, c. split; [now apply visible_here|now left].
    - destruct (visible (vars s) p sc m) as [[[|] c]|] eqn:V.
      + destruct c; [|cbn [good]; split; [assumption|]; split; [apply keeps_refl|]; exists true, false; split; [assumption|now left]].
        destruct (visible_get _ _ _ _ _ V) as (sc' & G). destruct (i_var _ _ (proj2 I) _ _ _ _ G) as (e & E & _). rewrite E. cbn [good]. split; [assumption|]. split; [apply keeps_refl|].
        exists true, true. split; [assumption|now left].
      + specialize (Ik sc m opt s I St). destruct (ini sc m opt s) as [s' [bb| | |]]; cbn [good] in *; auto. destruct Ik as (I' & K & ((l & c' & G & E) & _)).
        split; [assumption|]. split; [assumption|]. exists l, c'. split; [now apply visible_here|now left].
      + specialize (Ik sc m opt s I St). destruct (ini sc m opt s) as [s' [bb| | |]]; cbn [good] in *; auto. destruct Ik as (I' & K & ((l & c' & G & E) & _)).
        split; [assumption|]. split; [assumption|]. exists l, c'. split; [now apply visible_here|now left].
    - assert (H : good p s (fun b s' => exists l c, visible (vars s') p sc m = Some (l, c) /\ (b = l && c \/ Load = Load /\ b = true /\ l = true))
                    (bind (ini sc m false s) (fun r s0 => if r then (s0, Done true) else (s0, Crashed)))).
      { specialize (Ik sc m false s I St). destruct (ini sc m false s) as [s' [[|]| | |]]; cbn [good bind] in *; auto.
        - destruct Ik as (I' & K & ((l & c' & G & E) & _)). split; [assumption|]. split; [assumption|]. exists l, c'. split; [now apply visible_here|now left].
        - destruct Ik as (I' & K & (_ & Sx)). split; [now apply inv_ok|]. intros Str. specialize (Sx Str eq_refl). discriminate. }
      destruct (visible (vars s) p sc m) as [[[|] c]|] eqn:V; try exact H. clear H.
      destruct (visible_get _ _ _ _ _ V) as (sc' & G). destruct (i_var _ _ (proj2 I) _ _ _ _ G) as (e & E & _). rewrite E. cbn [good]. split; [assumption|]. split; [apply keeps_refl|].
      exists true, c. split; [assumption|]. right. auto.
  Qed.
  Lemma run_spec p ini : ini_ok p ini -> forall pr s, inv s -> 1 <= stage s p -> good p s (fun b _ => may_return pr b) (run ini p pr s).
  Proof.
    intros Ik. induction pr as [c| |k sc m next IH]; intros s I St; cbn [run].
    - split; [assumption|]. split; [apply keeps_refl|constructor].
    - now apply inv_ok.
    - pose proof (ask_spec p ini Ik k sc m s I St) as A. destruct (ask ini p k sc m s) as [s1 [r| | |]]; cbn [bind good] in *; auto. destruct A as (I1 & K1 & _).
      assert (St1 : 1 <= stage s1 p) by (rewrite (k_stage _ _ _ K1); assumption). specialize (IH r s1 I1 St1). destruct (run ini p (next r) s1) as [s2 [r2| | |]]; cbn [good] in *; auto.
      destruct IH as (I2 & K2 & M). split; [assumption|]. split; [eapply keeps_trans; eauto|]. econstructor; eauto.
  Qed.

  (* Calls say where they are from. *)
  Lemma has_from s p m : inv0 s -> has s p m -> bundled (main m) = false -> exists e, get (libs s) (main m) = Some e /\ from imp p (main m) (l_path e) (log s).
  Proof.
    intros (C & _) (e & E & _) B. destruct (c_ent _ _ _ _ C p m e E) as (_ & _ & Im). destruct (c_imp _ _ _ _ C _ _ Im) as (x & X & Y). exists x. split; [assumption|]. exact (Y B).
  Qed.

  Lemma init_spec n : forall p, ini_ok p (init_module imp funs bundled n p).
  Proof.
    induction n as [|n IH]; intros p sc m opt s I St; cbn [init_module]; [now apply inv_ok|].
    pose proof (obtain_spec imp funs bundled WF p m opt s I St) as O. destruct (obtain imp funs bundled p m opt s) as [s1 [[fn f]| | |]]; cbn [bind obtained good] in *; auto; [|contradiction].
    destruct O as (I0 & Ii & K & Ff & Fv & Fn). assert (St1 : 1 <= stage s1 p) by (rewrite (k_stage _ _ _ K); assumption).
    assert (Drop : ~ (f = true /\ has s1 p m) -> inv s1).
    { intros N. split; [assumption|]. destruct Ii as [A B C D E]. constructor; auto. intros q m' Sq H. destruct (D q m' Sq H) as [(-> & -> & Ft)|X]; [exfalso; now apply N|now right]. }
    assert (Sett : (forall l c, getv (vars s1) (p, sc, m) <> Some (Some (l, c))) ->
      good p s (fun b s' => (exists l c, getv (vars s') (p, sc, m) = Some (Some (l, c)) /\ b = l && c) /\ (strict funs -> opt = false -> b = true))
        (match fn with
         | None => (setv (p, sc, m) (Some (false, false)) s1, Done false)
         | Some fn => bind (run (init_module imp funs bundled n p) p (f_init fn sc f opt) (logev (Enter p sc m f opt) (setv (p, sc, m) None s1)))
                        (fun c s => (logev (Leave p sc m c) (setv (p, sc, m) (Some (true, c)) s), Done c))
         end)).
    { intros Nv. assert (Nl : ~ left_in p sc m (log s1)) by (intros H; destruct (i_left _ _ Ii _ _ _ H) as (c & G); now apply Nv in G).
      destruct fn as [fn|].
      - destruct Fn as (Hs & Nm & (d & Din)). set (s2 := logev (Enter p sc m f opt) (setv (p, sc, m) None s1)).
        assert (I2 : inv s2).
        { split.
          - apply inv0_log; [now apply inv0_setv|easy|]. cbn [setv log]. split; [assumption|]. split.
            + destruct f; split; try discriminate.
              * intros _ H. apply Ff in H. discriminate.
              * intros _. reflexivity.
              * intros H. exfalso. now apply H, Ff.
            + intros B. destruct (has_from s1 p m I0 Hs B) as (e & E & F). exists (l_path e). split; [exact F|]. intros q m' Mm Hq. apply (i_enter _ _ Ii) in Hq.
              rewrite <- Mm in B. destruct (has_from s1 q m' I0 Hq B) as (e' & E' & F'). rewrite Mm in E', F'. replace (l_path e) with (l_path e'); [exact F'|]. congruence.
          - assert (Iv : invi (fun q m' => q = p /\ m' = m /\ f = true) (setv (p, sc, m) None s1)) by (apply invi_setv; auto; intros H; contradiction).
            destruct Iv as [A B C D E]. constructor; auto.
            + intros q m' (sc' & f' & o' & [H|H]); [injection H; intros; subst; exact Hs|]. apply B. now exists sc', f', o'.
            + intros q sc' m' (c & [H|H]); [discriminate|]. apply C. now exists c.
            + intros q m' Sq H. right. destruct (D q m' Sq H) as [(-> & -> & _)|(sc' & f' & o' & X)]; [exists sc, f, opt; now left|exists sc', f', o'; now right].
            + intros q Sq. destruct (E q Sq) as [E1 E2]. split; [assumption|]. intros m' (sc' & f' & o' & [H|H]); [injection H; intros; subst; cbn in Sq; rewrite Sq in St1; inversion St1|].
              apply (E2 m'). now exists sc', f', o'. }
        assert (K2 : keeps p s1 s2) by (apply keeps_same; [reflexivity|reflexivity|]; now exists [Enter p sc m f opt]).
        pose proof (run_spec p _ (IH p) (f_init fn sc f opt) s2 I2 St1) as Rn. destruct (run (init_module imp funs bundled n p) p (f_init fn sc f opt) s2) as [s3 [c| | |]]; cbn [bind good] in *; auto.
        destruct Rn as (I3 & K3 & M). assert (St3 : 1 <= stage s3 p) by (rewrite (k_stage _ _ _ K3); exact St1).
        assert (Hs3 : has s3 p m).
        { apply (i_enter _ _ (proj2 I3)). destruct (k_log _ _ _ K3) as (l & ->). exists sc, f, opt. apply in_app_iff. right. now left. }
        split; [split|split].
        + apply inv0_log; [apply inv0_setv; apply I3|easy|exact Logic.I].
        + assert (Iv : invi (fun _ _ => False) (setv (p, sc, m) (Some (true, c)) s3)) by (apply invi_setv; [apply I3|assumption|exact Hs3|intros _; now exists c]).
          destruct Iv as [A B C D E]. constructor; auto.
          * intros q m' (sc' & f' & o' & [H|H]); [discriminate|]. apply B. now exists sc', f', o'.
          * intros q sc' m' (c' & [H|H]); [|apply C; now exists c']. injection H; intros; subst. exists c'. cbn [logev vars setv]. now rewrite getv_cons, key_eqb_refl.
          * intros q m' Sq H. destruct (D q m' Sq H) as [[]|(sc' & f' & o' & X)]. right. exists sc', f', o'. now right.
          * intros q Sq. destruct (E q Sq) as [E1 E2]. split; [assumption|]. intros m' (sc' & f' & o' & [H|H]); [discriminate|]. apply (E2 m'). now exists sc', f', o'.
        + apply (keeps_trans _ _ s1); [assumption|]. apply (keeps_trans _ _ s2); [assumption|]. apply (keeps_trans _ _ s3); [assumption|]. apply keeps_same; [reflexivity|reflexivity|]. now exists [Leave p sc m c].
        + split; [exists true, c; cbn [logev vars setv]; rewrite getv_cons, key_eqb_refl; now split|]. intros Str ->. destruct c; [reflexivity|]. exfalso. exact (Str _ _ _ _ _ Din M).
      - destruct Fn as (En & Nf & ->). cbn [good]. assert (Hn : ~ has s1 p m) by (intros (e & X & _); congruence).
        split; [split; [now apply inv0_setv|]|split].
        + apply invi_setv; [apply Drop; tauto|assumption|now split|intros H; contradiction].
        + apply (keeps_trans _ _ s1); [assumption|]. apply keeps_same; [reflexivity|reflexivity|]. now exists [].
        + split; [|discriminate]. exists false, false. cbn [setv vars]. rewrite getv_cons, key_eqb_refl. now split. }
    cbn [fst snd]. destruct (getv (vars s1) (p, sc, m)) as [[[l c]|]|] eqn:Gv; [|apply Sett; discriminate|apply Sett; discriminate].
    assert (I1 : inv s1).
    { apply Drop. intros [-> Hs]. specialize (Fv eq_refl sc). rewrite Gv in Fv. destruct l; [contradiction|]. rewrite Fv in Fn. destruct Fn as (En & _). destruct Hs as (e & X & _). congruence. }
    destruct opt; [cbn [good]; split; [assumption|]; split; [assumption|]; split; [now exists l, c|discriminate]|].
    destruct (l && c) eqn:Lc; cbn [good]; [|now apply inv_ok]. split; [assumption|]. split; [assumption|]. split; [exists l, c; now rewrite Lc|reflexivity].
  Qed.

  (* Booted modules. *)
  Lemma init_modules_spec n p v : forall ns s, inv s -> 1 <= stage s p ->
    match init_modules imp funs bundled n p ns v s with
    | (s', Done _) => inv s' /\ keeps p s s' /\ forall m e, In m ns -> entry (loaded s' p) m = Some e -> ms_boot e <> Some v
    | (s', Crashed) => lok (log s') /\ ~ strict funs
    | (s', _) => lok (log s')
    end.
  Proof.
    unfold init_modules. induction ns as [|m ns IH]; intros s I St; cbn [each].
    - split; [assumption|]. split; [apply keeps_refl|]. intros m e [].
    - set (r := match entry (loaded s p) m with Some _ => _ | None => _ end).
      assert (H : match r with
                  | (s', Done _) => inv s' /\ keeps p s s' /\ forall e, entry (loaded s' p) m = Some e -> ms_boot e <> Some v
                  | (s', Crashed) => lok (log s') /\ ~ strict funs
                  | (s', _) => lok (log s') end).
      { unfold r. destruct (entry (loaded s p) m) as [e|] eqn:E; [|split; [assumption|]; split; [apply keeps_refl|]; intros e'; congruence].
        destruct (ms_boot e) as [v'|] eqn:B; [|split; [assumption|]; split; [apply keeps_refl|]; intros e'; congruence].
        destruct (mode_eqb v' v) eqn:Mv.
        - pose proof (init_spec n p [] m false s I St) as H. destruct (init_module imp funs bundled n p [] m false s) as [s' [bb| | |]]; cbn [bind good] in *; auto.
          destruct H as (I' & K & ((l & c & G & _) & _)). split; [assumption|]. split; [assumption|]. intros e' E'. pose proof (i_var _ _ (proj2 I') _ _ _ _ G) as V. destruct l.
          + destruct V as (e2 & X & Y). congruence.
          + destruct V as [V _]. congruence.
        - split; [assumption|]. split; [apply keeps_refl|]. intros e' E'. replace e' with e by congruence. rewrite B. intros X. injection X; intros ->. now destruct v. }
      destruct r as [s1 [[]| | |]]; cbn [bind]; auto. destruct H as (I1 & K1 & B1). assert (St1 : 1 <= stage s1 p) by (rewrite (k_stage _ _ _ K1); assumption).
      specialize (IH s1 I1 St1). match type of IH with match ?t with _ => _ end => destruct t as [s2 [[]| | |]]; auto end.
      destruct IH as (I2 & K2 & B2). split; [assumption|]. split; [eapply keeps_trans; eauto|]. intros m' e' [<-|Hm] E'; [|now apply (B2 m')].
      intros X. destruct (k_mode _ _ _ K2 m e' v E' X) as (e1 & X1 & X2). now apply (B1 e1).
  Qed.

  Definition hinv (s : st) : Prop := inv s /\ forall p, stage s p = 0 -> loaded s p = [].
  Lemma entry_post l m : entry (map boot_post l) m = option_map boot_post (entry l m).
  Proof.
    induction l as [|e l IH]; cbn; [reflexivity|]. replace (ms_name (boot_post e)) with (ms_name e); [|unfold boot_post; now destruct (ms_post e), (ms_boot e)]. now destruct (beqb (ms_name e) m).
  Qed.
  Lemma bootstrap_spec n p ms s : hinv s ->
    match bootstrap imp funs bundled n p ms s with (s', Done _) => hinv s' | (s', _) => lok (log s') end.
  Proof.
    intros [I H0]. unfold bootstrap. destruct (Nat.eqb (stage s p) 0) eqn:St; [|now apply inv_ok]. apply Nat.eqb_eq in St.
    pose proof (each_boot imp funs bundled p _ (fun m s => boot_spec imp funs bundled WF n p m s) ms s I St) as B.
    destruct (each (boot_module imp funs bundled n p) ms s) as [s1 [[]| | |]]; cbn [bind boot_ok] in *; auto. destruct B as (I1 & S1 & L1 & P1 & _).
    assert (Nh : forall m, ~ has s1 p m). { intros m H. apply P1 in H. destruct H as (e & E & _). rewrite (H0 p St) in E. discriminate. }
    assert (Ih : inv (set_loaded p (map boot_post (loaded s1 p)) s1)).
    { split; [|apply invi_boot; [apply I1|congruence]]. apply inv0_loaded; [apply I1| |].
      - rewrite map_map. replace (map (fun x => ms_name (boot_post x)) (loaded s1 p)) with (map ms_name (loaded s1 p)); [apply (c_nd _ _ _ _ (proj1 (proj1 I1)))|].
        apply map_ext. intros e. unfold boot_post. now destruct (ms_post e), (ms_boot e).
      - intros m e E. rewrite entry_post in E. destruct (entry (loaded s1 p) m) as [e1|] eqn:E1; [|discriminate]. cbn in E. injection E; intros <-.
        replace (ms_fun (boot_post e1)) with (ms_fun e1); [now apply (c_ent _ _ _ _ (proj1 (proj1 I1)))|]. unfold boot_post. now destruct (ms_post e1), (ms_boot e1). }
    set (s2 := set_loaded p (map boot_post (loaded s1 p)) s1) in *.
    assert (Nh2 : forall m, ~ has s2 p m).
    { intros m (e & E & Eb). unfold s2 in E. cbn [set_loaded loaded] in E. rewrite upd_same, entry_post in E. destruct (entry (loaded s1 p) m) as [e1|] eqn:E1; [|discriminate]. cbn in E. injection E; intros <-.
      apply (Nh m). exists e1. split; [assumption|]. unfold boot_post in Eb. destruct (ms_post e1), (ms_boot e1) eqn:X; cbn in Eb; congruence. }
    assert (S2 : stage s2 p = 0) by (cbn; congruence).
    split.
    - destruct Ih as [[C [O L]] [A B Cc D E]]. split; [split; [|now split]|].
      + destruct C as [C1 C2 C3 C4]. now constructor.
      + constructor; auto.
        * intros q m Sq H. cbn [set_stage stage] in Sq. destruct (Nat.eq_dec q p) as [->|Nq]; [now apply Nh2 in H|]. rewrite (upd_other _ _ _ _ Nq) in Sq. now apply D.
        * intros q Sq. cbn [set_stage stage] in Sq. destruct (Nat.eq_dec q p) as [->|Nq]; [rewrite upd_same in Sq; discriminate|]. rewrite (upd_other _ _ _ _ Nq) in Sq. now apply E.
    - intros q Sq. cbn [set_stage stage loaded] in *. destruct (Nat.eq_dec q p) as [->|Nq]; [rewrite upd_same in Sq; discriminate|]. rewrite (upd_other _ _ _ _ Nq) in Sq.
      unfold s2 in *. cbn [set_loaded stage loaded] in *. rewrite (upd_other _ _ _ _ Nq), (L1 q Nq). apply H0. congruence.
  Qed.
  Lemma inv_stage2 s p : inv s -> 1 <= stage s p -> inv (set_stage p 2 s).
  Proof.
    intros [[C [O L]] [A B Cc D E]] St. split; [split; [|now split]|].
    - destruct C as [C1 C2 C3 C4]. now constructor.
    - constructor; auto.
      + intros q m Sq H. cbn [set_stage stage] in Sq. destruct (Nat.eq_dec q p) as [->|Nq]; [now apply D|]. rewrite (upd_other _ _ _ _ Nq) in Sq. now apply D.
      + intros q Sq. cbn [set_stage stage] in Sq. destruct (Nat.eq_dec q p) as [->|Nq]; [rewrite upd_same in Sq; discriminate|]. rewrite (upd_other _ _ _ _ Nq) in Sq. now apply E.
  Qed.
  Lemma hinv_keeps s s' p : hinv s -> stage s p <> 0 -> inv s' -> keeps p s s' -> hinv s'.
  Proof.
    intros [_ H] St I K. split; [assumption|]. intros q Sq. rewrite (k_stage _ _ _ K) in Sq. destruct (Nat.eq_dec q p) as [->|Nq]; [contradiction|]. rewrite (k_other _ _ _ K q Nq). now apply H.
  Qed.
  Lemma inv_sourced s p : inv s -> inv (logev (Sourced p) s).
  Proof.
    intros [I0 [A B C D E]]. split; [now apply inv0_log|]. constructor; auto.
    - intros q m' (sc' & f' & o' & [H|H]); [discriminate|]. apply B. now exists sc', f', o'.
    - intros q sc' m' (c' & [H|H]); [discriminate|]. apply C. now exists c'.
    - intros q m' Sq H. destruct (D q m' Sq H) as [[]|(sc' & f' & o' & X)]. right. exists sc', f', o'. now right.
    - intros q Sq. destruct (E q Sq) as [E1 E2]. split; [assumption|]. intros m' (sc' & f' & o' & [H|H]); [discriminate|]. apply (E2 m'). now exists sc', f', o'.
  Qed.

  Lemma load_root_spec n p build s : hinv s ->
    match load_root imp funs bundled n p build s with
    | (s', Done _) => hinv s' /\ (exists l2 l1, log s' = l2 ++ Sourced p :: l1 /\ forall m e, entry (loaded s p) m = Some e -> ms_boot e <> Some After -> entered p m l1) /\
        forall m, entry (loaded s p) m <> None -> entered p m (log s')
    | (s', Crashed) => lok (log s') /\ ~ strict funs
    | (s', _) => lok (log s')
    end.
  Proof.
    intros Hi. pose proof (proj1 Hi) as I. unfold load_root. destruct (Nat.eqb (stage s p) 1) eqn:St; [|now apply inv_ok]. apply Nat.eqb_eq in St. cbv zeta.
    set (ns := map ms_name (loaded s p)).
    assert (I0 : inv (set_stage p 2 s)) by (apply inv_stage2; [assumption|now rewrite St]).
    set (s0 := set_stage p 2 s) in *.
    assert (H0 : hinv s0).
    { split; [assumption|]. intros q Sq. cbn in *. destruct (Nat.eq_dec q p) as [->|Nq]; [rewrite upd_same in Sq; discriminate|]. rewrite (upd_other _ _ _ _ Nq) in Sq. now apply Hi. }
    assert (S0 : stage s0 p = 2) by (cbn; now rewrite upd_same).
    assert (L0 : loaded s0 = loaded s) by reflexivity. clearbody s0.
    assert (Ns : forall m, entry (loaded s p) m <> None -> In m ns).
    { intros m N. destruct (in_dec (list_eq_dec Ascii.ascii_dec) m ns) as [J|J]; [assumption|]. exfalso. apply N. now apply entry_none. }
    pose proof (init_modules_spec n p First ns s0 I0 ltac:(rewrite S0; auto)) as M1. destruct (init_modules imp funs bundled n p ns First s0) as [s1 [[]| | |]]; cbn [bind]; auto. destruct M1 as (I1 & K1 & B1).
    assert (S1 : stage s1 p = 2) by (now rewrite (k_stage _ _ _ K1)).
    pose proof (init_modules_spec n p Second ns s1 I1 ltac:(rewrite S1; auto)) as M2. destruct (init_modules imp funs bundled n p ns Second s1) as [s2 [[]| | |]]; cbn [bind]; auto. destruct M2 as (I2 & K2 & B2).
    assert (S2 : stage s2 p = 2) by (now rewrite (k_stage _ _ _ K2)).
    pose proof (init_modules_spec n p Before ns s2 I2 ltac:(rewrite S2; auto)) as M3. destruct (init_modules imp funs bundled n p ns Before s2) as [s3 [[]| | |]]; cbn [bind]; auto. destruct M3 as (I3 & K3 & B3).
    assert (S3 : stage s3 p = 2) by (now rewrite (k_stage _ _ _ K3)).
    pose proof (inv_sourced s3 p I3) as I4.
    pose proof (run_spec p _ (init_spec n p) build _ I4 ltac:(cbn; rewrite S3; auto)) as Rn.
    destruct (run (init_module imp funs bundled n p) p build (logev (Sourced p) s3)) as [s5 [bb| | |]]; cbn [bind good] in *; auto. destruct Rn as (I5 & K5 & _).
    assert (S5 : stage s5 p = 2) by (now rewrite (k_stage _ _ _ K5)).
    pose proof (init_modules_spec n p After ns s5 I5 ltac:(rewrite S5; auto)) as M6. destruct (init_modules imp funs bundled n p ns After s5) as [s6 [[]| | |]]; cbn [bind]; auto. destruct M6 as (I6 & K6 & B6).
    assert (K4 : keeps p s3 (logev (Sourced p) s3)) by (apply keeps_same; [reflexivity|reflexivity|]; now exists [Sourced p]).
    assert (K03 : keeps p s0 s3) by (eapply keeps_trans; [exact K1|]; eapply keeps_trans; [exact K2|exact K3]).
    assert (K36 : keeps p s3 s6) by (eapply keeps_trans; [exact K4|]; eapply keeps_trans; [exact K5|exact K6]).
    (* Modules still to be called after the first three are those for after. *)
    assert (P3 : forall m e v, In m ns -> entry (loaded s3 p) m = Some e -> ms_boot e = Some v -> v = After).
    { intros m e v Hm E Eb. destruct v; [| |now destruct (B3 m e Hm E)|reflexivity].
      - destruct (k_mode _ _ _ K3 m e First E Eb) as (e2 & X2 & Y2). destruct (k_mode _ _ _ K2 m e2 First X2 Y2) as (e1 & X1 & Y1). now destruct (B1 m e1 Hm X1).
      - destruct (k_mode _ _ _ K3 m e Second E Eb) as (e2 & X2 & Y2). now destruct (B2 m e2 Hm X2). }
    split; [|split].
    - eapply hinv_keeps; [exact H0| |exact I6|eapply keeps_trans; eauto]. rewrite S0. discriminate.
    - destruct (k_log _ _ _ K5) as (l5 & E5). destruct (k_log _ _ _ K6) as (l6 & E6). exists (l6 ++ l5), (log s3). split; [rewrite E6, E5; now rewrite <- app_assoc|].
      intros m e E Na. assert (Hm : In m ns) by (apply Ns; rewrite E; discriminate).
      destruct (entry (loaded s3 p) m) as [e3|] eqn:E3; [|exfalso; apply (k_entry _ _ _ K03 m); [rewrite L0, E; discriminate|assumption]].
      destruct (ms_boot e3) as [v|] eqn:Eb.
      + pose proof (P3 m e3 v Hm E3 Eb) as ->. destruct (k_mode _ _ _ K03 m e3 After E3 Eb) as (e0 & X & Y). rewrite L0, E in X. injection X; intros ->. contradiction.
      + destruct (i_first _ _ (proj2 I3) p m) as [[]|X]; [rewrite S3; auto|now exists e3|exact X].
    - intros m N. assert (Hm : In m ns) by now apply Ns.
      destruct (entry (loaded s6 p) m) as [e6|] eqn:E6; [|exfalso; apply (k_entry _ _ _ (keeps_trans _ _ _ _ K03 K36) m); [now rewrite L0|assumption]].
      assert (Hb : ms_boot e6 = None).
      { destruct (ms_boot e6) as [v|] eqn:Eb; [|reflexivity]. exfalso. destruct (k_mode _ _ _ K36 m e6 v E6 Eb) as (e3 & X & Y). pose proof (P3 m e3 v Hm X Y) as ->. now apply (B6 m e6 Hm E6). }
      destruct (i_first _ _ (proj2 I6) p m) as [[]|X]; [rewrite (k_stage _ _ _ K6), S5; auto|now exists e6|exact X].
  Qed.

  Lemma exec1_spec n c s : hinv s ->
    match exec1 imp funs bundled n c s with
    | (s', Done _) => hinv s'
    | (s', Crashed) => lok (log s') /\ (strict funs -> exists p ms, c = Bootstrap p ms)
    | (s', _) => lok (log s')
    end.
  Proof.
    intros H. destruct c as [p ms|p build|p pr]; cbn [exec1].
    - pose proof (bootstrap_spec n p ms s H) as B. destruct (bootstrap imp funs bundled n p ms s) as [s' [[]| | |]]; auto. split; [assumption|]. intros _. now exists p, ms.
    - pose proof (load_root_spec n p build s H) as B. destruct (load_root imp funs bundled n p build s) as [s' [[]| | |]]; auto; [apply B|]. destruct B as [B1 B2]. split; [assumption|]. intros Str. contradiction.
    - destruct (Nat.eqb (stage s p) 2) eqn:St; [|apply (inv_ok _ (proj1 H))]. apply Nat.eqb_eq in St.
      pose proof (run_spec p _ (init_spec n p) pr s (proj1 H) ltac:(rewrite St; auto)) as Rn. destruct (run (init_module imp funs bundled n p) p pr s) as [s' [bb| | |]]; cbn [bind good] in *; auto.
      + destruct Rn as (I & K & _). eapply hinv_keeps; [exact H| |exact I|exact K]. rewrite St. discriminate.
      + destruct Rn as [B1 B2]. split; [assumption|]. intros Str. contradiction.
  Qed.
  Lemma hinv_start : hinv start.
  Proof.
    split; [|reflexivity]. split; [split; [|split]|].
    - constructor; cbn; try discriminate. intros; constructor.
    - intros p mm (b & o & d & []).
    - intros l2 e l1 E. now destruct l2.
    - constructor; cbn; try discriminate; try (intros p m (sc & f & o & [])); try (intros p sc m (c & [])).
      + inversion m.
      + intros p _. split; [reflexivity|]. intros m (sc & f & o & []).
  Qed.
  Lemma each_spec n : forall cs s, hinv s ->
    match each (exec1 imp funs bundled n) cs s with (s', Done _) => hinv s' | (s', _) => lok (log s') end.
  Proof.
    induction cs as [|c cs IH]; intros s H; cbn [each]; [assumption|]. pose proof (exec1_spec n c s H) as E. destruct (exec1 imp funs bundled n c s) as [s1 [[]| | |]]; cbn [bind]; auto; try apply E.
    now apply IH.
  Qed.
  Lemma exec_spec n cs : match exec imp funs bundled n cs with (s', Done _) => hinv s' | (s', _) => lok (log s') end.
  Proof. apply each_spec, hinv_start. Qed.
End Runs.
