(* Proofs: no call is within itself, and order of calls. *)
From Verif Require Import Base ModModel ModSpec ModProofs ModProofs2 ModProofs3.
From Coq Require Import Lia.

Definition same (s s' : st) : Prop := vars s' = vars s /\ exists l, log s' = l ++ log s /\ Forall is_import l.
Lemma same_refl s : same s s.
Proof. split; [reflexivity|]. now exists []. Qed.
Lemma same_trans s1 s2 s3 : same s1 s2 -> same s2 s3 -> same s1 s3.
Proof.
  intros [A (la & B & C)] [A' (lb & B' & C')]. split; [congruence|]. exists (lb ++ la). rewrite B', B, app_assoc. split; [reflexivity|]. apply Forall_app. now split.
Qed.
Lemma same_log s s' e : vars s' = vars s -> log s' = e :: log s -> is_import e -> same s s'.
Proof. intros A B C. split; [assumption|]. exists [e]. split; [assumption|now constructor]. Qed.
Lemma same_eq s s' : vars s' = vars s -> log s' = log s -> same s s'.
Proof. intros A B. split; [assumption|]. now exists []. Qed.
Lemma bind_same {A B} (r : R A) (k : A -> st -> R B) s : same s (fst r) -> (forall a s', r = (s', Done a) -> same s' (fst (k a s'))) -> same s (fst (bind r k)).
Proof. intros H K. destruct r as [s1 [a| | |]]; cbn [bind fst] in *; auto. eapply same_trans; [exact H|]. now apply K. Qed.
Lemma calls_app p sc m l1 l2 : calls p sc m (l1 ++ l2) = calls p sc m l1 + calls p sc m l2.
Proof. induction l1 as [|e l1 IH]; cbn; [reflexivity|]. destruct e; rewrite ?IH; auto. lia. Qed.
Lemma calls_imports p sc m l : Forall is_import l -> calls p sc m l = 0.
Proof. induction 1 as [|e l H F IH]; cbn; [reflexivity|]. destruct e; cbn in H; tauto. Qed.
Lemma same_calls s s' p sc m : same s s' -> calls p sc m (log s') = calls p sc m (log s).
Proof. intros [_ (l & -> & F)]. now rewrite calls_app, (calls_imports _ _ _ _ F). Qed.
Lemma same_entered s s' p m : same s s' -> entered p m (log s') <-> entered p m (log s).
Proof. intros [_ H]. now apply entered_only. Qed.

Section Order.
  Context (imp : nat -> bytes -> bool -> bool -> bool -> imp_result) (funs : bytes -> bytes -> list func) (bundled : bytes -> bool).
  Context (WF : proper funs).
  Notation inv := (inv imp funs bundled).
  Notation hinv := (hinv imp funs bundled).
  Notation init_module := (init_module imp funs bundled).
  Notation init_modules := (init_modules imp funs bundled).

  Lemma find_same p m boot opt s : same s (fst (find_module imp funs bundled p m boot opt s)).
  Proof.
    unfold find_module. cbv zeta. apply bind_same.
    - assert (H : forall known, same s (fst (bind (locate imp funs p m boot opt s) (fun r s => agree imp bundled p m boot opt known r s)))).
      { intros known. apply bind_same.
        - unfold locate. destruct (get (libs s) m); [apply same_refl|]. destruct (get (libs s) (main m)); [apply same_refl|].
          destruct (imp p (main m) boot opt false); try (now eapply same_log).
          destruct (register _ _ _ _ _ _) as [[ls [i|]]|]; now eapply same_log.
        - intros [i im] s' _. unfold agree. destruct i as [[n e]|]; cbn [fst snd]; [|destruct known; apply same_refl].
          destruct (negb known && negb im && negb (bundled (main m))); [|apply same_refl].
          destruct (imp p (main m) boot opt true); try (now eapply same_log).
          destruct (if beqb n (main m) then Some e else get _ (main m)) as [e'|]; [destruct (beqb d (l_path e'))|]; now eapply same_log. }
      destruct (get (imported s p) (main m)) as [[|]|]; [apply H|apply same_refl|apply H].
    - intros fn s' _. set (s2 := match get (imported s p) (main m) with None => _ | Some _ => _ end). assert (same s' s2) by (unfold s2; destruct (get (imported s p) (main m)); now apply same_eq).
      destruct fn as [[n f]|]; [destruct (beqb n m); [|destruct opt]|destruct (opt || boot)]; assumption.
  Qed.
  Lemma each_same {A} (f : A -> st -> R unit) : (forall x s, same s (fst (f x s))) -> forall l s, same s (fst (each f l s)).
  Proof. intros F. induction l as [|x l IH]; intros s; cbn [each]; [apply same_refl|]. apply bind_same; [apply F|]. intros. apply IH. Qed.
  Lemma boot_same n : forall p m s, same s (fst (boot_module imp funs bundled n p m s)).
  Proof.
    induction n as [|n IH]; intros p m s; cbn [boot_module]; [apply same_refl|]. destruct (entry (loaded s p) m) as [e|]; [destruct (ms_boot e); apply same_refl|].
    apply bind_same; [apply find_same|]. intros [f|] s1 _; [|apply same_refl]. destruct (f_boot f) as [[[bs post] v]|]; [|apply same_refl].
    apply bind_same; [|intros [] s2 _; now apply same_eq]. eapply same_trans; [|apply each_same; apply IH]. now apply same_eq.
  Qed.
  Lemma obtain_same p m opt s : same s (fst (obtain imp funs bundled p m opt s)).
  Proof.
    unfold obtain. destruct (entry (loaded s p) m) as [e|]; [destruct (ms_boot e); now apply same_eq|]. apply bind_same; [apply find_same|].
    intros [f|] s1 _; [|apply same_refl]. destruct (f_boot f); now apply same_eq.
  Qed.

  (* The step of init(), for properties of logs: V is what holds at all points, and P what does when done. *)
  Lemma inv_step p sc m opt s fn f s1 : inv s -> 1 <= stage s p -> obtain imp funs bundled p m opt s = (s1, Done (Some fn, f)) ->
    match getv (vars s1) (p, sc, m) with Some (Some _) => False | _ => True end ->
    inv (logev (Enter p sc m f opt) (setv (p, sc, m) None s1)) /\ 1 <= stage s1 p /\ f_name fn = m /\ exists d, In fn (funs (main m) d).
  Proof.
    intros I St E Nv. pose proof (obtain_spec imp funs bundled WF p m opt s I St) as O. rewrite E in O. cbn [obtained] in O. destruct O as (I0 & Ii & K & Ff & Fv & (Hs & Nm & Din)).
    assert (St1 : 1 <= stage s1 p) by (rewrite (k_stage _ _ _ K); assumption). split; [|auto].
    assert (Nl : ~ left_in p sc m (log s1)) by (intros H; destruct (i_left _ _ Ii _ _ _ H) as (c & G); now rewrite G in Nv).
    split.
    - apply inv0_log; [now apply inv0_setv|easy|]. cbn [setv log]. split; [assumption|]. split.
      + destruct f; split; try discriminate.
        * intros _ H. apply Ff in H. discriminate.
        * intros _. reflexivity.
        * intros H. exfalso. now apply H, Ff.
      + intros B. destruct (has_from imp funs bundled s1 p m I0 Hs B) as (e & Ee & F). exists (l_path e). split; [exact F|]. intros q m' Mm Hq. apply (i_enter _ _ Ii) in Hq.
        rewrite <- Mm in B. destruct (has_from imp funs bundled s1 q m' I0 Hq B) as (e' & E' & F'). rewrite Mm in E', F'. replace (l_path e) with (l_path e'); [exact F'|]. congruence.
    - assert (Iv : invi (fun q m' => q = p /\ m' = m /\ f = true) (setv (p, sc, m) None s1)) by (apply invi_setv; auto; intros H; contradiction).
      destruct Iv as [A B C D Ee]. constructor; auto.
      + intros q m' (sc' & f' & o' & [H|H]); [injection H; intros; subst; exact Hs|]. apply B. now exists sc', f', o'.
      + intros q sc' m' (c & [H|H]); [discriminate|]. apply C. now exists c.
      + intros q m' Sq H. right. destruct (D q m' Sq H) as [(-> & -> & _)|(sc' & f' & o' & X)]; [exists sc, f, opt; now left|exists sc', f', o'; now right].
      + intros q Sq. destruct (Ee q Sq) as [E1 E2]. split; [assumption|]. intros m' (sc' & f' & o' & [H|H]); [injection H; intros; subst; cbn in Sq; rewrite Sq in St1; inversion St1|].
        apply (E2 m'). now exists sc', f', o'.
  Qed.

  (* Calls that come of a call are of it and of modules asked for. *)
  Lemma ask_new p m2 ini : (forall sc m opt s, inv s -> 1 <= stage s p -> m <> m2 -> entered p m2 (log (fst (ini sc m opt s))) -> entered p m2 (log s)) ->
    forall k sc m s, inv s -> 1 <= stage s p -> m <> m2 -> entered p m2 (log (fst (ask ini p k sc m s))) -> entered p m2 (log s).
  Proof.
    intros Ik k sc m s I St N. destruct k as [opt|opt|]; cbn [ask].
    - now apply Ik.
    - destruct (visible (vars s) p sc m) as [[[|] c]|]; try (now apply Ik). destruct c; [destruct (entry (loaded s p) m)|]; auto.
    - assert (H : entered p m2 (log (fst (bind (ini sc m false s) (fun r s0 => if r then (s0, Done true) else (s0, Crashed))))) -> entered p m2 (log s)).
      { specialize (Ik sc m false s I St N). destruct (ini sc m false s) as [s' [[|]| | |]]; cbn [bind fst] in *; auto. }
      destruct (visible (vars s) p sc m) as [[[|] c]|]; auto. destruct (entry (loaded s p) m); auto.
  Qed.
  Lemma run_new p m2 ini : ini_ok imp funs bundled p ini -> (forall sc m opt s, inv s -> 1 <= stage s p -> m <> m2 -> entered p m2 (log (fst (ini sc m opt s))) -> entered p m2 (log s)) ->
    forall pr s, inv s -> 1 <= stage s p -> ~ uses pr m2 -> entered p m2 (log (fst (run ini p pr s))) -> entered p m2 (log s).
  Proof.
    intros Io Ik. induction pr as [c| |k sc m next IH]; intros s I St N; cbn [run]; auto. intros H.
    assert (Nm : m <> m2) by (intros ->; apply N; constructor).
    pose proof (ask_new p m2 ini Ik k sc m s I St Nm) as A. pose proof (ask_spec imp funs bundled p ini Io k sc m s I St) as G.
    destruct (ask ini p k sc m s) as [s1 [r| | |]]; cbn [bind fst good] in *; auto. destruct G as (I1 & K1 & _).
    apply A. apply (IH r); auto; [now rewrite (k_stage _ _ _ K1)|]. intros U. apply N. econstructor; eauto.
  Qed.
  Lemma init_new m2 : ~ used funs m2 -> forall n p sc m opt s, inv s -> 1 <= stage s p -> m <> m2 -> entered p m2 (log (fst (init_module n p sc m opt s))) -> entered p m2 (log s).
  Proof.
    intros Nu. induction n as [|n IH]; intros p sc m opt s I St N; cbn [ModModel.init_module]; auto.
    pose proof (obtain_same p m opt s) as Sm. destruct (obtain imp funs bundled p m opt s) as [s1 [[fn f]| | |]] eqn:Eo; cbn [bind fst snd] in *; try (intros H; now apply (same_entered _ _ _ _ Sm)).
    assert (H1 : entered p m2 (log s1) -> entered p m2 (log s)) by (intros H; now apply (same_entered _ _ _ _ Sm)).
    assert (Step : match getv (vars s1) (p, sc, m) with Some (Some _) => False | _ => True end ->
      entered p m2 (log (fst (match fn with
         | None => (setv (p, sc, m) (Some (false, false)) s1, Done false)
         | Some fn => bind (run (init_module n p) p (f_init fn sc f opt) (logev (Enter p sc m f opt) (setv (p, sc, m) None s1)))
                        (fun c s => (logev (Leave p sc m c) (setv (p, sc, m) (Some (true, c)) s), Done c))
         end))) -> entered p m2 (log s)).
    { intros Nv. destruct fn as [fn|]; [|exact H1]. destruct (inv_step p sc m opt s fn f s1 I St Eo Nv) as (I2 & St1 & Nm & (d & Din)).
      set (s2 := logev (Enter p sc m f opt) (setv (p, sc, m) None s1)) in *.
      assert (H2 : entered p m2 (log s2) -> entered p m2 (log s)).
      { intros (sc' & f' & o' & [H|H]); [injection H; intros; subst; contradiction|]. apply H1. now exists sc', f', o'. }
      assert (Np : ~ uses (f_init fn sc f opt) m2) by (intros U; apply Nu; exists (main m), d, fn, sc, f, opt; now split).
      pose proof (run_new p m2 _ (init_spec imp funs bundled WF n p) (IH p) (f_init fn sc f opt) s2 I2 St1 Np) as Rn.
      destruct (run (init_module n p) p (f_init fn sc f opt) s2) as [s3 [c| | |]]; cbn [bind fst logev setv log] in *; auto.
      intros (sc' & f' & o' & [H|H]); [discriminate|]. apply H2, Rn. now exists sc', f', o'. }
    destruct (getv (vars s1) (p, sc, m)) as [[[l c]|]|]; [|now apply Step|now apply Step].
    destruct opt; [exact H1|]. destruct (l && c); exact H1.
  Qed.

  (* No call within itself. *)
  Section Acyclic.
    Context (rank : bytes -> nat).
    Context (Rk : forall mm d f sc first opt m, In f (funs mm d) -> uses (f_init f sc first opt) m -> rank m < rank (f_name f)).
    Definition few (s : st) : Prop := forall p sc m, calls p sc m (log s) <= 1.
    Definition act (A : list (nat * scope * bytes)) (s : st) : Prop :=
      few s /\ forall p sc m, calls p sc m (log s) <> 0 -> In (p, sc, m) A \/ exists v, getv (vars s) (p, sc, m) = Some (Some v).
    Definition actr {B} (A : list (nat * scope * bytes)) (r : R B) : Prop := match r with (s', Done _) => act A s' | (s', _) => few s' end.
    Lemma act_same A s s' : same s s' -> act A s -> act A s'.
    Proof.
      intros Sm [F H]. split; [intros p sc m; rewrite (same_calls _ _ _ _ _ Sm); apply F|]. intros p sc m. rewrite (same_calls _ _ _ _ _ Sm). destruct Sm as [-> _]. apply H.
    Qed.
    Definition above (A : list (nat * scope * bytes)) (m : bytes) : Prop := forall k, In k A -> rank m < rank (snd k).
    Definition ini_act (p : nat) (ini : scope -> bytes -> bool -> st -> R bool) : Prop :=
      forall sc m opt s A, inv s -> 1 <= stage s p -> act A s -> above A m -> actr A (ini sc m opt s).
    Lemma ask_act p ini : ini_act p ini -> forall k sc m s A, inv s -> 1 <= stage s p -> act A s -> above A m -> actr A (ask ini p k sc m s).
    Proof.
      intros Ia k sc m s A I St Ac Ab. destruct k as [opt|opt|]; cbn [ask].
      - now apply Ia.
      - destruct (visible (vars s) p sc m) as [[[|] c]|]; try (now apply Ia). destruct c; [destruct (entry (loaded s p) m)|]; auto. apply Ac.
      - assert (H : actr A (bind (ini sc m false s) (fun r s0 => if r then (s0, Done true) else (s0, @Crashed bool)))).
        { specialize (Ia sc m false s A I St Ac Ab). destruct (ini sc m false s) as [s' [[|]| | |]]; cbn [bind actr] in *; auto. apply Ia. }
        destruct (visible (vars s) p sc m) as [[[|] c]|]; auto. destruct (entry (loaded s p) m); auto. apply Ac.
    Qed.
    Lemma run_act p ini : ini_ok imp funs bundled p ini -> ini_act p ini ->
      forall pr s A, inv s -> 1 <= stage s p -> act A s -> (forall m, uses pr m -> above A m) -> actr A (run ini p pr s).
    Proof.
      intros Io Ia. induction pr as [c| |k sc m next IH]; intros s A I St Ac Ab; cbn [run]; [exact Ac|apply Ac|].
      pose proof (ask_act p ini Ia k sc m s A I St Ac (Ab m (uses_here _ _ _ _))) as H. pose proof (ask_spec imp funs bundled p ini Io k sc m s I St) as G.
      destruct (ask ini p k sc m s) as [s1 [r| | |]]; cbn [bind good actr] in *; auto. destruct G as (I1 & K1 & _).
      apply (IH r); auto; [now rewrite (k_stage _ _ _ K1)|]. intros m' U. apply Ab. econstructor; eauto.
    Qed.
    Lemma init_act n : forall p, ini_act p (init_module n p).
    Proof.
      induction n as [|n IH]; intros p sc m opt s A I St Ac Ab; cbn [ModModel.init_module]; [apply Ac|].
      pose proof (obtain_same p m opt s) as Sm. destruct (obtain imp funs bundled p m opt s) as [s1 [[fn f]| | |]] eqn:Eo; cbn [bind fst snd] in *; try (now apply (act_same A _ _ Sm Ac)).
      pose proof (act_same A _ _ Sm Ac) as A1.
      assert (Step : match getv (vars s1) (p, sc, m) with Some (Some _) => False | _ => True end ->
        actr A (match fn with
         | None => (setv (p, sc, m) (Some (false, false)) s1, Done false)
         | Some fn => bind (run (init_module n p) p (f_init fn sc f opt) (logev (Enter p sc m f opt) (setv (p, sc, m) None s1)))
                        (fun c s => (logev (Leave p sc m c) (setv (p, sc, m) (Some (true, c)) s), Done c))
         end)).
      { intros Nv. destruct fn as [fn|].
        - destruct (inv_step p sc m opt s fn f s1 I St Eo Nv) as (I2 & St1 & Nm & (d & Din)). set (s2 := logev (Enter p sc m f opt) (setv (p, sc, m) None s1)) in *.
          assert (Z : calls p sc m (log s1) = 0).
          { destruct (calls p sc m (log s1)) eqn:Ec; [reflexivity|]. destruct (proj2 A1 p sc m) as [H|(v & H)]; [rewrite Ec; discriminate| |now rewrite H in Nv].
            specialize (Ab _ H). cbn in Ab. lia. }
          assert (A2 : act ((p, sc, m) :: A) s2).
          { split.
            - intros p' sc' m'. cbn [s2 logev setv log calls]. destruct (key_eqb (p, sc, m) (p', sc', m')) eqn:Kq; [apply key_eqb_eq in Kq; injection Kq; intros; subst; lia|]. apply A1.
            - intros p' sc' m'. cbn [s2 logev setv log calls vars]. rewrite getv_cons. destruct (key_eqb (p, sc, m) (p', sc', m')) eqn:Kq; [apply key_eqb_eq in Kq; intros _; left; now left|].
              cbn [Nat.add]. intros H. rewrite key_eqb_neq; [|intros X; rewrite X, key_eqb_refl in Kq; discriminate]. destruct (proj2 A1 _ _ _ H) as [X|X]; [left; now right|now right]. }
          assert (Ab2 : forall m', uses (f_init fn sc f opt) m' -> above ((p, sc, m) :: A) m').
          { intros m' U k [<-|Hk]; cbn [snd].
            - rewrite <- Nm. eapply Rk; eauto.
            - specialize (Ab k Hk). pose proof (Rk _ _ _ _ _ _ _ Din U) as H. rewrite Nm in H. lia. }
          pose proof (run_act p _ (init_spec imp funs bundled WF n p) (IH p) (f_init fn sc f opt) s2 _ I2 St1 A2 Ab2) as Rn.
          destruct (run (init_module n p) p (f_init fn sc f opt) s2) as [s3 [c| | |]]; cbn [bind actr] in *; auto. destruct Rn as [F3 H3]. split; [exact F3|].
          intros p' sc' m'. cbn [logev setv log calls vars]. rewrite getv_cons. intros H. destruct (key_eqb (p', sc', m') (p, sc, m)) eqn:Kq; [right; eauto|].
          destruct (H3 _ _ _ H) as [[X|X]|X]; auto. rewrite X, key_eqb_refl in Kq. discriminate.
        - destruct A1 as [F1 H1]. split; [exact F1|]. intros p' sc' m'. cbn [setv log vars]. rewrite getv_cons. intros H. destruct (key_eqb (p', sc', m') (p, sc, m)); [right; eauto|]. now apply H1. }
      destruct (getv (vars s1) (p, sc, m)) as [[[l c]|]|]; [|now apply Step|now apply Step].
      destruct opt; [exact A1|]. destruct (l && c); [exact A1|apply A1].
    Qed.
    Lemma above_nil m : above [] m.
    Proof. intros k []. Qed.
    Lemma init_modules_act n p v : forall ns s, inv s -> 1 <= stage s p -> act [] s -> actr [] (init_modules n p ns v s).
    Proof.
      unfold ModModel.init_modules. induction ns as [|m ns IH]; intros s I St Ac; cbn [each]; [exact Ac|].
      set (r := match entry (loaded s p) m with Some _ => _ | None => _ end).
      assert (H : actr [] r /\ match r with (s', Done _) => inv s' /\ keeps p s s' | _ => True end).
      { unfold r. destruct (entry (loaded s p) m) as [e|]; [|split; [exact Ac|split; [assumption|apply keeps_refl]]]. destruct (ms_boot e) as [v'|]; [|split; [exact Ac|split; [assumption|apply keeps_refl]]].
        destruct (mode_eqb v' v); [|split; [exact Ac|split; [assumption|apply keeps_refl]]].
        pose proof (init_act n p [] m false s [] I St Ac (above_nil m)) as H. pose proof (init_spec imp funs bundled WF n p [] m false s I St) as G.
        destruct (init_module n p [] m false s) as [s' [bb| | |]]; cbn [bind actr good] in *; auto. split; [exact H|]. split; apply G. }
      destruct r as [s1 [[]| | |]]; cbn [bind actr] in *; try apply H. destruct H as [H (I1 & K1)]. apply IH; auto. now rewrite (k_stage _ _ _ K1).
    Qed.
    Lemma exec1_act n c s : hinv s -> act [] s -> actr [] (exec1 imp funs bundled n c s).
    Proof.
      intros H Ac. pose proof (proj1 H) as I. destruct c as [p ms|p build|p pr]; cbn [exec1].
      - unfold bootstrap. destruct (Nat.eqb (stage s p) 0); [|apply Ac]. pose proof (each_same _ (fun m s => boot_same n p m s) ms s) as Sm.
        destruct (each (boot_module imp funs bundled n p) ms s) as [s1 [[]| | |]]; cbn [bind actr fst] in *; try apply (act_same _ _ _ Sm Ac).
      - unfold load_root. destruct (Nat.eqb (stage s p) 1) eqn:St; [|apply Ac]. apply Nat.eqb_eq in St. cbv zeta. set (ns := map ms_name (loaded s p)).
        assert (I0 : inv (set_stage p 2 s)) by (apply inv_stage2; [assumption|now rewrite St]). assert (A0 : act [] (set_stage p 2 s)) by (eapply act_same; [|exact Ac]; now apply same_eq).
        set (s0 := set_stage p 2 s) in *. assert (S0 : 1 <= stage s0 p) by (cbn; rewrite upd_same; auto). clearbody s0.
        assert (Go : forall v s, inv s -> 1 <= stage s p -> act [] s -> actr [] (init_modules n p ns v s) /\ match init_modules n p ns v s with (s', Done _) => inv s' /\ 1 <= stage s' p | _ => True end).
        { intros v t It St' At. split; [now apply init_modules_act|]. pose proof (init_modules_spec imp funs bundled WF n p v ns t It St') as X. destruct (init_modules n p ns v t) as [s' [[]| | |]]; auto.
          destruct X as (X & K & _). split; [assumption|]. now rewrite (k_stage _ _ _ K). }
        pose proof (Go First s0 I0 S0 A0) as M1. destruct (init_modules n p ns First s0) as [s1 [[]| | |]]; cbn [bind actr] in *; try apply M1. destruct M1 as (A1 & I1 & S1).
        pose proof (Go Second s1 I1 S1 A1) as M2. destruct (init_modules n p ns Second s1) as [s2 [[]| | |]]; cbn [bind actr] in *; try apply M2. destruct M2 as (A2 & I2 & S2).
        pose proof (Go Before s2 I2 S2 A2) as M3. destruct (init_modules n p ns Before s2) as [s3 [[]| | |]]; cbn [bind actr] in *; try apply M3. destruct M3 as (A3 & I3 & S3).
        pose proof (inv_sourced imp funs bundled s3 p I3) as I4. assert (A4 : act [] (logev (Sourced p) s3)) by exact A3.
        pose proof (run_act p _ (init_spec imp funs bundled WF n p) (init_act n p) build _ [] I4 S3 A4 (fun m _ => above_nil m)) as Rn.
        pose proof (run_spec imp funs bundled p _ (init_spec imp funs bundled WF n p) build _ I4 S3) as Rg.
        destruct (run (init_module n p) p build (logev (Sourced p) s3)) as [s5 [bb| | |]]; cbn [bind actr good] in *; auto. destruct Rg as (I5 & K5 & _).
        apply init_modules_act; auto. now rewrite (k_stage _ _ _ K5).
      - destruct (Nat.eqb (stage s p) 2) eqn:St; [|apply Ac]. apply Nat.eqb_eq in St. assert (S1 : 1 <= stage s p) by (rewrite St; auto).
        pose proof (run_act p _ (init_spec imp funs bundled WF n p) (init_act n p) pr s [] I S1 Ac (fun m _ => above_nil m)) as Rn.
        destruct (run (init_module n p) p pr s) as [s' [bb| | |]]; cbn [bind actr] in *; auto.
    Qed.
    Lemma exec_act n : forall cs s, hinv s -> act [] s -> actr [] (each (exec1 imp funs bundled n) cs s).
    Proof.
      induction cs as [|c cs IH]; intros s H Ac; cbn [each]; [exact Ac|]. pose proof (exec1_act n c s H Ac) as A. pose proof (exec1_spec imp funs bundled WF n c s H) as E.
      destruct (exec1 imp funs bundled n c s) as [s1 [[]| | |]]; cbn [bind actr] in *; auto.
    Qed.
  End Acyclic.
End Order.
