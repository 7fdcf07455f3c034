(* Proofs: order of booted modules. *)
From Verif Require Import Base ModModel ModSpec ModProofs ModProofs2 ModProofs3 ModProofs4.
From Coq Require Import Lia.

Definition mrank (v : mode) : nat := match v with First => 0 | Second => 1 | Before => 2 | After => 3 end.

Lemma entered_app p m l1 l2 : entered p m l2 -> entered p m (l1 ++ l2).
Proof. intros (sc & f & o & H). exists sc, f, o. apply in_app_iff. now right. Qed.

Section Follow.
  Context (p : nat) (m1 m2 : bytes) (v1 : mode).
  (* Calls of the second follow one of the first. *)
  Definition follows (l : list event) : Prop := forall l2 l1 sc f o, l = l2 ++ Enter p sc m2 f o :: l1 -> entered p m1 l1.
  Definition zed (s : st) : Prop := (entered p m1 (log s) /\ follows (log s)) \/ ~ entered p m2 (log s).
  Lemma zed_follows s : zed s -> follows (log s).
  Proof. intros [[_ H]|H]; [assumption|]. intros l2 l1 sc f o E. exfalso. apply H. exists sc, f, o. rewrite E. apply in_app_iff. right. now left. Qed.
  Lemma follows_app l l0 : entered p m1 l0 -> follows l0 -> follows (l ++ l0).
  Proof.
    induction l as [|e l IH]; cbn; intros En F; [assumption|]. intros l2 l1 sc f o E. destruct l2 as [|x l2]; cbn in E; injection E; intros; subst; [now apply entered_app|]. eapply IH; eauto.
  Qed.
  Lemma zed_step s s' : zed s -> (exists l, log s' = l ++ log s) -> (entered p m2 (log s') -> entered p m2 (log s)) -> zed s'.
  Proof.
    intros [[H1 H2]|H] (l & E) N; [|right; tauto]. left. rewrite E. split; [now apply entered_app|now apply follows_app].
  Qed.
  Definition is_mode (s : st) (m : bytes) (v : mode) : Prop := exists e, entry (loaded s p) m = Some e /\ (ms_boot e = None \/ ms_boot e = Some v).
  Lemma mode_keeps s s' m v : is_mode s m v -> keeps p s s' -> is_mode s' m v.
  Proof.
    intros (e & E & B) K. destruct (entry (loaded s' p) m) as [e'|] eqn:E'; [|exfalso; apply (k_entry _ _ _ K m); [rewrite E; discriminate|assumption]].
    exists e'. split; [assumption|]. destruct (ms_boot e') as [v'|] eqn:B'; [|now left]. destruct (k_mode _ _ _ K m e' v' E' B') as (e0 & X & Y). rewrite E in X. injection X; intros ->.
    destruct B as [B|B]; [congruence|]. right. congruence.
  Qed.
  (* Logs only grow, whatever comes of it. *)
  Lemma ask_grow ini : (forall sc m opt s, exists l, log (fst (ini sc m opt s)) = l ++ log s) -> forall k sc m s, exists l, log (fst (ask ini p k sc m s)) = l ++ log s.
  Proof.
    intros Ik k sc m s. destruct k as [opt|opt|]; cbn [ask].
    - apply Ik.
    - destruct (visible (vars s) p sc m) as [[[|] c]|]; try apply Ik. destruct c; [destruct (entry (loaded s p) m)|]; now exists [].
    - assert (H : exists l, log (fst (bind (ini sc m false s) (fun r s0 => if r then (s0, Done true) else (s0, @Crashed bool)))) = l ++ log s).
      { specialize (Ik sc m false s). destruct (ini sc m false s) as [s' [[|]| | |]]; cbn [bind fst] in *; auto. }
      destruct (visible (vars s) p sc m) as [[[|] c]|]; auto. destruct (entry (loaded s p) m); now exists [].
  Qed.
  Lemma run_grow ini : (forall sc m opt s, exists l, log (fst (ini sc m opt s)) = l ++ log s) -> forall pr s, exists l, log (fst (run ini p pr s)) = l ++ log s.
  Proof.
    intros Ik. induction pr as [c| |k sc m next IH]; intros s; cbn [run]; [now exists []|now exists []|]. destruct (ask_grow ini Ik k sc m s) as (l & E).
    destruct (ask ini p k sc m s) as [s1 [r| | |]]; cbn [bind fst] in *; eauto. destruct (IH r s1) as (l' & E'). exists (l' ++ l). now rewrite E', E, app_assoc.
  Qed.
  Definition done1 (s : st) : Prop := forall e, entry (loaded s p) m1 = Some e -> ms_boot e = None.
  Lemma done1_keeps s s' : is_mode s m1 v1 -> done1 s -> keeps p s s' -> done1 s'.
  Proof.
    intros (e & E & _) D K e' E'. destruct (ms_boot e') as [v|] eqn:B; [|reflexivity]. destruct (k_mode _ _ _ K m1 e' v E' B) as (e0 & X & Y). rewrite (D e0 X) in Y. discriminate.
  Qed.
End Follow.

Section Order2.
  Context (imp : nat -> bytes -> bool -> bool -> bool -> imp_result) (funs : bytes -> bytes -> list func) (bundled : bytes -> bool).
  Context (WF : proper funs).
  Notation inv := (inv imp funs bundled).
  Notation hinv := (hinv imp funs bundled).
  Notation init_module := (init_module imp funs bundled).
  Notation init_modules := (init_modules imp funs bundled).
  Context (p : nat) (m1 m2 : bytes) (v1 v2 : mode) (Nu : ~ used funs m2).
  Notation follows := (follows p m1 m2).
  Notation zed := (zed p m1 m2).
  Notation is_mode := (is_mode p).
  Notation done1 := (done1 p m1).

  Lemma init_grow n : forall sc m opt s, exists l, log (fst (init_module n p sc m opt s)) = l ++ log s.
  Proof.
    induction n as [|n IH]; intros sc m opt s; cbn [ModModel.init_module]; [now exists []|].
    destruct (obtain_same imp funs bundled p m opt s) as [_ (l0 & E0 & _)]. destruct (obtain imp funs bundled p m opt s) as [s1 [[fn f]| | |]]; cbn [bind fst snd] in *; eauto.
    assert (H : exists l, log (fst (match fn with
         | None => (setv (p, sc, m) (Some (false, false)) s1, Done false)
         | Some fn => bind (run (init_module n p) p (f_init fn sc f opt) (logev (Enter p sc m f opt) (setv (p, sc, m) None s1)))
                        (fun c s => (logev (Leave p sc m c) (setv (p, sc, m) (Some (true, c)) s), Done c))
         end)) = l ++ log s).
    { destruct fn as [fn|]; [|now exists l0]. destruct (run_grow p _ IH (f_init fn sc f opt) (logev (Enter p sc m f opt) (setv (p, sc, m) None s1))) as (l & E).
      destruct (run (init_module n p) p (f_init fn sc f opt) _) as [s3 [c| | |]]; cbn [bind fst logev setv log] in *; rewrite E, E0.
      - exists (Leave p sc m c :: l ++ Enter p sc m f opt :: l0). cbn. now rewrite <- app_assoc.
      - exists (l ++ Enter p sc m f opt :: l0). now rewrite <- app_assoc.
      - exists (l ++ Enter p sc m f opt :: l0). now rewrite <- app_assoc.
      - exists (l ++ Enter p sc m f opt :: l0). now rewrite <- app_assoc. }
    destruct (getv (vars s1) (p, sc, m)) as [[[l c]|]|]; try exact H. destruct opt; [now exists l0|]. destruct (l && c); now exists l0.
  Qed.

  Lemma done1_entered s : inv s -> 1 <= stage s p -> is_mode s m1 v1 -> done1 s -> entered p m1 (log s).
  Proof. intros I St (e & E & _) D. destruct (i_first _ _ (proj2 I) p m1 St) as [[]|X]; [exists e; split; [assumption|now apply D]|exact X]. Qed.
  Lemma group_zed n v : forall ns s, inv s -> 1 <= stage s p -> is_mode s m1 v1 -> is_mode s m2 v2 -> zed s -> (done1 s \/ ~ In m2 ns \/ v <> v2) ->
    match init_modules n p ns v s with (s', Done _) => zed s' | (s', _) => follows (log s') end.
  Proof.
    unfold ModModel.init_modules. induction ns as [|m ns IH]; intros s I St M1 M2 Z C; cbn [each]; [exact Z|].
    set (r := match entry (loaded s p) m with Some _ => _ | None => _ end).
    assert (H : match r with (s', Done _) => zed s' /\ inv s' /\ keeps p s s' | (s', _) => follows (log s') end).
    { unfold r. destruct (entry (loaded s p) m) as [e|] eqn:E; [|split; [exact Z|split; [assumption|apply keeps_refl]]]. destruct (ms_boot e) as [v'|] eqn:Eb; [|split; [exact Z|split; [assumption|apply keeps_refl]]].
      destruct (mode_eqb v' v) eqn:Mv; [|split; [exact Z|split; [assumption|apply keeps_refl]]]. assert (v' = v) by (now destruct v', v). subst v'.
      assert (Zn : zed (fst (init_module n p [] m false s))).
      { destruct (list_eq_dec Ascii.ascii_dec m m2) as [->|Nm].
        - destruct M2 as (e2 & E2 & B2). assert (v = v2) by (rewrite E in E2; injection E2; intros ->; destruct B2; congruence). subst v.
          assert (En : entered p m1 (log s)).
          { apply done1_entered; auto. destruct C as [C|[C|C]]; [assumption|exfalso; apply C; now left|contradiction]. }
          destruct (init_grow n [] m2 false s) as (l & El). left. rewrite El. split; [now apply entered_app|]. apply follows_app; [assumption|now apply zed_follows].
        - eapply zed_step; [exact Z|apply init_grow|]. now apply init_new. }
      pose proof (init_spec imp funs bundled WF n p [] m false s I St) as G.
      destruct (init_module n p [] m false s) as [s' [bb| | |]]; cbn [bind fst good] in *; try (now apply zed_follows). split; [assumption|]. split; apply G. }
    destruct r as [s1 [[]| | |]]; cbn [bind]; auto. destruct H as (Z1 & I1 & K1). apply IH; auto.
    - now rewrite (k_stage _ _ _ K1).
    - eapply mode_keeps; eauto.
    - eapply mode_keeps; eauto.
    - destruct C as [C|[C|C]]; [left; eapply done1_keeps; eauto|right; left; intros X; apply C; now right|now right; right].
  Qed.
  Lemma init_modules_app n v a c s : init_modules n p (a ++ c) v s = bind (init_modules n p a v s) (fun _ s => init_modules n p c v s).
  Proof.
    unfold ModModel.init_modules. revert s. induction a as [|m a IH]; intros s; cbn [each app bind]; [reflexivity|].
    match goal with |- bind ?r _ = _ => destruct r as [s1 [[]| | |]] end; cbn [bind]; auto.
  Qed.

  (* The order: by mode, and then by place. *)
  Context (ns : list bytes).
  Definition before_of : Prop := mrank v1 < mrank v2 \/ (v1 = v2 /\ exists a c, ns = a ++ m1 :: c /\ ~ In m2 a).

  (* A group: it goes on, and is done with the first of them if it is its. *)
  Lemma group n v s : before_of -> m1 <> m2 -> In m1 ns -> inv s -> 1 <= stage s p -> is_mode s m1 v1 -> is_mode s m2 v2 -> zed s -> (mrank v1 < mrank v -> done1 s) ->
    match init_modules n p ns v s with
    | (s', Done _) => zed s' /\ inv s' /\ 1 <= stage s' p /\ is_mode s' m1 v1 /\ is_mode s' m2 v2 /\ (mrank v1 <= mrank v -> done1 s')
    | (s', _) => follows (log s')
    end.
  Proof.
    intros Bf N12 In1 I St M1 M2 Z Dn.
    assert (Zr : match init_modules n p ns v s with (s', Done _) => zed s' | (s', _) => follows (log s') end).
    { destruct (Nat.eq_dec (mrank v) (mrank v2)) as [Ev|Ev]; [|apply group_zed; auto; right; right; congruence].
      assert (v = v2) by (now destruct v, v2). subst v. destruct Bf as [Lt|[Eq (a & c & En & Na)]]; [apply group_zed; auto|].
      rewrite En. replace (a ++ m1 :: c) with ((a ++ [m1]) ++ c) by (now rewrite <- app_assoc). rewrite init_modules_app.
      pose proof (group_zed n v2 (a ++ [m1]) s I St M1 M2 Z) as Za. pose proof (init_modules_spec imp funs bundled WF n p v2 (a ++ [m1]) s I St) as Sa.
      assert (Nx : ~ In m2 (a ++ [m1])) by (intros X; apply in_app_iff in X; destruct X as [X|[X|[]]]; contradiction). specialize (Za (or_intror (or_introl Nx))).
      destruct (init_modules n p (a ++ [m1]) v2 s) as [s1 [[]| | |]]; cbn [bind]; auto. destruct Sa as (I1 & K1 & B1).
      apply group_zed; auto; try (eapply mode_keeps; eauto); [now rewrite (k_stage _ _ _ K1)|]. left. intros e E.
      destruct (mode_keeps p _ _ _ _ M1 K1) as (e' & E' & [B|B]); [congruence|]. exfalso. apply (B1 m1 e'); [apply in_app_iff; right; now left|assumption|now rewrite <- Eq]. }
    pose proof (init_modules_spec imp funs bundled WF n p v ns s I St) as Sp. destruct (init_modules n p ns v s) as [s' [[]| | |]]; auto. destruct Sp as (I' & K & B).
    split; [assumption|]. split; [assumption|]. split; [now rewrite (k_stage _ _ _ K)|]. split; [eapply mode_keeps; eauto|]. split; [eapply mode_keeps; eauto|].
    intros Le. destruct (Nat.eq_dec (mrank v1) (mrank v)) as [Ev|Ev].
    - assert (v1 = v) by (now destruct v1, v). subst v. intros e E. destruct (mode_keeps p _ _ _ _ M1 K) as (e' & E' & [Bx|Bx]); [congruence|]. exfalso. now apply (B m1 e').
    - eapply done1_keeps; eauto. apply Dn. lia.
  Qed.
End Order2.

Section Final.
  Context (imp : nat -> bytes -> bool -> bool -> bool -> imp_result) (funs : bytes -> bytes -> list func) (bundled : bytes -> bool).
  Context (WF : proper funs).
  Lemma order_spec n p build m1 m2 v1 v2 e1 e2 s : hinv imp funs bundled s -> ~ used funs m2 -> ~ uses build m2 -> m1 <> m2 -> stage s p = 1 ->
    entry (loaded s p) m1 = Some e1 -> ms_boot e1 = Some v1 -> entry (loaded s p) m2 = Some e2 -> ms_boot e2 = Some v2 ->
    before_of m1 m2 v1 v2 (map ms_name (loaded s p)) ->
    follows p m1 m2 (log (fst (load_root imp funs bundled n p build s))).
  Proof.
    intros [I _] Nu Nb N12 St E1 B1 E2 B2 Bf. unfold load_root. rewrite St. cbn [Nat.eqb]. cbv zeta. set (ns := map ms_name (loaded s p)) in *.
    assert (In1 : In m1 ns). { destruct (in_dec (list_eq_dec Ascii.ascii_dec) m1 ns) as [J|J]; [assumption|]. apply entry_none in J. congruence. }
    assert (I0 : inv imp funs bundled (set_stage p 2 s)) by (apply inv_stage2; [assumption|now rewrite St]).
    assert (Z0 : zed p m1 m2 (set_stage p 2 s)) by (right; intros H; apply (i_enter _ _ (proj2 I)) in H; destruct H as (e & X & Y); congruence).
    assert (Ma : is_mode p (set_stage p 2 s) m1 v1) by (exists e1; cbn [set_stage loaded]; auto).
    assert (Mb : is_mode p (set_stage p 2 s) m2 v2) by (exists e2; cbn [set_stage loaded]; auto).
    assert (S0 : 1 <= stage (set_stage p 2 s) p) by (cbn; rewrite upd_same; auto). set (s0 := set_stage p 2 s) in *. clearbody s0.
    pose proof (group imp funs bundled WF p m1 m2 v1 v2 Nu ns n First s0 Bf N12 In1 I0 S0 Ma Mb Z0 ltac:(cbn; lia)) as G1.
    destruct (init_modules imp funs bundled n p ns First s0) as [s1 [[]| | |]]; cbn [bind fst]; auto. destruct G1 as (Z1 & I1 & S1 & Ma1 & Mb1 & D1).
    pose proof (group imp funs bundled WF p m1 m2 v1 v2 Nu ns n Second s1 Bf N12 In1 I1 S1 Ma1 Mb1 Z1 ltac:(cbn in *; intros; apply D1; lia)) as G2.
    destruct (init_modules imp funs bundled n p ns Second s1) as [s2 [[]| | |]]; cbn [bind fst]; auto. destruct G2 as (Z2 & I2 & S2 & Ma2 & Mb2 & D2).
    pose proof (group imp funs bundled WF p m1 m2 v1 v2 Nu ns n Before s2 Bf N12 In1 I2 S2 Ma2 Mb2 Z2 ltac:(cbn in *; intros; apply D2; lia)) as G3.
    destruct (init_modules imp funs bundled n p ns Before s2) as [s3 [[]| | |]]; cbn [bind fst]; auto. destruct G3 as (Z3 & I3 & S3 & Ma3 & Mb3 & D3).
    pose proof (inv_sourced imp funs bundled s3 p I3) as I4.
    assert (Z4 : zed p m1 m2 (logev (Sourced p) s3)).
    { apply (zed_step p m1 m2 s3); [assumption|now exists [Sourced p]|]. intros (sc' & f' & o' & [H|H]); [discriminate|]. now exists sc', f', o'. }
    assert (K4 : keeps p s3 (logev (Sourced p) s3)) by (apply keeps_same; [reflexivity|reflexivity|]; now exists [Sourced p]).
    pose proof (run_new imp funs bundled p m2 _ (init_spec imp funs bundled WF n p) (init_new imp funs bundled WF m2 Nu n p) build _ I4 S3 Nb) as Rn.
    pose proof (run_grow p _ (init_grow imp funs bundled p n) build (logev (Sourced p) s3)) as Rg.
    pose proof (run_spec imp funs bundled p _ (init_spec imp funs bundled WF n p) build _ I4 S3) as Rs.
    pose proof (zed_step p m1 m2 _ _ Z4 Rg Rn) as Z5.
    destruct (run (init_module imp funs bundled n p) p build (logev (Sourced p) s3)) as [s5 [bb| | |]]; cbn [bind fst good] in *; try (now apply zed_follows). destruct Rs as (I5 & K5 & _).
    assert (K35 := keeps_trans _ _ _ _ K4 K5).
    assert (S5 : 1 <= stage s5 p) by (now rewrite (k_stage _ _ _ K35)).
    pose proof (group imp funs bundled WF p m1 m2 v1 v2 Nu ns n After s5 Bf N12 In1 I5 S5 (mode_keeps _ _ _ _ _ Ma3 K35) (mode_keeps _ _ _ _ _ Mb3 K35) Z5) as G6.
    assert (D5 : mrank v1 < mrank After -> done1 p m1 s5) by (cbn in *; intros; eapply (done1_keeps p m1 v1); [exact Ma3|apply D3; lia|exact K35]).
    specialize (G6 D5). destruct (init_modules imp funs bundled n p ns After s5) as [s6 [[]| | |]]; cbn [fst]; auto. apply zed_follows. apply G6.
  Qed.
End Final.
