(* Proofs: finding a module. *)
From Verif Require Import Base ModModel ModSpec.

Lemma get_cons {A} k k' (v : A) l : get ((k', v) :: l) k = if beqb k k' then Some v else get l k.
Proof. reflexivity. Qed.
Lemma beqb_neq x y : x <> y -> beqb x y = false.
Proof. destruct (beqb x y) eqn:E; [|reflexivity]. intros N. apply beqb_eq in E. contradiction. Qed.
Lemma get_app {A} (l : list (bytes * A)) k k' v : get (l ++ [(k', v)]) k = match get l k with Some x => Some x | None => if beqb k k' then Some v else None end.
Proof. induction l as [|[a w] l IH]; cbn; [reflexivity|]. now destruct (beqb k a). Qed.
Lemma main_main m : main (main m) = main m.
Proof. induction m as [|c m IH]; cbn; [reflexivity|]. destruct (ceqb c ".") eqn:E; cbn; [reflexivity|]. now rewrite E, IH. Qed.
Lemma sc_eqb_eq x y : sc_eqb x y = true <-> x = y.
Proof.
  revert y; induction x as [|a x IH]; destruct y as [|c y]; cbn; try (split; congruence). rewrite andb_true_iff, IH, beqb_eq. split; [intros [-> ->]; reflexivity|].
  intros H; injection H; auto.
Qed.
Lemma key_eqb_eq x y : key_eqb x y = true <-> x = y.
Proof.
  destruct x as [[p s] m], y as [[p' s'] m']. unfold key_eqb; cbn [fst snd]. rewrite !andb_true_iff, Nat.eqb_eq, sc_eqb_eq, beqb_eq. split; [intros [[-> ->] ->]; reflexivity|].
  intros H; injection H; auto.
Qed.
Lemma getv_cons k k' v l : getv ((k', v) :: l) k = if key_eqb k k' then Some v else getv l k.
Proof. reflexivity. Qed.
Lemma key_eqb_refl k : key_eqb k k = true.
Proof. now apply key_eqb_eq. Qed.
Lemma key_eqb_neq k k' : k <> k' -> key_eqb k k' = false.
Proof. destruct (key_eqb k k') eqn:E; [|reflexivity]. apply key_eqb_eq in E. contradiction. Qed.
Lemma upd_same {A} (f : nat -> A) p v : upd f p v p = v.
Proof. unfold upd. now rewrite Nat.eqb_refl. Qed.
Lemma upd_other {A} (f : nat -> A) p v q : q <> p -> upd f p v q = f q.
Proof. intros N. unfold upd. destruct (Nat.eqb q p) eqn:E; [apply Nat.eqb_eq in E; contradiction|reflexivity]. Qed.

Lemma log_ok_cons imp bundled e l : log_ok imp bundled (e :: l) <-> ok imp bundled e l /\ log_ok imp bundled l.
Proof.
  split.
  - intros H. split; [now apply (H [] e l)|]. intros l2 x l1 ->. now apply (H (e :: l2) x l1).
  - intros [O H] l2 x l1 E. destruct l2 as [|y l2]; cbn in E; injection E; intros; subst; [assumption|]. now apply (H l2 x l1).
Qed.

Section Find.
  Context (imp : nat -> bytes -> bool -> bool -> bool -> imp_result) (funs : bytes -> bytes -> list func) (bundled : bytes -> bool).
  Context (WF : proper funs).

  Record core (s : st) : Prop := {
    c_lib : forall k e, get (libs s) k = Some e -> f_name (l_fun e) = k /\ (exists d, In (l_fun e) (funs (main k) d)) /\ exists e', get (libs s) (main k) = Some e';
    c_imp : forall p mm, get (imported s p) mm = Some true ->
      exists e, get (libs s) mm = Some e /\ (bundled mm = false -> exists b o dr, imp p mm b o dr = Found (l_path e) /\ In (Import p mm b o dr) (log s));
    c_ent : forall p m e, entry (loaded s p) m = Some e -> f_name (ms_fun e) = m /\ (exists d, In (ms_fun e) (funs (main m) d)) /\ get (imported s p) (main m) = Some true;
    c_nd : forall p, NoDup (map ms_name (loaded s p)) }.
  Definition once (s : st) : Prop := forall p mm, imports p mm (log s) -> get (imported s p) mm <> None.
  (* The project can't have the module from now on. *)
  Definition notfound (s : st) (p : nat) (m : bytes) : Prop :=
    get (imported s p) (main m) = Some false \/ (get (libs s) (main m) <> None /\ get (libs s) m = None).
  Definition is_import (e : event) : Prop := match e with Import _ _ _ _ _ => True | _ => False end.
  Record grows (s s' : st) : Prop := {
    g_imp : forall p mm r, get (imported s p) mm = Some r -> get (imported s' p) mm = Some r;
    g_nf : forall p m, notfound s p m -> notfound s' p m;
    g_log : exists l, log s' = l ++ log s /\ Forall is_import l;
    g_loaded : loaded s' = loaded s; g_vars : vars s' = vars s; g_stage : stage s' = stage s }.
  Lemma grows_refl s : grows s s.
  Proof. constructor; auto. now exists []. Qed.
  Lemma grows_trans s1 s2 s3 : grows s1 s2 -> grows s2 s3 -> grows s1 s3.
  Proof.
    intros [A1 A2 (l1 & A3 & A3') A4 A5 A6] [B1 B2 (l2 & B3 & B3') B4 B5 B6]. constructor; try congruence; eauto.
    exists (l2 ++ l1). rewrite B3, A3, app_assoc. split; [reflexivity|]. apply Forall_app. now split.
  Qed.

  (* Registration. *)
  Lemma register_spec m mm d fs : forall ls i ls' i',
    register m mm d fs ls i = Some (ls', i') ->
    (forall f, In f fs -> main (f_name f) = mm) -> main m = mm ->
    match i with None => get ls m = None /\ get ls mm = None | Some (k, e) => get ls k = Some e /\ (k = m \/ k = mm /\ get ls m = None) end ->
    match i' with None => get ls' m = None /\ get ls' mm = None | Some (k, e) => get ls' k = Some e /\ (k = m \/ k = mm /\ get ls' m = None) end /\
    (forall k e, get ls k = Some e -> get ls' k = Some e) /\
    (forall k e, get ls' k = Some e -> get ls k = Some e \/ get ls k = None /\ f_name (l_fun e) = k /\ In (l_fun e) fs /\ (k = mm -> l_path e = d)) /\
    (forall f, In f fs -> exists e, get ls' (f_name f) = Some e).
  Proof.
    induction fs as [|f fs IH]; intros ls i ls' i' E W Mm I; cbn [register] in E.
    - injection E; intros; subst. split; [assumption|]. repeat split; auto. intros f [].
    - destruct (get ls (f_name f)) eqn:G; [discriminate|]. apply IH in E; [|intros g Ig; apply W; now right|assumption|].
      + destruct E as (E1 & E2 & E3 & E4). split; [assumption|]. split; [|split].
        * intros k e Gk. apply E2. rewrite get_cons. rewrite beqb_neq; [assumption|]. intros ->. congruence.
        * intros k e Gk. destruct (E3 k e Gk) as [Gk'|(Gn & N & J & Pm)].
          -- rewrite get_cons in Gk'. destruct (beqb k (f_name f)) eqn:B; [|now left]. apply beqb_eq in B. subst k. right. split; [assumption|].
             injection Gk'; intros <-. cbn [l_fun l_path]. split; [reflexivity|]. split; [now left|]. intros ->. now rewrite beqb_refl.
          -- rewrite get_cons in Gn. destruct (beqb k (f_name f)) eqn:B; [discriminate|]. right. split; [assumption|]. split; [assumption|]. split; [now right|assumption].
        * intros g [<-|Ig]; [|now apply E4]. eexists. apply E2. rewrite get_cons, beqb_refl. reflexivity.
      + clear E IH. destruct (beqb (f_name f) m) eqn:Bm; cbn [orb].
        * split; [now rewrite get_cons, beqb_refl|]. left. now apply beqb_eq.
        * assert (Nm : get ((f_name f, mklib f (if beqb (f_name f) mm then d else [])) :: ls) m = get ls m).
          { rewrite get_cons. rewrite beqb_neq; [reflexivity|]. intros ->. now rewrite beqb_refl in Bm. }
          destruct (beqb (f_name f) mm) eqn:Bmm; cbn [andb].
          -- destruct i as [[k e]|].
             ++ destruct I as [Gk K]. split.
                ** rewrite get_cons. rewrite beqb_neq; [assumption|]. intros ->. congruence.
                ** destruct K as [K|[K K']]; [now left|]. right. split; [assumption|]. now rewrite Nm.
             ++ split; [now rewrite get_cons, beqb_refl|]. right. split; [now apply beqb_eq|]. rewrite Nm. apply I.
          -- destruct i as [[k e]|].
             ++ destruct I as [Gk K]. split.
                ** rewrite get_cons. rewrite beqb_neq; [assumption|]. intros ->. congruence.
                ** destruct K as [K|[K K']]; [now left|]. right. split; [assumption|]. now rewrite Nm.
             ++ rewrite Nm. split; [apply I|]. rewrite get_cons, beqb_neq; [apply I|]. intros ->. now rewrite beqb_refl in Bmm.
  Qed.

  Lemma core_log s l : core s -> core (logev l s).
  Proof.
    intros [A B C D]. constructor; cbn [logev libs imported loaded log]; auto. intros p mm G. destruct (B p mm G) as (e & E & H). exists e. split; [assumption|].
    intros Nb. destruct (H Nb) as (b & o & dr & I & J). exists b, o, dr. split; [assumption|now right].
  Qed.
  Lemma grows_log s e : is_import e -> grows s (logev e s).
  Proof. intros I. constructor; auto. exists [e]. split; [reflexivity|]. now constructor. Qed.

  Lemma locate_spec p m boot opt s : core s ->
    match locate imp funs p m boot opt s with
    | (s', Done (Some (n, e), i)) =>
        core s' /\ grows s s' /\ imported s' = imported s /\ get (libs s') n = Some e /\ (n = m \/ n = main m /\ get (libs s') m = None) /\ (i = false -> s' = s) /\
        (i = true -> get (libs s) (main m) = None /\ log s' = Import p (main m) boot opt false :: log s /\
           exists e', get (libs s') (main m) = Some e' /\ imp p (main m) boot opt false = Found (l_path e'))
    | (s', Done (None, i)) => i = true /\ get (libs s) (main m) = None /\ s' = logev (Import p (main m) boot opt false) s
    | (s', Failed) => get (libs s) (main m) = None /\ s' = logev (Import p (main m) boot opt false) s
    | _ => False
    end.
  Proof.
    intros C. unfold locate. destruct (get (libs s) m) as [e|] eqn:G.
    - split; [assumption|]. split; [apply grows_refl|]. split; [reflexivity|]. split; [assumption|]. split; [now left|]. split; [reflexivity|discriminate].
    - destruct (get (libs s) (main m)) as [e|] eqn:Gm.
      + split; [assumption|]. split; [apply grows_refl|]. split; [reflexivity|]. split; [assumption|]. split; [now right|]. split; [reflexivity|discriminate].
      + destruct (imp p (main m) boot opt false) as [| |d] eqn:Im; [now split|now repeat split|].
        destruct (register m (main m) d (funs (main m) d) (libs (logev (Import p (main m) boot opt false) s)) None) as [[ls [[n e]|]]|] eqn:Rg; [|now split|now split].
        destruct (WF (main m) d (main_main m)) as [(f0 & F0 & F0') W].
        apply register_spec in Rg; [|assumption|reflexivity|now split]. destruct Rg as ((Gn & Nn) & E2 & E3 & E4). cbn [logev libs] in E2, E3.
        destruct (E4 f0 F0) as (e0 & G0). rewrite F0' in G0.
        split; [|split; [|split; [reflexivity|split; [exact Gn|split; [exact Nn|split; [discriminate|]]]]]].
        * destruct (core_log s (Import p (main m) boot opt false) C) as [A B D Dn]. constructor; cbn [set_libs libs imported loaded log].
          -- intros k x Gk. destruct (E3 k x Gk) as [Go|(Go & N & J & _)].
             ++ destruct (A k x Go) as (X & Y & (e' & Z)). split; [assumption|]. split; [assumption|]. exists e'. now apply E2.
             ++ split; [assumption|]. assert (Mk : main k = main m) by (rewrite <- N; now apply W). split; [exists d; now rewrite Mk|]. exists e0. now rewrite Mk.
          -- intros q mm Gq. destruct (B q mm Gq) as (x & X & Y). exists x. split; [now apply E2|assumption].
          -- exact D.
          -- exact Dn.
        * constructor; cbn [set_libs logev libs imported loaded log vars stage]; auto.
          -- intros q m' [H|[H H']]; [now left|]. right. unfold set_libs, logev; cbn [libs]. split.
             ++ destruct (get (libs s) (main m')) as [x|] eqn:X; [|contradiction]. rewrite (E2 _ _ X). discriminate.
             ++ destruct (get ls m') as [x|] eqn:X; [|reflexivity]. destruct (E3 m' x X) as [Go|(Go & N & J & _)]; [congruence|].
                exfalso. apply H. replace (main m') with (main m); [assumption|]. rewrite <- N. symmetry. now apply W.
          -- exists [Import p (main m) boot opt false]. split; [reflexivity|]. now constructor.
        * intros _. split; [reflexivity|]. split; [reflexivity|]. exists e0. split; [exact G0|]. destruct (E3 (main m) e0 G0) as [X|(_ & _ & _ & Pm)]; [congruence|].
          now rewrite (Pm eq_refl).
  Qed.

  Definition inv0 (s : st) : Prop := core s /\ once s /\ log_ok imp bundled (log s).
  Definition only (s s' : st) : Prop := exists l, log s' = l ++ log s /\ Forall is_import l.

  Lemma imports_cons p mm q mn b o d l : imports p mm (Import q mn b o d :: l) -> (p = q /\ mm = mn) \/ imports p mm l.
  Proof. intros (b' & o' & d' & [E|I]); [left; now injection E|right; now exists b', o', d']. Qed.

  Lemma core_add s p mm r : core s -> get (imported s p) mm = None ->
    (r = true -> exists e, get (libs s) mm = Some e /\ (bundled mm = false -> exists b o dr, imp p mm b o dr = Found (l_path e) /\ In (Import p mm b o dr) (log s))) ->
    core (add_imported p mm r s).
  Proof.
    intros [A B C Dn] N H. constructor; cbn [add_imported libs imported loaded log]; [exact A| | |exact Dn].
    - intros q mn G. destruct (Nat.eq_dec q p) as [->|Nq].
      + rewrite upd_same, get_app in G. destruct (get (imported s p) mn) eqn:G'; [apply B; now rewrite G', <- G|].
        destruct (beqb mn mm) eqn:Bm; [|discriminate]. apply beqb_eq in Bm. subst mn. apply H. now injection G.
      + rewrite (upd_other _ _ _ _ Nq) in G. now apply B.
    - intros q m e E. destruct (C q m e E) as (X & Y & Z). split; [assumption|]. split; [assumption|]. destruct (Nat.eq_dec q p) as [->|Nq].
      + now rewrite upd_same, get_app, Z.
      + now rewrite (upd_other _ _ _ _ Nq).
  Qed.
  Lemma grows_add s p mm r : get (imported s p) mm = None -> grows s (add_imported p mm r s).
  Proof.
    intros N. assert (G : forall q mn x, get (imported s q) mn = Some x -> get (imported (add_imported p mm r s) q) mn = Some x).
    { intros q mn x G. cbn [add_imported imported]. destruct (Nat.eq_dec q p) as [->|Nq]; [now rewrite upd_same, get_app, G|now rewrite (upd_other _ _ _ _ Nq)]. }
    constructor; auto; [|now exists []]. intros q m [H|H]; [left; now apply G|now right].
  Qed.

  (* What finding results in. *)
  Definition found_post (s : st) (p : nat) (m : bytes) (r : R (option func)) : Prop :=
    match r with
    | (s', Done fn) => inv0 s' /\ grows s s' /\
        match fn with
        | Some f => f_name f = m /\ (exists d, In f (funs (main m) d)) /\ get (imported s' p) (main m) = Some true /\ get (libs s') m <> None
        | None => notfound s' p m
        end
    | (s', Crashed) => False
    | (s', _) => log_ok imp bundled (log s') /\ only s s'
    end.

  (* The end of it, after the answer. *)
  Lemma finish_spec (p : nat) (m : bytes) (boot opt : bool) s s1 (fn : option (bytes * func)) : core s1 -> log_ok imp bundled (log s1) -> grows s s1 -> imported s1 = imported s ->
    (forall q mn, imports q mn (log s1) -> get (imported s q) mn <> None \/ (q = p /\ mn = main m)) ->
    (get (imported s p) (main m) = Some false -> fn = None) ->
    match fn with
    | None => get (imported s p) (main m) = None \/ get (imported s p) (main m) = Some false
    | Some (n, f) => (n = m \/ n = main m /\ get (libs s1) m = None) /\ (exists e, get (libs s1) n = Some e /\ l_fun e = f) /\
        exists e, get (libs s1) (main m) = Some e /\ (bundled (main m) = false -> exists b o dr, imp p (main m) b o dr = Found (l_path e) /\ In (Import p (main m) b o dr) (log s1))
    end ->
    found_post s p m (
      let s : st := match get (imported s p) (main m) with None => add_imported p (main m) (match fn with Some _ => true | None => false end) s1 | Some _ => s1 end in
      match fn with
      | None => if opt || boot then (s, @Done (option func) None) else (s, Failed)
      | Some (n, f) => if beqb n m then (s, Done (Some f)) else if opt then (s, Done None) else (s, Failed)
      end).
  Proof.
    intros C L G Im Hi Hf H. cbv zeta.
    set (s2 := match get (imported s p) (main m) with None => add_imported p (main m) (match fn with Some _ => true | None => false end) s1 | Some _ => s1 end).
    assert (L2 : log s2 = log s1) by (unfold s2; now destruct (get (imported s p) (main m))).
    assert (Lb2 : libs s2 = libs s1) by (unfold s2; now destruct (get (imported s p) (main m))).
    assert (G2 : grows s1 s2).
    { unfold s2. destruct (get (imported s p) (main m)) eqn:J; [apply grows_refl|]. apply grows_add. now rewrite Im. }
    assert (C2 : core s2).
    { unfold s2. destruct (get (imported s p) (main m)) eqn:J; [assumption|]. apply core_add; [assumption|now rewrite Im|]. destruct fn as [[n f]|]; [|discriminate].
      intros _. apply H. }
    assert (J2 : get (imported s2 p) (main m) = Some (match fn with Some _ => true | None => false end)).
    { unfold s2. destruct (get (imported s p) (main m)) as [[|]|] eqn:J.
      - rewrite Im, J. destruct fn; [reflexivity|]. destruct H; discriminate.
      - rewrite Im, J. now rewrite (Hf eq_refl).
      - cbn [add_imported imported]. now rewrite upd_same, get_app, Im, J, beqb_refl. }
    assert (O2 : once s2).
    { intros q mn I. rewrite L2 in I. destruct (Hi q mn I) as [X|[-> ->]]; [|rewrite J2; discriminate]. rewrite <- Im in X.
      destruct (get (imported s1 q) mn) eqn:Q; [|contradiction]. rewrite (g_imp _ _ G2 _ _ _ Q). discriminate. }
    assert (I2 : inv0 s2) by (split; [assumption|split; [assumption|now rewrite L2]]).
    assert (Gs : grows s s2) by (eapply grows_trans; eauto).
    assert (On : only s s2) by (destruct Gs as [_ _ X _ _ _]; exact X).
    clearbody s2. destruct fn as [[n f]|].
    - destruct H as (N & (e & E & F) & _). destruct (beqb n m) eqn:B.
      + apply beqb_eq in B. subst n. cbn [found_post]. split; [assumption|]. split; [assumption|]. destruct (c_lib _ C2 m e) as (X & Y & _); [now rewrite Lb2|].
        rewrite F in *. split; [assumption|]. split; [assumption|]. split; [assumption|]. rewrite Lb2, E. discriminate.
      + assert (Nf : notfound s2 p m).
        { destruct N as [->|[-> N]]; [now rewrite beqb_refl in B|]. right. rewrite Lb2. split; [|assumption]. rewrite E. discriminate. }
        destruct opt; cbn [found_post]; [exact (conj I2 (conj Gs Nf))|]. split; [now rewrite L2|assumption].
    - assert (Nf : notfound s2 p m) by now left. destruct (opt || boot); cbn [found_post]; [exact (conj I2 (conj Gs Nf))|]. split; [now rewrite L2|assumption].
  Qed.

  Lemma find_spec p m boot opt s : inv0 s -> found_post s p m (find_module imp funs bundled p m boot opt s).
  Proof.
    intros (C & O & L). unfold find_module. cbv zeta.
    assert (Hi0 : forall q mn, imports q mn (log s) -> get (imported s q) mn <> None \/ (q = p /\ mn = main m)) by (intros; left; now apply O).
    pose proof (finish_spec p m boot opt s) as Fin. cbv zeta in Fin.
    pose proof (locate_spec p m boot opt s C) as Lo.
    (* A search now is the only one. *)
    assert (Once : get (libs s) (main m) = None -> get (imported s p) (main m) <> Some false -> get (imported s p) (main m) = None).
    { intros N Nf. destruct (get (imported s p) (main m)) as [[|]|] eqn:J; [|contradiction|reflexivity]. destruct (c_imp _ C _ _ J) as (e & E & _). congruence. }
    assert (OkI : get (imported s p) (main m) = None -> forall d l, l = log s -> ok imp bundled (Import p (main m) boot opt d) l) by (intros N d l -> I; now apply (O _ _ I)).
    destruct (get (imported s p) (main m)) as [[|]|] eqn:J; cbn [bind].
    - (* Imported. *)
      destruct (locate imp funs p m boot opt s) as [s1 [[[[n e]|] i]| | |]] eqn:E; cbn [bind]; try contradiction.
      + destruct Lo as (C1 & G1 & Im1 & Gn & Nn & If & It). unfold agree. cbn [fst snd negb andb bind].
        destruct i; [destruct (It eq_refl) as (N & _); specialize (Once N ltac:(discriminate)); discriminate|]. rewrite (If eq_refl) in *.
        apply (Fin s (Some (n, l_fun e))); auto; try discriminate. split; [assumption|]. split; [now exists e|]. now apply (c_imp _ C).
      + destruct Lo as (_ & N & _). specialize (Once N ltac:(discriminate)). discriminate.
      + destruct Lo as (N & _). specialize (Once N ltac:(discriminate)). discriminate.
    - apply (Fin s None); auto; try discriminate. apply grows_refl.
    - destruct (locate imp funs p m boot opt s) as [s1 [[[[n e]|] i]| | |]] eqn:E; cbn [bind]; try contradiction.
      + destruct Lo as (C1 & G1 & Im1 & Gn & Nn & If & It). unfold agree. cbn [fst snd negb andb bind].
        destruct i; cbn [negb andb].
        * destruct (It eq_refl) as (N & Lg & (e' & E' & F')). assert (L1 : log_ok imp bundled (log s1)) by (rewrite Lg; apply log_ok_cons; split; [now apply OkI|assumption]).
          cbn [bind]. apply (Fin s1 (Some (n, l_fun e))); auto; try discriminate.
          -- intros q mn I. rewrite Lg in I. apply imports_cons in I. destruct I as [[-> ->]|I]; [now right|now apply Hi0].
          -- split; [assumption|]. split; [now exists e|]. exists e'. split; [assumption|]. intros _. exists boot, opt, false. split; [assumption|]. rewrite Lg. now left.
        * rewrite (If eq_refl) in *. clear If It.
          assert (Mm : exists e', (if beqb n (main m) then Some e else get (libs s) (main m)) = Some e' /\ get (libs s) (main m) = Some e').
          { destruct (beqb n (main m)) eqn:B; [apply beqb_eq in B; subst n; now exists e|]. destruct Nn as [->|[-> _]]; [|now rewrite beqb_refl in B].
            destruct (c_lib _ C _ _ Gn) as (_ & _ & (e' & X)). now exists e'. }
          destruct Mm as (e' & Mm1 & Mm2).
          destruct (bundled (main m)) eqn:Bu; cbn [negb andb bind].
          -- apply (Fin s (Some (n, l_fun e))); auto; try discriminate. split; [assumption|]. split; [now exists e|]. exists e'. split; [assumption|]. discriminate.
          -- set (s2 := logev (Import p (main m) boot opt true) s). assert (L2 : log_ok imp bundled (log s2)) by (apply log_ok_cons; split; [now apply OkI|assumption]).
             assert (G2 : grows s s2) by now apply grows_log.
             assert (Hi2 : forall q mn, imports q mn (log s2) -> get (imported s q) mn <> None \/ (q = p /\ mn = main m)).
             { intros q mn I. apply imports_cons in I. destruct I as [[-> ->]|I]; [now right|now apply Hi0]. }
             destruct (imp p (main m) boot opt true) as [| |d] eqn:Ip; cbn [bind].
             ++ split; [assumption|]. exists [Import p (main m) boot opt true]. split; [reflexivity|now constructor].
             ++ apply (Fin s2 None); auto; try discriminate. now apply core_log.
             ++ change (libs s2) with (libs s). rewrite Mm1. destruct (beqb d (l_path e')) eqn:Bd; cbn [bind].
                ** apply beqb_eq in Bd. subst d. apply (Fin s2 (Some (n, l_fun e))); auto; try discriminate; [now apply core_log|]. split; [assumption|]. split; [now exists e|].
                   exists e'. split; [assumption|]. intros _. exists boot, opt, true. split; [assumption|now left].
                ** split; [assumption|]. exists [Import p (main m) boot opt true]. split; [reflexivity|now constructor].
      + destruct Lo as (-> & N & ->). unfold agree. cbn [fst bind].
        apply (Fin (logev (Import p (main m) boot opt false) s) None); auto; try discriminate.
        * now apply core_log.
        * apply log_ok_cons. split; [now apply OkI|assumption].
        * now apply grows_log.
        * intros q mn I. apply imports_cons in I. destruct I as [[-> ->]|I]; [now right|now apply Hi0].
      + destruct Lo as (N & ->). cbn [found_post]. split; [apply log_ok_cons; split; [now apply OkI|assumption]|]. exists [Import p (main m) boot opt false]. split; [reflexivity|now constructor].
  Qed.
End Find.
