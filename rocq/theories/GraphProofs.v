From Verif Require Import Base DepdbModel DepdbSpec DepdbProofs DepdbProofs2 GraphModel GraphSpec.
From Verif Require InModel InProofs2.

Lemma upd_same {A} (m : bytes -> A) k v : upd m k v k = v.
Proof. unfold upd. rewrite beqb_refl. reflexivity. Qed.
Lemma upd_other {A} (m : bytes -> A) k v x : x <> k -> upd m k v x = m x.
Proof. intros N. unfold upd. destruct (beqb x k) eqn:E; [apply beqb_eq in E; contradiction|reflexivity]. Qed.
Lemma Forall2_impl {A B} (P Q : A -> B -> Prop) l k : (forall x y, P x y -> Q x y) -> Forall2 P l k -> Forall2 Q l k.
Proof. intros H. induction 1; constructor; auto. Qed.
Lemma path_dec (x y : bytes) : x = y \/ x <> y.
Proof. destruct (beqb x y) eqn:E; [left; apply beqb_eq; exact E|right; intros ->; rewrite beqb_refl in E; discriminate]. Qed.

Section Graph.
Context (hash : list bytes -> bytes) (body : bytes -> recipe -> list bytes -> option bytes) (used : list bytes -> Prop) (allowed : bytes -> recipe -> Prop).
Context (Hh : good_hash hash used) (Ha : forall t r, allowed t r -> hashed used t r).
Notation lines := (lines hash).
Notation decide := (decide hash).
Notation built := (built body).
Notation built_all := (built_all body).

(* The database. *)
Lemma lines_ok t r : Forall line_ok (lines t r).
Proof. destruct Hh as [H _]. unfold GraphModel.lines. repeat constructor; try apply H; try discriminate. cbn. intuition discriminate. Qed.
Lemma lines_inj t r r0 x : allowed t r -> allowed t r0 -> lines t r ++ x = lines t r0 -> r = r0.
Proof.
  intros A A0 E. destruct Hh as [_ I]. destruct (Ha _ _ A) as (U1 & U2 & U3 & U4 & U5). destruct (Ha _ _ A0) as (V1 & V2 & V3 & V4 & V5). unfold GraphModel.lines in E. cbn [app] in E. injection E as E1 E2 E4 E5 E6 _.
  apply I in E1; [|assumption|assumption]. apply I in E2; [|assumption|assumption]. apply I in E4; [|assumption|assumption]. apply I in E5; [|assumption|assumption]. apply I in E6; [|assumption|assumption].
  destruct r, r0. cbn in *. injection E1 as ->. subst. reflexivity.
Qed.
Lemma opened t r f : exists d, InModel.expects (lines t r) (open_db false f) = Some d /\
  holds (close_db TNone d) (version :: lines t r) true /\
  (InModel.writing d = false -> exists c rest cl, f = Some c /\ holds c (version :: lines t r ++ rest) cl) /\
  (forall c, f = Some c -> holds c (version :: lines t r) true -> DepdbModel.st d = ReadEof) /\
  (DepdbModel.st d = ReadEof -> exists c, f = Some c /\ holds c (version :: lines t r) true).
Proof.
  destruct (expects_session f (lines t r) (lines_ok t r)) as (d & outs & E & C & N & Cv). exists d. split; [exact (InProofs2.expects_is_run _ _ _ _ E)|]. split; [apply C|]. split; [|split].
  - intros W. apply N. intros X. unfold InModel.writing in W. rewrite X in W. discriminate W.
  - intros c F H. exact (proj1 (Cv c F H)).
  - intros S'. assert (X : DepdbModel.st d <> Write) by congruence. pose proof (untouched f _ d outs (length (wbuf d)) E X) as U. pose proof (C TNone) as Cl. unfold close_db, flushed, closing in Cl. rewrite S' in Cl.
    exists (image d (length (wbuf d))). split; [exact U|]. destruct (ro d); exact Cl.
Qed.
Lemma closed_holds t r f d m n : InModel.expects (lines t r) (open_db false (contents f)) = Some d -> (forall c k, f = Some (c, k) -> k <= m) -> m <= n ->
  exists c k, closed d f n = Some (c, k) /\ holds c (version :: lines t r) true /\ k <= n /\ (f = Some (c, k) \/ k = n).
Proof.
  intros E L M. destruct (opened t r (contents f)) as (d' & E' & C & _ & _ & F). rewrite E in E'. injection E' as <-. unfold closed. destruct (DepdbModel.st d) eqn:S'; [exists (close_db TNone d), n; auto| |exists (close_db TNone d), n; auto].
  destruct (F eq_refl) as (c & E' & H'). destruct f as [[c' k]|]; [|discriminate E']. cbn in E'. injection E' as ->. exists c, k. split; [reflexivity|]. split; [exact H'|]. split; [pose proof (L c k eq_refl); lia|auto].
Qed.

(* What is known about a target that has not been updated in this run. *)
Definition justified (w : world) (t : bytes) : Prop := forall f md x mt, dd w t = Some (f, md) -> file w t = Some (x, mt) -> md <= mt -> exists r cs,
  allowed t r /\ holds f (version :: lines t r) true /\ body t r cs = Some x /\ Forall2 (fun p c => forall c' m, file w p = Some (c', m) -> m <= mt -> c' = c) (prereqs r) cs.
Definition times (w : world) : Prop := (forall t x m, file w t = Some (x, m) -> m <= clock w) /\ forall t x m, dd w t = Some (x, m) -> m <= clock w.
Definition inv (w : world) : Prop := times w /\ forall t, justified w t.

Section Run.
Context (proj : bytes -> option recipe) (roots : list bytes) (w0 : world) (Hp : forall t r, proj t = Some r -> allowed t r).
Definition start := S (clock w0).
Definition is_done (st : bytes -> status) (t : bytes) : Prop := exists s, st t = Done s.
Definition fine (w : world) (st : bytes -> status) (t : bytes) (r : recipe) : Prop := exists x mt f md cs,
  file w t = Some (x, mt) /\ dd w t = Some (f, md) /\ md <= mt /\ holds f (version :: lines t r) true /\ body t r cs = Some x /\ Forall2 (fun p c => is_done st p /\ exists m, file w p = Some (c, m) /\ m <= mt) (prereqs r) cs.
Definition db_closed (w : world) (t : bytes) (r : recipe) : Prop := exists f md, dd w t = Some (f, md) /\ holds f (version :: lines t r) true.
Definition waiting (w : world) (st : bytes -> status) (t : bytes) : Prop :=
  (forall x m, file w t = Some (x, m) -> m < start) /\ justified w t /\ (st t = Begun -> exists r, proj t = Some r /\ Forall (is_done st) (prereqs r) /\ db_closed w t r).
Definition good (w : world) (st : bytes -> status) (t : bytes) : Prop :=
  match proj t, st t with
  | Some r, Done _ => fine w st t r
  | _, _ => waiting w st t
  end.
Definition made (w : world) (t : bytes) : Prop := exists x m, file w t = Some (x, m) /\ built proj (sources w0) t x.
Definition running (w : world) (st : bytes -> status) : Prop :=
  times w /\ start <= clock w /\ (forall t, good w st t) /\ (forall t, is_done st t -> made w t) /\ (forall t, proj t = None -> file w t = file w0 t) /\
  (forall t, st t = Failed -> ~ exists x, built proj (sources w0) t x).

Lemma good_not_done w st t : good w st t -> ~ is_done st t -> waiting w st t.
Proof. unfold good. intros G N. destruct (proj t); [|exact G]. destruct (st t) eqn:E; try exact G. exfalso. apply N. exists s. exact E. Qed.

(* A step that changes one target only. *)
Lemma frame w st w' st' t0 t : times w -> good w st t -> start <= clock w ->
  ~ is_done st t0 -> (forall t, t <> t0 -> file w' t = file w t /\ dd w' t = dd w t /\ st' t = st t) ->
  (file w' t0 = file w t0 \/ file w' t0 = None \/ exists x n, file w' t0 = Some (x, n) /\ clock w <= n) -> t <> t0 -> good w' st' t.
Proof.
  intros T G C N F F0 Nt. destruct (F t Nt) as (E1 & E2 & E3). unfold good in *. rewrite E3.
  assert (Dn : forall p, is_done st p -> is_done st' p /\ file w' p = file w p).
  { intros p (s & D). assert (Np : p <> t0) by (intros ->; apply N; exists s; exact D). destruct (F p Np) as (Y1 & _ & Y3). split; [exists s; congruence|exact Y1]. }
  assert (Wt : waiting w st t -> waiting w' st' t).
  { intros (L & J & B). split; [rewrite E1; exact L|]. split.
    - intros f md x mt D Fi Le. rewrite E2 in D. rewrite E1 in Fi. destruct (J f md x mt D Fi Le) as (r & cs & A & H & Bo & Fo). exists r, cs. split; [exact A|]. split; [exact H|]. split; [exact Bo|].
      eapply Forall2_impl; [|exact Fo]. cbn. intros p c K c' m Fp Lm. destruct (path_dec p t0) as [->|Np].
      + destruct F0 as [Y|[Y|(y & n & Y & Ln)]]; rewrite Y in Fp; [exact (K c' m Fp Lm)|discriminate Fp|]. injection Fp as <- <-. specialize (L _ _ Fi). lia.
      + rewrite (proj1 (F p Np)) in Fp. exact (K c' m Fp Lm).
    - rewrite E3. intros Bg. destruct (B Bg) as (r & P & Fo & Db). exists r. split; [exact P|]. split.
      + eapply Forall_impl; [|exact Fo]. intros p D. apply Dn, D.
      + unfold db_closed. rewrite E2. exact Db. }
  destruct (proj t) as [r|]; [|exact (Wt G)]. destruct (st t); try exact (Wt G).
  destruct G as (x & mt & f & md & cs & Fi & D & Le & H & Bo & Fo). exists x, mt, f, md, cs. rewrite E1, E2. split; [exact Fi|]. split; [exact D|]. split; [exact Le|]. split; [exact H|]. split; [exact Bo|].
  eapply Forall2_impl; [|exact Fo]. cbn. intros p c (Dp & m & Fp & Lm). destruct (Dn p Dp) as (Y1 & Y2). split; [exact Y1|]. exists m. rewrite Y2. auto.
Qed.

Lemma fine_justified w st t r : proj t = Some r -> fine w st t r -> justified w t.
Proof.
  intros P (x & mt & f & md & cs & Fi & D & Le & H & Bo & Fo) f' md' x' mt' D' Fi' Le'. rewrite D in D'. injection D' as <- <-. rewrite Fi in Fi'. injection Fi' as <- <-. exists r, cs. split; [exact (Hp t r P)|]. split; [exact H|]. split; [exact Bo|].
  eapply Forall2_impl; [|exact Fo]. cbn. intros p c (_ & m & Fp & _) c' m' Fp' _. congruence.
Qed.
Lemma running_inv w st : running w st -> inv w.
Proof.
  intros (T & C & G & _). split; [exact T|]. intros t. specialize (G t). unfold good in G. destruct (proj t) as [r|] eqn:P; [|apply G]. destruct (st t); try apply G. exact (fine_justified _ _ _ _ P G).
Qed.

(* Deciding. *)
Lemma executed w st mt ps : forall e rs e' rs', execute_prerequisites w st mt ps e rs = Some (e', rs') ->
  Forall (fun p => is_done st p /\ exists c m, file w p = Some (c, m) /\ (e' = false -> forall k, mt = Some k -> m <= k)) ps /\ (e' = false -> e = false).
Proof.
  induction ps as [|p ps IH]; intros e rs e' rs' E; cbn [execute_prerequisites] in E; [injection E as <- <-; auto|]. destruct (st p) as [| |s| |] eqn:S'; try discriminate E. destruct (file w p) as [[c m]|] eqn:F; [|discriminate E].
  destruct (IH _ _ _ _ E) as (A & B). assert (X : e' = false -> e = false /\ match mt with Some mt => newer mt m s | None => true end = false) by (intros X; apply orb_false_iff, B, X). split; [|intros Y; apply X, Y].
  constructor; [|exact A]. split; [exists s; exact S'|]. exists c, m. split; [exact F|]. intros Y k ->. destruct (X Y) as (_ & Z). unfold newer in Z. apply orb_false_iff in Z. destruct Z as [Z _]. apply Nat.ltb_ge in Z. exact Z.
Qed.
Lemma executes w st mt ps : Forall (fun p => is_done st p /\ file w p <> None) ps -> forall e rs, execute_prerequisites w st mt ps e rs <> None.
Proof.
  induction 1 as [|p ps ((s & D) & F) _ IH]; intros e rs; cbn [execute_prerequisites]; [discriminate|]. rewrite D. destruct (file w p) as [[c m]|]; [apply IH|contradiction].
Qed.
Lemma decided w st t r u s d : decide w st t r = Some (u, s, d) -> InModel.expects (lines t r) (open_db false (contents (dd w t))) = Some d /\ Forall (is_done st) (prereqs r) /\
  (u = false -> exists x mt f md, file w t = Some (x, mt) /\ dd w t = Some (f, md) /\ md <= mt /\ InModel.writing d = false /\ Forall (fun p => exists c m, file w p = Some (c, m) /\ m <= mt) (prereqs r)).
Proof.
  unfold GraphModel.decide. destruct (execute_prerequisites w st (mtime (file w t)) (prereqs r) _ Unchanged) as [[e rs]|] eqn:E; [|discriminate]. destruct (InModel.expects _ _) as [d'|]; [|discriminate]. intros X. injection X as <- <- <-.
  destruct (executed _ _ _ _ _ _ _ _ E) as (A & B). split; [reflexivity|]. split; [eapply Forall_impl; [|exact A]; cbn; tauto|]. intros X. apply orb_false_iff in X. destruct X as [X Y]. apply orb_false_iff in X. destruct X as [-> Wr].
  destruct (dd w t) as [[f md]|]; [|discriminate Y]. destruct (file w t) as [[x mt]|]; [|discriminate Y]. apply Nat.ltb_ge in Y. exists x, mt, f, md. split; [reflexivity|]. split; [reflexivity|]. split; [exact Y|]. split; [exact Wr|].
  eapply Forall_impl; [|exact A]. cbn. intros p (_ & c & m & F & L). exists c, m. split; [exact F|]. apply (L eq_refl). reflexivity.
Qed.
Lemma built_alls w st ps : (forall t, is_done st t -> made w t) -> Forall (is_done st) ps -> exists cs, built_all proj (sources w0) ps cs /\ all_contents w ps = Some cs /\ Forall2 (fun p c => is_done st p /\ exists m, file w p = Some (c, m)) ps cs.
Proof.
  intros M. induction 1 as [|p ps D _ (cs & B & A & F)]; [exists []; repeat split; constructor|]. destruct (M p D) as (x & m & Fp & Bp). exists (x :: cs). split; [constructor; assumption|]. cbn [all_contents]. rewrite Fp, A. split; [reflexivity|]. constructor; [|exact F]. split; [exact D|]. exists m. exact Fp.
Qed.
Scheme built_mut := Minimality for GraphSpec.built Sort Prop with built_all_mut := Minimality for GraphSpec.built_all Sort Prop.
Lemma built_unique src t x : built proj src t x -> forall y, built proj src t y -> y = x.
Proof.
  intros B. refine (built_mut body proj src (fun t x => forall y, built proj src t y -> y = x) (fun ps cs => forall ds, built_all proj src ps ds -> ds = cs) _ _ _ _ t x B).
  - intros t' x' P Sr y H. inversion H; subst; congruence.
  - intros t' r cs x' P _ IH Bo y H. inversion H as [|t2 r2 cs2 y2 P2 B2 Bo2]; subst; [congruence|]. rewrite P in P2. injection P2 as <-. apply IH in B2. subst. congruence.
  - intros ds H. inversion H. reflexivity.
  - intros p ps c cs _ IH1 _ IH2 ds H. inversion H; subst. f_equal; auto.
Qed.
Lemma built_inv src t r : proj t = Some r -> forall cs, built_all proj src (prereqs r) cs -> (exists x, built proj src t x) -> body t r cs <> None.
Proof.
  intros P cs B (x & H) N. inversion H as [|t2 r2 cs2 y2 P2 B2 Bo2]; subst; [congruence|]. rewrite P in P2. injection P2 as <-. assert (cs2 = cs); [|congruence].
  clear - B B2. revert cs2 B2. induction B; intros cs2 B2; inversion B2; subst; f_equal; eauto using built_unique.
Qed.

(* One step. *)
Lemma running_step w st w' st' : run_step hash body false proj roots (w, st) (w', st') -> running w st -> running w' st'.
Proof.
  intros H (T & C & G & M & So & Fl). pose proof (conj T (conj C (conj G (conj M (conj So Fl))))) as Rn. pose proof T as (T1 & T2).
  remember (w, st) as c1 eqn:E1. remember (w', st') as c2 eqn:E2.
  destruct H as [t x w1 st1 Re I P F|t r s d n w1 st1 Re I P D L|t r s d n w1 st1 Re I P D L|t r cs x n w1 st1 I P A B L|t r cs w1 st1 I P A B|t r u s d n k w1 st1 Re I P D W L|t r u s d n k w1 st1 Re I P D W L|t r x n w1 st1 X];
    try discriminate X; injection E1 as -> ->; injection E2 as <- <-;
    assert (Nd : ~ is_done st t) by (intros (s' & Ds); congruence); pose proof (good_not_done _ _ _ (G t) Nd) as Wt.
  - (* source *) split; [exact T|]. split; [exact C|]. split; [|split; [|split; [exact So|]]].
    + intros t1. destruct (path_dec t1 t) as [->|N].
      * unfold good. rewrite P. destruct Wt as (W1 & W2 & _). split; [exact W1|]. split; [exact W2|]. rewrite upd_same. discriminate.
      * apply (frame w st w _ t t1 T (G t1) C Nd); [|left; reflexivity|exact N]. intros t2 N2. rewrite upd_other by exact N2. auto.
    + intros t1 (s & D1). destruct (path_dec t1 t) as [->|N].
      * destruct x as [x m]. exists x, m. split; [exact F|]. apply bu_source; [exact P|]. unfold sources. rewrite <- (So t P), F. reflexivity.
      * rewrite upd_other in D1 by exact N. apply M. exists s. exact D1.
    + intros t1. destruct (path_dec t1 t) as [->|N]; [rewrite upd_same; discriminate|]. rewrite upd_other by exact N. apply Fl.
  - (* up to date *)
    destruct (decided _ _ _ _ _ _ _ D) as (Ex & Dn & U). destruct (U eq_refl) as (x & mt & f & md & Fi & Dd & Lm & Wr & Pm). clear U. rewrite Dd in Ex. cbn [contents] in Ex.
    destruct (opened t r (Some f)) as (d' & Ex' & _ & Nw & Eof & _). rewrite Ex in Ex'. injection Ex' as <-. destruct (Nw Wr) as (f' & rest & cl & Ef & Hf). injection Ef as <-.
    destruct Wt as (W1 & W2 & _). destruct (W2 f md x mt Dd Fi Lm) as (r0 & cs0 & A0 & H0 & B0 & F0). destruct (holds_det _ _ _ _ _ Hf H0) as [E ->]. apply (f_equal (@tl bytes)) in E. cbn [tl] in E. pose proof (lines_inj _ _ _ _ (Hp t r P) A0 E) as <-.
    specialize (Eof f eq_refl H0). assert (Cl : closed d (dd w t) n = Some (f, md)) by (unfold closed; rewrite Eof, Dd; reflexivity).
    assert (Same : forall t1, dd (set_dd t (closed d (dd w t) n) (at_time n w)) t1 = dd w t1) by (intros t1; cbn; destruct (path_dec t1 t) as [->|N]; [rewrite upd_same; congruence|apply upd_other, N]).
    destruct (built_alls w st (prereqs r) M Dn) as (cs & Ba & _ & Fo).
    assert (Ecs : cs = cs0).
    { clear - Fo F0 Pm. revert cs0 F0. induction Fo as [|p c ps cs (Dp & m & Fp) Fo IH]; intros cs0 F0; inversion F0 as [|? c0 ? cs1 K F1]; subst; [reflexivity|]. inversion Pm as [|? ? (c' & m' & Fp' & Lp) Pm']; subst. f_equal; [|apply IH; assumption]. rewrite Fp in Fp'. injection Fp' as <- <-. exact (K c m Fp Lp). }
    subst cs0.
    split; [split; [cbn; intros t1 y m Y; specialize (T1 _ _ _ Y); lia|intros t1 y m Y; rewrite Same in Y; cbn; specialize (T2 _ _ _ Y); lia]|]. split; [cbn; lia|]. split; [|split; [|split; [exact So|]]].
    + intros t1. destruct (path_dec t1 t) as [->|N].
      * unfold good. rewrite P, upd_same. exists x, mt, f, md, cs. rewrite Same. cbn [file set_dd at_time]. split; [exact Fi|]. split; [exact Dd|]. split; [exact Lm|]. split; [exact H0|]. split; [exact B0|].
        clear - Fo Pm. induction Fo as [|p c ps cs (Dp & m & Fp) Fo IH]; [constructor|]. inversion Pm as [|? ? (c' & m' & Fp' & Lp) Pm']; subst. constructor; [|apply IH, Pm']. rewrite Fp in Fp'. injection Fp' as <- <-. split; [|exists m; auto].
        destruct (path_dec p t) as [->|Np]; [exists s; apply upd_same|]. destruct Dp as (s' & Ds). exists s'. rewrite upd_other by exact Np. exact Ds.
      * apply (frame w st _ _ t t1 T (G t1) C Nd); [|left; reflexivity|exact N]. intros t2 N2. rewrite Same, upd_other by exact N2. auto.
    + intros t1 (s1 & D1). destruct (path_dec t1 t) as [->|N].
      * exists x, mt. split; [exact Fi|]. eapply bu_recipe; [exact P|exact Ba|exact B0].
      * rewrite upd_other in D1 by exact N. apply M. exists s1. exact D1.
    + intros t1. destruct (path_dec t1 t) as [->|N]; [rewrite upd_same; discriminate|]. rewrite upd_other by exact N. apply Fl.
  - (* begin *)
    destruct (decided _ _ _ _ _ _ _ D) as (Ex & Dn & _). destruct (closed_holds t r (dd w t) d (clock w) n Ex (T2 t) L) as (c & k & Cl & Hc & Lk & Or). destruct Wt as (W1 & W2 & _).
    split; [split; [cbn; intros t1 y m Y; specialize (T1 _ _ _ Y); lia|]|].
    { intros t1 y m. cbn. destruct (path_dec t1 t) as [->|N]; [rewrite upd_same, Cl; intros Y; injection Y as <- <-; exact Lk|rewrite upd_other by exact N; intros Y; specialize (T2 _ _ _ Y); lia]. }
    split; [cbn; lia|]. split; [|split; [|split; [exact So|]]].
    + intros t1. destruct (path_dec t1 t) as [->|N].
      * unfold good. rewrite P, upd_same. split; [exact W1|]. split.
        -- intros f md x mt Y1 Y2 Le. cbn in Y1, Y2. rewrite upd_same, Cl in Y1. injection Y1 as <- <-. destruct Or as [Or|Or]; [exact (W2 _ _ _ _ Or Y2 Le)|]. specialize (W1 _ _ Y2). lia.
        -- intros _. exists r. split; [exact P|]. split; [|exists c, k; cbn; rewrite upd_same; split; [exact Cl|exact Hc]]. eapply Forall_impl; [|exact Dn]. intros p (sp & Dp). exists sp. rewrite upd_other; [exact Dp|]. intros ->. congruence.
      * apply (frame w st _ _ t t1 T (G t1) C Nd); [|left; reflexivity|exact N]. intros t2 N2. cbn. rewrite !upd_other by exact N2. auto.
    + intros t1 (s1 & D1). destruct (path_dec t1 t) as [->|N]; [rewrite upd_same in D1; discriminate D1|]. rewrite upd_other in D1 by exact N. apply M. exists s1. exact D1.
    + intros t1. destruct (path_dec t1 t) as [->|N]; [rewrite upd_same; discriminate|]. rewrite upd_other by exact N. apply Fl.
  - (* finish *)
    destruct Wt as (W1 & W2 & W3). destruct (W3 I) as (r' & P' & Dn & f & md & Dd & Hf). rewrite P in P'. injection P' as <-. destruct (built_alls w st (prereqs r) M Dn) as (cs' & Ba & A' & Fo). rewrite A in A'. injection A' as <-.
    assert (Pn : forall p, is_done st p -> p <> t) by (intros p (sp & Dp) ->; congruence).
    split; [split; [|cbn; intros t1 y m Y; specialize (T2 _ _ _ Y); lia]|].
    { intros t1 y m. cbn. destruct (path_dec t1 t) as [->|N]; [rewrite upd_same; intros Y; injection Y as <- <-; lia|rewrite upd_other by exact N; intros Y; specialize (T1 _ _ _ Y); lia]. }
    split; [cbn; lia|]. split; [|split; [|split]].
    + intros t1. destruct (path_dec t1 t) as [->|N].
      * unfold good. rewrite P, upd_same. exists x, n, f, md, cs. cbn. rewrite upd_same. split; [reflexivity|]. split; [exact Dd|]. split; [specialize (T2 _ _ _ Dd); lia|]. split; [exact Hf|]. split; [exact B|].
        eapply Forall2_impl; [|exact Fo]. cbn. intros p c (Dp & m & Fp). pose proof (Pn p Dp) as Np. split; [destruct Dp as (sp & Dp); exists sp; rewrite upd_other by exact Np; exact Dp|]. exists m. rewrite upd_other by exact Np. split; [exact Fp|]. specialize (T1 _ _ _ Fp). lia.
      * apply (frame w st _ _ t t1 T (G t1) C Nd); [| |exact N]. { intros t2 N2. cbn. rewrite !upd_other by exact N2. auto. } right. right. exists x, n. cbn. rewrite upd_same. auto.
    + intros t1 (s1 & D1). destruct (path_dec t1 t) as [->|N].
      * exists x, n. cbn. rewrite upd_same. split; [reflexivity|]. eapply bu_recipe; [exact P|exact Ba|exact B].
      * rewrite upd_other in D1 by exact N. destruct (M t1) as (y & m & Y & Z); [exists s1; exact D1|]. exists y, m. cbn. rewrite upd_other by exact N. auto.
    + intros t1 P1. cbn. rewrite upd_other by congruence. apply So, P1.
    + intros t1. destruct (path_dec t1 t) as [->|N]; [rewrite upd_same; discriminate|]. rewrite upd_other by exact N. apply Fl.
  - (* fail *)
    destruct Wt as (W1 & W2 & W3). destruct (W3 I) as (r' & P' & Dn & f & md & Dd & Hf). rewrite P in P'. injection P' as <-. destruct (built_alls w st (prereqs r) M Dn) as (cs' & Ba & A' & Fo). rewrite A in A'. injection A' as <-.
    split; [split; [|exact T2]|].
    { intros t1 y m. cbn. destruct (path_dec t1 t) as [->|N]; [rewrite upd_same; discriminate|rewrite upd_other by exact N; apply T1]. }
    split; [exact C|]. split; [|split; [|split]].
    + intros t1. destruct (path_dec t1 t) as [->|N].
      * unfold good. rewrite P, upd_same. split; [intros y m Y; cbn in Y; rewrite upd_same in Y; discriminate Y|]. split; [intros ? ? ? ? _ Y; cbn in Y; rewrite upd_same in Y; discriminate Y|rewrite upd_same; discriminate].
      * apply (frame w st _ _ t t1 T (G t1) C Nd); [| |exact N]. { intros t2 N2. cbn. rewrite !upd_other by exact N2. auto. } right. left. cbn. apply upd_same.
    + intros t1 (s1 & D1). destruct (path_dec t1 t) as [->|N]; [rewrite upd_same in D1; discriminate D1|]. rewrite upd_other in D1 by exact N. destruct (M t1) as (y & m & Y & Z); [exists s1; exact D1|]. exists y, m. cbn. rewrite upd_other by exact N. auto.
    + intros t1 P1. cbn. rewrite upd_other by congruence. apply So, P1.
    + intros t1. destruct (path_dec t1 t) as [->|N]; [intros _ Bx; exact (built_inv _ _ _ P _ Ba Bx B)|]. rewrite upd_other by exact N. apply Fl.
  - (* torn writing *)
    destruct Wt as (W1 & W2 & _).
    split; [split; [cbn; intros t1 y m Y; specialize (T1 _ _ _ Y); lia|]|].
    { intros t1 y m. cbn. destruct (path_dec t1 t) as [->|N]; [rewrite upd_same; intros Y; injection Y as <- <-; lia|rewrite upd_other by exact N; intros Y; specialize (T2 _ _ _ Y); lia]. }
    split; [cbn; lia|]. split; [|split; [|split; [exact So|]]].
    + intros t1. destruct (path_dec t1 t) as [->|N].
      * unfold good. rewrite P, upd_same. split; [exact W1|]. split; [|rewrite upd_same; discriminate]. intros f md x mt Y1 Y2 Le. cbn in Y1, Y2. rewrite upd_same in Y1. injection Y1 as <- <-. specialize (W1 _ _ Y2). lia.
      * apply (frame w st _ _ t t1 T (G t1) C Nd); [|left; reflexivity|exact N]. intros t2 N2. cbn. rewrite !upd_other by exact N2. auto.
    + intros t1 (s1 & D1). destruct (path_dec t1 t) as [->|N]; [rewrite upd_same in D1; discriminate D1|]. rewrite upd_other in D1 by exact N. apply M. exists s1. exact D1.
    + intros t1. destruct (path_dec t1 t) as [->|N]; [rewrite upd_same; discriminate|]. rewrite upd_other by exact N. apply Fl.
  - (* torn closing *)
    destruct Wt as (W1 & W2 & _).
    split; [split; [cbn; intros t1 y m Y; specialize (T1 _ _ _ Y); lia|]|].
    { intros t1 y m. cbn. destruct (path_dec t1 t) as [->|N]; [rewrite upd_same; intros Y; injection Y as <- <-; lia|rewrite upd_other by exact N; intros Y; specialize (T2 _ _ _ Y); lia]. }
    split; [cbn; lia|]. split; [|split; [|split; [exact So|]]].
    + intros t1. destruct (path_dec t1 t) as [->|N].
      * unfold good. rewrite P, upd_same. split; [exact W1|]. split; [|rewrite upd_same; discriminate]. intros f md x mt Y1 Y2 Le. cbn in Y1, Y2. rewrite upd_same in Y1. injection Y1 as <- <-. specialize (W1 _ _ Y2). lia.
      * apply (frame w st _ _ t t1 T (G t1) C Nd); [|left; reflexivity|exact N]. intros t2 N2. cbn. rewrite !upd_other by exact N2. auto.
    + intros t1 (s1 & D1). destruct (path_dec t1 t) as [->|N]; [rewrite upd_same in D1; discriminate D1|]. rewrite upd_other in D1 by exact N. apply M. exists s1. exact D1.
    + intros t1. destruct (path_dec t1 t) as [->|N]; [rewrite upd_same; discriminate|]. rewrite upd_other by exact N. apply Fl.
Qed.

Lemma running_begin : inv w0 -> running (fst (begin w0)) (snd (begin w0)).
Proof.
  intros ((T1 & T2) & J). cbn. split; [split; cbn; intros t x m X; [specialize (T1 _ _ _ X)|specialize (T2 _ _ _ X)]; lia|]. split; [cbn; unfold start; lia|]. split; [|split; [intros t (s & X); discriminate X|split; [reflexivity|discriminate]]].
  intros t. assert (W : waiting (at_time (S (clock w0)) w0) (fun _ => Idle) t); [|unfold good; destruct (proj t); exact W]. split; [|split; [exact (J t)|discriminate]]. cbn. intros x m X. specialize (T1 _ _ _ X). unfold start. lia.
Qed.
Lemma running_steps c c' : run_steps hash body false proj roots c c' -> running (fst c) (snd c) -> running (fst c') (snd c').
Proof. induction 1 as [|c c1 c2 _ IH H]; [auto|]. intros Rn. specialize (IH Rn). destruct c1 as [w st], c2 as [w' st']. exact (running_step _ _ _ _ H IH). Qed.
Lemma runs w st : inv w0 -> run_steps hash body false proj roots (begin w0) (w, st) -> running w st.
Proof. intros I H. exact (running_steps _ _ H (running_begin I)). Qed.

(* Completing. *)
Lemma run_trans torn c c1 c2 : run_steps hash body torn proj roots c c1 -> run_steps hash body torn proj roots c1 c2 -> run_steps hash body torn proj roots c c2.
Proof. intros H1 H2. induction H2 as [|c1 c2 c3 _ IH H]; [exact H1|]. eapply run_more; [apply IH, H1|exact H]. Qed.
Definition whole (st : bytes -> status) : Prop := forall t, st t <> Interrupted.
Definition reaches (t : bytes) (c : world * (bytes -> status)) : Prop := exists c', run_steps hash body false proj roots c c' /\ running (fst c') (snd c') /\ whole (snd c') /\ is_done (snd c') t /\ forall p, is_done (snd c) p -> is_done (snd c') p.
Lemma one_step w st w' st' : running w st -> run_step hash body false proj roots (w, st) (w', st') -> running w' st'.
Proof. intros Rn H. exact (running_step _ _ _ _ H Rn). Qed.
Lemma whole_upd st t s : whole st -> s <> Interrupted -> whole (upd st t s).
Proof. intros W N p. destruct (path_dec p t) as [->|X]; [rewrite upd_same; exact N|rewrite upd_other by exact X; apply W]. Qed.
Lemma done_upd st t s p : ~ is_done st t -> is_done st p -> is_done (upd st t s) p.
Proof. intros N D. unfold is_done. rewrite upd_other; [exact D|]. intros ->. exact (N D). Qed.
Lemma finishes w st t r : running w st -> whole st -> st t = Begun -> proj t = Some r -> (exists x, built proj (sources w0) t x) -> reaches t (w, st).
Proof.
  intros Rn Wh I P Bx. pose proof Rn as (T & C & G & M & So & Fl). assert (Nd : ~ is_done st t) by (intros (s & D); congruence). pose proof (good_not_done _ _ _ (G t) Nd) as (W1 & W2 & W3). destruct (W3 I) as (r' & P' & Dn & _). rewrite P in P'. injection P' as <-.
  destruct (built_alls w st (prereqs r) M Dn) as (cs & Ba & A & _). pose proof (built_inv _ _ _ P cs Ba Bx) as Bo. destruct (body t r cs) as [x|] eqn:B; [|contradiction].
  pose proof (rs_finish hash body false proj roots t r cs x (clock w) w st I P A B (le_n _)) as H. exists (set_file t (Some (x, clock w)) (at_time (clock w) w), upd st t (Done Changed)). split; [eapply run_more; [apply run_none|exact H]|]. split; [exact (one_step _ _ _ _ Rn H)|]. cbn [snd].
  split; [apply whole_upd; [exact Wh|discriminate]|]. split; [exists Changed; apply upd_same|]. intros p. apply done_upd, Nd.
Qed.
Lemma completes t x : built proj (sources w0) t x -> forall c, reachable proj roots t -> running (fst c) (snd c) -> whole (snd c) -> reaches t c.
Proof.
  intros B. refine (built_mut body proj (sources w0) (fun t x => forall c, reachable proj roots t -> running (fst c) (snd c) -> whole (snd c) -> reaches t c)
    (fun ps cs => forall c, Forall (reachable proj roots) ps -> running (fst c) (snd c) -> whole (snd c) -> exists c', run_steps hash body false proj roots c c' /\ running (fst c') (snd c') /\ whole (snd c') /\ Forall (is_done (snd c')) ps /\ forall p, is_done (snd c) p -> is_done (snd c') p) _ _ _ _ t x B); clear t x B.
  - intros t x P Sr [w st] Re Rn Wh. cbn [fst snd] in *. pose proof Rn as (T & C & G & M & So & Fl). destruct (st t) as [| |s| |] eqn:S'.
    + unfold sources in Sr. rewrite <- (So t P) in Sr. destruct (file w t) as [xm|] eqn:F; [|discriminate Sr]. pose proof (rs_source hash body false proj roots t xm w st Re S' P F) as H. exists (w, upd st t (Done Unchanged)). split; [eapply run_more; [apply run_none|exact H]|]. split; [exact (one_step _ _ _ _ Rn H)|]. cbn [snd].
      split; [apply whole_upd; [exact Wh|discriminate]|]. split; [exists Unchanged; apply upd_same|]. intros p. apply done_upd. intros (s & D). congruence.
    + exfalso. destruct (good_not_done _ _ _ (G t)) as (_ & _ & W3); [intros (s & D); congruence|]. destruct (W3 S') as (r & P' & _). congruence.
    + exists (w, st). split; [apply run_none|]. split; [exact Rn|]. split; [exact Wh|]. split; [exists s; exact S'|auto].
    + exfalso. apply (Fl t S'). exists x. apply bu_source; assumption.
    + exfalso. exact (Wh t S').
  - intros t r cs x P Ba IH Bo c Re Rn Wh. pose proof (bu_recipe body proj (sources w0) t r cs x P Ba Bo) as Bt. destruct (IH c) as ([w st] & H1 & Rn1 & Wh1 & Dn & Kp); [|exact Rn|exact Wh|].
    { apply Forall_forall. intros p Ip. eapply re_prereq; eassumption. }
    cbn [fst snd] in *. assert (K : reaches t (w, st)).
    { pose proof Rn1 as (T & C & G & M & So & Fl). destruct (st t) as [| |s| |] eqn:S'.
      - destruct (opened t r (contents (dd w t))) as (d & Ex & _). assert (Dc : exists u s, decide w st t r = Some (u, s, d)).
        { unfold GraphModel.decide. destruct (execute_prerequisites w st (mtime (file w t)) (prereqs r) match file w t with Some _ => false | None => true end Unchanged) as [[e rs]|] eqn:E; [rewrite Ex; eauto|]. exfalso. revert E. apply executes. eapply Forall_impl; [|exact Dn]. intros p D. split; [exact D|]. destruct (M p D) as (y & m & -> & _). discriminate. }
        destruct Dc as ([|] & s & Dc).
        + pose proof (rs_begin hash body false proj roots t r s d (clock w) w st Re S' P Dc (le_n _)) as H. destruct (finishes _ _ t r (one_step _ _ _ _ Rn1 H)) as (c' & H2 & Rn2 & Wh2 & D2 & Kp2); [apply whole_upd; [exact Wh1|discriminate]|apply upd_same|exact P|exists x; exact Bt|].
          exists c'. split; [eapply run_trans; [eapply run_more; [apply run_none|exact H]|exact H2]|]. split; [exact Rn2|]. split; [exact Wh2|]. split; [exact D2|]. intros p D. apply Kp2, done_upd; [intros (s1 & D1); congruence|exact D].
        + pose proof (rs_up_to_date hash body false proj roots t r s d (clock w) w st Re S' P Dc (le_n _)) as H. eexists. split; [eapply run_more; [apply run_none|exact H]|]. split; [exact (one_step _ _ _ _ Rn1 H)|]. cbn [snd]. split; [apply whole_upd; [exact Wh1|discriminate]|]. split; [exists s; apply upd_same|]. intros p. apply done_upd. intros (s1 & D1). congruence.
      - apply (finishes w st t r); try assumption. exists x. exact Bt.
      - exists (w, st). split; [apply run_none|]. split; [exact Rn1|]. split; [exact Wh1|]. split; [exists s; exact S'|auto].
      - exfalso. apply (Fl t S'). exists x. exact Bt.
      - exfalso. exact (Wh1 t S'). }
    destruct K as (c' & H2 & Rn2 & Wh2 & D2 & Kp2). exists c'. split; [eapply run_trans; eassumption|]. split; [exact Rn2|]. split; [exact Wh2|]. split; [exact D2|]. intros p D. apply Kp2, Kp, D.
  - intros c _ Rn Wh. exists c. split; [apply run_none|]. auto.
  - intros p ps c cs _ IH1 _ IH2 k F Rn Wh. inversion F as [|? ? Rp Fp]; subst. destruct (IH1 k Rp Rn Wh) as (k1 & H1 & Rn1 & Wh1 & D1 & Kp1). destruct (IH2 k1 Fp Rn1 Wh1) as (k2 & H2 & Rn2 & Wh2 & D2 & Kp2). exists k2. split; [eapply run_trans; eassumption|]. split; [exact Rn2|]. split; [exact Wh2|].
    split; [constructor; [apply Kp2, D1|exact D2]|]. intros q D. apply Kp2, Kp1, D.
Qed.
End Run.

(* Histories. *)
Lemma event_inv w w' : event hash body false allowed w w' -> inv w -> inv w'.
Proof.
  intros H. destruct H as [p x w Dn|p w|p w|proj roots w w' st Al H]; intros Iv; [| | |exact (running_inv _ _ Al _ _ (runs _ _ _ Al _ _ Iv H))]; destruct Iv as ((T1 & T2) & J).
  - split; [split; cbn; intros t y m; [|intros X; specialize (T2 _ _ _ X); lia]|].
    + destruct (path_dec t p) as [->|N]; [rewrite upd_same; intros X; injection X as <- <-; lia|rewrite upd_other by exact N; intros X; specialize (T1 _ _ _ X); lia].
    + intros t f md y mt D Fi Le. cbn in D, Fi. assert (N : t <> p) by (intros ->; congruence). rewrite upd_other in Fi by exact N. destruct (J t f md y mt D Fi Le) as (r & cs & A & H & Bo & Fo). exists r, cs. split; [exact A|]. split; [exact H|]. split; [exact Bo|].
      eapply Forall2_impl; [|exact Fo]. cbn. intros q c K c' m. destruct (path_dec q p) as [->|Nq]; [rewrite upd_same; intros X L; injection X as <- <-; specialize (T1 _ _ _ Fi); lia|rewrite upd_other by exact Nq; apply K].
  - split; [split; [|exact T2]|].
    + intros t y m. cbn. destruct (path_dec t p) as [->|N]; [rewrite upd_same; discriminate|rewrite upd_other by exact N; apply T1].
    + intros t f md y mt D Fi Le. cbn in D, Fi. assert (N : t <> p) by (intros ->; rewrite upd_same in Fi; discriminate Fi). rewrite upd_other in Fi by exact N. destruct (J t f md y mt D Fi Le) as (r & cs & A & H & Bo & Fo). exists r, cs. split; [exact A|]. split; [exact H|]. split; [exact Bo|].
      eapply Forall2_impl; [|exact Fo]. cbn. intros q c K c' m. destruct (path_dec q p) as [->|Nq]; [rewrite upd_same; discriminate|rewrite upd_other by exact Nq; apply K].
  - split; [split; [exact T1|]|].
    + intros t y m. cbn. destruct (path_dec t p) as [->|N]; [rewrite upd_same; discriminate|rewrite upd_other by exact N; apply T2].
    + intros t f md y mt D. cbn in D. assert (N : t <> p) by (intros ->; rewrite upd_same in D; discriminate D). rewrite upd_other in D by exact N. exact (J t f md y mt D).
Qed.
Lemma history_inv w w' : history hash body false allowed w w' -> inv w -> inv w'.
Proof. induction 1 as [|w w1 w2 _ IH H]; [auto|]. intros I. exact (event_inv _ _ H (IH I)). Qed.
Lemma fresh_inv w : fresh w -> inv w.
Proof. intros (D & F). split; [split; [exact F|intros t x m X; rewrite D in X; discriminate X]|]. intros t f md x mt X. rewrite D in X. discriminate X. Qed.

Theorem done_right w0 w proj roots w' st : fresh w0 -> history hash body false allowed w0 w -> (forall t r, proj t = Some r -> allowed t r) -> run_steps hash body false proj roots (begin w) (w', st) ->
  (forall t s, st t = Done s -> exists x m, file w' t = Some (x, m) /\ built proj (sources w) t x) /\ (forall t, st t = Failed -> ~ exists x, built proj (sources w) t x) /\ forall t, proj t = None -> file w' t = file w t.
Proof.
  intros F H Al R. pose proof (runs proj roots w Al w' st (history_inv _ _ H (fresh_inv _ F)) R) as (_ & _ & _ & M & So & Fl). split; [|split; [exact Fl|exact So]]. intros t s D. apply M. exists s. exact D.
Qed.
Theorem progress w0 w proj roots w1 st1 : fresh w0 -> history hash body false allowed w0 w -> (forall t r, proj t = Some r -> allowed t r) -> (forall t, In t roots -> exists x, built proj (sources w) t x) ->
  run_steps hash body false proj roots (begin w) (w1, st1) -> (forall t, st1 t <> Interrupted) -> exists w2 st2, run_steps hash body false proj roots (w1, st1) (w2, st2) /\ forall t, In t roots -> exists s, st2 t = Done s.
Proof.
  intros F H Al Bu R Wh. pose proof (runs proj roots w Al w1 st1 (history_inv _ _ H (fresh_inv _ F)) R) as Rn. assert (K : forall ts, (forall t, In t ts -> In t roots) -> forall c, running proj w (fst c) (snd c) -> whole (snd c) ->
    exists c', run_steps hash body false proj roots c c' /\ running proj w (fst c') (snd c') /\ whole (snd c') /\ (forall t, In t ts -> is_done (snd c') t) /\ forall p, is_done (snd c) p -> is_done (snd c') p).
  { induction ts as [|t ts IH]; intros Su c Rn' Wh'; [exists c; split; [apply run_none|]; split; [exact Rn'|]; split; [exact Wh'|]; split; [intros ? []|auto]|].
    destruct (Bu t (Su t (or_introl eq_refl))) as (x & Bx). destruct (completes proj roots w Al t x Bx c (re_root _ _ _ (Su t (or_introl eq_refl))) Rn' Wh') as (c1 & H1 & Rn1 & Wh1 & D1 & Kp1). destruct (IH (fun t I => Su t (or_intror I)) c1 Rn1 Wh1) as (c2 & H2 & Rn2 & Wh2 & D2 & Kp2).
    exists c2. split; [eapply run_trans; eassumption|]. split; [exact Rn2|]. split; [exact Wh2|]. split; [|intros p D; apply Kp2, Kp1, D]. intros q [<-|I]; [apply Kp2, D1|apply D2, I]. }
  destruct (K roots (fun t I => I) (w1, st1) Rn Wh) as ([w2 st2] & H2 & _ & _ & D2 & _). exists w2, st2. split; [exact H2|exact D2].
Qed.

(* Again. *)
Definition settled (proj : bytes -> option recipe) (w : world) (t : bytes) : Prop :=
  exists x mt, file w t = Some (x, mt) /\ forall r, proj t = Some r -> exists f md, dd w t = Some (f, md) /\ md <= mt /\ holds f (version :: lines t r) true /\ Forall (fun p => exists c m, file w p = Some (c, m) /\ m <= mt) (prereqs r).
Lemma settled_done proj w0 w st t : running proj w0 w st -> is_done st t -> settled proj w t.
Proof.
  intros (T & C & G & M & _) D. destruct (M t D) as (x & m & F & _). exists x, m. split; [exact F|]. intros r P. specialize (G t). unfold good in G. rewrite P in G. destruct D as (s & D). rewrite D in G. destruct G as (x' & mt & f & md & cs & Fi & Dd & Le & H & _ & Fo). rewrite F in Fi. injection Fi as <- <-. exists f, md. split; [exact Dd|]. split; [exact Le|]. split; [exact H|].
  clear - Fo. induction Fo as [|p c ps cs (_ & k & Fp & Lp) _ IH]; constructor; eauto.
Qed.
Lemma settled_reachable proj roots w0 w st t : running proj w0 w st -> (forall t, In t roots -> is_done st t) -> reachable proj roots t -> is_done st t.
Proof.
  intros Rn Hr H. induction H as [t I|t r p H IH P I]; [auto|]. destruct Rn as (T & C & G & M & _). specialize (G t). unfold good in G. rewrite P in G. destruct IH as (s & D). rewrite D in G. destruct G as (x' & mt & f & md & cs & _ & _ & _ & _ & _ & Fo).
  clear - Fo I. induction Fo as [|q c ps cs (Dq & _) _ IH]; [destruct I|]. destruct I as [->|I]; [exact Dq|exact (IH I)].
Qed.
Lemma unchanged_executed w st mt ps : (forall t, st t = Idle \/ st t = Done Unchanged) -> Forall (fun p => exists c m, file w p = Some (c, m) /\ m <= mt) ps -> forall e rs, execute_prerequisites w st (Some mt) ps false Unchanged = Some (e, rs) -> e = false /\ rs = Unchanged.
Proof.
  intros U. induction 1 as [|p ps (c & m & F & L) _ IH]; intros e rs E; cbn [execute_prerequisites] in E; [injection E as <- <-; auto|]. destruct (U p) as [S'|S']; rewrite S' in E; [discriminate E|]. rewrite F in E. cbn in E. unfold newer in E. rewrite (proj2 (Nat.ltb_ge _ _) L), andb_false_r in E. exact (IH _ _ E).
Qed.
Lemma nothing_step proj roots w w1 st w2 st2 : (forall t, reachable proj roots t -> settled proj w t) ->
  ((forall t, file w1 t = file w t /\ dd w1 t = dd w t) /\ forall t, st t = Idle \/ st t = Done Unchanged) -> run_step hash body false proj roots (w1, st) (w2, st2) ->
  (forall t, file w2 t = file w t /\ dd w2 t = dd w t) /\ forall t, st2 t = Idle \/ st2 t = Done Unchanged.
Proof.
  intros Se (Sm & U) H. remember (w1, st) as c1 eqn:E1. remember (w2, st2) as c2 eqn:E2.
  assert (K : forall t r u s d, reachable proj roots t -> proj t = Some r -> decide w1 st t r = Some (u, s, d) -> u = false /\ s = Unchanged /\ InModel.writing d = false /\ DepdbModel.st d = ReadEof /\ dd w1 t <> None).
  { intros t r u s d Re P D. destruct (Se t Re) as (x & mt & F & K). destruct (K r P) as (f & md & Dd & Le & Hf & Fo). pose proof (Sm t) as (Y1 & Y2). rewrite F in Y1. rewrite Dd in Y2. unfold GraphModel.decide in D. rewrite Y1, Y2 in D. cbn [mtime contents] in D.
    destruct (execute_prerequisites w1 st (Some mt) (prereqs r) false Unchanged) as [[e rs]|] eqn:E; [|discriminate D]. apply unchanged_executed in E; [|exact U|]. 2: { eapply Forall_impl; [|exact Fo]. cbn. intros p (c & m & Fp & Lp). exists c, m. rewrite (proj1 (Sm p)). auto. }
    destruct E as (-> & ->). destruct (opened t r (Some f)) as (d' & Ex & _ & _ & Eof & _). rewrite Ex in D. injection D as D1 <- <-. specialize (Eof f eq_refl Hf). unfold InModel.writing in *. rewrite Eof in *. rewrite (proj2 (Nat.ltb_ge _ _) Le) in D1. cbn in D1. split; [auto|]. split; [reflexivity|]. split; [reflexivity|]. split; [reflexivity|]. congruence. }
  assert (Up : forall t, (forall t1, upd st t (Done Unchanged) t1 = Idle \/ upd st t (Done Unchanged) t1 = Done Unchanged)) by (intros t t1; destruct (path_dec t1 t) as [->|N]; [rewrite upd_same; auto|rewrite upd_other by exact N; apply U]).
  destruct H as [t x w3 st3 Re I P F|t r s d n w3 st3 Re I P D L|t r s d n w3 st3 Re I P D L|t r cs x n w3 st3 I P A B L|t r cs w3 st3 I P A B|t r u s d n k w3 st3 Re I P D W L|t r u s d n k w3 st3 Re I P D W L|t r x n w3 st3 X];
    try discriminate X; injection E1 as -> ->; injection E2 as <- <-.
  - split; [exact Sm|apply Up].
  - destruct (K _ _ _ _ _ Re P D) as (_ & -> & _ & Eof & Nd). split; [|apply Up]. intros t1. cbn. split; [apply Sm|]. destruct (path_dec t1 t) as [->|N]; [|rewrite upd_other by exact N; apply Sm]. rewrite upd_same, <- (proj2 (Sm t)). unfold closed. rewrite Eof. destruct (dd w1 t) as [[f md]|]; [reflexivity|contradiction].
  - destruct (K _ _ _ _ _ Re P D) as (X & _). discriminate X.
  - destruct (U t); congruence.
  - destruct (U t); congruence.
  - destruct (K _ _ _ _ _ Re P D) as (_ & _ & X & _). congruence.
  - destruct (K _ _ _ _ _ Re P D) as (_ & _ & _ & X & _). congruence.
Qed.
Lemma nothing_steps proj roots w c c' : (forall t, reachable proj roots t -> settled proj w t) -> run_steps hash body false proj roots c c' ->
  ((forall t, file (fst c) t = file w t /\ dd (fst c) t = dd w t) /\ forall t, snd c t = Idle \/ snd c t = Done Unchanged) ->
  (forall t, file (fst c') t = file w t /\ dd (fst c') t = dd w t) /\ forall t, snd c' t = Idle \/ snd c' t = Done Unchanged.
Proof. intros Se H. induction H as [|c c1 c2 _ IH H]; [auto|]. intros X. specialize (IH X). destruct c1 as [w1 st1], c2 as [w2 st2]. exact (nothing_step _ _ _ _ _ _ _ Se IH H). Qed.
Theorem no_more w0 w proj roots w1 w2 st2 : fresh w0 -> history hash body false allowed w0 w -> (forall t r, proj t = Some r -> allowed t r) -> complete_run hash body false proj roots w w1 ->
  run_steps hash body false proj roots (begin w1) (w2, st2) -> (forall t, file w2 t = file w1 t /\ dd w2 t = dd w1 t) /\ forall t, st2 t = Idle \/ st2 t = Done Unchanged.
Proof.
  intros F H Al (st & R & Dn) R2. pose proof (runs proj roots w Al w1 st (history_inv _ _ H (fresh_inv _ F)) R) as Rn. apply (nothing_steps proj roots w1 _ _) in R2; [exact R2| |cbn; auto].
  intros t Re. eapply settled_done; [exact Rn|]. eapply settled_reachable; eassumption.
Qed.
End Graph.
