From Verif Require Import Base InstModel InstSpec.

Lemma path_eqb_spec p q : reflect (p = q) (path_eqb p q).
Proof. unfold path_eqb. destruct (path_dec p q); constructor; auto. Qed.
Lemma path_eqb_refl p : path_eqb p p = true.
Proof. destruct (path_eqb_spec p p); congruence. Qed.
Lemma leadsb_spec p q : reflect (leads p q) (leadsb p q).
Proof.
  unfold leadsb. destruct (path_eqb_spec (firstn (length p) q) p) as [E | N]; constructor.
  - exists (skipn (length p) q). rewrite <- E at 1. symmetry. apply firstn_skipn.
  - intros (r & ->). apply N. rewrite firstn_app, Nat.sub_diag, firstn_all. apply app_nil_r.
Qed.
Lemma leads_refl p : leads p p.
Proof. exists []. now rewrite app_nil_r. Qed.
Lemma leads_trans p q r : leads p q -> leads q r -> leads p r.
Proof. intros (a & ->) (b & ->). exists (a ++ b). now rewrite app_assoc. Qed.
Lemma leads_app p r : leads p (p ++ r).
Proof. exists r. auto. Qed.
Lemma leads_length p q : leads p q -> length p <= length q.
Proof. intros (r & ->). rewrite app_length. lia. Qed.
Lemma leads_compare p q r : leads p r -> leads q r -> length p <= length q -> leads p q.
Proof.
  intros (a & E) (c & F) L. exists (firstn (length q - length p) a). rewrite E in F.
  assert (X : firstn (length q) (p ++ a) = q) by (rewrite F, firstn_app, Nat.sub_diag, firstn_all; apply app_nil_r).
  rewrite firstn_app in X. rewrite firstn_all2 in X by lia. auto.
Qed.
Lemma leads_antisym p q : leads p q -> length q <= length p -> p = q.
Proof. intros (r & ->) L. rewrite app_length in L. destruct r; [now rewrite app_nil_r | cbn in L; lia]. Qed.
Lemma leads_prepend c p q : leads p q <-> leads (c ++ p) (c ++ q).
Proof. split; intros (r & E); exists r; [rewrite E; now rewrite app_assoc | rewrite <- app_assoc in E; now apply app_inv_head in E]. Qed.
Lemma removelast_snoc {A} (p : list A) x : removelast (p ++ [x]) = p.
Proof. apply removelast_last. Qed.
Lemma snoc_cases {A} (p : list A) : p = [] \/ exists q x, p = q ++ [x].
Proof. destruct p as [| q x _] using rev_ind; eauto. Qed.

(* The filesystem *)
Lemma look_root s : look s [] = Some Dir.
Proof. reflexivity. Qed.
Lemma look_find s p : p <> [] -> look s p = match List.find (fun e => path_eqb (fst e) p) s with Some e => Some (snd e) | None => None end.
Proof. destruct p; [congruence | reflexivity]. Qed.
Lemma find_remove s p q : List.find (fun e => path_eqb (fst e) q) (remove s p) = if path_eqb q p then None else List.find (fun e : path * node => path_eqb (fst e) q) s.
Proof.
  induction s as [| (a, n) s IH]; cbn [remove filter List.find]; [now destruct (path_eqb q p) |]. fold (remove s p). cbn [fst].
  destruct (path_eqb_spec a p) as [-> | N]; cbn [negb].
  - rewrite IH. destruct (path_eqb_spec p q) as [-> | M]; [now rewrite path_eqb_refl |]. auto.
  - cbn [List.find fst]. rewrite IH. destruct (path_eqb_spec a q) as [-> | M]; auto. destruct (path_eqb_spec q p); congruence.
Qed.
Lemma look_remove s p q : p <> [] -> look (remove s p) q = if path_eqb q p then None else look s q.
Proof.
  intro N. destruct q as [| x q]; [destruct (path_eqb_spec [] p); [congruence | reflexivity] |].
  rewrite !look_find by discriminate. rewrite find_remove. destruct (path_eqb (x :: q) p); auto.
Qed.
Lemma look_add s p n q : p <> [] -> look (add s p n) q = if path_eqb q p then Some n else look s q.
Proof.
  intro N. destruct q as [| x q]; [destruct (path_eqb_spec [] p); [congruence | reflexivity] |].
  unfold add. rewrite look_find by discriminate. cbn [List.find fst]. rewrite find_remove. rewrite (look_find s) by discriminate.
  destruct (path_eqb_spec p (x :: q)) as [-> | M]; [now rewrite path_eqb_refl |]. destruct (path_eqb_spec (x :: q) p); congruence.
Qed.
Lemma look_in s p : p <> [] -> look s p = None <-> ~ In p (map fst s).
Proof.
  intro N. rewrite look_find by auto. induction s as [| (a, n) s IH]; cbn; [tauto |]. destruct (path_eqb_spec a p) as [-> | M]; [split; [discriminate | tauto] |].
  rewrite IH. split; [intros H [E | I]; [congruence | auto] | auto].
Qed.
Lemma snoc_neq_nil {A} (p : list A) x : p ++ [x] <> [].
Proof. destruct p; discriminate. Qed.
Lemma empty_spec s p : empty s p = true <-> vacant s p.
Proof.
  unfold empty, vacant. rewrite negb_true_iff. split.
  - intros E x. apply look_in; [apply snoc_neq_nil |]. intro I. apply in_map_iff in I as ((q, n) & E1 & I). cbn in E1. subst q.
    assert (X : existsb (fun e => inside p (fst e)) s = true); [| congruence]. apply existsb_exists. exists (p ++ [x], n). split; auto. cbn. unfold inside.
    destruct (p ++ [x]) eqn: Y; [now apply snoc_neq_nil in Y |]. rewrite <- Y, removelast_snoc. apply path_eqb_refl.
  - intro V. apply not_true_is_false. intro X. apply existsb_exists in X as ((q, n) & I & X). cbn in X. unfold inside in X. destruct (snoc_cases q) as [-> | (q' & x & ->)]; [discriminate |].
    destruct (q' ++ [x]) eqn: Y; [now apply snoc_neq_nil in Y |]. rewrite <- Y, removelast_snoc in X. destruct (path_eqb_spec q' p) as [-> |]; [| discriminate].
    specialize (V x). rewrite look_in in V by apply snoc_neq_nil. apply V. rewrite Y. apply (in_map fst) in I. auto.
Qed.
Lemma is_dir_spec s p : is_dir s p = true <-> look s p = Some Dir.
Proof. unfold is_dir. destruct (look s p) as [[|] |]; split; congruence. Qed.
Lemma is_file_spec s p : is_file s p = true <-> exists c, look s p = Some (File c).
Proof. unfold is_file. destruct (look s p) as [[| c] |]; split; eauto; try congruence; intros (? & ?); congruence. Qed.
Lemma sane_leads s p q n : sane s -> leads p q -> look s q = Some n -> p <> q -> look s p = Some Dir.
Proof.
  intros W (r & ->). revert n. induction r as [| x r IH] using rev_ind; intros n L N; [rewrite app_nil_r in N; congruence |].
  rewrite app_assoc in L. apply W in L. destruct r as [| y r]; [now rewrite app_nil_r in L |]. apply (IH Dir); auto. intro E. rewrite <- (app_nil_r p) in E at 1. apply app_inv_head in E. discriminate.
Qed.

(* Creating directories *)
Definition grown (s : fs) (p q : path) : option node := match look s q with Some n => Some n | None => if leadsb q p then Some Dir else None end.
Lemma make_ok todo : forall done s, (forall p, leads p (done ++ todo) -> is_file s p = false) ->
  exists s', make done todo s = Ok s' /\ ((forall p, leads p done -> look s p = Some Dir) -> forall q, look s' q = grown s (done ++ todo) q).
Proof.
  induction todo as [| x todo IH]; intros done s F; cbn [make].
  - exists s. split; auto. intros D q. unfold grown. rewrite app_nil_r. destruct (look s q) eqn: E; auto. destruct (leadsb_spec q done) as [L |]; auto. rewrite D in E; congruence.
  - assert (E : done ++ x :: todo = (done ++ [x]) ++ todo) by now rewrite <- app_assoc. rewrite E in F.
    assert (LP : leads (done ++ [x]) ((done ++ [x]) ++ todo)) by apply leads_app.
    assert (SN : forall p, leads p (done ++ [x]) -> leads p done \/ p = done ++ [x]).
    { intros p L. destruct (Nat.le_gt_cases (length p) (length done)) as [LE | LE]; [left; eapply leads_compare; [exact L | apply leads_app | auto] |].
      right. apply leads_antisym; auto. rewrite app_length. cbn. lia. }
    destruct (look s (done ++ [x])) as [[| c] |] eqn: LK.
    + destruct (IH (done ++ [x]) s F) as (s' & M & H). exists s'. split; auto. intros D q. rewrite E. apply H. intros p L. destruct (SN p L) as [L' | ->]; auto.
    + specialize (F _ LP). unfold is_file in F. rewrite LK in F. discriminate.
    + assert (LA : forall q, look (add s (done ++ [x]) Dir) q = if path_eqb q (done ++ [x]) then Some Dir else look s q) by (intro; apply look_add, snoc_neq_nil).
      destruct (IH (done ++ [x]) (add s (done ++ [x]) Dir)) as (s' & M & H).
      { intros p L. unfold is_file. rewrite LA. destruct (path_eqb_spec p (done ++ [x])); auto. apply F; auto. }
      exists s'. split; auto. intros D q. rewrite E, H.
      * unfold grown. rewrite LA. destruct (path_eqb_spec q (done ++ [x])) as [-> |]; auto. rewrite LK. destruct (leadsb_spec (done ++ [x]) ((done ++ [x]) ++ todo)); tauto.
      * intros p L. rewrite LA. destruct (path_eqb_spec p (done ++ [x])); auto. destruct (SN p L); [auto | congruence].
Qed.
Lemma make_root p s : (forall q, leads q p -> is_file s q = false) -> exists s', make [] p s = Ok s' /\ forall q, look s' q = grown s p q.
Proof.
  intro F. destruct (make_ok p [] s F) as (s' & M & H). exists s'. split; auto. apply H. intros q (r & E). destruct q; [reflexivity | discriminate].
Qed.
Lemma grown_same s p : sane s -> look s p = Some Dir -> forall q, grown s p q = look s q.
Proof.
  intros W D q. unfold grown. destruct (look s q) eqn: E; auto. destruct (leadsb_spec q p) as [L |]; auto. exfalso.
  destruct (path_eqb_spec q p) as [-> | N]; [congruence |]. rewrite (sane_leads s q p Dir) in E; auto. discriminate.
Qed.
Lemma grown_grown s s1 p p' q : leads p p' -> (forall q, look s1 q = grown s p q) -> grown s1 p' q = grown s p' q.
Proof.
  intros L H. unfold grown. rewrite H. unfold grown. destruct (look s q); auto. destruct (leadsb_spec q p) as [A |]; auto.
  destruct (leadsb_spec q p'); auto. exfalso. apply n. eapply leads_trans; eauto.
Qed.
Lemma sane_grown s s' p : sane s -> (forall q, leads q p -> is_file s q = false) -> (forall q, look s' q = grown s p q) -> sane s'.
Proof.
  intros W F H a x n. rewrite !H. unfold grown. destruct (look s (a ++ [x])) eqn: E; [intro X; injection X as ->; now rewrite (W _ _ _ E) |].
  destruct (leadsb_spec (a ++ [x]) p) as [L |]; [| discriminate]. intros _. assert (LA : leads a p) by (eapply leads_trans; [apply leads_app | exact L]).
  specialize (F a LA). unfold is_file in F. destruct (look s a) as [[| c] |]; auto; [discriminate |]. destruct (leadsb_spec a p); tauto.
Qed.

Section Install.
Context (chroot : path) (filter_dir : path -> bool) (filter_file : path -> comp -> kind -> bool).

Lemma install_d_ok n : forall base d s, sane s -> leads base d -> length d <= n -> (forall e, leads base e -> leads e d -> filter_dir e = true) -> (forall p, leads p (chroot ++ d) -> is_file s p = false) ->
  exists s', install_d false chroot filter_dir n base d s = Ok s' /\ forall q, look s' q = grown s (chroot ++ d) q.
Proof.
  induction n as [| n IH]; intros base d s W L N FD F.
  - destruct d; [| cbn in N; lia]. cbn [install_d]. rewrite FD by (auto; apply leads_refl). cbn [orb negb].
    destruct (is_dir s (chroot ++ [])) eqn: D; [exists s; split; auto; intro q; symmetry; apply grown_same; auto; now apply is_dir_spec |].
    assert (base = []) as -> by (destruct base, L as (r & E); [auto | discriminate]). rewrite path_eqb_refl. cbn [bind]. apply make_root; auto.
  - cbn [install_d]. rewrite FD by (auto; apply leads_refl). cbn [orb negb].
    destruct (is_dir s (chroot ++ d)) eqn: D; [exists s; split; auto; intro q; symmetry; apply grown_same; auto; now apply is_dir_spec |].
    destruct (path_eqb_spec d base) as [E | NE]; [cbn [bind]; apply make_root; auto |].
    destruct (snoc_cases d) as [-> | (pd & x & ->)]; [destruct base, L as (r & X); [congruence | discriminate] |].
    destruct (pd ++ [x]) eqn: Y; [now apply snoc_neq_nil in Y |]. rewrite <- Y in *. rewrite removelast_snoc. destruct (path_eqb_spec pd base) as [E | NE']; [cbn [bind]; apply make_root; auto |].
    assert (LP : leads base pd).
    { eapply leads_compare; [exact L | apply leads_app |]. pose proof (leads_length _ _ L). destruct (Nat.eq_dec (length base) (length (pd ++ [x]))) as [X | X].
      - destruct NE. symmetry. apply leads_antisym; [auto | lia].
      - rewrite app_length in *. cbn in *. lia. }
    assert (LC : leads (chroot ++ pd) (chroot ++ pd ++ [x])) by (rewrite app_assoc; apply leads_app).
    destruct (IH base pd s W LP) as (s1 & E1 & H1).
    { rewrite app_length in N. cbn in N. lia. }
    { intros e LB LE. apply FD; auto. eapply leads_trans; [exact LE | apply leads_app]. }
    { intros p LE. apply F. eapply leads_trans; eauto. }
    rewrite E1. cbn [bind].
    destruct (make_root (chroot ++ pd ++ [x]) s1) as (s2 & E2 & H2).
    { intros q LQ. unfold is_file. rewrite H1. unfold grown. specialize (F q LQ). unfold is_file in F. destruct (look s q) as [[|] |]; auto. destruct (leadsb q (chroot ++ pd)); auto. }
    exists s2. split; auto. intro q. rewrite H2. eapply grown_grown; eauto.
Qed.

Lemma last_cons {A} (x d : A) ds : List.last (x :: ds) d = List.last ds x.
Proof. revert x d. induction ds as [| z ds IH]; intros x d; [reflexivity |]. change (List.last (z :: ds) d = List.last (z :: ds) x). now rewrite !IH. Qed.
Lemma chain_last ds : forall d, chain d ds -> leads d (List.last ds d) /\ forall x, In x ds -> leads d x /\ leads x (List.last ds d).
Proof.
  induction ds as [| y ds IH]; intros d C; [split; [apply leads_refl | intros x []] |]. destruct C as (L & C). destruct (IH y C) as (A & B).
  rewrite last_cons. split; [eapply leads_trans; eauto |]. intros x [-> | I]; [auto |]. destruct (B x I). split; auto. eapply leads_trans; eauto.
Qed.
Lemma steps_ok ds : forall b d s, sane s -> leads b d -> chain d ds -> (forall e, leads b e -> leads e (List.last ds d) -> filter_dir e = true) -> (forall p, leads p (chroot ++ List.last ds d) -> is_file s p = false) ->
  exists s', each (fun x => install_d false chroot filter_dir (length (snd x)) (fst x) (snd x)) (combine (b :: d :: ds) (d :: ds)) s = Ok s' /\
    forall q, look s' q = grown s (chroot ++ List.last ds d) q.
Proof.
  induction ds as [| y ds IH]; intros b d s W L C FD F.
  - cbn [List.last] in *. cbn [combine each fst snd]. destruct (install_d_ok (length d) b d s W L (le_n _) FD F) as (s1 & -> & H). exists s1. cbn [bind each]. auto.
  - rewrite last_cons in *. pose proof (chain_last ds y (proj2 C)) as (LL & _). destruct C as (LY & C). cbn [combine each fst snd].
    assert (LDL : leads d (List.last ds y)) by (eapply leads_trans; eauto).
    assert (F' : forall p, leads p (chroot ++ d) -> is_file s p = false) by (intros p LP; apply F; eapply leads_trans; [exact LP | now apply leads_prepend]).
    destruct (install_d_ok (length d) b d s W L (le_n _)) as (s1 & -> & H); [intros e LB LE; apply FD; auto; eapply leads_trans; eauto | auto |]. cbn [bind].
    destruct (IH d y s1) as (s2 & E2 & H2); auto.
    + eapply sane_grown; eauto.
    + intros e LB LE. apply FD; auto. eapply leads_trans; eauto.
    + intros p LP. unfold is_file. rewrite H. unfold grown. specialize (F p LP). unfold is_file in F. destruct (look s p) as [[|] |]; auto. destruct (leadsb p (chroot ++ d)); auto.
    + exists s2. split; [exact E2 |]. intro q. rewrite H2. eapply grown_grown; [| exact H]. now apply leads_prepend.
Qed.

(* Files *)
Notation Writes := (writes chroot filter_file).
Notation Path := (item_path chroot).
Lemma last_write_app a b p : last_write (a ++ b) p = match last_write b p with Some c => Some c | None => last_write a p end.
Proof.
  unfold last_write. rewrite fold_left_app. generalize (fold_left (fun (r : option nat) (w : path * nat) => if path_eqb (fst w) p then Some (snd w) else r) a None).
  induction b as [| (q, c) b IH] using rev_ind; intro r; [reflexivity |]. rewrite !fold_left_app. cbn. destruct (path_eqb q p); auto.
Qed.
Lemma last_write_in ws p c : last_write ws p = Some c -> In (p, c) ws.
Proof.
  unfold last_write. induction ws as [| (q, x) ws IH] using rev_ind; [discriminate |]. rewrite fold_left_app. cbn. rewrite in_app_iff. destruct (path_eqb_spec q p) as [-> |]; [intro E; injection E as ->; cbn; auto | auto].
Qed.
Lemma last_write_none ws p : last_write ws p = None -> forall c, ~ In (p, c) ws.
Proof.
  unfold last_write. induction ws as [| (q, x) ws IH] using rev_ind; intros E c; [auto |]. rewrite fold_left_app in E. cbn in E. rewrite in_app_iff.
  destruct (path_eqb_spec q p) as [-> |]; [discriminate |]. intros [I | [X | []]]; [eapply IH; eauto | congruence].
Qed.
Lemma writes_app a b : Writes (a ++ b) = Writes a ++ Writes b.
Proof. unfold writes. apply flat_map_app. Qed.

Definition written (s : fs) (ws : list (path * nat)) (q : path) : option node := match last_write ws q with Some c => Some (File c) | None => look s q end.
Lemma items_ok t is : forall s, sane s -> look s (chroot ++ dest t) = Some Dir -> Forall item_ok is ->
  (forall i, In i is -> filter_file (dest t) (leaf i) (type i) = true -> is_dir s (Path t i) = false) ->
  exists s', each (install_item false chroot filter_file (dest t)) is s = Ok s' /\
    forall q, look s' q = written s (map (fun i => (Path t i, data i)) (filter (fun i => filter_file (dest t) (leaf i) (type i)) is)) q.
Proof.
  induction is as [| i is IH]; intros s W D OK F; cbn [each filter map]; [exists s; auto |].
  unfold install_item at 1. destruct (filter_file (dest t) (leaf i) (type i)) eqn: FF; cbn [bind].
  2: { apply IH; auto; [now inversion OK | intros; apply F; auto; now right]. }
  inversion OK as [| ? ? OI OIS]; subst.
  assert (NN : Path t i <> []) by (unfold item_path; rewrite app_assoc; apply snoc_neq_nil).
  assert (WR : write s (Path t i) (data i) = Ok (add s (Path t i) (File (data i)))).
  { unfold write. destruct (Path t i) as [| x q] eqn: E; [congruence |]. rewrite <- E. unfold item_path at 1. rewrite app_assoc, removelast_snoc.
    unfold is_dir at 1. rewrite D. cbn [andb]. rewrite E, <- E, F by (auto; now left). reflexivity. }
  assert (CP : copy s (src i) (if named i then chroot ++ dest t ++ [leaf i] else chroot ++ dest t) (data i) = Ok (add s (Path t i) (File (data i)))).
  { unfold copy. destruct (named i) eqn: NA.
    - fold (Path t i). rewrite F by (auto; now left). exact WR.
    - unfold is_dir. rewrite D, (OI NA), <- app_assoc. exact WR. }
  rewrite CP. cbn [bind].
  assert (LA : forall q, look (add s (Path t i) (File (data i))) q = if path_eqb q (Path t i) then Some (File (data i)) else look s q) by (intro; now apply look_add).
  destruct (IH (add s (Path t i) (File (data i)))) as (s' & E & H); auto.
  - intros p x n. rewrite !LA. destruct (path_eqb_spec p (Path t i)) as [-> | NP].
    + destruct (path_eqb_spec (Path t i ++ [x]) (Path t i)) as [E | _].
      * exfalso. rewrite <- (app_nil_r (Path t i)) in E at 2. apply app_inv_head in E. discriminate.
      * intro X. apply W in X. specialize (F i (or_introl eq_refl) FF). apply is_dir_spec in X. congruence.
    + destruct (path_eqb_spec (p ++ [x]) (Path t i)) as [E |]; [| apply W]. intros _. unfold item_path in E. rewrite app_assoc in E. apply app_inj_tail in E as (-> & _). auto.
  - rewrite LA. destruct (path_eqb_spec (chroot ++ dest t) (Path t i)) as [E |]; auto. exfalso. unfold item_path in E. rewrite app_assoc in E. rewrite <- (app_nil_r (chroot ++ dest t)) in E at 1. apply app_inv_head in E. discriminate.
  - intros j I FJ. unfold is_dir. rewrite LA. destruct (path_eqb (Path t j) (Path t i)); auto. apply F; auto. now right.
  - exists s'. split; auto. intro q. rewrite H. unfold written. cbn [map].
    change ((Path t i, data i) :: ?l) with ([(Path t i, data i)] ++ l). rewrite last_write_app. cbn [last_write fold_left fst snd].
    destruct (last_write _ q); auto. rewrite LA. destruct (path_eqb_spec q (Path t i)) as [-> |]; [now rewrite path_eqb_refl |]. destruct (path_eqb_spec (Path t i) q); congruence.
Qed.

Lemma expected_one s t q : expected chroot filter_file s [t] q = match last_write (Writes [t]) q with Some c => Some (File c) | None => grown s (chroot ++ dest t) q end.
Proof. unfold expected, grown, needed. cbn [existsb]. rewrite orb_false_r. reflexivity. Qed.
Lemma writes_one t : Writes [t] = map (fun i => (Path t i, data i)) (selected filter_file t).
Proof. unfold writes. cbn. apply app_nil_r. Qed.

Lemma each_app {A} f (xs ys : list A) s : each f (xs ++ ys) s = bind (each f xs s) (each f ys).
Proof. revert s. induction xs as [| x xs IH]; intro s; cbn; auto. destruct (f x s); cbn; auto. Qed.

Lemma install_target_ok t s : sane s -> target_ok t -> (forall e, within t e -> filter_dir e = true) -> free chroot filter_file s [t] ->
  exists s', install_target false chroot filter_dir filter_file t s = Ok s' /\ sane s' /\ forall q, look s' q = expected chroot filter_file s [t] q.
Proof.
  intros W (OR & OK) FD [F1 F2 F3].
  assert (FL : forall p, leads p (chroot ++ dest t) -> is_file s p = false).
  { intros p L. apply F1. unfold needed. cbn. destruct (leadsb_spec p (chroot ++ dest t)); tauto. }
  destruct (steps_ok (more t) (first t) (first t) s W (leads_refl _) OR (fun e A B => FD e (conj A B)) FL) as (s1 & E1 & H1).
  pose proof (sane_grown s s1 _ W FL H1) as W1.
  assert (D1 : look s1 (chroot ++ dest t) = Some Dir).
  { rewrite H1. unfold grown. fold (dest t). specialize (FL _ (leads_refl _)). unfold is_file in FL. destruct (look s (chroot ++ dest t)) as [[|] |]; auto; [discriminate |].
    destruct (leadsb_spec (chroot ++ dest t) (chroot ++ dest t)) as [| N]; auto. destruct N. apply leads_refl. }
  destruct (items_ok t (main t :: extras t) s1 W1 D1 OK) as (s2 & E2 & H2).
  { intros i I FF. assert (IN : In (Path t i, data i) (Writes [t])) by (rewrite writes_one; apply (in_map (fun i => (Path t i, data i))); unfold selected; apply filter_In; auto).
    specialize (F2 _ _ IN). specialize (F3 _ _ IN). unfold is_dir in *. rewrite H1. unfold grown. destruct (look s (Path t i)) as [[|] |]; auto.
    unfold needed in F3. cbn in F3. rewrite orb_false_r in F3. fold (dest t). now rewrite F3. }
  assert (HE : forall q, look s2 q = expected chroot filter_file s [t] q).
  { intro q. rewrite H2, expected_one, writes_one. unfold written, selected. destruct last_write; auto. }
  exists s2. split; [| split; auto].
  - unfold install_target, steps. rewrite E1. cbn [bind]. cbn [each] in E2. exact E2.
  - intros p x n. rewrite !HE, !expected_one. fold (dest t) in H1. rewrite <- !H1. intro X. destruct (last_write (Writes [t]) (p ++ [x])) as [c |] eqn: LW.
    + apply last_write_in in LW. rewrite writes_one in LW. apply in_map_iff in LW as (i & E & _). injection E as E _. unfold item_path in E. rewrite app_assoc in E. apply app_inj_tail in E as (<- & _).
      destruct (last_write (Writes [t]) (chroot ++ dest t)) as [c' |] eqn: LW'; auto. apply last_write_in, F3 in LW'. unfold needed in LW'. cbn in LW'.
      destruct (leadsb_spec (chroot ++ dest t) (chroot ++ dest t)) as [| N]; [discriminate |]. destruct N. apply leads_refl.
    + apply W1 in X. rewrite X. destruct (last_write (Writes [t]) p) as [c' |] eqn: LW'; auto. apply last_write_in in LW'. pose proof (F2 _ _ LW') as A. pose proof (F3 _ _ LW') as B.
      rewrite H1 in X. unfold grown in X. unfold is_dir in A. destruct (look s p) as [[|] |]; try discriminate. unfold needed in B. cbn in B. rewrite orb_false_r in B. rewrite B in X. discriminate.
Qed.

Lemma expected_cons s s1 t ts q : (forall q, look s1 q = expected chroot filter_file s [t] q) -> free chroot filter_file s (t :: ts) ->
  expected chroot filter_file s1 ts q = expected chroot filter_file s (t :: ts) q.
Proof.
  intros H [F1 F2 F3]. unfold expected at 1 2. change (t :: ts) with ([t] ++ ts) at 1. rewrite writes_app, last_write_app. destruct (last_write (Writes ts) q) eqn: LW; auto.
  rewrite H. unfold expected. destruct (last_write (Writes [t]) q); auto. destruct (look s q); auto. unfold needed. cbn [existsb]. rewrite orb_false_r. destruct (leadsb q (chroot ++ dest t)); auto.
Qed.
Lemma free_cons s t ts : free chroot filter_file s (t :: ts) -> free chroot filter_file s [t].
Proof.
  intros [F1 F2 F3]. constructor.
  - intros p N. apply F1. unfold needed in *. cbn in *. rewrite orb_false_r in N. now rewrite N.
  - intros p c I. apply (F2 p c). change (t :: ts) with ([t] ++ ts). rewrite writes_app, in_app_iff. auto.
  - intros p c I. assert (J : In (p, c) (Writes (t :: ts))) by (change (t :: ts) with ([t] ++ ts); rewrite writes_app, in_app_iff; auto). specialize (F3 p c J).
    unfold needed in *. cbn in *. apply orb_false_elim in F3 as (-> & _). auto.
Qed.
Lemma free_next s s1 t ts : (forall q, look s1 q = expected chroot filter_file s [t] q) -> free chroot filter_file s (t :: ts) -> free chroot filter_file s1 ts.
Proof.
  intros H [F1 F2 F3].
  assert (IN : forall p c, In (p, c) (Writes ts) -> In (p, c) (Writes (t :: ts))) by (intros; change (t :: ts) with ([t] ++ ts); rewrite writes_app, in_app_iff; auto).
  assert (IN1 : forall p c, In (p, c) (Writes [t]) -> In (p, c) (Writes (t :: ts))) by (intros; change (t :: ts) with ([t] ++ ts); rewrite writes_app, in_app_iff; auto).
  assert (ND : forall p, needed chroot ts p = true -> needed chroot (t :: ts) p = true) by (intros p N; unfold needed in *; cbn; rewrite N; apply orb_true_r).
  constructor.
  - intros p N. specialize (F1 p (ND p N)). unfold is_file in *. rewrite H. unfold expected. destruct (last_write (Writes [t]) p) eqn: LW.
    + apply last_write_in, IN1, F3 in LW. rewrite (ND p N) in LW. discriminate.
    + destruct (look s p) as [[|] |]; auto. destruct (needed chroot [t] p); auto.
  - intros p c I. specialize (F2 p c (IN _ _ I)). specialize (F3 p c (IN _ _ I)). unfold is_dir in *. rewrite H. unfold expected. destruct (last_write (Writes [t]) p); auto.
    destruct (look s p) as [[|] |]; auto. unfold needed in *. cbn in *. apply orb_false_elim in F3 as (-> & _). auto.
  - intros p c I. specialize (F3 p c (IN _ _ I)). unfold needed in *. cbn in F3. apply orb_false_elim in F3 as (_ & F3). auto.
Qed.

Lemma install_ok ts : forall s, sane s -> Forall target_ok ts -> (forall t e, In t ts -> within t e -> filter_dir e = true) -> free chroot filter_file s ts ->
  exists s', install false chroot filter_dir filter_file ts s = Ok s' /\ sane s' /\ forall q, look s' q = expected chroot filter_file s ts q.
Proof.
  induction ts as [| t ts IH]; intros s W OK FD F; cbn [install each].
  - exists s. split; auto. split; auto. intro q. unfold expected. cbn. destruct (look s q); auto.
  - inversion OK as [| ? ? OT OTS]; subst. destruct (install_target_ok t s W OT) as (s1 & E & W1 & H); [intros; eapply FD; eauto; now left | eapply free_cons; eauto |].
    rewrite E. cbn [bind]. destruct (IH s1 W1 OTS) as (s2 & E2 & W2 & H2); [intros; eapply FD; eauto; now right | eapply free_next; eauto |].
    exists s2. split; [exact E2 |]. split; auto. intro q. rewrite H2. now apply expected_cons.
Qed.
End Install.

(* Removing *)
Section Uninstall.
Context (chroot : path) (filter_dir : path -> bool) (filter_file : path -> comp -> kind -> bool) (locked : path -> bool).
Notation Path := (item_path chroot).

Definition stays (s : fs) (e : path) : Prop := look s (chroot ++ e) = Some Dir -> ~ vacant s (chroot ++ e) \/ locked (chroot ++ e) = true \/ chroot ++ e = [].
Lemma sane_remove s p : sane s -> p <> [] -> vacant s p -> sane (remove s p).
Proof.
  intros W N V a x n. rewrite !look_remove by auto. destruct (path_eqb_spec (a ++ [x]) p); [discriminate |]. intro L. destruct (path_eqb_spec a p) as [-> |]; [| eapply W; eauto]. now rewrite V in L.
Qed.
Lemma not_vacant s p x n : look s (p ++ [x]) = Some n -> ~ vacant s p.
Proof. intros L V. now rewrite V in L. Qed.
Lemma above_stays s e d : sane s -> leads e d -> e <> d -> look s (chroot ++ d) = Some Dir -> stays s e.
Proof.
  intros W ([| x r] & ->) N L _; [now rewrite app_nil_r in N |]. left. assert (X : look s ((chroot ++ e) ++ [x]) <> None).
  - destruct r as [| y r]; [rewrite <- app_assoc; congruence |]. rewrite (sane_leads s _ (chroot ++ e ++ x :: y :: r) Dir W); [discriminate | | auto |].
    + exists (y :: r). now rewrite <- !app_assoc.
    + rewrite <- app_assoc. intro E. apply app_inv_head, app_inv_head in E. discriminate.
  - intro V. now rewrite V in X.
Qed.
Lemma leads_snoc e d x : leads e (d ++ [x]) -> leads e d \/ e = d ++ [x].
Proof.
  intro L. destruct (Nat.le_gt_cases (length e) (length d)) as [LE | LE]; [left; eapply leads_compare; [exact L | apply leads_app | auto] |].
  right. apply leads_antisym; auto. rewrite app_length. cbn. lia.
Qed.
Lemma vacant_dec s p : {vacant s p} + {exists x, look s (p ++ [x]) <> None}.
Proof.
  destruct (empty s p) eqn: E; [left; now apply empty_spec |]. right. unfold empty in E. apply negb_false_iff, existsb_exists in E as ((q, n) & I & X). cbn in X. unfold inside in X.
  destruct (snoc_cases q) as [-> | (q' & x & ->)]; [discriminate |]. destruct (q' ++ [x]) eqn: Y; [now apply snoc_neq_nil in Y |]. rewrite <- Y, removelast_snoc in X. destruct (path_eqb_spec q' p) as [-> |]; [| discriminate].
  exists x. rewrite look_in by apply snoc_neq_nil. rewrite Y. intro H. apply H. apply (in_map fst) in I. auto.
Qed.

Lemma uninstall_d_ok n : forall base d s, sane s -> leads base d -> length d <= n ->
  exists s', uninstall_d false chroot filter_dir locked n base d s = Ok s' /\ sane s' /\
    (forall q, look s' q = look s q \/ look s q = Some Dir /\ look s' q = None /\ exists e, q = chroot ++ e /\ leads base e /\ leads e d) /\
    ((forall e, leads base e -> leads e d -> filter_dir e = true) -> forall e, leads base e -> leads e d -> (e = base -> d = base) -> stays s' e).
Proof.
  induction n as [| n IH]; intros base d s W L N.
  - destruct d; [| cbn in N; lia]. assert (base = []) as -> by (destruct base, L as (r & E); [auto | discriminate]).
    cbn [uninstall_d orb]. destruct (filter_dir []) eqn: FD; cbn [negb].
    2: { exists s. split; auto. split; auto. split; auto. intros FA. rewrite FA in FD by apply leads_refl. discriminate. }
    rewrite path_eqb_refl.
    destruct (is_dir s (chroot ++ [])) eqn: D.
    2: { exists s. split; auto. split; auto. split; auto. intros _ e _ (r & E) _ X. destruct e; [| discriminate]. apply is_dir_spec in X. congruence. }
    destruct (empty s (chroot ++ []) && negb (locked (chroot ++ [])) && negb (path_eqb (chroot ++ []) [])) eqn: C.
    + apply andb_true_iff in C as (C & C3). apply andb_true_iff in C as (C1 & C2). apply empty_spec in C1.
      destruct (path_eqb_spec (chroot ++ []) []) as [| NN]; [discriminate |].
      exists (remove s (chroot ++ [])). split; auto. split; [now apply sane_remove |]. split.
      * intro q. rewrite look_remove by auto. destruct (path_eqb_spec q (chroot ++ [])) as [-> |]; auto. right. apply is_dir_spec in D. split; auto. split; auto. exists []. auto.
      * intros _ e _ (r & E) _ X. destruct e; [| discriminate]. rewrite look_remove, path_eqb_refl in X by auto. discriminate.
    + exists s. split; auto. split; auto. split; auto. intros _ e _ (r & E) _ X. destruct e; [| discriminate].
      destruct (vacant_dec s (chroot ++ [])) as [V | (x & V)]; [| left; intro V'; now apply V in V'].
      apply empty_spec in V. rewrite V in C. right. cbn in C. destruct (locked (chroot ++ [])); auto. right. destruct (path_eqb_spec (chroot ++ []) []); [auto | discriminate].
  - cbn [uninstall_d orb]. destruct (filter_dir d) eqn: FD; cbn [negb].
    2: { exists s. split; auto. split; auto. split; auto. intros FA. rewrite FA in FD by (auto; apply leads_refl). discriminate. }
    set (go := fun s0 => if path_eqb d base then Ok s0 else match d with [] => Assert | _ :: _ => let pd := removelast d in if path_eqb pd base then Ok s0 else uninstall_d false chroot filter_dir locked n base pd s0 end).
    change (exists s', (if is_dir s (chroot ++ d) then if empty s (chroot ++ d) && negb (locked (chroot ++ d)) && negb (path_eqb (chroot ++ d) []) then go (remove s (chroot ++ d)) else Ok s else go s) = Ok s' /\ sane s' /\
      (forall q, look s' q = look s q \/ look s q = Some Dir /\ look s' q = None /\ exists e, q = chroot ++ e /\ leads base e /\ leads e d) /\
      ((forall e, leads base e -> leads e d -> filter_dir e = true) -> forall e, leads base e -> leads e d -> (e = base -> d = base) -> stays s' e)).
    assert (GO : forall s1, sane s1 -> (forall q, look s1 q = look s q \/ look s q = Some Dir /\ look s1 q = None /\ q = chroot ++ d) -> look s1 (chroot ++ d) <> Some Dir ->
      exists s', go s1 = Ok s' /\ sane s' /\
      (forall q, look s' q = look s q \/ look s q = Some Dir /\ look s' q = None /\ exists e, q = chroot ++ e /\ leads base e /\ leads e d) /\
      ((forall e, leads base e -> leads e d -> filter_dir e = true) -> forall e, leads base e -> leads e d -> (e = base -> d = base) -> stays s' e)).
    { intros s1 W1 H1 ND. unfold go.
      assert (H1' : forall q, look s1 q = look s q \/ look s q = Some Dir /\ look s1 q = None /\ exists e, q = chroot ++ e /\ leads base e /\ leads e d).
      { intro q. destruct (H1 q) as [E | (A & B & ->)]; auto. right. split; auto. split; auto. exists d. split; auto. split; auto. apply leads_refl. }
      destruct (path_eqb_spec d base) as [E | NE].
      { exists s1. split; auto. split; auto. split; auto. intros _ e LB LE _. subst d. assert (e = base) as -> by (apply leads_antisym; auto; apply leads_length; auto). intro X. congruence. }
      destruct (snoc_cases d) as [-> | (pd & x & ->)]; [destruct base, L as (r & X); [congruence | discriminate] |].
      destruct (pd ++ [x]) eqn: Y; [now apply snoc_neq_nil in Y |]. rewrite <- Y in *. rewrite removelast_snoc. cbn zeta.
      destruct (leads_snoc _ _ _ L) as [LP | ->]; [| congruence].
      destruct (path_eqb_spec pd base) as [E | NE'].
      { subst pd. exists s1. split; auto. split; auto. split; auto. intros _ e LB LE X. destruct (leads_snoc _ _ _ LE) as [LE' | ->]; [| intro; congruence].
        assert (e = base) as -> by (apply leads_antisym; auto; apply leads_length; auto). destruct (NE (X eq_refl)). }
      destruct (IH base pd s1 W1 LP) as (s2 & E2 & W2 & H2 & Q2); [rewrite app_length in N; cbn in N; lia |].
      exists s2. split; auto. split; auto. split.
      - intro q. destruct (H2 q) as [E | (A & B & e & -> & E1 & E3)]; [rewrite E; auto |]. destruct (H1 (chroot ++ e)) as [F | (F & G & _)]; [| congruence]. rewrite F in A. right. split; auto. split; auto. exists e. split; auto. split; auto. eapply leads_trans; [exact E3 | apply leads_app].
      - intros FA e LB LE X. destruct (leads_snoc _ _ _ LE) as [LE' | ->].
        + apply Q2; auto; [intros e' A B; apply FA; auto; eapply leads_trans; [exact B | apply leads_app] |]. intro Z. destruct (NE (X Z)).
        + intro Z. destruct (H2 (chroot ++ pd ++ [x])) as [G | (_ & G & _)]; congruence. }
    destruct (is_dir s (chroot ++ d)) eqn: D.
    + destruct (empty s (chroot ++ d) && negb (locked (chroot ++ d)) && negb (path_eqb (chroot ++ d) [])) eqn: C.
      * apply andb_true_iff in C as (C & C3). apply andb_true_iff in C as (C1 & C2). apply empty_spec in C1. destruct (path_eqb_spec (chroot ++ d) []) as [| NN]; [discriminate |].
        apply GO; [now apply sane_remove | | rewrite look_remove, path_eqb_refl by auto; discriminate].
        intro q. rewrite look_remove by auto. destruct (path_eqb_spec q (chroot ++ d)) as [-> |]; auto. right. apply is_dir_spec in D. auto.
      * exists s. split; auto. split; auto. split; auto. intros _ e LB LE X. apply is_dir_spec in D. destruct (path_eqb_spec e d) as [-> | NE]; [| eapply above_stays; eauto].
        intros _. destruct (vacant_dec s (chroot ++ d)) as [V | (x & V)]; [| left; intro V'; now apply V in V'].
        apply empty_spec in V. rewrite V in C. right. cbn in C. destruct (locked (chroot ++ d)); auto. right. destruct (path_eqb_spec (chroot ++ d) []); [auto | discriminate].
    + apply GO; auto. intro X. apply is_dir_spec in X. congruence.
Qed.

(* What stays continues to. *)
Lemma stays_next s s' e : stays s e -> (forall q, look s' q = look s q \/ look s' q = None) -> (forall x, look s' (chroot ++ e ++ [x]) = look s (chroot ++ e ++ [x])) -> stays s' e.
Proof.
  intros Q H K D. destruct (H (chroot ++ e)) as [E | E]; [| congruence]. rewrite E in D. destruct (Q D) as [V | V]; auto. left. intro V'. apply V. intro x. specialize (V' x). rewrite <- app_assoc, K in V'. now rewrite <- app_assoc.
Qed.

Lemma dirs_ok ds : forall d s, sane s -> chain d ds ->
  exists s', each (fun x => uninstall_d false chroot filter_dir locked (length (snd x)) (fst x) (snd x)) (rev (combine (d :: ds) ds)) s = Ok s' /\ sane s' /\
    (forall q, look s' q = look s q \/ look s q = Some Dir /\ look s' q = None /\ exists e, q = chroot ++ e /\ leads d e /\ leads e (List.last ds d)) /\
    ((forall e, leads d e -> leads e (List.last ds d) -> filter_dir e = true) -> forall e, leads d e -> leads e (List.last ds d) -> e <> d -> stays s' e).
Proof.
  induction ds as [| y ds IH]; intros d s W C.
  - cbn [combine rev each]. exists s. split; auto. split; auto. split; auto. intros _ e LD LE NE. destruct NE. cbn in LE. symmetry. apply leads_antisym; auto. now apply leads_length.
  - rewrite last_cons. destruct C as (LY & C). pose proof (chain_last ds y C) as (LL & _).
    destruct (IH y s W C) as (s1 & E1 & W1 & H1 & Q1). destruct (uninstall_d_ok (length y) d y s1 W1 LY (le_n _)) as (s2 & E2 & W2 & H2 & Q2).
    exists s2. split; [| split; [auto | split]].
    + change (combine (d :: y :: ds) (y :: ds)) with ((d, y) :: combine (y :: ds) ds). cbn [rev]. rewrite each_app, E1. cbn [bind each fst snd]. rewrite E2. reflexivity.
    + intro q. destruct (H2 q) as [E | (A & B & e & -> & L1 & L2)].
      * rewrite E. destruct (H1 q) as [E' | (A & B & e & -> & L1 & L2)]; auto. right. split; auto. split; auto. exists e. split; auto. split; auto. eapply leads_trans; eauto.
      * destruct (H1 (chroot ++ e)) as [E' | (A' & B' & _)]; [| congruence]. right. split; [congruence |]. split; auto. exists e. split; auto. split; auto. eapply leads_trans; eauto.
    + intros FA e LD LE NE. destruct (Nat.le_gt_cases (length e) (length y)) as [G | G].
      * apply Q2; auto; [intros e' A B; apply FA; auto; eapply leads_trans; eauto | eapply leads_compare; eauto | congruence].
      * assert (LYE : leads y e) by (eapply leads_compare; eauto; lia). apply (stays_next s1).
        -- apply Q1; auto; [intros e' A B; apply FA; [exact (leads_trans _ _ _ LY A) | auto] | intros ->; lia].
        -- intro q. destruct (H2 q) as [E | (_ & B & _)]; auto.
        -- intro x. destruct (H2 (chroot ++ e ++ [x])) as [E | (_ & _ & e' & E & _ & L2)]; auto. apply app_inv_head in E. subst e'. apply leads_length in L2. rewrite app_length in L2. lia.
Qed.

Lemma uitems_ok t is : forall s, sane s ->
  exists s', each (uninstall_item false chroot filter_file (dest t)) is s = Ok s' /\ sane s' /\
    (forall q, look s' q = look s q \/ (exists c, look s q = Some (File c)) /\ look s' q = None /\ exists i, In i is /\ filter_file (dest t) (leaf i) (type i) = true /\ q = Path t i) /\
    (forall i, In i is -> filter_file (dest t) (leaf i) (type i) = true -> is_file s' (Path t i) = false).
Proof.
  induction is as [| i is IH]; intros s W; cbn [each].
  - exists s. split; auto. split; auto. split; auto. intros i [].
  - assert (X : exists s1, uninstall_item false chroot filter_file (dest t) i s = Ok s1 /\ sane s1 /\
      (forall q, look s1 q = look s q \/ (exists c, look s q = Some (File c)) /\ look s1 q = None /\ filter_file (dest t) (leaf i) (type i) = true /\ q = Path t i) /\
      (filter_file (dest t) (leaf i) (type i) = true -> is_file s1 (Path t i) = false)).
    { unfold uninstall_item. destruct (filter_file (dest t) (leaf i) (type i)) eqn: FF; [| exists s; split; auto; split; auto; split; auto; discriminate].
      cbn [negb]. rewrite andb_true_r. fold (Path t i). destruct (is_file s (Path t i)) eqn: F; [| exists s; split; auto].
      assert (NN : Path t i <> []) by (unfold item_path; rewrite app_assoc; apply snoc_neq_nil).
      apply is_file_spec in F as (c & F). exists (remove s (Path t i)). split; auto. split; [| split].
      - apply sane_remove; auto. intro x. destruct (look s (Path t i ++ [x])) eqn: E; auto. apply W in E. congruence.
      - intro q. rewrite look_remove by auto. destruct (path_eqb_spec q (Path t i)) as [-> |]; eauto 8.
      - intros _. unfold is_file. rewrite look_remove, path_eqb_refl by auto. auto. }
    destruct X as (s1 & E1 & W1 & H1 & F1). rewrite E1. cbn [bind]. destruct (IH s1 W1) as (s2 & E2 & W2 & H2 & F2). exists s2. split; auto. split; auto. split.
    + intro q. destruct (H2 q) as [E | (A & B & j & I & FJ & ->)].
      * rewrite E. destruct (H1 q) as [E' | (A & B & FJ & ->)]; auto. right. split; auto. split; auto. exists i. cbn. auto.
      * destruct (H1 (Path t j)) as [E' | (A' & B' & _)]; [| destruct A; congruence]. rewrite E' in A. right. split; auto. split; auto. exists j. cbn. auto.
    + intros j [-> | I] FJ; auto. specialize (F1 FJ). unfold is_file in *. destruct (H2 (Path t j)) as [-> | (_ & -> & _)]; auto.
Qed.

Definition ours (t : target) (p : path) : Prop := exists i, In i (selected filter_file t) /\ p = Path t i.
Lemma uninstall_target_ok t s : sane s -> ordered t ->
  exists s', uninstall_target false chroot filter_dir filter_file locked t s = Ok s' /\ sane s' /\
    (forall q, look s' q = look s q \/ look s' q = None /\ ((exists c, look s q = Some (File c)) /\ ours t q \/ look s q = Some Dir /\ exists e, q = chroot ++ e /\ within t e)) /\
    (forall q, ours t q -> is_file s' q = false) /\
    ((forall e, within t e -> filter_dir e = true) -> forall e, within t e -> stays s' e).
Proof.
  intros W OR.
  destruct (uitems_ok t (extras t) s W) as (s1 & E1 & W1 & H1 & F1). destruct (uitems_ok t [main t] s1 W1) as (s2 & E2 & W2 & H2 & F2).
  destruct (dirs_ok (more t) (first t) s2 W2 OR) as (s3 & E3 & W3 & H3 & Q3). destruct (uninstall_d_ok (length (first t)) (first t) (first t) s3 W3 (leads_refl _) (le_n _)) as (s4 & E4 & W4 & H4 & Q4).
  assert (DL : leads (first t) (dest t)) by exact (proj1 (chain_last _ _ OR)).
  exists s4. split; [| split; [auto | split; [| split]]].
  - unfold uninstall_target. change (last_dir t) with (dest t). rewrite E1. cbn [bind]. cbn [each] in E2. destruct (uninstall_item false chroot filter_file (dest t) (main t) s1); try discriminate. cbn [bind] in *. injection E2 as ->.
    unfold steps. change (combine (first t :: first t :: more t) (first t :: more t)) with ((first t, first t) :: combine (first t :: more t) (more t)). cbn [rev]. rewrite each_app, E3. cbn [bind each fst snd]. now rewrite E4.
  - intro q.
    assert (O : forall i, In i (main t :: extras t) -> filter_file (dest t) (leaf i) (type i) = true -> ours t (Path t i)) by (intros i I FF; exists i; split; auto; apply filter_In; auto).
    destruct (H4 q) as [E | (A & B & e & -> & L1 & L2)].
    + rewrite E. destruct (H3 q) as [E' | (A & B & e & -> & L1 & L2)].
      * rewrite E'. destruct (H2 q) as [E'' | (A & B & i & [<- | []] & FF & ->)].
        -- rewrite E''. destruct (H1 q) as [E3' | (A & B & i & I & FF & ->)]; auto. right. split; auto. left. split; auto. apply O; cbn; auto.
        -- destruct (H1 (Path t (main t))) as [X | (X & Y & _)]; [| destruct A; congruence]. rewrite X in A. right. split; auto. left. split; auto. apply O; cbn; auto.
      * right. split; auto. right. split; [| exists e; split; auto; split; auto].
        destruct (H2 (chroot ++ e)) as [X | (X & Y & _)]; [| congruence]. rewrite X in A. destruct (H1 (chroot ++ e)) as [X' | (X' & Y & _)]; [| congruence]. congruence.
    + right. split; auto. right. split; [| exists e; split; auto; split; auto; eapply leads_trans; eauto].
      destruct (H3 (chroot ++ e)) as [X | (X & Y & _)]; [| congruence]. rewrite X in A.
      destruct (H2 (chroot ++ e)) as [X' | (X' & Y & _)]; [| congruence]. rewrite X' in A. destruct (H1 (chroot ++ e)) as [X'' | (X'' & Y & _)]; [| congruence]. congruence.
  - intros q (i & I & ->). apply filter_In in I as (I & FF).
    assert (X : is_file s2 (Path t i) = false).
    { destruct I as [<- | I]; [apply F2; cbn; auto |]. specialize (F1 i I FF). unfold is_file in *. destruct (H2 (Path t i)) as [-> | (_ & -> & _)]; auto. }
    unfold is_file in *. destruct (H4 (Path t i)) as [-> | (_ & -> & _)]; auto. destruct (H3 (Path t i)) as [-> | (_ & -> & _)]; auto.
  - intros FA e (L1 & L2). destruct (path_eqb_spec e (first t)) as [-> | NE].
    + apply Q4; auto; try apply leads_refl. intros e' A B. apply FA. split; auto. eapply leads_trans; eauto.
    + apply (stays_next s3).
      * apply Q3; auto. intros e' A B. apply FA. split; auto.
      * intro q. destruct (H4 q) as [E | (_ & B & _)]; auto.
      * intro x. destruct (H4 (chroot ++ e ++ [x])) as [E | (_ & _ & e' & E & _ & L3)]; auto. apply app_inv_head in E. subst e'. apply leads_length in L1, L3. rewrite app_length in L3. cbn in L3. lia.
Qed.

Lemma within_dec t e : {within t e} + {~ within t e}.
Proof.
  unfold within. destruct (leadsb_spec (first t) e) as [A | A]; [destruct (leadsb_spec e (dest t)) as [B | B] |]; [left | right | right]; tauto.
Qed.
Lemma uninstall_ok ts : forall s, sane s -> (forall t, In t ts -> ordered t) ->
  exists s', uninstall false chroot filter_dir filter_file locked ts s = Ok s' /\ sane s' /\
    (forall q, look s' q = look s q \/ look s' q = None /\ ((exists c, look s q = Some (File c)) /\ (exists t, In t ts /\ ours t q) \/ look s q = Some Dir /\ exists t e, In t ts /\ q = chroot ++ e /\ within t e)) /\
    (forall t q, In t ts -> ours t q -> is_file s' q = false) /\
    (rooted ts -> (forall t e, In t ts -> within t e -> filter_dir e = true) -> (forall t e, In t ts -> within t e -> stays s' e)).
Proof.
  induction ts as [| t ts IH] using rev_ind; intros s W OR.
  - exists s. split; auto. split; auto. split; auto. split; [intros t q [] | intros _ _ t e []].
  - destruct (IH s W) as (s1 & E1 & W1 & H1 & F1 & Q1); [intros; apply OR; rewrite in_app_iff; auto |].
    destruct (uninstall_target_ok t s1 W1) as (s2 & E2 & W2 & H2 & F2 & Q2); [apply OR; rewrite in_app_iff; cbn; auto |].
    exists s2. split; [| split; [auto | split; [| split]]].
    + unfold uninstall in *. rewrite each_app, E1. cbn [bind each]. rewrite E2. reflexivity.
    + intro q. destruct (H2 q) as [E | (A & B)].
      * rewrite E. destruct (H1 q) as [E' | (A & B)]; auto. right. split; auto. destruct B as [(B & t' & I & C) | (B & t' & e & I & C & D)]; [left; split; auto; exists t'; rewrite in_app_iff; auto | right; split; auto; exists t', e; rewrite in_app_iff; auto].
      * destruct (H1 q) as [E' | (A' & _)].
        -- rewrite E' in B. right. split; auto. destruct B as [(B & C) | (B & e & C & D)]; [left; split; auto; exists t; rewrite in_app_iff; cbn; auto | right; split; auto; exists t, e; rewrite in_app_iff; cbn; auto].
        -- exfalso. destruct B as [((c & B) & _) | (B & _)]; congruence.
    + intros t' q I O. apply in_app_iff in I as [I | [<- | []]]; auto. specialize (F1 t' q I O). unfold is_file in *. destruct (H2 q) as [-> | (-> & _)]; auto.
    + intros RT FA t' e I WI. destruct (within_dec t e) as [Y | NW]; [apply Q2; auto; intros e' A; apply (FA t); auto; rewrite in_app_iff; cbn; auto |].
      apply in_app_iff in I as [I | [<- | []]]; [| tauto]. apply (stays_next s1).
      * eapply Q1; eauto; [intros a c d x A B; apply RT; rewrite in_app_iff; auto | intros a e' A; apply (FA a); rewrite in_app_iff; auto].
      * intro q. destruct (H2 q) as [E | (A & _)]; auto.
      * intro x. destruct (H2 (chroot ++ e ++ [x])) as [E | (A & [(B & i & C & D) | (B & e' & C & L1 & L2)])]; auto; exfalso.
        -- unfold item_path in D. apply app_inv_head, app_inj_tail in D as (-> & _). apply NW. split; [| apply leads_refl]. refine (proj1 (chain_last (more t) (first t) _)). apply OR. rewrite in_app_iff. cbn. auto.
        -- apply app_inv_head in C. subst e'. destruct (leads_snoc _ _ _ L1) as [L | L].
           ++ apply NW. split; auto. eapply leads_trans; [apply leads_app | exact L2].
           ++ apply (RT t' t e x); auto; try (rewrite in_app_iff; cbn; auto). rewrite L. apply leads_refl.
Qed.
End Uninstall.

(* Both *)
Definition depth (s : fs) : nat := fold_right (fun e m => Nat.max (length (fst e)) m) 0 s.
Lemma depth_ok s p : look s p <> None -> length p <= depth s.
Proof.
  destruct p as [| x p]; [cbn; lia |]. rewrite look_in by discriminate. intro H. assert (I : In (x :: p) (map fst s)) by (destruct (in_dec path_dec (x :: p) (map fst s)); tauto).
  clear H. induction s as [| (q, n) s IH]; [easy |]. cbn [depth fold_right fst]. fold (depth s). destruct I as [E | I]; [cbn in E; subst q; lia | specialize (IH I); lia].
Qed.
Lemma round_trip chroot filter_dir filter_file locked ts ts' s s1 s2 :
  sane s -> (forall t, In t ts -> ordered t) -> same_targets ts ts' -> rooted ts -> (forall t e, In t ts -> within t e -> filter_dir e = true) -> (forall p, locked p = false) ->
  (forall q, look s1 q = expected chroot filter_file s ts q) -> sane s1 ->
  uninstall false chroot filter_dir filter_file locked ts' s1 = Ok s2 ->
  forall p n, look s2 p = Some n -> look s p = None -> n = Dir /\ exists t x, In t ts /\ leads (p ++ [x]) (chroot ++ first t).
Proof.
  intros W OR SM RT FD LK H1 W1 U.
  destruct (uninstall_ok chroot filter_dir filter_file locked ts' s1 W1) as (s2' & U' & W2 & H2 & F2 & Q2); [intros t I; apply OR, SM; auto |].
  rewrite U in U'. injection U' as <-.
  assert (Q : forall t e, In t ts -> within t e -> stays chroot locked s2 e).
  { intros t e I. apply Q2; [| | now apply SM]; [intros a c d x A B; apply RT; now apply SM | intros a e' A; apply (FD a); now apply SM]. }
  intros p. remember (depth s2 - length p) as k eqn: K. revert p K. induction k as [k IH] using lt_wf_ind. intros p K n L N.
  assert (L1 : look s1 p = Some n) by (destruct (H2 p) as [E | (E & _)]; congruence).
  pose proof L1 as L1'. rewrite H1 in L1'. unfold expected in L1'. destruct (last_write (writes chroot filter_file ts) p) as [c |] eqn: LW.
  - exfalso. apply last_write_in in LW. apply in_flat_map in LW as (t & I & LW). apply in_map_iff in LW as (i & E & IS). injection E as E _.
    assert (X : is_file s2 p = false) by (apply (F2 t); [now apply SM | exists i; auto]). unfold is_file in X. rewrite L in X. injection L1' as <-. discriminate.
  - rewrite N in L1'. destruct (needed chroot ts p) eqn: ND; [| discriminate]. injection L1' as <-. split; auto.
    unfold needed in ND. apply existsb_exists in ND as (t & I & LD). destruct (leadsb_spec p (chroot ++ dest t)) as [LD' |]; [clear LD | discriminate].
    destruct (leadsb_spec (chroot ++ first t) p) as [(e & LF) | LF].
    + rewrite <- app_assoc in LF. assert (WI : within t (first t ++ e)) by (split; [apply leads_app | apply (leads_prepend chroot); now rewrite <- LF]).
      pose proof (Q t _ I WI) as S1. unfold stays in S1. rewrite <- LF in S1. destruct (S1 L) as [V | [V | V]]; [| rewrite LK in V; discriminate | subst p; now rewrite V in N].
      destruct (vacant_dec s2 p) as [V' | (x & V')]; [tauto |]. destruct (look s2 (p ++ [x])) as [m |] eqn: LX; [| congruence].
      assert (NX : look s (p ++ [x]) = None) by (destruct (look s (p ++ [x])) eqn: Z; auto; apply W in Z; congruence).
      assert (DP : length (p ++ [x]) <= depth s2) by (apply depth_ok; congruence). rewrite app_length in DP. cbn in DP.
      destruct (IH (depth s2 - length (p ++ [x])) ltac:(rewrite app_length; cbn; lia) (p ++ [x]) eq_refl m LX NX) as (_ & t' & y & I' & G). exists t', x. split; auto. eapply leads_trans; [apply leads_app | exact G].
    + assert (LT : leads (first t) (dest t)) by exact (proj1 (chain_last _ _ (OR t I))). apply (leads_prepend chroot) in LT.
      assert (LPF : leads p (chroot ++ first t)).
      { destruct (Nat.le_gt_cases (length p) (length (chroot ++ first t))); [eapply leads_compare; eauto |]. destruct LF. eapply leads_compare; eauto. lia. }
      destruct LPF as ([| x r] & E); [destruct LF; rewrite app_nil_r in E; rewrite E; apply leads_refl |]. exists t, x. split; auto. rewrite E. exists r. now rewrite <- app_assoc.
Qed.

(* install.* variables *)
Lemma normalize_goes p : forall d q, normalize d p = Some q <-> goes d p q.
Proof.
  induction p as [| [x |] p IH]; intros d q; cbn [normalize].
  - split; [intro E; injection E as ->; constructor | intro G; inversion G; auto].
  - rewrite IH. split; [intro G; now constructor | intro G; now inversion G].
  - destruct (snoc_cases d) as [-> | (d' & x & ->)]; [split; [discriminate | intro G; inversion G as [| | d x ? ? ? E]; now apply snoc_neq_nil in E] |].
    destruct (d' ++ [x]) eqn: Y; [now apply snoc_neq_nil in Y |]. rewrite <- Y, removelast_snoc, IH. split; [intro G; now constructor |].
    intro G. inversion G as [| | d y ? ? ? E]; subst. apply app_inj_tail in E as (-> & _). auto.
Qed.
Lemma goes_leads d p q : goes d p q -> ~ In None p -> leads d q.
Proof.
  induction 1 as [d | d x p q G IH | d x p q G IH]; intro N; [apply leads_refl | | destruct N; now left].
  eapply leads_trans; [apply leads_app | apply IH]. intro I. apply N. now right.
Qed.
Lemma last_snoc {A} (l : list A) x d : List.last (l ++ [x]) d = x.
Proof. induction l as [| y l IH]; auto. cbn. destruct (l ++ [x]) eqn: E; auto. now destruct l. Qed.
Lemma chain_snoc ds : forall d x, chain d ds -> leads (List.last ds d) x -> chain d (ds ++ [x]).
Proof. induction ds as [| y ds IH]; intros d x C L; [cbn; auto |]. rewrite last_cons in L. destruct C. cbn. split; auto. Qed.
Section Resolve.
Context (value : comp -> option dir_path) (subdir : comp -> path).
Lemma add_subdir_last rs d : let rs' := add_subdir rs d in fst rs' = fst rs /\ List.last (snd rs') (fst rs') = List.last (snd rs) (fst rs) ++ d /\ (chain (fst rs) (snd rs) -> chain (fst rs') (snd rs')).
Proof.
  destruct d as [| x d]; cbn; [rewrite app_nil_r; auto |]. rewrite last_snoc. split; auto. split; auto. intro C. apply chain_snoc; auto. apply leads_app.
Qed.
Lemma resolve_sound n : forall d f m, resolve value subdir n d = Ok (f, m) -> means value subdir d f (List.last m f) /\ (plain d -> (forall x d', value x = Some d' -> plain d') -> chain f m).
Proof.
  assert (A : forall p f m, match normalize [] p with Some p => Ok (p, []) | None => Fail end = Ok (f, m) -> means value subdir (Absolute p) f (List.last m f) /\ chain f m).
  { intros p f m. destruct (normalize [] p) as [q |] eqn: N; [| discriminate]. intro E. injection E as -> <-. apply normalize_goes in N. split; [now constructor | exact I]. }
  induction n as [| n IH]; intros [p | x p] f m; cbn [resolve].
  - intro E. destruct (A _ _ _ E). auto.
  - destruct (value x); discriminate.
  - intro E. destruct (A _ _ _ E). auto.
  - destruct (value x) as [d |] eqn: V; [| discriminate]. destruct (resolve value subdir n d) as [(f', m') | | |] eqn: R; try discriminate. cbn [bind]. apply IH in R as (M & C).
    destruct (add_subdir_last (f', m') (subdir x)) as (F & L & CC). cbn [fst snd] in *. rewrite L.
    destruct (normalize (List.last m' f' ++ subdir x) p) as [q |] eqn: N; [| discriminate]. apply normalize_goes in N. intro E. injection E as <- <-. rewrite F in *. rewrite last_snoc. split; [econstructor; eauto |].
    intros PL PA. apply chain_snoc; [apply CC, C; eauto |]. rewrite L. eapply goes_leads; eauto.
Qed.
Lemma resolve_complete d f q : means value subdir d f q -> exists n, forall k, n <= k -> exists m, resolve value subdir k d = Ok (f, m) /\ List.last m f = q.
Proof.
  induction 1 as [p q G | x p d f q r V M (n & IH) G].
  - exists 0. intros k _. apply normalize_goes in G. exists []. destruct k; cbn; rewrite G; auto.
  - exists (Datatypes.S n). intros [| k] K; [lia |]. destruct (IH k ltac:(lia)) as (m & R & L). cbn. rewrite V, R. cbn [bind].
    destruct (add_subdir_last (f, m) (subdir x)) as (F & L' & _). cbn [fst snd] in *. rewrite L', L. apply normalize_goes in G. rewrite G, F. eexists. split; [reflexivity |]. apply last_snoc.
Qed.
Lemma resolve_ends (rank : comp -> nat) : (forall x y p, value x = Some (Relative y p) -> rank y < rank x) -> forall n d, match d with Absolute _ => True | Relative x _ => rank x < n end -> resolve value subdir n d <> Endless /\ resolve value subdir n d <> Assert.
Proof.
  intros R n. induction n as [| n IH]; intros [p | x p] L; cbn [resolve]; try lia; try (destruct (normalize [] p); split; discriminate).
  destruct (value x) as [d |] eqn: V; [| split; discriminate]. assert (LD : match d with Absolute _ => True | Relative y _ => rank y < n end) by (destruct d as [| y]; auto; apply R in V; lia).
  destruct (IH d LD) as (A & B). destruct (resolve value subdir n d) as [(f, m) | | |]; try tauto; cbn [bind]. destruct normalize; split; discriminate.
Qed.
End Resolve.

(* config.install.filter *)
Section Filter.
Context (negate : bool) (base : path) (l : option (comp * kind)).
Lemma sub_spec d : forall base, sub base d = true <-> beneath base d.
Proof.
  induction d as [| p d IH]; intros bs; cbn [sub].
  - split; [intros _; exists [], bs; split; auto | destruct bs; auto].
  - destruct bs as [| x bs]; [split; [discriminate | intros (q & r & E & F); inversion F; subst; discriminate] |]. cbn [sub]. rewrite andb_true_iff, IH. split.
    + intros (P & q & r & -> & F). exists (x :: q), r. split; auto.
    + intros (q & r & E & F). inversion F as [| ? y ? q' PX FX]; subst. injection E as -> ->. split; auto. exists q', r. auto.
Qed.
Definition matchb (r : rule) : bool :=
  negb (only_symlinks r && negb (match l with Some (_, Symlink) => true | _ => false end)) &&
  match what r with
  | Simple pat => match l with Some (x, _) => pat x | None => false end
  | Directory d => sub base d
  | Entry d pat => sub base d && match l with Some (x, _) => pat x | None => false end
  end.
Lemma matchb_spec r : matchb r = true <-> matches base l r.
Proof.
  unfold matchb, matches. rewrite andb_true_iff, negb_true_iff.
  assert (A : only_symlinks r && negb match l with Some (_, Symlink) => true | _ => false end = false <-> (only_symlinks r = true -> exists x, l = Some (x, Symlink))).
  { destruct (only_symlinks r); cbn; [| split; auto; discriminate]. destruct l as [(x, [|]) |]; cbn; split; auto; try discriminate; try (intro H; destruct (H eq_refl); discriminate). intros _ _. eauto. }
  assert (B : forall pat, match l with Some (x, _) => pat x | None => false end = true <-> exists x k, l = Some (x, k) /\ pat x = true).
  { intro pat. destruct l as [(x, k) |]; split; eauto; try discriminate; intros (y & k' & E & P); [injection E as -> ->; auto | discriminate]. }
  rewrite A. destruct (what r); [rewrite B | rewrite sub_spec | rewrite andb_true_iff, sub_spec, B]; tauto.
Qed.
Definition limits (limit : nat) (pre : list rule) : Prop := forall n, limit <= n <-> forall j r m, nth_error pre j = Some r -> passes base l r m -> m < n.
Lemma filter_step r rs limit : filter_rules negate base l limit (r :: rs) =
  if matchb r then
    match what r with
    | Directory d => if Datatypes.S (length d) <=? limit then filter_rules negate base l limit rs else if value r then filter_rules negate base l (Datatypes.S (length d)) rs else xorb negate (value r)
    | _ => xorb negate (value r)
    end
  else filter_rules negate base l limit rs.
Proof.
  cbn [filter_rules]. unfold matchb. destruct (only_symlinks r && _); cbn [negb andb]; auto.
  assert (X : (if negate then negb (value r) else value r) = xorb negate (value r)) by (destruct negate, (value r); auto). rewrite X.
  destruct (what r) as [pat | d | d pat]; auto. destruct (sub base d); cbn [negb]; [| destruct (_ <=? _); auto]. destruct (_ <=? _); auto.
Qed.
Lemma filter_ok rs : forall pre limit, limits limit pre -> (forall i r, i < length pre -> ~ decides base l (pre ++ rs) i r) -> outcome_is base l negate (pre ++ rs) (filter_rules negate base l limit rs).
Proof.
  induction rs as [| r rs IH]; intros pre limit LM ND.
  - right. split; auto. intros i r D. apply (ND i r); auto. destruct D as (N & _). rewrite app_nil_r in N. apply nth_error_Some. congruence.
  - rewrite filter_step.
    assert (AT : nth_error (pre ++ r :: rs) (length pre) = Some r) by (rewrite nth_error_app2, Nat.sub_diag by lia; reflexivity).
    assert (BE : forall j r', j < length pre -> nth_error (pre ++ r :: rs) j = Some r' <-> nth_error pre j = Some r') by (intros; now rewrite nth_error_app1).
    assert (HERE : matches base l r -> (forall n, components r = Some n -> value r = false /\ limit <= n) -> outcome_is base l negate (pre ++ r :: rs) (xorb negate (value r))).
    { intros M C. left. exists (length pre), r. split; [split; [exact AT | split; auto] | split; auto]. intros n E. destruct (C n E) as (V & L). split; auto. intros j r' m J N P. apply BE in N; auto. exact (proj1 (LM n) L j r' m N P). }
    assert (NEXT : forall limit', limits limit' (pre ++ [r]) -> ~ decides base l (pre ++ r :: rs) (length pre) r -> outcome_is base l negate (pre ++ r :: rs) (filter_rules negate base l limit' rs)).
    { intros limit' LM' N. replace (pre ++ r :: rs) with ((pre ++ [r]) ++ rs) in * by now rewrite <- app_assoc. apply IH; auto. intros i r' L D. rewrite app_length in L. cbn in L.
      destruct (Nat.eq_dec i (length pre)) as [-> | NE]; [| eapply ND; [| exact D]; lia]. apply N. destruct D as (E & D). rewrite AT in E. injection E as <-. split; auto. }
    assert (SAME : (forall m, passes base l r m -> Datatypes.S m <= limit) -> limits limit (pre ++ [r])).
    { intros P n. rewrite (LM n). split; intros H j r' m N Q.
      - destruct (Nat.lt_ge_cases j (length pre)) as [J | J]; [rewrite nth_error_app1 in N by auto; eauto |]. rewrite nth_error_app2 in N by auto. destruct (j - length pre) as [| [|]]; try discriminate. injection N as <-. apply P in Q. apply LM in H. lia.
      - apply (H j r'); auto. rewrite nth_error_app1; auto. apply nth_error_Some. congruence. }
    destruct (matchb r) eqn: MB.
    2: { assert (NM : ~ matches base l r) by (rewrite <- matchb_spec; congruence). apply NEXT; [apply SAME; intros m (M & _); tauto | intros (_ & M & _); tauto]. }
    apply matchb_spec in MB. destruct (what r) as [pat | d | d pat] eqn: WH; try (apply HERE; auto; unfold components; rewrite WH; discriminate).
    assert (CR : components r = Some (length d)) by (unfold components; now rewrite WH).
    destruct (Nat.leb_spec (Datatypes.S (length d)) limit) as [LE | LE].
    + apply NEXT; [apply SAME; intros m (_ & _ & C); rewrite CR in C; injection C as <-; auto |]. intros (_ & _ & D). destruct (D _ CR) as (_ & D').
      assert (X : limit <= length d); [| lia]. apply LM. intros j r' m N Q. assert (J : j < length pre) by (apply nth_error_Some; congruence). eapply D'; eauto. now apply BE.
    + destruct (value r) eqn: V.
      * apply NEXT; [| intros (_ & _ & D); destruct (D _ CR); congruence]. intro n. split.
        -- intros H j r' m N Q. destruct (Nat.lt_ge_cases j (length pre)) as [J | J].
           ++ rewrite nth_error_app1 in N by auto. assert (X : limit <= n) by lia. eapply LM; eauto.
           ++ rewrite nth_error_app2 in N by auto. destruct (j - length pre) as [| [|]]; try discriminate. injection N as <-. destruct Q as (_ & _ & C). rewrite CR in C. injection C as <-. lia.
        -- intro H. assert (X : length d < n); [| lia]. apply (H (length pre) r); [rewrite nth_error_app2, Nat.sub_diag by lia; reflexivity | split; auto].
      * apply HERE; auto. intros n C. rewrite CR in C. injection C as <-. split; auto. lia.
Qed.
Lemma outcome_unique rs v v' : outcome_is base l negate rs v -> outcome_is base l negate rs v' -> v = v'.
Proof.
  intros [(i & r & D & B & ->) | (N & ->)] [(i' & r' & D' & B' & ->) | (N' & ->)]; auto; try (now apply N in D'); try (now apply N' in D).
  destruct (Nat.lt_trichotomy i i') as [L | [-> | L]]; [now apply B' in D | | now apply B in D']. destruct D as (E & _), D' as (E' & _). rewrite E in E'. injection E' as ->. auto.
Qed.
Lemma filter_spec rs v : filter_entry negate rs base l = v <-> outcome_is base l negate rs v.
Proof.
  assert (X : outcome_is base l negate rs (filter_entry negate rs base l)).
  { apply (filter_ok rs [] 0); [intro n; split; [intros _ [|] r m; discriminate | lia] | cbn; lia]. }
  split; [now intros <- | now apply outcome_unique].
Qed.
End Filter.
