(* Appending and prepending JSON values. *)
From Verif Require Import Base NameModel NameSpec NameProofs JsonModel JsonSpec JsonProofs.

Lemma wrap_small z : (0 <= z < 2 ^ 64)%Z -> wrap z = z.
Proof. intros H. apply Z.mod_small. exact H. Qed.
Lemma wrap_range z : (0 <= wrap z < 2 ^ 64)%Z.
Proof. apply Z.mod_pos_bound. reflexivity. Qed.
Lemma pow63 : (2 ^ 63 = 9223372036854775808)%Z. Proof. reflexivity. Qed.
Lemma pow64 : (2 ^ 64 = 18446744073709551616)%Z. Proof. reflexivity. Qed.

Lemma append_us_sum u s h : (0 <= u < 2 ^ 64)%Z -> (- 2 ^ 63 <= s < 2 ^ 63)%Z -> (- 2 ^ 63 < u + s < 2 ^ 64)%Z ->
  exists x, append_us u s h = Some x /\ num x = Some (u + s)%Z.
Proof.
  rewrite pow63, pow64. intros Hu Hs H. unfold append_us, int64_max. rewrite pow63. destruct (Z.ltb_spec s 0).
  - destruct (Z.leb_spec (- s) u); [eexists; split; [reflexivity|]; cbn; f_equal; lia|]. destruct (Z.leb_spec (- s - u) (9223372036854775808 - 1)); [|lia].
    eexists; split; [reflexivity|]. cbn. f_equal. lia.
  - rewrite wrap_small by (rewrite pow64; lia). eexists; split; [reflexivity|reflexivity].
Qed.
Lemma append_us_wf u s h x : (0 <= u < 2 ^ 64)%Z -> (- 2 ^ 63 <= s < 2 ^ 63)%Z -> append_us u s h = Some x -> wf x.
Proof.
  intros Hu Hs. unfold append_us. destruct (Z.ltb_spec s 0).
  - destruct (Z.leb_spec (- s) u); [intros [= <-]; cbn [wf]; lia|]. destruct (Z.leb_spec (- s - u) int64_max); [|discriminate]. intros [= <-]. cbn [wf]. unfold int64_max in *. lia.
  - intros [= <-]. cbn [wf]. apply wrap_range.
Qed.
Lemma bits_range r : wf r -> number r = true -> (0 <= bits r < 2 ^ 64)%Z.
Proof. destruct r; cbn [number]; try discriminate; intros H _; cbn [bits wf] in *; [apply wrap_range|exact H]. Qed.
Lemma append_numbers_wf l r x : wf l -> wf r -> number r = true -> append_numbers l r = Some x -> wf x.
Proof.
  intros Wl Wr Nr. pose proof (bits_range r Wr Nr) as B. destruct l as [|?|h u|h u|?|?|?]; try discriminate; cbn [append_numbers].
  - destruct r as [|?|[] v|h' v|?|?|?]; try discriminate; try (intros K; apply (append_us_wf _ _ _ _ B Wl K)).
    cbn [wf] in *. destruct (Z.leb_spec 0 u); [apply append_us_wf; lia|]. destruct (Z.leb_spec 0 v); [apply append_us_wf; lia|].
    destruct (is_int64 (u + v)) eqn:E; [|discriminate]. intros [= <-]. apply andb_true_iff in E. unfold int64_min, int64_max in E. cbn [wf]. lia.
  - destruct r as [|?|[] v|h' v|?|?|?]; try discriminate; try (intros [= <-]; apply wrap_range). apply append_us_wf; assumption.
Qed.



Lemma append_numbers_sum l r u v : wf l -> wf r -> num l = Some u -> num r = Some v -> (forall w, r = JSigned true w -> (0 <= w)%Z) -> (- 2 ^ 63 < u + v < 2 ^ 64)%Z ->
  exists x, append_numbers l r = Some x /\ num x = Some (u + v)%Z.
Proof.
  intros Wl Wr Nl Nr Hh H.
  assert ((exists h, r = JSigned h v /\ (h = true -> 0 <= v)%Z) \/ (exists h, r = JUnsigned h v)) as R.
  { destruct r as [|?|h w|h w|?|?|?]; try discriminate; injection Nr as ->; [left|right]; exists h; [split; [reflexivity|]; intros ->; apply Hh; reflexivity|reflexivity]. }
  assert ((exists h, l = JSigned h u) \/ (exists h, l = JUnsigned h u)) as L by (destruct l as [|?|h w|h w|?|?|?]; try discriminate; injection Nl as ->; [left|right]; exists h; reflexivity).
  clear Nl Nr Hh. destruct L as [[h ->]|[h ->]], R as [[h' [-> Hv]]|[h' ->]]; cbn [wf append_numbers bits] in *.
  - destruct h'.
    + rewrite wrap_small by (specialize (Hv eq_refl); lia). rewrite (Z.add_comm u v) in *. apply append_us_sum; try assumption. specialize (Hv eq_refl). lia.
    + destruct (Z.leb_spec 0 u); [apply append_us_sum; lia|]. destruct (Z.leb_spec 0 v); [rewrite (Z.add_comm u v) in *; apply append_us_sum; lia|].
      assert (is_int64 (u + v) = true) as ->; [|eexists; split; reflexivity]. unfold is_int64, int64_min, int64_max. apply andb_true_iff. lia.
  - rewrite (Z.add_comm u v) in *. apply append_us_sum; assumption.
  - destruct h'.
    + rewrite (wrap_small v) by (specialize (Hv eq_refl); lia). rewrite wrap_small by (specialize (Hv eq_refl); lia). eexists; split; reflexivity.
    + apply append_us_sum; assumption.
  - rewrite wrap_small by lia. eexists; split; reflexivity.
Qed.

(* Objects. *)
Lemma has_names k o : has k o = true <-> In k (names o).
Proof.
  unfold has, names. rewrite existsb_exists, in_map_iff. split; intros [m [H1 H2]]; exists m; [apply beqb_eq in H2|split; [assumption|apply beqb_eq]]; auto.
Qed.
Lemma absent_names k o : absent o k = true <-> ~ In k (names o).
Proof.
  unfold absent, names. rewrite negb_true_iff. split.
  - intros H Hi. assert (existsb (beqb k) (map fst o) = true); [|congruence]. apply existsb_exists. exists k. split; [exact Hi|apply beqb_eq; reflexivity].
  - intros H. destruct (existsb (beqb k) (map fst o)) eqn:E; [|reflexivity]. apply existsb_exists in E. destruct E as [k' [E1 E2]]. apply beqb_eq in E2. subst. contradiction.
Qed.
Lemma names_replace k v o : names (replace k v o) = names o.
Proof. induction o as [|m o IH]; [reflexivity|]. cbn. destruct (beqb k (fst m)); [reflexivity|]. cbn. f_equal. exact IH. Qed.
Lemma member_replace k v o k' v' : In k (names o) -> NoDup (names o) -> member k' (replace k v o) v' <-> (k' = k /\ v' = v) \/ (k' <> k /\ member k' o v').
Proof.
  unfold member. induction o as [|m o IH]; intros Hi Hn; [contradiction|]. inversion Hn; subst. cbn [replace]. destruct (beqb k (fst m)) eqn:E.
  - apply beqb_eq in E. subst k. cbn. split.
    + intros [K|K]; [left; inversion K; auto|]. right. split; [|auto]. intros ->. apply H1. apply (in_map fst) in K. exact K.
    + intros [[-> ->]|[K1 [K2|K2]]]; [auto| |auto]. subst m. contradiction K1. reflexivity.
  - assert (k <> fst m) as Hk by (intros K; apply beqb_eq in K; congruence). destruct Hi as [Hi|Hi]; [congruence|]. cbn. rewrite (IH Hi H2). split.
    + intros [K|[K|K]]; [|auto|tauto]. right. split; [|auto]. intros ->. subst m. contradiction Hk. reflexivity.
    + tauto.
Qed.

(* The members that are added. *)
Definition added (o p : list (bytes * json)) : list (bytes * json) := filter (fun m => absent o (fst m)) p.
Lemma fold_append p : forall f ov o, NoDup (names o) -> NoDup (names p) ->
  let r := fold_left (merge1 f ov) p o in
  names r = (if f then rev (names (added o p)) ++ names o else names o ++ names (added o p)) /\
  NoDup (names r) /\
  forall k v, member k r v <-> if ov then member k p v \/ (~ In k (names p) /\ member k o v) else member k o v \/ (~ In k (names o) /\ member k p v).
Proof.
  induction p as [|m p IH]; intros f ov o No Np r; unfold r; cbn [fold_left].
  - cbn. split; [destruct f; [reflexivity|rewrite app_nil_r; reflexivity]|]. split; [exact No|]. intros k v. destruct ov; cbn; tauto.
  - inversion Np; subst. unfold merge1 at 2 4 6. destruct (has (fst m) o) eqn:Hh.
    + assert (absent o (fst m) = false) as Ha. { destruct (absent o (fst m)) eqn:E; [|reflexivity]. apply absent_names in E. apply has_names in Hh. contradiction. }
      unfold added. cbn [filter]. rewrite Ha. apply has_names in Hh. destruct ov.
      * assert (NoDup (names (replace (fst m) (snd m) o))) as No' by (rewrite names_replace; exact No). destruct (IH f true _ No' H2) as [K1 [K2 K3]]. rewrite names_replace in K1.
        assert (added (replace (fst m) (snd m) o) p = added o p) as E. { unfold added. apply filter_ext. intros a. unfold absent. change (map fst (replace (fst m) (snd m) o)) with (names (replace (fst m) (snd m) o)). rewrite names_replace. reflexivity. }
        rewrite E in K1. split; [exact K1|]. split; [exact K2|]. intros k v. rewrite K3, (member_replace _ _ _ _ _ Hh No). unfold member. cbn [In names map]. split.
        -- intros [K|[K [[-> ->]|[K4 K5]]]]; [auto|left; left; destruct m; reflexivity|right; split; [|exact K5]; intros [Hi|Hi]; [apply K4; congruence|apply K; exact Hi]].
        -- intros [[->|K]|[K K4]]; [|auto|].
           ++ right. cbn in H1. split; [exact H1|]. left. split; reflexivity.
           ++ right. split; [intros Hi; apply K; auto|]. right. split; [intros ->; apply K; auto|exact K4].
      * destruct (IH f false o No H2) as [K1 [K2 K3]]. split; [exact K1|]. split; [exact K2|]. intros k v. rewrite K3. unfold member. cbn [In]. split; [tauto|]. intros [K|[K [->|K4]]]; [auto| |auto]. contradiction K.
    + assert (absent o (fst m) = true) as Ha. { apply absent_names. intros K. apply has_names in K. congruence. }
      pose proof (proj1 (absent_names _ _) Ha) as Hna. unfold added. cbn [filter]. rewrite Ha.
      set (o' := if f then m :: o else o ++ [m]).
      assert (names o' = if f then fst m :: names o else names o ++ [fst m]) as No'. { unfold o', names. destruct f; [reflexivity|]. rewrite map_app. reflexivity. }
      assert (NoDup (names o')) as Hn'. { rewrite No'. destruct f; [constructor; assumption|]. apply (Permutation_NoDup (Permutation_cons_append (names o) (fst m))). constructor; assumption. }
      assert (filter (fun a => absent o' (fst a)) p = filter (fun a => absent o (fst a)) p) as E.
      { apply filter_ext_in. intros a Hi. assert (fst a <> fst m) as Hne by (intros K; apply H1; rewrite <- K; apply (in_map fst); exact Hi).
        destruct (absent o (fst a)) eqn:E1.
        - apply absent_names. apply absent_names in E1. rewrite No'. destruct f; [intros [K|K]; [congruence|contradiction]|intros K; apply in_app_or in K; destruct K as [K|[K|[]]]; [contradiction|congruence]].
        - destruct (absent o' (fst a)) eqn:E2; [|reflexivity]. apply absent_names in E2. assert (absent o (fst a) = true); [|congruence]. apply absent_names. intros K. apply E2. rewrite No'. destruct f; [right; exact K|apply in_or_app; auto]. }
      assert (forall k v, member k o' v <-> (k, v) = m \/ member k o v) as Mo. { intros k v. unfold member, o'. destruct f; [cbn; intuition congruence|]. rewrite in_app_iff. cbn. intuition congruence. }
      destruct (IH f ov o' Hn' H2) as [K1 [K2 K3]]. unfold added in K1. rewrite E, No' in K1. split; [|split; [exact K2|]].
      * rewrite K1. destruct f; cbn [map rev names]; rewrite <- app_assoc; reflexivity.
      * intros k v. rewrite K3. destruct ov; rewrite Mo; unfold member; cbn [In names map].
        -- split.
           ++ intros [K|[K [K4|K4]]]; [auto|auto|]. right. split; [|exact K4]. intros [<-|Hi]; [|contradiction]. apply Hna. apply (in_map fst) in K4. exact K4.
           ++ intros [[->|K]|[K K4]]; [|auto|right; split; [intros Hi; apply K; auto|auto]]. right. cbn in H1. split; [exact H1|auto].
        -- assert (forall k v, In (k, v) o -> In k (names o)) as Ion by (intros k0 v0 K; apply (in_map fst) in K; exact K). rewrite No'. split.
           ++ intros [[K|K]|[K K4]]; [right; subst m; cbn in Hna; auto|auto|]. right. split; [|auto]. intros Hi. apply K. destruct f; [right; exact Hi|apply in_or_app; auto].
           ++ intros [K|[K [<-|K4]]]; [auto|auto|]. right. split; [|exact K4]. intros Hi. assert (k = fst m) as ->. { destruct f; [destruct Hi as [Hi|Hi]; [auto|contradiction]|apply in_app_or in Hi; destruct Hi as [Hi|[Hi|[]]]; [contradiction|auto]]. }
              apply H1. apply (in_map fst) in K4. exact K4.
Qed.

Lemma merge_wf f ov o p : wf (JObject o) -> wf (JObject p) -> wf (JObject (merge f ov o p)).
Proof.
  intros Wo Wp. unfold merge. destruct o as [|m o]; [exact Wp|]. apply wf_object in Wo, Wp. destruct Wo as [No Wo], Wp as [Np Wp]. destruct (fold_append p f ov (m :: o) No Np) as [_ [K2 K3]].
  apply wf_object. split; [exact K2|]. rewrite Forall_forall in *. intros [k v] Hi. cbn. apply K3 in Hi. unfold member in Hi. destruct ov.
  - destruct Hi as [Hi|[_ Hi]]; [apply Wp in Hi|apply Wo in Hi]; exact Hi.
  - destruct Hi as [Hi|[_ Hi]]; [apply Wo in Hi|apply Wp in Hi]; exact Hi.
Qed.
Lemma add_wf f ov l v r : wf l -> wf v -> add f ov l v = Value r -> wf r.
Proof.
  intros Wl Wv. destruct l as [|x|h x|h x|x|x|x].
  - intros [= <-]. exact Wv.
  - destruct v; cbn; intros K; try discriminate; inversion K; exact I.
  - destruct v as [|y|h' y|h' y|y|y|y]; unfold add; cbn [number]; intros K; try discriminate; [inversion K; subst; exact Wl| |].
    + destruct (append_numbers (JSigned h x) (JSigned h' y)) eqn:E; inversion K; subst. apply (append_numbers_wf _ _ _ Wl Wv eq_refl E).
    + destruct (append_numbers (JSigned h x) (JUnsigned h' y)) eqn:E; inversion K; subst. apply (append_numbers_wf _ _ _ Wl Wv eq_refl E).
  - destruct v as [|y|h' y|h' y|y|y|y]; unfold add; cbn [number]; intros K; try discriminate; [inversion K; subst; exact Wl| |].
    + destruct (append_numbers (JUnsigned h x) (JSigned h' y)) eqn:E; inversion K; subst. apply (append_numbers_wf _ _ _ Wl Wv eq_refl E).
    + destruct (append_numbers (JUnsigned h x) (JUnsigned h' y)) eqn:E; inversion K; subst. apply (append_numbers_wf _ _ _ Wl Wv eq_refl E).
  - destruct v; cbn; intros K; try discriminate; inversion K; exact I.
  - unfold add. intros K. inversion K. apply wf_array. apply wf_array in Wl. destruct v as [|y|h' y|h' y|y|y|y]; destruct f; try (constructor; assumption); try (apply Forall_app; split; [assumption|constructor; [assumption|constructor]]).
    + apply wf_array in Wv. apply Forall_app. auto.
    + apply wf_array in Wv. apply Forall_app. auto.
  - destruct v as [|y|h' y|h' y|y|y|y]; unfold add; cbn [number]; intros K; try discriminate; inversion K; subst; [exact Wl|]. apply merge_wf; assumption.
Qed.
