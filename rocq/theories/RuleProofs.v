From Coq Require Import Sorting.Permutation Sorting.Sorted.
From Verif Require Import Base RuleModel RuleSpec.

(* Registration. *)
Definition rules_op (o ty : nat) (m : op_map) : name_map := match find_op o m with None => [] | Some tm => find_type ty tm end.
Lemma find_type_insert ty ty' r m : find_type ty (insert_type ty' r m) = if ty =? ty' then insert_name r (find_type ty m) else find_type ty m.
Proof.
  induction m as [|[t ns] m IH]; cbn [insert_type find_type].
  - destruct (ty =? ty'); reflexivity.
  - destruct (Nat.eqb_spec ty' t) as [->|N]; cbn [find_type].
    + destruct (ty =? t); reflexivity.
    + rewrite IH. destruct (Nat.eqb_spec ty t) as [->|N2]; [|reflexivity]. destruct (Nat.eqb_spec t ty') as [E|]; [congruence|reflexivity].
Qed.
Lemma nth_update n f : forall m o, nth_error (update_nth n f m) o = if o =? n then option_map f (nth_error m o) else nth_error m o.
Proof.
  induction n as [|n IH]; intros [|x m] [|o]; cbn [update_nth nth_error option_map Nat.eqb]; try reflexivity; try (destruct (o =? n); reflexivity). apply IH.
Qed.
Lemma rules_op_resize n o ty m : rules_op o ty (resize n m) = rules_op o ty m.
Proof.
  assert (K : forall (l : op_map) i, (forall x, In x l -> x = []) -> match nth_error l i with None => [] | Some tm => find_type ty tm end = []).
  { intros l i H. destruct (nth_error l i) as [x|] eqn:E; [|reflexivity]. rewrite (H x (nth_error_In _ _ E)). reflexivity. }
  unfold rules_op, find_op, resize. destruct (Nat.lt_ge_cases o (length m)) as [L|L]; [rewrite nth_error_app1 by exact L; reflexivity|]. rewrite nth_error_app2 by exact L. rewrite (proj2 (nth_error_None m o) L). apply K. intros x I. exact (repeat_spec _ _ _ I).
Qed.
Lemma rules_op_insert o ty o' ty' r m : rules_op o ty (insert_op o' ty' r m) = if (o =? o') && (ty =? ty') then insert_name r (rules_op o ty m) else rules_op o ty m.
Proof.
  unfold insert_op. assert (K : forall m, o' < length m -> rules_op o ty (update_nth o' (insert_type ty' r) m) = if (o =? o') && (ty =? ty') then insert_name r (rules_op o ty m) else rules_op o ty m).
  { clear m. intros m L. unfold rules_op, find_op. rewrite nth_update. destruct (Nat.eqb_spec o o') as [->|N]; cbn [andb]; [|reflexivity]. destruct (nth_error m o') as [tm|] eqn:E; [|apply nth_error_None in E; lia]. cbn [option_map]. apply find_type_insert. }
  destruct (Nat.leb_spec (length m) o') as [L|L].
  - rewrite K; [rewrite rules_op_resize; reflexivity|]. unfold resize. rewrite app_length, repeat_length. destruct (o' <? 3) eqn:E; [apply Nat.ltb_lt in E|]; lia.
  - apply K, L.
Qed.
Lemma find_rules_insert mo o ty mo' o' ty' r m : find_rules mo o ty (insert_rule mo' o' ty' r m) = if (mo =? mo') && (o =? o') && (ty =? ty') then insert_name r (find_rules mo o ty m) else find_rules mo o ty m.
Proof.
  unfold find_rules. change (match find_meta mo (insert_rule mo' o' ty' r m) with None => [] | Some om => rules_op o ty om end = if (mo =? mo') && (o =? o') && (ty =? ty') then insert_name r (match find_meta mo m with None => [] | Some om => rules_op o ty om end) else match find_meta mo m with None => [] | Some om => rules_op o ty om end).
  induction m as [|[mid om] m IH]; cbn [insert_rule find_meta].
  - destruct (mo =? mo'); cbn [andb]; [|reflexivity]. rewrite rules_op_insert. unfold rules_op at 1 2, find_op. destruct o; reflexivity.
  - destruct (Nat.eqb_spec mid mo') as [->|N]; cbn [find_meta].
    + destruct (mo =? mo'); cbn [andb]; [apply rules_op_insert|reflexivity].
    + destruct (Nat.eqb_spec mo mid) as [->|N2]; [|exact IH]. destruct (Nat.eqb_spec mid mo'); [contradiction|reflexivity].
Qed.
Definition key_of (mo o ty : nat) (r : rmatch) : registration := mkreg mo o ty (rname r) (rule r).
Lemma in_insert_name x r m : In x (insert_name r m) <-> In x m \/ (x = r /\ forall y, In y m -> rname y <> rname r).
Proof.
  unfold insert_name. destruct (existsb _ m) eqn:E.
  - split; [auto|]. intros [H|(-> & H)]; [exact H|]. apply existsb_exists in E. destruct E as (y & I & E). apply beqb_eq in E. destruct (H y I E).
  - rewrite in_app_iff. cbn [In]. split.
    + intros [H|[<-|[]]]; [auto|]. right. split; [reflexivity|]. intros y I X. assert (T : existsb (fun x => beqb (rname x) (rname r)) m = true) by (apply existsb_exists; exists y; split; [exact I|apply beqb_eq, X]). congruence.
    + intros [H|(-> & _)]; auto.
Qed.
Lemma insert_name_nodup r m : NoDup (map rname m) -> NoDup (map rname (insert_name r m)).
Proof.
  intros H. unfold insert_name. destruct (existsb _ m) eqn:E; [exact H|]. rewrite map_app. cbn [map]. apply (NoDup_Add (a := rname r) (l := map rname m)); [pose proof (Add_app (rname r) (map rname m) []) as A; rewrite app_nil_r in A; exact A|]. split; [exact H|]. intros I. apply in_map_iff in I. destruct I as (y & X & I). assert (T : existsb (fun x => beqb (rname x) (rname r)) m = true) by (apply existsb_exists; exists y; split; [exact I|apply beqb_eq, X]). congruence.
Qed.
Lemma rules_of_snoc gs g : rules_of (gs ++ [g]) = register (rules_of gs) g.
Proof. unfold rules_of. rewrite fold_left_app. reflexivity. Qed.
Lemma rules_of_nodup gs mo o ty : NoDup (map rname (find_rules mo o ty (rules_of gs))).
Proof.
  induction gs as [|g gs IH] using rev_ind; [unfold rules_of, find_rules; cbn; destruct (mo =? perform); [destruct o|]; constructor|]. rewrite rules_of_snoc. unfold register. rewrite find_rules_insert. destruct (_ && _); [apply insert_name_nodup, IH|exact IH].
Qed.
Lemma registered_snoc gs g x : registered (gs ++ [g]) x <-> registered gs x \/ (x = g /\ forall y, In y gs -> ~ same_key y g).
Proof.
  unfold registered. split.
  - intros (bf & af & E & H). destruct af as [|y af _] using rev_ind.
    + apply app_inj_tail in E. destruct E as [-> ->]. auto.
    + rewrite app_comm_cons, app_assoc in E. apply app_inj_tail in E. destruct E as [-> ->]. left. exists bf, af. auto.
  - intros [(bf & af & -> & H)|(-> & H)]; [exists bf, (af ++ [g]); rewrite <- app_assoc; auto|exists gs, []; auto].
Qed.
Lemma registered_in gs x : registered gs x -> In x gs.
Proof. intros (bf & af & -> & _). apply in_or_app. right. left. reflexivity. Qed.
Lemma first_registered gs z : In z gs -> exists z', registered gs z' /\ same_key z' z.
Proof.
  revert z. induction gs as [|a l IH] using rev_ind; intros z I; [destruct I|]. apply in_app_iff in I. destruct I as [I|[->|[]]].
  - destruct (IH z I) as (z' & H & K). exists z'. split; [apply registered_snoc; auto|exact K].
  - assert (D : (exists z', In z' l /\ same_key z' z) \/ forall z', In z' l -> ~ same_key z' z).
    { clear. induction l as [|a l [IH|IH]]; [right; intros z' []|left; destruct IH as (z' & I & K); exists z'; split; [right; exact I|exact K]|].
      assert (Dk : {same_key a z} + {~ same_key a z}). { unfold same_key. destruct (Nat.eq_dec (gmeta a) (gmeta z)), (Nat.eq_dec (gop a) (gop z)), (Nat.eq_dec (gtype a) (gtype z)), (list_eq_dec ascii_dec (gname a) (gname z)); (left; tauto) || (right; tauto). }
      destruct Dk as [Dk|Dk]; [left; exists a; split; [left; reflexivity|exact Dk]|right; intros z' [<-|I]; [exact Dk|exact (IH z' I)]]. }
    destruct D as [(z' & I & K)|D]; [destruct (IH z' I) as (z2 & H2 & K2); exists z2; split; [apply registered_snoc; auto|unfold same_key in *; intuition congruence]|exists z; split; [apply registered_snoc; auto|unfold same_key; auto]].
Qed.
Lemma find_rules_registered gs mo o ty r : In r (find_rules mo o ty (rules_of gs)) <-> registered gs (key_of mo o ty r).
Proof.
  revert r. induction gs as [|g gs IH] using rev_ind; intros r.
  - unfold rules_of, find_rules; cbn. split; [|intros (bf & af & E & _); destruct bf; discriminate E]. destruct (mo =? perform); [destruct o|]; intros [].
  - rewrite rules_of_snoc, registered_snoc. unfold register. rewrite find_rules_insert.
    assert (Key : forall y, same_key y g <-> (gmeta y = gmeta g /\ gop y = gop g /\ gtype y = gtype g) /\ gname y = gname g) by (intros y; unfold same_key; tauto).
    destruct ((mo =? gmeta g) && (o =? gop g) && (ty =? gtype g)) eqn:E.
    + rewrite !andb_true_iff, !Nat.eqb_eq in E. destruct E as [[-> ->] ->]. rewrite in_insert_name, IH. cbn [rname]. apply or_iff_compat_l. split.
      * intros (-> & H). split; [destruct g; reflexivity|]. intros y I K. apply Key in K. destruct K as [(K1 & K2 & K3) K4].
        assert (X : exists z, registered gs z /\ same_key z y) by exact (first_registered gs y I).
        destruct X as (z & Z1 & Z2). specialize (IH (mkrmatch (gname z) (grule z))). unfold same_key in Z2. destruct Z2 as (S1 & S2 & S3 & S4). apply (H (mkrmatch (gname z) (grule z))); [|cbn; congruence]. apply IH. unfold key_of. cbn. replace (mkreg (gmeta g) (gop g) (gtype g) (gname z) (grule z)) with z; [exact Z1|]. destruct z; cbn in *. f_equal; congruence.
      * intros (Eg & H). assert (Er : r = mkrmatch (gname g) (grule g)) by (destruct r as [n k]; rewrite <- Eg; reflexivity). split; [exact Er|]. intros y Iy Ny. apply IH in Iy. apply registered_in in Iy. apply (H _ Iy). apply Key. cbn. auto.
    + rewrite IH. split; [auto|]. intros [H|(Eg & _)]; [exact H|]. exfalso. rewrite <- Eg in E. cbn in E. rewrite !Nat.eqb_refl in E. discriminate E.
Qed.

(* Names and hints. *)
Lemma starts_correct x : forall y, starts x y = true <-> exists z, y = x ++ z.
Proof.
  induction x as [|c x IH]; intros y; cbn [starts app]; [split; [intros _; exists y; reflexivity|reflexivity]|]. destruct y as [|d y]; [split; [discriminate|intros (z & E); discriminate E]|]. rewrite andb_true_iff, ceqb_eq, IH. split; [intros [-> (z & ->)]; exists z; reflexivity|]. intros (z & E). injection E as -> ->. eauto.
Qed.
Lemma sub_correct h n : sub h n = true <-> hint_for h n.
Proof.
  unfold sub, hint_for. rewrite !orb_true_iff, !beqb_eq, starts_correct. split.
  - intros [[H|H]|(z & H)]; auto. right. right. exists z. rewrite <- app_assoc in H. exact H.
  - intros [H|[H|(z & H)]]; auto. right. exists z. rewrite <- app_assoc. exact H.
Qed.
Lemma otype_eqb_eq x y : otype_eqb x y = true <-> x = y.
Proof. destruct x, y; cbn; try (split; congruence). rewrite Nat.eqb_eq. split; congruence. Qed.
Definition same_hintb (x y : hint) : bool := (hoperation x =? hoperation y) && otype_eqb (htype x) (htype y).
Lemma same_hintb_eq x y : same_hintb x y = true <-> same_hint x y.
Proof. unfold same_hintb, same_hint. rewrite andb_true_iff, Nat.eqb_eq, otype_eqb_eq. tauto. Qed.
Lemma hints_of_snoc hs h : hints_of (hs ++ [h]) = insert_hint (htype h) (hoperation h) (hvalue h) (hints_of hs).
Proof. unfold hints_of. rewrite fold_left_app. reflexivity. Qed.
Ltac shn := unfold same_hint in *; let X := fresh in intros X; match goal with N : ~ (_ = _ /\ _ = _) |- False => apply N; intuition congruence end.
Section Hints.
Context (P : hint -> Prop) (p : hint -> bool) (Pp : forall h, p h = true <-> P h) (Pk : forall x y, same_hint x y -> P x -> P y).
Lemma p_key x y : same_hint x y -> p x = p y.
Proof.
  intros S. assert (S' : same_hint y x) by (unfold same_hint in *; intuition congruence). destruct (p x) eqn:E1, (p y) eqn:E2; try reflexivity; exfalso.
  - apply Pp in E1. apply (Pk _ _ S) in E1. apply Pp in E1. congruence.
  - apply Pp in E2. apply (Pk _ _ S') in E2. apply Pp in E2. congruence.
Qed.
Lemma insert_hint_find h m : List.find p (insert_hint (htype h) (hoperation h) (hvalue h) m) =
  match List.find p m with Some x => Some (if same_hintb x h then h else x) | None => if p h then Some h else None end.
Proof.
  induction m as [|v m IH]; cbn [insert_hint List.find]; [destruct h; reflexivity|]. fold (same_hintb v h). destruct (same_hintb v h) eqn:E.
  - assert (S := proj1 (same_hintb_eq _ _) E). destruct S as [S1 S2]. rewrite S1, S2. assert (Eh : mkhint (htype h) (hoperation h) (hvalue h) = h) by (destruct h; reflexivity). rewrite Eh. cbn [List.find]. rewrite (p_key v h (conj S1 S2)). destruct (p h) eqn:Ph; [rewrite E; reflexivity|]. destruct (List.find p m) as [x|] eqn:F; [|reflexivity]. destruct (same_hintb x h) eqn:Ex; [|reflexivity]. apply List.find_some in F. destruct F as [_ F]. apply same_hintb_eq in Ex. rewrite (p_key _ _ Ex) in F. congruence.
  - cbn [List.find]. destruct (p v) eqn:Pv; [rewrite E; reflexivity|exact IH].
Qed.
Lemma hint_of_snoc hs h v : hint_of P (hs ++ [h]) v <->
  (exists x, (exists bf af, hs = bf ++ x :: af /\ P x /\ forall y, In y bf -> ~ P y) /\ ((same_hint h x /\ v = hvalue h) \/ (~ same_hint h x /\ hint_of P hs v))) \/
  ((forall x, In x hs -> ~ P x) /\ P h /\ v = hvalue h).
Proof.
  split.
  - intros (bf & x & af & x' & E & Px & Nb & Sx & -> & b' & a' & E' & Na). 
    assert (Last : (a' = [] /\ x' = h /\ hs = b') \/ exists a2, a' = a2 ++ [h] /\ hs = b' ++ x' :: a2).
    { destruct a' as [|y a' _] using rev_ind; [apply app_inj_tail in E'; destruct E' as [-> ->]; auto|]. rewrite app_comm_cons, app_assoc in E'. apply app_inj_tail in E'. destruct E' as [-> ->]. right. eauto. }
    destruct af as [|y af _] using rev_ind.
    + apply app_inj_tail in E. destruct E as [E ->]. right. subst bf. split; [exact Nb|]. split; [exact Px|]. destruct Last as [(_ & -> & _)|(a2 & -> & ->)]; [reflexivity|]. exfalso. apply (Nb x'); [apply in_or_app; right; left; reflexivity|]. apply (Pk x); [unfold same_hint in *; intuition congruence|exact Px].
    + rewrite app_comm_cons, app_assoc in E. apply app_inj_tail in E. destruct E as [-> ->]. left. exists x. split; [exists bf, af; auto|]. destruct Last as [(_ & -> & _)|(a2 & -> & Eh)].
      * left. split; [exact Sx|reflexivity].
      * right. assert (Nh : ~ same_hint y x') by (apply Na; apply in_or_app; right; left; reflexivity). split; [shn|]. exists bf, x, af, x'. repeat (split; [assumption || reflexivity|]). exists b', a2. split; [exact Eh|]. intros z Iz. apply Na, in_or_app. left. exact Iz.
  - intros [(x & (bf & af & E & Px & Nb) & [(Sx & ->)|(Nx & bf' & z & af' & x' & E1 & Pz & Nb' & Sx & -> & b' & a' & E2 & Na)])|(N & Ph & ->)].
    + subst hs. exists bf, x, (af ++ [h]), h. rewrite <- app_assoc. repeat (split; [assumption || reflexivity|]). exists (bf ++ x :: af), []. rewrite <- app_assoc. split; [reflexivity|intros y []].
    + exists bf', z, (af' ++ [h]), x'. rewrite E1 at 1. rewrite <- app_assoc. repeat (split; [assumption || reflexivity|]). exists b', (a' ++ [h]). rewrite E2. rewrite <- app_assoc. split; [reflexivity|]. intros y Iy. apply in_app_iff in Iy. destruct Iy as [Iy|[<-|[]]]; [exact (Na y Iy)|]. intros Sh. apply Nx.
      assert (z = x). { clear - E E1 Px Nb Pz Nb'. subst hs. revert bf' E1 Nb'. induction bf as [|c bf IH]; intros [|d bf'] E1 Nb'; cbn in E1; injection E1 as; subst; auto.
        - exfalso. apply (Nb' d); [left; reflexivity|exact Px].
        - exfalso. apply (Nb z); [left; reflexivity|exact Pz].
        - apply (IH (fun y I => Nb y (or_intror I)) bf'); [assumption|intros y I; apply Nb'; right; exact I]. }
      subst z. unfold same_hint in *. intuition congruence.
    + exists hs, h, [], h. repeat (split; [assumption || reflexivity|]). split; [unfold same_hint; auto|]. split; [reflexivity|]. exists hs, []. split; [reflexivity|intros x []].
Qed.
(* The first hint of the given ones and what is found for it. *)
Lemma hints_of_find hs :
  match List.find p (hints_of hs) with
  | Some x => (exists f, (exists bf af, hs = bf ++ f :: af /\ P f /\ forall y, In y bf -> ~ P y) /\ same_hint x f) /\ forall v, hint_of P hs v <-> v = hvalue x
  | None => (forall x, In x hs -> ~ P x) /\ forall v, ~ hint_of P hs v
  end.
Proof.
  induction hs as [|h hs IH] using rev_ind; [cbn; split; [intros x []|intros v (bf & x & af & x' & E & _); destruct bf; discriminate E]|]. rewrite hints_of_snoc, insert_hint_find. destruct (List.find p (hints_of hs)) as [x|].
  - destruct IH as ((f & (bf & af & E & Pf & Nb) & Sf) & V). split.
    + exists f. split; [exists bf, (af ++ [h]); rewrite E, <- app_assoc; auto|]. destruct (same_hintb x h) eqn:S; [|exact Sf]. apply same_hintb_eq in S. unfold same_hint in *. intuition congruence.
    + intros v. rewrite hint_of_snoc.
      assert (Uf : forall f' bf' af', hs = bf' ++ f' :: af' -> P f' -> (forall y, In y bf' -> ~ P y) -> f' = f).
      { clear - E Pf Nb. subst hs. revert Nb. induction bf as [|c bf IH]; intros Nb f' [|d bf'] af' E1 P' Nb'; cbn in E1; injection E1 as; subst; auto.
        - exfalso. apply (Nb' d); [left; reflexivity|exact Pf].
        - exfalso. apply (Nb f'); [left; reflexivity|exact P'].
        - apply (IH (fun y I => Nb y (or_intror I)) f' bf' af'); [assumption|assumption|intros y I; apply Nb'; right; exact I]. }
      destruct (same_hintb x h) eqn:S.
      * apply same_hintb_eq in S. split.
        -- intros [(f' & (bf' & af' & E' & P' & N') & [(_ & ->)|(N2 & _)])|(N2 & _)]; [reflexivity| |].
           ++ rewrite (Uf f' bf' af' E' P' N') in N2. exfalso. apply N2. unfold same_hint in *. intuition congruence.
           ++ exfalso. apply (N2 f); [rewrite E; apply in_or_app; right; left; reflexivity|exact Pf].
        -- intros ->. left. exists f. split; [exists bf, af; auto|]. left. split; [unfold same_hint in *; intuition congruence|reflexivity].
      * assert (S' : ~ same_hint x h) by (intros X; apply same_hintb_eq in X; congruence). split.
        -- intros [(f' & (bf' & af' & E' & P' & N') & [(S2 & ->)|(_ & Hv)])|(N2 & _)].
           ++ rewrite (Uf f' bf' af' E' P' N') in S2. exfalso. apply S'. unfold same_hint in *. intuition congruence.
           ++ apply V, Hv.
           ++ exfalso. apply (N2 f); [rewrite E; apply in_or_app; right; left; reflexivity|exact Pf].
        -- intros ->. left. exists f. split; [exists bf, af; auto|]. right. split; [shn|]. apply V. reflexivity.
  - destruct IH as (N & V). destruct (p h) eqn:Ph.
    + apply Pp in Ph. split; [exists h; split; [exists hs, []; auto|unfold same_hint; auto]|]. intros v. rewrite hint_of_snoc. split; [|intros ->; right; auto]. intros [(f' & (bf' & af' & E' & P' & N') & _)|(_ & _ & ->)]; [|reflexivity]. exfalso. apply (N f'); [rewrite E'; apply in_or_app; right; left; reflexivity|exact P'].
    + split; [intros x I; apply in_app_iff in I; destruct I as [I|[<-|[]]]; [exact (N x I)|intros X; apply Pp in X; congruence]|]. intros v. rewrite hint_of_snoc. intros [(f' & (bf' & af' & E' & P' & N') & _)|(_ & X & _)]; [apply (N f'); [rewrite E'; apply in_or_app; right; left; reflexivity|exact P']|apply Pp in X; congruence].
Qed.
End Hints.
Definition applicableb (ts : list nat) (o : nat) (ut : bool) (h : hint) : bool := (match htype h with None => ut | Some t => existsb (Nat.eqb t) ts end) && (hoperation h =? o).
Lemma applicableb_correct ts o ut h : applicableb ts o ut h = true <-> applicable ts o ut h.
Proof.
  unfold applicableb, applicable, for_type. rewrite andb_true_iff, Nat.eqb_eq. destruct (htype h) as [t|]; [|tauto]. rewrite existsb_exists. split; intros (H & E); (split; [|exact E]); [destruct H as (x & I & X); apply Nat.eqb_eq in X; subst; exact I|exists t; split; [exact H|apply Nat.eqb_refl]].
Qed.
Lemma applicable_key ts o ut x y : same_hint x y -> applicable ts o ut x -> applicable ts o ut y.
Proof. unfold same_hint, applicable, for_type. intros [-> ->]. auto. Qed.
Lemma find_hint_find ts o ut m : forall f, find_hint ts o ut f m =
  match List.find (applicableb ts o ut) m with
  | Some h => hvalue h
  | None => match (match f with Some v => Some v | None => if (o =? update) || (o =? clean) then List.find (applicableb ts default ut) m else None end) with Some v => hvalue v | None => [] end
  end.
Proof.
  induction m as [|v m IH]; intros f; cbn [find_hint List.find]; [destruct f; [reflexivity|destruct (_ || _); reflexivity]|]. assert (A : forall o, applicableb ts o ut v = (match htype v with None => ut | Some t => existsb (Nat.eqb t) ts end) && (hoperation v =? o)) by reflexivity. rewrite !A. clear A. destruct (match htype v with None => ut | Some t => existsb (Nat.eqb t) ts end) eqn:T; cbn [negb andb].
  - destruct (hoperation v =? o) eqn:O; [reflexivity|]. rewrite IH. destruct (List.find (applicableb ts o ut) m); [reflexivity|]. destruct f as [w|]; [reflexivity|]. destruct (hoperation v =? default); cbn [andb]; [|reflexivity]. destruct (_ || _); reflexivity.
  - rewrite IH. reflexivity.
Qed.
Lemma find_hint_correct ts o ut hs v : find_hint ts o ut None (hints_of hs) = v <-> hint_is ts o ut hs v.
Proof.
  rewrite find_hint_find.
  pose proof (hints_of_find (applicable ts o ut) (applicableb ts o ut) (applicableb_correct ts o ut) (applicable_key ts o ut) hs) as H1.
  pose proof (hints_of_find (applicable ts default ut) (applicableb ts default ut) (applicableb_correct ts default ut) (applicable_key ts default ut) hs) as H2.
  assert (UC : (o =? update) || (o =? clean) = true <-> o = update \/ o = clean) by (rewrite orb_true_iff, !Nat.eqb_eq; tauto).
  destruct (List.find (applicableb ts o ut) (hints_of hs)) as [x|].
  - destruct H1 as ((f & (bf & af & E & Pf & _) & _) & V). assert (If : In f hs) by (rewrite E; apply in_or_app; right; left; reflexivity). split.
    + intros <-. apply hi_given, V. reflexivity.
    + intros H. inversion H as [v' G|v' N|N]; subst; [symmetry; apply V, G|destruct (N f If Pf)|destruct (N f If Pf)].
  - destruct H1 as (N1 & V1). destruct ((o =? update) || (o =? clean)) eqn:U.
    + destruct (List.find (applicableb ts default ut) (hints_of hs)) as [x|].
      * destruct H2 as ((f & (bf & af & E & Pf & _) & _) & V). assert (If : In f hs) by (rewrite E; apply in_or_app; right; left; reflexivity). split.
        -- intros <-. apply hi_default; [exact N1|apply UC; reflexivity|apply V; reflexivity].
        -- intros H. inversion H as [v' G|v' N O G|N D]; subst; [destruct (V1 _ G)|symmetry; apply V, G|destruct (D (proj1 UC eq_refl) f If Pf)].
      * destruct H2 as (N2 & V2). split; [intros <-; apply hi_none; [exact N1|intros _; exact N2]|]. intros H. inversion H as [v' G|v' N O G|N D]; subst; [destruct (V1 _ G)|destruct (V2 _ G)|reflexivity].
    + split; [intros <-; apply hi_none; [exact N1|intros X; apply UC in X; discriminate X]|]. intros H. inversion H as [v' G|v' N O G|N D]; subst; [destruct (V1 _ G)|apply UC in O; discriminate O|reflexivity].
Qed.
