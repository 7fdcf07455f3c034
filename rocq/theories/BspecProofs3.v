(* Proofs about buildspecs: the grammar. *)
From Verif Require Import Base BspecModel BspecSpec BspecProofs BspecProofs2.
From Coq Require Import Lia.
Local Notation osnoc := (snoc oun omg).
Local Notation msnoc := (snoc mun mmg).
Local Notation name_op := (name_op is_word).
Local Notation item_ops := (item_ops is_word).
Local Notation item_metas := (item_metas is_word).
Local Notation has_op := (has_op is_word).
Local Notation meta_call := (meta_call is_word).
Local Notation Valid := (Valid is_word).
Local Notation meaning := (meaning is_word).
Local Notation J := (joined mun mmg).

Definition no_comma (r : list token) : Prop := match r with Comma :: _ => False | _ => True end.
Lemma params_sound_len k : forall ts ps r, length ts <= k -> params ts = Some (ps, RParen :: r) ->
  exists qs t, ts = write_params qs t ++ RParen :: r /\ ps = params_of qs t.
Proof.
  induction k as [| k IH]; intros ts ps r L H.
  - destruct ts; [| cbn in L; lia]. cbn in H. discriminate.
  - destruct ts as [| tk ts]; [discriminate |]. destruct tk; cbn in H; try discriminate.
    + injection H as <- <-. exists [], false. auto.
    + destruct ts as [| tk ts]; [discriminate |]. destruct tk; try discriminate.
      * injection H as <- <-. exists [], true. auto.
      * destruct (params ts) as [[qs' r'] |] eqn:E; [| discriminate]. injection H as <- ->. cbn in L.
        destruct (IH ts qs' r ltac:(lia) E) as (qs & t & -> & ->). exists (v :: qs), t. auto.
Qed.
Lemma params_complete qs t r : params (write_params qs t ++ RParen :: r) = Some (params_of qs t, RParen :: r).
Proof.
  unfold write_params, params_of. induction qs as [| v qs IH]; [destruct t; reflexivity |]. cbn. cbn in IH. rewrite IH. reflexivity.
Qed.

Definition Stop (r : list token) : Prop := match r with Names _ :: _ | LParen :: _ => False | _ => True end.
Lemma clause_stop f bs first ts : (match ts with Names _ :: _ => False | _ => True end) -> clause (S f) bs first ts = if first then PFail else POk bs ts.
Proof. intros H. destruct ts as [| tk ts]; [reflexivity |]. destruct tk; try reflexivity. contradiction. Qed.
Lemma clause_call f bs first ns r : ns <> [] -> clause (S f) bs first (Names ns :: LParen :: r) =
  match opnames ns with
  | None => PFail
  | Some ns =>
      match clause f [] true r with
      | POk nbs r =>
          match params r with
          | Some (ps, RParen :: r) => match merge bs ns ps nbs r with POk bs r => clause f bs false r | e => e end
          | _ => PFail
          end
      | e => e
      end
  end.
Proof. intros H. destruct ns; [congruence | reflexivity]. Qed.
Lemma clause_plain f bs first ns r : ns <> [] -> (match r with LParen :: _ => False | _ => True end) ->
  clause (S f) bs first (Names ns :: r) = match add_plain bs ns with Some bs => clause f bs false r | None => PFail end.
Proof. intros H K. destruct ns; [congruence |]. destruct r as [| tk r]; [reflexivity |]. destruct tk; try reflexivity. contradiction. Qed.

Lemma write_cons is : match flat_map write is with [] => is = [] | Names _ :: _ => True | _ => False end.
Proof. destruct is as [| [ns | ns inner ps t] is]; cbn; auto. Qed.

Lemma clause_sound f : forall R first ts, Forall MP R ->
  match clause f (J R) first ts with
  | POk bs r => exists is, ts = flat_map write is ++ r /\ Forall Valid is /\ (first = true -> is <> []) /\ bs = J (R ++ flat_map item_metas is)
  | PAssert => False
  | PMore => f <= length ts
  | PFail => True
  end.
Proof.
  induction f as [| f IH]; intros R first ts HR; [cbn; lia |].
  assert (ST : match ts with Names _ :: _ => False | _ => True end \/ exists ns r, ts = Names ns :: r).
  { destruct ts as [| tk ts]; [auto |]. destruct tk; auto. right. eauto. }
  destruct ST as [ST | (ns & r & ->)].
  - rewrite clause_stop by exact ST. destruct first; [exact I |]. exists []. rewrite app_nil_r. repeat split; auto. congruence.
  - destruct ns as [| n ns']; [exact I |]. remember (n :: ns') as ns eqn:En. assert (Nn : ns <> []) by (subst; discriminate). clear n ns' En.
    assert (LP : match r with LParen :: _ => False | _ => True end \/ exists r', r = LParen :: r').
    { destruct r as [| tk r]; [auto |]. destruct tk; auto. right. eauto. }
    destruct LP as [LP | (r' & ->)].
    + rewrite clause_plain by assumption. rewrite add_plain_ok by exact HR. destruct (existsb _ ns) eqn:B; [exact I |].
      apply bad_names in B. destruct B as [B1 B2]. assert (V : Valid (Plain ns)) by (constructor; assumption).
      assert (HR2 : Forall MP (R ++ item_metas (Plain ns))) by (apply Forall_app; split; [exact HR | apply item_metas_MP, V]).
      specialize (IH (R ++ item_metas (Plain ns)) false r HR2). destruct (clause f _ false r); try exact IH; [cbn; lia |].
      destruct IH as (is & -> & Vs & _ & ->). exists (Plain ns :: is). split; [reflexivity |]. split; [constructor; assumption |].
      split; [discriminate |]. cbn [flat_map]. rewrite app_assoc. reflexivity.
    + rewrite clause_call by exact Nn. destruct (opnames ns) as [ss |] eqn:O; [| exact I]. apply opnames_iff in O. destruct O as [W ->].
      pose proof (IH [] true r' (Forall_nil _)) as IH1. change (J []) with (@nil metaopspec) in IH1.
      destruct (clause f [] true r') as [| | | nbs r1]; try exact IH1; [cbn; lia |]. destruct IH1 as (inner & -> & Vi & Ni & ->). specialize (Ni eq_refl).
      destruct (params r1) as [[ps r2] |] eqn:P; [| exact I]. destruct r2 as [| tk r2]; [exact I |]. destruct tk; try exact I.
      destruct (params_sound_len _ _ _ _ (le_n _) P) as (qs & t & -> & ->). cbn [app].
      rewrite merge_ok by assumption. destruct (existsb meta_call inner) eqn:M; [exact I |].
      assert (V : Valid (Call ns inner qs t)).
      { constructor; try assumption. apply Forall_forall. intros i Hi. destruct (meta_call i) eqn:X; [| reflexivity].
        assert (Y : existsb meta_call inner = true) by (apply existsb_exists; eauto). congruence. }
      assert (HR2 : Forall MP (R ++ item_metas (Call ns inner qs t))) by (apply Forall_app; split; [exact HR | apply item_metas_MP, V]).
      specialize (IH (R ++ item_metas (Call ns inner qs t)) false r2 HR2). destruct (clause f _ false r2); try exact IH.
      * cbn [length]. rewrite !app_length. cbn [length]. lia.
      * destruct IH as (is & -> & Vs & _ & ->). exists (Call ns inner qs t :: is). split.
        { cbn. do 2 f_equal. rewrite <- !app_assoc. reflexivity. }
        split; [constructor; assumption |]. split; [discriminate |]. cbn [flat_map]. rewrite <- app_assoc. reflexivity.
Qed.

Lemma stop_params ps t r : Stop (write_params ps t ++ RParen :: r).
Proof. destruct ps; [destruct t; exact I | exact I]. Qed.
Lemma clause_complete f : forall R first is r, Forall MP R -> Forall Valid is -> (first = true -> is <> []) -> Stop r ->
  length (flat_map write is ++ r) < f -> clause f (J R) first (flat_map write is ++ r) = POk (J (R ++ flat_map item_metas is)) r.
Proof.
  induction f as [| f IH]; intros R first is r HR V NF ST L; [lia |]. destruct is as [| i is].
  - cbn [flat_map app] in *. rewrite clause_stop by (destruct r as [| tk r]; [exact I | destruct tk; auto]).
    destruct first; [exfalso; apply NF; reflexivity |]. rewrite app_nil_r. reflexivity.
  - inversion V as [| ? ? Vi Vs]; subst. destruct i as [ns | ns inner ps t]; inversion Vi; subst.
    + cbn [flat_map write app] in *. rewrite clause_plain.
      * rewrite add_plain_ok by exact HR. assert (B : existsb (fun n => match n with Qualified | BadPair => true | _ => false end) ns = false)
          by (apply bad_names; auto). rewrite B. rewrite IH; [rewrite app_assoc; reflexivity | | | | |]; try assumption.
        -- apply Forall_app. split; [exact HR | apply item_metas_MP, Vi].
        -- discriminate.
        -- cbn in L. lia.
      * assumption.
      * pose proof (write_cons is) as WC. destruct (flat_map write is) as [| tk w]; cbn; [destruct r as [| tk r]; [exact I | destruct tk; auto] |].
        destruct tk; auto.
    + cbn [flat_map write] in *. rewrite <- !app_comm_cons in *. rewrite <- !app_assoc in *. cbn [app] in *. rewrite clause_call by assumption.
      destruct (opnames_iff ns (map word ns)) as [_ O]. rewrite O by auto.
      pose proof (IH [] true inner (write_params ps t ++ RParen :: flat_map write is ++ r)) as IH1. change (J []) with (@nil metaopspec) in IH1.
      rewrite IH1; clear IH1; try assumption; try (intros; assumption).
      * cbn [app]. rewrite params_complete, merge_ok by assumption.
        assert (M : existsb meta_call inner = false).
        { destruct (existsb meta_call inner) eqn:M; [| reflexivity]. apply existsb_exists in M. destruct M as (i & Hi & Mi).
          match goal with H : Forall (fun i => meta_call i = false) inner |- _ => rewrite Forall_forall in H; rewrite (H i Hi) in Mi; discriminate end. }
        rewrite M. rewrite IH; [rewrite app_assoc; reflexivity | | | | |]; try assumption.
        -- apply Forall_app. split; [exact HR | apply item_metas_MP, Vi].
        -- discriminate.
        -- cbn [length] in L. rewrite !app_length in *. cbn [length] in L. rewrite app_length in L. lia.
      * constructor.
      * apply stop_params.
      * cbn [length] in L. lia.
Qed.
Lemma meaning_J is : meaning is = J (flat_map item_metas is).
Proof. unfold BspecSpec.meaning. apply joined_metas_eq. Qed.
Lemma parse_spec fuel ts : length ts < fuel ->
  match parse fuel ts with
  | POk bs r => r = [] /\ exists is, ts = flat_map write is /\ Forall Valid is /\ bs = meaning is
  | PFail => ~ exists is, ts = flat_map write is /\ Forall Valid is
  | _ => False
  end.
Proof.
  intros L. destruct ts as [| tk ts].
  - cbn. split; [reflexivity |]. exists []. auto.
  - unfold parse. remember (tk :: ts) as us eqn:E. pose proof (clause_sound fuel [] true us (Forall_nil _)) as S.
    pose proof (fun is V N => clause_complete fuel [] true is [] (Forall_nil _) V N I) as C. change (J []) with (@nil metaopspec) in *.
    assert (NE : forall is, us = flat_map write is -> true = true -> is <> []) by (intros is -> _ ->; discriminate).
    destruct (clause fuel [] true us) as [| | | bs r] eqn:K.
    + intros (is & Eu & V). specialize (C is V (NE is Eu)). rewrite app_nil_r, <- Eu in C. specialize (C L). congruence.
    + exact S.
    + lia.
    + destruct r as [| tk' r].
      * destruct S as (is & Eu & V & _ & ->). split; [reflexivity |]. exists is. rewrite app_nil_r in Eu. rewrite meaning_J. auto.
      * intros (is & Eu & V). specialize (C is V (NE is Eu)). rewrite app_nil_r, <- Eu in C. specialize (C L). congruence.
Qed.

(* Any decision of which names are words will do. *)
Section Ext.
Context (w w' : nm -> bool) (E : forall n, w n = w' n).
Lemma existsb_ext_in {A} (f g : A -> bool) l : (forall x, f x = g x) -> existsb f l = existsb g l.
Proof. intros H. induction l as [| x l IH]; cbn; [reflexivity |]. rewrite H, IH. reflexivity. Qed.
Lemma has_op_ext i : BspecSpec.has_op w i = BspecSpec.has_op w' i.
Proof. destruct i; cbn; [apply existsb_ext_in, E | reflexivity]. Qed.
Lemma meta_call_ext i : BspecSpec.meta_call w i = BspecSpec.meta_call w' i.
Proof. destruct i; cbn; [reflexivity | apply existsb_ext_in, has_op_ext]. Qed.
Lemma item_ops_ext i : BspecSpec.item_ops w i = BspecSpec.item_ops w' i.
Proof. destruct i; cbn; [| reflexivity]. apply map_ext. intros n. unfold BspecSpec.name_op. rewrite E. reflexivity. Qed.
Lemma item_metas_ext i : BspecSpec.item_metas w i = BspecSpec.item_metas w' i.
Proof.
  destruct i as [ns | ns inner ps t]; cbn [BspecSpec.item_metas]; [rewrite item_ops_ext; reflexivity |].
  rewrite (existsb_ext_in _ (BspecSpec.has_op w') inner has_op_ext), item_ops_ext, (flat_map_ext _ _ item_ops_ext). reflexivity.
Qed.
Lemma meaning_ext is : BspecSpec.meaning w is = BspecSpec.meaning w' is.
Proof. unfold BspecSpec.meaning. rewrite (flat_map_ext _ _ item_metas_ext). reflexivity. Qed.
Fixpoint Valid_ext (i : item) (H : BspecSpec.Valid w i) {struct H} : BspecSpec.Valid w' i.
Proof.
  destruct H as [ns N Q B | ns inner ps t N W Ni V M]; constructor; try assumption.
  - apply Forall_forall. intros n Hn. rewrite Forall_forall in W. rewrite <- E. auto.
  - induction V as [| i l Vi V IH]; constructor; [apply Valid_ext, Vi |]. inversion M; subst. destruct l; [constructor |]. apply IH; [discriminate | assumption].
  - apply Forall_forall. intros n Hn. rewrite Forall_forall in M. rewrite <- meta_call_ext. auto.
Qed.
End Ext.
Lemma is_word_any w : (forall n, w n = true <-> exists s, Word n s) -> forall n, w n = is_word n.
Proof.
  intros H n. assert (K : is_word n = true <-> exists s, Word n s).
  { split; [intros X; exists (word n); apply opname_iff, is_word_opname, X | intros (s & X); apply opname_iff in X; unfold is_word; rewrite X; reflexivity]. }
  specialize (H n). destruct (w n), (is_word n); intuition congruence.
Qed.
