From Verif Require Import Base SearchModel SearchSpec SearchProofs SearchProofs2.

Lemma nodup_snoc {A} (l : list A) x : NoDup l -> ~ In x l -> NoDup (l ++ [x]).
Proof.
  intros N I. induction N as [|y l Y N IH]; cbn; [constructor; [intros [] | constructor]|]. constructor; [|apply IH; intros X; apply I; right; exact X].
  intros X. apply in_app_iff in X. destruct X as [X|[X|[]]]; [contradiction | apply I; left; symmetry; exact X].
Qed.
Lemma nth_set_nth l : forall i x j, nth_error (set_nth l i x) j = if (j =? i) && (i <? length l) then Some x else nth_error l j.
Proof.
  induction l as [|y l IH]; intros [|i] x [|j]; cbn; try reflexivity.
  - rewrite andb_false_r. reflexivity.
  - rewrite IH. reflexivity.
Qed.

Section Run.
Context (P : project) (kind : nat -> tkind) (default_ext : nat -> scope -> bytes -> option bytes).
Context (file_exists : path -> bytes -> bytes -> bool) (src_only : path -> bool).
Context (ext_of : nat -> path -> bytes -> bytes) (T0 : list entry).
Notation refers := (refers P).
Notation in_source := (in_source P).
Notation ext_for := (ext_for ext_of).
Notation ext_ok := (ext_ok ext_of).
Notation decb := (decb T0).
Notation result_of := (result_of kind file_exists src_only ext_of T0).
Notation regular' := (regular' P kind default_ext file_exists ext_of T0).
Notation step := (step kind default_ext file_exists src_only).
Notation act := (act kind default_ext file_exists src_only).
Context (OK : project_ok P src_only ext_of T0).

Definition exts_ok (ts : list entry) : Prop := forall t, In t ts -> ext_ok (e_base t) (e_ext t).
Lemma key_eqb_ok t k x : ext_ok (e_base t) (e_ext t) -> ext_ok k x -> key_eqb t k x = base_eqb (e_base t) k.
Proof.
  intros E1 E2. unfold key_eqb. destruct (base_eqb (e_base t) k) eqn:E; [|reflexivity]. apply base_eqb_eq in E. rewrite E in E1. destruct E1 as [-> | ->]; [reflexivity|].
  destruct E2 as [-> | ->]; [reflexivity|]. cbn. apply beqb_eq. reflexivity.
Qed.
Lemma find_spec ts k x : exts_ok ts -> ext_ok k x -> 
  match find ts k x with
  | Some (ts', i) => nth_error (map e_base ts) i = Some k /\ map e_base ts' = map e_base ts /\ map e_explicit ts' = map e_explicit ts /\ exts_ok ts'
  | None => ~ In k (map e_base ts)
  end.
Proof.
  intros E X. induction ts as [|t ts IH]; cbn; [tauto|]. rewrite key_eqb_ok by (auto; apply E; left; reflexivity).
  assert (E' : exts_ok ts) by (intros u U; apply E; right; exact U). specialize (IH E').
  destruct (base_eqb (e_base t) k) eqn:B.
  - apply base_eqb_eq in B. cbn. rewrite B. unfold set_ext. destruct (e_ext t) eqn:ET; cbn; repeat split; auto; try congruence. intros u [<-|U]; [cbn; rewrite B; exact X | apply E'; exact U].
  - destruct (find ts k x) as [[ts' i]|].
    + destruct IH as (N & M & F & EE). cbn. rewrite M, F. repeat split; auto. intros u [<-|U]; [apply E; left; reflexivity | apply EE; exact U].
    + intros [C|C]; [|contradiction]. rewrite C in B. assert (base_eqb k k = true) by (apply base_eqb_eq; reflexivity). congruence.
Qed.
(* All targets are declared or are what some prerequisite should be resolved to. *)
Record inv_targets (ts : list entry) : Prop := {
  i_nodup : NoDup (map e_base ts);
  i_exts : exts_ok ts;
  i_prefix : exists new flags, map e_base ts = map e_base T0 ++ new /\ map e_explicit ts = map e_explicit T0 ++ flags /\
    (forall f, In f flags -> f = false) /\ forall b, In b new -> exists k g s u, refers k g s u /\ regular' k g /\ result_of k g s u = Some b }.
Lemma decb_in b : decb b = true <-> In b (map e_base T0).
Proof. rewrite (decb_spec T0 b), in_map_iff. unfold declared. split; intros (t & A & B); exists t; auto. Qed.
Lemma insert_spec ts k x kk g s u : inv_targets ts -> ext_ok k x -> refers kk g s u -> regular' kk g -> result_of kk g s u = Some k ->
  let '(ts', i) := insert ts k x in inv_targets ts' /\ nth_error (map e_base ts') i = Some k /\ exists l, map e_base ts' = map e_base ts ++ l.
Proof.
  intros [ND EX (new & flags & B & F & FF & NEW)] X R RG RES. unfold insert. pose proof (find_spec ts k x EX X) as S. destruct (find ts k x) as [[ts' i]|].
  - destruct S as (N & M & G & EE). split; [|split; [rewrite M; exact N | exists []; rewrite app_nil_r; exact M]]. split; [rewrite M; exact ND | exact EE | exists new, flags; rewrite M, G; auto].
  - split; [|split].
    + split.
      * rewrite map_app. cbn. apply nodup_snoc; assumption.
      * intros t I. apply in_app_iff in I. destruct I as [I|[<-|[]]]; [apply EX; exact I | exact X].
      * exists (new ++ [k]), (flags ++ [false]). rewrite !map_app, B, F, <- !app_assoc. cbn. repeat split; auto.
        -- intros f I. apply in_app_iff in I. destruct I as [I|[<-|[]]]; auto.
        -- intros c I. apply in_app_iff in I. destruct I as [I|[<-|[]]]; [apply NEW; exact I | exists kk, g, s, u; auto].
    + rewrite map_app, nth_error_app2 by (rewrite map_length; lia). rewrite map_length, Nat.sub_diag. reflexivity.
    + exists [k]. apply map_app.
Qed.
Definition stage_ok (ts : list entry) (k : prereq) (g : base) (s : option base) (u : bool) (st : stage) : Prop :=
  match st with
  | InOut => True
  | InSrc => kind (k_type k) = KFile /\ u = true /\ ~ in_source /\ decb g = false
  | OnDisk => kind (k_type k) = KFile /\ decb g = false /\ forall b, s = Some b -> u = true -> decb b = false
  | Create => kind (k_type k) <> KAlias /\ decb g = false /\ result_of k g s u = (if can_create src_only k then Some g else None)
  | Done (Target i) => nth_error (map e_base ts) i <> None /\ nth_error (map e_base ts) i = result_of k g s u
  | Done Failed => result_of k g s u = None
  end.
Definition search_ok (ts : list entry) (x : prereq * stage) : Prop := exists g s u, refers (fst x) g s u /\ regular' (fst x) g /\ stage_ok ts (fst x) g s u (snd x).
Lemma stage_grows ts ts' k g s u st l : map e_base ts' = map e_base ts ++ l -> stage_ok ts k g s u st -> stage_ok ts' k g s u st.
Proof.
  intros E. destruct st as [| | | |[i|]]; cbn; auto. rewrite E. intros [N Q]. rewrite nth_error_app1; [auto | apply nth_error_Some; exact N].
Qed.
Lemma in_targets ts b : inv_targets ts -> In b (map e_base ts) -> decb b = true \/ decb b = false /\ exists k g s u, refers k g s u /\ regular' k g /\ result_of k g s u = Some b.
Proof.
  intros I B. destruct (i_prefix _ I) as (new & flags & E & _ & _ & N). rewrite E in B. apply in_app_iff in B. destruct B as [B|B]; [left; apply decb_in; exact B|].
  destruct (decb b) eqn:D; [left; reflexivity | right; split; [reflexivity | apply N; exact B]].
Qed.
Lemma declared_in ts b : inv_targets ts -> decb b = true -> In b (map e_base ts).
Proof. intros I D. destruct (i_prefix _ I) as (new & flags & E & _). rewrite E. apply in_app_iff. left. apply decb_in. exact D. Qed.
Lemma explicit_spec ts b i : inv_targets ts -> nth_error (map e_base ts) i = Some b -> explicit ts i = expb T0 b.
Proof.
  intros I N. destruct (i_prefix _ I) as (new & flags & E & F & FF & _). pose proof (i_nodup _ I) as ND. unfold explicit.
  assert (XE : match nth_error ts i with Some t => e_explicit t | None => false end = nth i (map e_explicit ts) false).
  { clear. revert i. induction ts as [|t ts IH]; intros [|i]; cbn; auto. }
  rewrite XE, F. destruct (Nat.ltb_spec i (length T0)) as [L|L].
  - rewrite app_nth1 by (rewrite map_length; exact L). rewrite E, nth_error_app1 in N by (rewrite map_length; exact L). rewrite nth_error_map in N. destruct (nth_error T0 i) as [t|] eqn:T; [|discriminate]. injection N as N.
    assert (ET : nth i (map e_explicit T0) false = e_explicit t) by (clear - T; revert i T; induction T0 as [|x l IH]; intros [|i] T; cbn in *; try discriminate; [injection T as ->; reflexivity | apply IH; exact T]). rewrite ET.
    destruct (expb T0 b) eqn:X.
    + apply expb_spec in X. destruct X as (t' & I' & B' & X'). apply In_nth_error in I'. destruct I' as (j & J). assert (i = j); [|subst j; congruence].
      pose proof (proj1 (ok_declared _ _ _ _ OK)) as ND0. rewrite NoDup_nth_error in ND0. apply ND0; [rewrite map_length; exact L|]. rewrite !nth_error_map, T, J. cbn. congruence.
    + destruct (e_explicit t) eqn:ETT; [|reflexivity]. rewrite <- X. symmetry. apply expb_spec. exists t. split; [eapply nth_error_In; exact T | auto].
  - rewrite app_nth2 by (rewrite map_length; exact L). transitivity false.
    + destruct (nth_in_or_default (i - length (map e_explicit T0)) flags false) as [Q|Q]; [apply FF; exact Q | exact Q].
    + symmetry. apply not_true_iff_false. intros X. apply expb_spec in X. destruct X as (t & IT & B & _). rewrite E in N, ND. rewrite nth_error_app2 in N by (rewrite map_length; exact L). apply nth_error_In in N.
      clear - ND N IT B. apply (in_map e_base) in IT. rewrite B in IT. induction (map e_base T0) as [|x l IH]; [destruct IT|]. cbn in ND. inversion ND as [|? ? NI ND']; subst. destruct IT as [->|IT]; [apply NI, in_app_iff; right; exact N | auto].
Qed.
Lemma step_ok ts k g s u st : inv_targets ts -> refers k g s u -> regular' k g -> stage_ok ts k g s u st ->
  let '(ts', st') := step ts k st in inv_targets ts' /\ (exists l, map e_base ts' = map e_base ts ++ l) /\ stage_ok ts' k g s u st'.
Proof.
  intros I R RG S. pose proof RG as (EX & DE & _). destruct (refers_given P k g s u R) as (G & GT & GN).
  assert (SAME : inv_targets ts /\ (exists l, map e_base ts = map e_base ts ++ l)) by (split; [exact I | exists []; rewrite app_nil_r; reflexivity]).
  assert (FOUND : forall ts', exts_ok ts' -> map e_base ts' = map e_base ts -> map e_explicit ts' = map e_explicit ts -> inv_targets ts' /\ (exists l, map e_base ts' = map e_base ts ++ l)).
  { intros ts' E M F. destruct I as [ND _ (new & flags & PR)]. split; [split; [rewrite M; exact ND | exact E | exists new, flags; rewrite M, F; exact PR] | exists []; rewrite app_nil_r; exact M]. }
  destruct st as [| | | |r]; cbn [SearchModel.step]; cbn [stage_ok] in S.
  - rewrite G. pose proof (find_spec ts g (k_ext k) (i_exts _ I) EX) as F. destruct (find ts g (k_ext k)) as [[ts' i]|].
    + destruct F as (N & M & X & E). destruct (FOUND ts' E M X) as [I' L]. split; [exact I'|]. split; [exact L|].
      assert (N' : nth_error (map e_base ts') i = Some g) by (rewrite M; exact N).
      assert (NA : kind (k_type k) <> KAlias -> Some g = result_of k g s u).
      { intros NA. destruct (in_targets ts g I) as [D|(D & k' & g' & s' & u' & R' & RG' & Q)]; [eapply nth_error_In; exact N | |].
        - unfold SearchProofs2.result_of. rewrite D. destruct (kind (k_type k)); congruence.
        - symmetry. eapply (same_written P kind default_ext file_exists src_only ext_of T0 OK); eauto. }
      destruct (kind (k_type k)) eqn:K; [cbn; rewrite N'; split; [discriminate | apply NA; discriminate] .. |].
      rewrite (explicit_spec ts' g i I' N'). destruct (expb T0 g) eqn:XB; cbn; unfold SearchProofs2.result_of; rewrite K, XB; [rewrite N'; split; [discriminate | reflexivity] | reflexivity].
    + assert (D : decb g = false) by (destruct (decb g) eqn:D; [destruct F; apply declared_in; assumption | reflexivity]).
      destruct SAME as [S1 S2]. destruct (kind (k_type k)) eqn:K.
      * pose proof (refers_try P k g s u R) as T. destruct (try_src k) eqn:TS; (split; [exact S1|]); (split; [exact S2|]); cbn.
        -- destruct (proj1 T eq_refl) as [U NI]. auto.
        -- split; [exact K|]. split; [exact D|]. intros b -> ->. destruct (in_source_dec P) as [IS|NI]; [|pose proof (proj2 T (conj eq_refl NI)); discriminate].
           clear - R D IS. remember (Some b) as sb eqn:EB. remember true as u eqn:EU. destruct R as [ty up l n x s pos c RR S|ty pos n x s c PS S|ty d n x s PS NN|ty up l up' l' n x s pos pos' RR RO NN]; try discriminate EU.
           injection EB as ->. destruct S as [[_ ->]|[NI _]]; [|contradiction]. unfold SearchSpec.in_source in IS. rewrite <- IS. exact D.
      * split; [exact S1|]. split; [exact S2|]. cbn. rewrite K. split; [discriminate|]. split; [exact D|]. unfold SearchProofs2.result_of. rewrite K, D. reflexivity.
      * split; [exact S1|]. split; [exact S2|]. cbn. unfold SearchProofs2.result_of. rewrite K. destruct (expb T0 g) eqn:XB; [|reflexivity]. exfalso. apply expb_spec in XB. destruct XB as (t & IT & B & _). apply decb_false in D. apply D. exists t. auto.
  - destruct S as (K & U & NI & D). assert (SB : exists b, s = Some b) by (destruct R; try discriminate U; eauto). destruct SB as (b & ES). subst s u. rewrite (refers_src P k g b R NI).
    assert (EB : ext_ok b (k_ext k)) by (unfold SearchSpec.ext_ok; rewrite (ext_same P src_only ext_of T0 OK k g b true R); exact EX).
    pose proof (find_spec ts b (k_ext k) (i_exts _ I) EB) as F. destruct (find ts b (k_ext k)) as [[ts' i]|].
    + destruct F as (N & M & X & E). destruct (FOUND ts' E M X) as [I' L]. split; [exact I'|]. split; [exact L|]. cbn. rewrite M, N. split; [discriminate|].
      destruct (in_targets ts b I) as [DB|(DB & k' & g' & s' & u' & R' & RG' & Q)]; [eapply nth_error_In; exact N | |].
      * unfold SearchProofs2.result_of. rewrite K, D, DB. reflexivity.
      * symmetry. eapply (same_source P kind file_exists src_only ext_of T0); eauto.
    + destruct SAME as [S1 S2]. split; [exact S1|]. split; [exact S2|]. cbn. split; [exact K|]. split; [exact D|]. intros b' [= <-] _. destruct (decb b) eqn:DB; [destruct F; apply declared_in; assumption | reflexivity].
  - destruct S as (K & D & DB). destruct (refers_disk P kind default_ext file_exists src_only ext_of T0 OK k g s u R K EX DE) as [(b & -> & HF & ->)|(HF & ->)].
    + assert (Q : result_of k g (Some b) u = Some b) by (unfold SearchProofs2.result_of, fileb; rewrite K, D; unfold has_file in HF; rewrite HF, orb_true_r; reflexivity).
      pose proof (insert_spec ts b (Some (ext_for b)) k g (Some b) u I (or_intror eq_refl) R RG Q) as IN. destruct (insert ts b (Some (ext_for b))) as [ts' i]. destruct IN as (I' & N & L). split; [exact I'|]. split; [exact L|]. cbn. rewrite N, Q. split; [discriminate | reflexivity].
    + destruct SAME as [S1 S2]. split; [exact S1|]. split; [exact S2|]. cbn. split; [congruence|]. split; [exact D|]. unfold SearchProofs2.result_of. rewrite K, D. destruct s as [b|]; [|reflexivity].
      replace ((u && decb b) || fileb file_exists ext_of b) with false; [reflexivity|]. symmetry. apply orb_false_iff. split; [destruct u; [apply (DB b); reflexivity | reflexivity] | apply not_true_iff_false; apply HF; reflexivity].
  - destruct S as (K & D & Q). destruct (can_create src_only k).
    + rewrite G. pose proof (insert_spec ts g (k_ext k) k g s u I EX R RG Q) as IN. destruct (insert ts g (k_ext k)) as [ts' i]. destruct IN as (I' & N & L). split; [exact I'|]. split; [exact L|]. cbn. rewrite N, Q. split; [discriminate | reflexivity].
    + destruct SAME as [S1 S2]. split; [exact S1|]. split; [exact S2|]. exact Q.
  - destruct SAME as [S1 S2]. split; [exact S1|]. split; [exact S2|]. exact S.
Qed.
Definition inv (st : state) : Prop := inv_targets (targets st) /\ forall i x, nth_error (searches st) i = Some x -> search_ok (targets st) x.
Lemma act_ok st a : (forall k, a = Start k -> regular P kind default_ext file_exists ext_of T0 k) -> inv st -> inv (act st a).
Proof.
  intros A [I S]. destruct a as [k|i]; cbn.
  - split; [exact I|]. intros i x N. cbn in *. destruct (Nat.ltb_spec i (length (searches st))) as [L|L]; [rewrite nth_error_app1 in N by exact L; eapply S; exact N|].
    rewrite nth_error_app2 in N by exact L. destruct (i - length (searches st)) as [|j]; cbn in N; [|destruct j; discriminate]. injection N as <-.
    destruct (A k eq_refl) as (g & s & u & R & RG). exists g, s, u. split; [exact R|]. split; [exact RG | exact Logic.I].
  - destruct (nth_error (searches st) i) as [[k stg]|] eqn:N; [|split; assumption]. destruct (S i _ N) as (g & s & u & R & RG & SO). cbn [fst snd] in *.
    pose proof (step_ok (targets st) k g s u stg I R RG SO) as Q. destruct (step (targets st) k stg) as [ts' stg']. destruct Q as (I' & (l & L) & SO').
    split; [exact I'|]. intros j x NJ. cbn in *. rewrite nth_set_nth in NJ. destruct (_ && _).
    + injection NJ as <-. exists g, s, u. auto.
    + destruct (S j x NJ) as (g1 & s1 & u1 & R1 & RG1 & S1). exists g1, s1, u1. split; [exact R1|]. split; [exact RG1|]. eapply stage_grows; eassumption.
Qed.
Lemma inv_start : inv (mkstate T0 []).
Proof.
  split; [|intros [|i] x N; discriminate N]. destruct (ok_declared _ _ _ _ OK) as [ND EX]. split; cbn; [exact ND | exact EX|]. exists [], []. rewrite !app_nil_r. repeat split; auto; intros ? [].
Qed.
Lemma run_ok l : all_regular P kind default_ext file_exists ext_of T0 l -> inv (run kind default_ext file_exists src_only T0 l).
Proof.
  intros A. unfold run. pose proof inv_start as I. revert A I. generalize (mkstate T0 []). induction l as [|a l IH]; intros st A I; cbn; [exact I|].
  apply IH; [intros k K; apply A; right; exact K|]. apply act_ok; [|exact I]. intros k ->. apply A. left. reflexivity.
Qed.
End Run.
