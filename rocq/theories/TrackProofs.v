(* What is hashed determines the values. *)
From Verif Require Import Base NameModel FlowModel TrackModel TrackSpec.

Lemma split_nul a c x y : no_nul a -> no_nul c -> h_string a ++ x = h_string c ++ y -> a = c /\ x = y.
Proof.
  unfold h_string, no_nul. rewrite <- !app_assoc. cbn. revert c. induction a as [|k a IH]; intros [|m c] A C E; cbn in *.
  - injection E as ->. split; reflexivity.
  - injection E as K _. destruct C. left. congruence.
  - injection E as K _. destruct A. left. congruence.
  - injection E as -> E. destruct (IH c) as [-> ->]; [tauto | tauto | exact E | split; reflexivity].
Qed.
Lemma dir_string_inj d e : is_dir d -> is_dir e -> dir_string d = dir_string e -> d = e.
Proof.
  assert (N : forall x, x <> [] -> x <> b "/" -> dir_string (x ++ b "/") = x).
  { intros x X Y. unfold dir_string. destruct (beqb (x ++ b "/") (b "/")) eqn:E; [|apply removelast_last].
    apply beqb_eq in E. destruct x as [|c x]; [congruence|]. injection E as _ E. destruct x; discriminate E. }
  intros [->|[->|(x & -> & X & X')]] [->|[->|(y & -> & Y & Y')]]; try rewrite (N x) by assumption; try rewrite (N y) by assumption; cbn in *; intros E; try congruence.
Qed.
Lemma no_nul_dir d : is_dir d -> no_nul d -> no_nul (dir_string d).
Proof.
  intros [->|[->|(x & -> & X & Y)]] H; cbn; [exact H | exact H|]. unfold dir_string. destruct (beqb _ _); [exact H|].
  change (b "/") with ["/"%char]. rewrite removelast_last. intros I. apply H. apply in_app_iff. left. exact I.
Qed.
(* What follows the names of a variable: nothing or another variable. *)
Definition tail (r : bytes) : Prop := r = [] \/ exists x c r', no_nul x /\ In c ["001"; "002"; "003"]%char /\ r = h_string x ++ c :: r'.
Lemma names_inj ns : forall ms r s, Forall plain ns -> Forall plain ms -> tail r -> tail s -> flat_map h_name ns ++ r = flat_map h_name ms ++ s -> ns = ms /\ r = s.
Proof.
  assert (NT : forall n ms r s, plain n -> tail r -> r = flat_map h_name (n :: ms) ++ s -> False).
  { intros n ms r s (P & Q & D & ND & NT & NV & TC) T E. cbn [flat_map] in E. unfold h_name in E. rewrite P, Q in E. destruct T as [->|(x & c & r' & NX & C & ->)].
    - symmetry in E. destruct (dir_string (dir n)); discriminate E.
    - rewrite <- !app_assoc in E. cbn [app] in E. apply split_nul in E; [|exact NX | apply no_nul_dir; assumption]. destruct E as [_ E].
      specialize (TC c C). unfold h_string in E. destruct (type n) as [|k t]; cbn in *; injection E as E _; congruence. }
  induction ns as [|n ns IH]; intros [|m ms] r s N M R S E.
  - split; [reflexivity | exact E].
  - destruct (NT m ms r s); [inversion M; assumption | exact R | exact E].
  - destruct (NT n ns s r); [inversion N; assumption | exact S | symmetry; exact E].
  - inversion N as [|? ? (P & Q & D & ND & NT1 & NV & _) N']; subst. inversion M as [|? ? (P' & Q' & D' & ND' & NT' & NV' & _) M']; subst.
    cbn [flat_map] in E. unfold h_name in E at 1. unfold h_name in E at 2. rewrite P, Q, P', Q' in E. rewrite <- !app_assoc in E. cbn [app] in E.
    apply split_nul in E; [|apply no_nul_dir; assumption | apply no_nul_dir; assumption]. destruct E as [ED E].
    apply split_nul in E; [|assumption | assumption]. destruct E as [ET E]. apply split_nul in E; [|assumption | assumption]. destruct E as [EV E]. injection E as EP E.
    destruct (IH ms r s N' M' R S E) as [-> ->]. split; [|reflexivity]. f_equal. destruct n, m; cbn in *. subst. f_equal. apply dir_string_inj; assumption.
Qed.
Lemma vars_tail (w : bytes -> option val) vars : (forall x, In x vars -> no_nul x) -> tail (h_vars w vars).
Proof.
  intros H. destruct vars as [|x vars]; [left; reflexivity|]. right. unfold h_vars. cbn [flat_map]. rewrite <- app_assoc.
  assert (exists c r, h_lookup (w x) = c :: r /\ In c ["001"; "002"; "003"]%char) as (c & r & E & I).
  { unfold h_lookup. destruct (w x) as [v|]; [destruct (vnames v)|]; do 2 eexists; (split; [reflexivity | cbn; tauto]). }
  exists x, c, (r ++ flat_map (fun x => h_string x ++ h_lookup (w x)) vars). split; [apply H; left; reflexivity|]. split; [exact I|]. rewrite E. reflexivity.
Qed.
Lemma vars_inj w1 w2 vars : values_ok w1 w2 vars -> h_vars (w_var w1) vars = h_vars (w_var w2) vars -> forall x, In x vars -> w_var w1 x = w_var w2 x.
Proof.
  intros V E. induction vars as [|x vars IH]; [intros x []|].
  assert (T : forall w, tail (h_vars w vars)) by (intros w; apply vars_tail; intros y Y; apply (V y); right; exact Y).
  assert (w_var w1 x = w_var w2 x /\ h_vars (w_var w1) vars = h_vars (w_var w2) vars) as [EX ES].
  { unfold h_vars in E. cbn [flat_map] in E. fold (h_vars (w_var w1) vars) in E. fold (h_vars (w_var w2) vars) in E.
    destruct (V x) as (NX & P1 & P2 & TY); [left; reflexivity|]. rewrite <- !app_assoc in E. apply split_nul in E; [|exact NX | exact NX]. destruct E as [_ E].
    unfold h_lookup in E. destruct (w_var w1 x) as [[t1 n1]|] eqn:L1, (w_var w2 x) as [[t2 n2]|] eqn:L2; cbn in *.
    - subst t2. destruct n1 as [n1|], n2 as [n2|]; cbn in E; injection E as E; try discriminate E.
      + apply names_inj in E; [|eapply P1; reflexivity | eapply P2; reflexivity | apply T | apply T]. destruct E as [-> E]. split; [reflexivity | exact E].
      + split; [reflexivity | exact E].
    - destruct n1; discriminate E.
    - destruct n2; discriminate E.
    - injection E as E. split; [reflexivity | exact E]. }
  intros y [<-|Y]; [exact EX|]. apply IH; [|exact ES | exact Y]. intros z Z. apply V. right. exact Z.
Qed.

Lemma targets_inj ts1 : forall ts2, targets_ok ts1 ts2 -> flat_map h_target ts1 = flat_map h_target ts2 -> map tnames ts1 = map tnames ts2.
Proof.
  induction ts1 as [|t ts1 IH]; intros [|u ts2] [P N] E.
  - reflexivity.
  - destruct (P u) as (p & U & _); [left; reflexivity|]. cbn in E. unfold h_target in E at 1. rewrite U in E. destruct p; discriminate E.
  - destruct (P t) as (p & T & _); [left; reflexivity|]. cbn in E. unfold h_target in E at 1. rewrite T in E. destruct p; discriminate E.
  - destruct (P t) as (p & T & NP); [left; reflexivity|]. destruct (P u) as (q & U & NQ); [apply in_app_iff; right; left; reflexivity|].
    cbn in E. unfold h_target in E at 1. unfold h_target in E at 2. rewrite T, U in E. apply split_nul in E; [|exact NP | exact NQ]. destruct E as [PQ E]. cbn. f_equal.
    + apply N; [left; reflexivity | left; reflexivity | congruence].
    + apply IH; [|exact E]. split.
      * intros x X. apply P. cbn. apply in_app_iff in X. right. apply in_app_iff. destruct X as [X|X]; [left; exact X | right; right; exact X].
      * intros t1 t2 I1 I2. apply N; right; assumption.
Qed.
Lemma prereqs_hash ps : (forall p, In p ps -> pkind_of p = PNormal \/ pkind_of p = PAdhoc) -> h_prereqs ps = flat_map h_target (map ptgt ps).
Proof.
  induction ps as [|p ps IH]; intros H; [reflexivity|]. unfold h_prereqs. cbn [flat_map map]. fold (h_prereqs ps). rewrite IH by (intros q Q; apply H; right; exact Q).
  destruct (H p) as [->| ->]; [left; reflexivity | |]; reflexivity.
Qed.
Lemma same_start tmp ts1 ts2 ps1 ps2 : targets_ok ts1 ts2 -> prereqs_ok ps1 ps2 -> flat_map h_target ts1 = flat_map h_target ts2 -> h_prereqs ps1 = h_prereqs ps2 ->
  start tmp ts1 ps1 = start tmp ts2 ps2.
Proof.
  intros T (P & K & O) ET EP. unfold start. f_equal. f_equal; [|f_equal].
  - f_equal. unfold targets_var. f_equal. rewrite !flat_map_concat_map, (targets_inj _ _ T ET). reflexivity.
  - assert (O2 : forall p, In p ps2 -> pkind_of p = PNormal \/ pkind_of p = PAdhoc).
    { intros p I. apply (in_map pkind_of) in I. rewrite <- K in I. apply in_map_iff in I. destruct I as (q & <- & Q). apply O. exact Q. }
    rewrite (prereqs_hash _ O), (prereqs_hash _ O2) in EP. pose proof (targets_inj _ _ P EP) as M. f_equal. unfold prereqs_var. f_equal. clear - K M.
    revert ps2 K M. induction ps1 as [|p ps1 IH]; intros [|q ps2] K M; try discriminate; [reflexivity|]. cbn in *. injection K as K1 K. injection M as M1 M. rewrite K1, M1, (IH ps2 K M). reflexivity.
Qed.
