(* Proofs about the parser of module declarations and imports. *)
From Verif Require Import Base CcModel UnitModel UnitSpec.
From Coq Require Import Lia.

Lemma is_type_eq x t : In x [Identifier; Dot; Colon; Semi; Less; Greater; Str] -> (is_type x t = true <-> type t = x).
Proof. unfold is_type. intros I. repeat (destruct I as [<-|I]; [destruct (type t); split; congruence|]). destruct I. Qed.
Lemma tok_true x t : In x [Identifier; Dot; Colon; Semi; Less; Greater; Str] -> (is_type x t && negb (first t) = true <-> tok x t).
Proof. intros I. unfold tok, same_line. rewrite andb_true_iff, negb_true_iff, (is_type_eq _ _ I). reflexivity. Qed.
Lemma on_line_true x ts : In x [Identifier; Dot; Colon; Semi; Less; Greater; Str] -> (on_line x ts = true <-> exists t ts', ts = t :: ts' /\ tok x t).
Proof.
  intros I. destruct ts as [|t ts]; cbn [on_line].
  - split; [discriminate|intros (t & ts' & E & _); discriminate E].
  - rewrite (tok_true _ _ I). split; [intros H; eauto|intros (t' & ts' & E & H); injection E as -> ->; exact H].
Qed.
Ltac kinds := cbn; tauto.

Lemma dotted_sound ts : forall n r ts', dotted n ts = Some (r, ts') -> exists l m, ts = l ++ ts' /\ dotted_name l m /\ r = n ++ m /\ on_line Dot ts' = false.
Proof.
  assert (G : forall k ts, length ts <= k -> forall n r ts', dotted n ts = Some (r, ts') -> exists l m, ts = l ++ ts' /\ dotted_name l m /\ r = n ++ m /\ on_line Dot ts' = false).
  { clear. induction k as [|k IH]; intros [|t ts] L n r ts' E; try discriminate E; [cbn in L; lia|]. cbn [dotted] in E.
    destruct (is_type Identifier t && negb (first t)) eqn:T; [|discriminate E]. apply tok_true in T; [|kinds]. destruct ts as [|d ts].
    - injection E as <- <-. exists [t], (value t). split; [reflexivity|]. split; [constructor; exact T|]. split; reflexivity.
    - destruct (is_type Dot d && negb (first d)) eqn:D.
      + apply IH in E; [|cbn in L; lia]. destruct E as (l & m & -> & N & -> & O). apply tok_true in D; [|kinds]. exists (t :: d :: l), (value t ++ b "." ++ m). split; [reflexivity|]. split; [constructor; assumption|].
        split; [rewrite <- !app_assoc; reflexivity|exact O].
      + injection E as <- <-. exists [t], (value t). split; [reflexivity|]. split; [constructor; exact T|]. split; [reflexivity|exact D]. }
  apply (G (length ts)). apply Nat.le_refl.
Qed.
Lemma dotted_complete l m : dotted_name l m -> forall n ts', on_line Dot ts' = false -> dotted n (l ++ ts') = Some (n ++ m, ts').
Proof.
  induction 1 as [t T|t d ts m T D N IH]; intros n ts' O; cbn [app dotted]; rewrite (proj2 (tok_true Identifier t ltac:(kinds)) T).
  - destruct ts' as [|d ts']; [reflexivity|]. cbn [on_line] in O. rewrite O. reflexivity.
  - rewrite (proj2 (tok_true Dot d ltac:(kinds)) D), IH by exact O. rewrite <- !app_assoc. reflexivity.
Qed.
Lemma attributes_sound ts : forall ts', attributes ts = Some ts' -> exists l s, ts = l ++ s :: ts' /\ Forall same_line l /\ Forall (fun t => type t <> Semi) l /\ tok Semi s.
Proof.
  induction ts as [|t ts IH]; intros ts' E; [discriminate E|]. cbn [attributes] in E. destruct (is_type Semi t) eqn:S.
  - destruct (first t) eqn:F; [discriminate E|]. injection E as <-. exists [], t. split; [reflexivity|]. split; [constructor|]. split; [constructor|]. split; [apply is_type_eq in S; [exact S|kinds]|exact F].
  - destruct (first t) eqn:F; [discriminate E|]. destruct (IH _ E) as (l & s & -> & H1 & H2 & H3). exists (t :: l), s. split; [reflexivity|]. split; [constructor; assumption|]. split; [|exact H3].
    constructor; [|exact H2]. intros H. apply is_type_eq in H; [congruence|kinds].
Qed.
Lemma attributes_complete l s ts' : Forall same_line l -> Forall (fun t => type t <> Semi) l -> tok Semi s -> attributes (l ++ s :: ts') = Some ts'.
Proof.
  intros H1 H2 [H3 H4]. induction l as [|t l IH]; cbn [app attributes].
  - apply (is_type_eq Semi) in H3; [|kinds]. rewrite H3, H4. reflexivity.
  - apply Forall_cons_iff in H1, H2. destruct H1 as [S1 H1], H2 as [S2 H2]. destruct (is_type Semi t) eqn:T; [apply is_type_eq in T; [contradiction|kinds]|]. rewrite S1. apply IH; assumption.
Qed.
(* The rest of a declaration. *)
Lemma rest_sound not ts ts' : attributes ts = Some ts' -> (forall x, In x not -> In x [Identifier; Dot; Colon; Semi; Less; Greater; Str] /\ on_line x ts = false) -> exists r, ts = r ++ ts' /\ rest_of not r.
Proof.
  intros E N. destruct (attributes_sound _ _ E) as (l & s & -> & H1 & H2 & H3). exists (l ++ [s]). split; [rewrite <- app_assoc; reflexivity|]. constructor; [exact H1|exact H2|exact H3|].
  destruct l as [|t l]; [exact I|]. intros Hin. destruct (N _ Hin) as [K O]. assert (X : on_line (type t) ((t :: l) ++ s :: ts') = true); [|congruence].
  apply on_line_true; [exact K|]. eexists _, _. split; [reflexivity|]. apply Forall_cons_iff in H1. split; [reflexivity|apply H1].
Qed.
Lemma rest_complete not r ts' : rest_of not r -> attributes (r ++ ts') = Some ts' /\
  (forall x, In x not -> In x [Identifier; Dot; Colon; Less; Greater; Str] -> on_line x (r ++ ts') = false).
Proof.
  intros [l s H1 H2 H3 H4]. rewrite <- app_assoc. cbn [app]. split; [apply attributes_complete; assumption|].
  intros x Hx K. destruct (on_line x (l ++ s :: ts')) eqn:O; [|reflexivity]. exfalso. apply on_line_true in O; [|cbn in K |- *; tauto]. destruct O as (t & ts & E & T & _). destruct l as [|t' l].
  - injection E as <- _. destruct H3 as [H3 _]. rewrite H3 in T. subst x. cbn in K. repeat (destruct K as [K|K]; [discriminate K|]). exact K.
  - injection E as <- _. apply H4. rewrite T. exact Hx.
Qed.

(* The effect of a declaration. *)
Definition step (u : unit_) (d : decl) : option unit_ :=
  let add t n ex := Some (mkunit (utype u) (uname u) (add_import (mkimport t n ex) (imports u)) (marker u)) in
  match d with
  | Marker => Some (mkunit (utype u) (uname u) (imports u) true)
  | ModuleDecl ex n p =>
      match uname u with
      | [] => Some (mkunit (match p with Some _ => if ex then ModuleIntfPart else ModuleImplPart | None => if ex then ModuleIntf else ModuleImpl end)
                      (match p with Some p => n ++ b ":" ++ p | None => n end) (imports u) (marker u))
      | _ => None
      end
  | Import ex n => add ImportIntf n ex
  | Part ex p =>
      match utype u with
      | ModuleIntf | ModuleImpl => add ImportPart (uname u ++ b ":" ++ p) ex
      | ModuleIntfPart | ModuleImplPart => add ImportPart (before_colon (uname u) ++ b ":" ++ p) ex
      | NonModular => None
      end
  | Header => Some u
  end.
Lemma dotted_head l m : dotted_name l m -> exists t l', l = t :: l' /\ tok Identifier t.
Proof. intros [t T|t d ts n T _ _]; eauto. Qed.
Lemma not_on_line x y t ts : tok x t -> x <> y -> In y [Identifier; Dot; Colon; Semi; Less; Greater; Str] -> on_line y (t :: ts) = false.
Proof. intros [T _] N I. destruct (on_line y (t :: ts)) eqn:O; [|reflexivity]. apply on_line_true in O; [|exact I]. destruct O as (t' & ts' & E & T' & _). injection E as <- <-. congruence. Qed.
Lemma is_on_line x t ts : tok x t -> In x [Identifier; Dot; Colon; Semi; Less; Greater; Str] -> on_line x (t :: ts) = true.
Proof. intros T I. apply on_line_true; [exact I|eauto]. Qed.

Lemma module_sound ex ts u ts' u' : parse_module ex ts u = Some (ts', u') -> exists l d, ts = l ++ ts' /\ module_decl ex l d /\ step u d = Some u'.
Proof.
  unfold parse_module. destruct (negb ex && on_line Semi ts) eqn:M; intros E.
  - injection E as <- <-. apply andb_true_iff in M. destruct M as [M1 M2]. apply negb_true_iff in M1. apply on_line_true in M2; [|kinds]. destruct M2 as (s & ts1 & -> & T). exists [s], Marker.
    split; [reflexivity|]. split; [constructor; assumption|reflexivity].
  - unfold parse_module_name, parse_module_part in E. destruct (dotted [] ts) as [[n ts1]|] eqn:D; [|discriminate E]. destruct (dotted_sound _ _ _ _ D) as (l & m & -> & N & -> & O). cbn [app andb] in E.
    destruct (on_line Colon ts1) eqn:C.
    + apply on_line_true in C; [|kinds]. destruct C as (c & ts2 & -> & Tc). cbn [tl] in E. destruct (dotted (m ++ b ":") ts2) as [[n2 ts3]|] eqn:D2; [|discriminate E].
      destruct (dotted_sound _ _ _ _ D2) as (l2 & m2 & -> & N2 & -> & O2). destruct (attributes ts3) as [ts4|] eqn:A; [|discriminate E]. destruct (uname u) eqn:Un; [|discriminate E]. injection E as <- <-.
      destruct (rest_sound [Dot] _ _ A) as (r & -> & Hr); [intros x [<-|[]]; split; [kinds|exact O2]|]. exists (l ++ c :: l2 ++ r), (ModuleDecl ex m (Some m2)).
      split; [rewrite <- app_assoc; cbn [app]; rewrite <- app_assoc; reflexivity|]. split; [constructor; assumption|]. cbn [step]. rewrite Un, <- app_assoc. reflexivity.
    + destruct (attributes ts1) as [ts2|] eqn:A; [|discriminate E]. destruct (uname u) eqn:Un; [|discriminate E]. injection E as <- <-.
      destruct (rest_sound [Dot; Colon] _ _ A) as (r & -> & Hr); [intros x [<-|[<-|[]]]; (split; [kinds|assumption])|]. exists (l ++ r), (ModuleDecl ex m None).
      split; [rewrite <- app_assoc; reflexivity|]. split; [constructor; assumption|]. cbn [step]. rewrite Un. reflexivity.
Qed.
Lemma module_complete ex l d u ts' : module_decl ex l d -> parse_module ex (l ++ ts') u = match step u d with Some u' => Some (ts', u') | None => None end.
Proof.
  intros [s -> T|ts n r N R|ts n c ps p r N T P R]; unfold parse_module.
  - cbn [app negb andb tl]. rewrite (is_on_line _ _ _ T) by kinds. reflexivity.
  - destruct (rest_complete _ _ ts' R) as [A O]. rewrite <- app_assoc. destruct (dotted_head _ _ N) as (t & ts1 & E & Ti). rewrite E. cbn [app]. rewrite (not_on_line _ Semi _ _ Ti) by (discriminate || kinds). rewrite andb_false_r.
    change (t :: ts1 ++ r ++ ts') with ((t :: ts1) ++ r ++ ts'). rewrite <- E. unfold parse_module_name. rewrite (dotted_complete _ _ N) by (apply O; kinds). cbn [app andb]. rewrite O by kinds. rewrite A. cbn [step]. destruct (uname u); reflexivity.
  - destruct (rest_complete _ _ ts' R) as [A O]. rewrite <- app_assoc. cbn [app]. rewrite <- app_assoc. destruct (dotted_head _ _ N) as (t & ts1 & E & Ti). rewrite E. cbn [app]. rewrite (not_on_line _ Semi _ _ Ti) by (discriminate || kinds). rewrite andb_false_r.
    change (t :: ts1 ++ c :: ps ++ r ++ ts') with ((t :: ts1) ++ c :: ps ++ r ++ ts'). rewrite <- E. unfold parse_module_name, parse_module_part.
    rewrite (dotted_complete _ _ N) by (apply (not_on_line _ _ _ _ T); [discriminate|kinds]). cbn [app andb]. rewrite (is_on_line _ _ _ T) by kinds. cbn [tl].
    rewrite (dotted_complete _ _ P) by (apply O; kinds). rewrite A. cbn [step]. rewrite <- app_assoc. destruct (uname u); reflexivity.
Qed.
Lemma header_sound ts : forall ts', header_rest ts = Some ts' -> exists l g, ts = l ++ g :: ts' /\ Forall same_line l /\ Forall (fun t => type t <> Greater) l /\ type g = Greater.
Proof.
  induction ts as [|t ts IH]; intros ts' E; [discriminate E|]. cbn [header_rest] in E. destruct (is_type Greater t) eqn:G.
  - injection E as <-. exists [], t. split; [reflexivity|]. split; [constructor|]. split; [constructor|]. apply is_type_eq in G; [exact G|kinds].
  - destruct (first t) eqn:F; [discriminate E|]. destruct (IH _ E) as (l & g & -> & H1 & H2 & H3). exists (t :: l), g. split; [reflexivity|]. split; [constructor; assumption|]. split; [|exact H3].
    constructor; [|exact H2]. intros H. apply is_type_eq in H; [congruence|kinds].
Qed.
Lemma header_complete l g ts' : Forall same_line l -> Forall (fun t => type t <> Greater) l -> type g = Greater -> header_rest (l ++ g :: ts') = Some ts'.
Proof.
  intros H1 H2 H3. induction l as [|t l IH]; cbn [app header_rest].
  - apply (is_type_eq Greater) in H3; [|kinds]. rewrite H3. reflexivity.
  - apply Forall_cons_iff in H1, H2. destruct H1 as [S1 H1], H2 as [S2 H2]. destruct (is_type Greater t) eqn:T; [apply is_type_eq in T; [contradiction|kinds]|]. rewrite S1. apply IH; assumption.
Qed.
Lemma import_sound ex ts u ts' u' : parse_import ex ts u = Some (ts', u') -> exists l d, ts = l ++ ts' /\ import_decl ex l d /\ step u d = Some u'.
Proof.
  unfold parse_import. destruct (on_line Less ts || on_line Str ts) eqn:H; intros E.
  - unfold parse_header_name in E. destruct ts as [|t ts]; [discriminate E|]. destruct (is_type Str t) eqn:S.
    + destruct (attributes ts) as [ts1|] eqn:A; [|discriminate E]. injection E as <- <-. destruct (rest_sound [] _ _ A) as (r & -> & Hr); [intros x []|]. exists (t :: r), Header. split; [reflexivity|]. split; [|reflexivity].
      constructor; [|exact Hr]. apply is_type_eq in S; [|kinds]. apply orb_true_iff in H. destruct H as [H|H]; apply on_line_true in H; try kinds; destruct H as (t' & ts' & E & T1 & T2); injection E as <- <-; [congruence|split; assumption].
    + destruct (header_rest ts) as [ts1|] eqn:Hd; [|discriminate E]. destruct (header_sound _ _ Hd) as (l & g & -> & H1 & H2 & H3). destruct (attributes ts1) as [ts2|] eqn:A; [|discriminate E]. injection E as <- <-.
      destruct (rest_sound [] _ _ A) as (r & -> & Hr); [intros x []|]. exists (t :: l ++ g :: r), Header. split; [cbn [app]; rewrite <- app_assoc; reflexivity|]. split; [|reflexivity].
      apply id_angle; try assumption. apply orb_true_iff in H. destruct H as [H|H]; apply on_line_true in H; try kinds; destruct H as (t' & ts' & E & T); injection E as <- <-; [exact T|].
      destruct T as [T _]. apply (is_type_eq Str) in T; [congruence|kinds].
  - assert (Add : forall t n ts1, match attributes ts1 with None => None | Some ts => Some (ts, mkunit (utype u) (uname u) (add_import (mkimport t n ex) (imports u)) (marker u)) end = Some (ts', u') -> on_line Dot ts1 = false ->
      exists r, ts1 = r ++ ts' /\ rest_of [Dot] r /\ u' = mkunit (utype u) (uname u) (add_import (mkimport t n ex) (imports u)) (marker u)).
    { intros t n ts1 E1 O. destruct (attributes ts1) as [ts2|] eqn:A; [|discriminate E1]. injection E1 as <- <-. destruct (rest_sound [Dot] _ _ A) as (r & -> & Hr); [intros x [<-|[]]; split; [kinds|exact O]|]. eauto. }
    destruct (on_line Colon ts) eqn:C.
    + apply on_line_true in C; [|kinds]. destruct C as (c & ts1 & -> & Tc). unfold parse_module_part in E. cbn [tl] in E.
      assert (P : forall un, match dotted (un ++ b ":") ts1 with None => None | Some (n, ts) => match attributes ts with None => None | Some ts => Some (ts, mkunit (utype u) (uname u) (add_import (mkimport ImportPart n ex) (imports u)) (marker u)) end end = Some (ts', u') ->
        exists ps p r, c :: ts1 = (c :: ps ++ r) ++ ts' /\ import_decl ex (c :: ps ++ r) (Part ex p) /\ u' = mkunit (utype u) (uname u) (add_import (mkimport ImportPart (un ++ b ":" ++ p) ex) (imports u)) (marker u)).
      { intros un E1. destruct (dotted (un ++ b ":") ts1) as [[n ts2]|] eqn:D; [|discriminate E1]. destruct (dotted_sound _ _ _ _ D) as (l & m & -> & N & -> & O). destruct (Add _ _ _ E1 O) as (r & -> & Hr & ->).
        exists l, m, r. split; [cbn [app]; rewrite <- app_assoc; reflexivity|]. split; [constructor; assumption|]. rewrite <- app_assoc. reflexivity. }
      destruct (utype u) eqn:Ut; try discriminate E; rewrite <- Ut in E, P; destruct (P _ E) as (ps & p & r & -> & Hi & ->); eexists _, _; (split; [reflexivity|]); (split; [exact Hi|]); cbn [step]; rewrite Ut; reflexivity.
    + unfold parse_module_name in E. destruct (dotted [] ts) as [[n ts1]|] eqn:D; [|discriminate E]. cbn [andb] in E. destruct (dotted_sound _ _ _ _ D) as (l & m & -> & N & -> & O). cbn [app] in E.
      destruct (Add _ _ _ E O) as (r & -> & Hr & ->). exists (l ++ r), (Import ex m). split; [rewrite <- app_assoc; reflexivity|]. split; [constructor; assumption|reflexivity].
Qed.
Lemma import_complete ex l d u ts' : import_decl ex l d -> parse_import ex (l ++ ts') u = match step u d with Some u' => Some (ts', u') | None => None end.
Proof.
  intros [ts n r N R|c ps p r T P R|s r T R|l0 ts g r T H1 H2 H3 R]; destruct (rest_complete _ _ ts' R) as [A O]; unfold parse_import.
  - rewrite <- app_assoc. destruct (dotted_head _ _ N) as (t & ts1 & E & Ti). rewrite E. cbn [app]. rewrite !(not_on_line _ _ _ _ Ti) by (discriminate || kinds). cbn [orb].
    change (t :: ts1 ++ r ++ ts') with ((t :: ts1) ++ r ++ ts'). rewrite <- E. unfold parse_module_name. rewrite (dotted_complete _ _ N) by (apply O; kinds). cbn [app andb]. rewrite A. reflexivity.
  - cbn [app]. rewrite <- app_assoc. rewrite !(not_on_line _ _ _ _ T) by (discriminate || kinds). cbn [orb]. rewrite (is_on_line _ _ _ T) by kinds. unfold parse_module_part. cbn [tl].
    cbn [step]. destruct (utype u) eqn:Ut; try reflexivity; rewrite (dotted_complete _ _ P) by (apply O; kinds); rewrite A, <- app_assoc; reflexivity.
  - cbn [app]. rewrite (is_on_line _ _ _ T) by kinds. rewrite orb_true_r. cbn [parse_header_name]. destruct T as [T _]. apply (is_type_eq Str) in T; [|kinds]. rewrite T, A. reflexivity.
  - cbn [app]. rewrite <- app_assoc. cbn [app]. rewrite (is_on_line _ _ _ T) by kinds. cbn [orb parse_header_name]. destruct T as [T _]. destruct (is_type Str l0) eqn:S; [apply is_type_eq in S; [congruence|kinds]|].
    rewrite header_complete by assumption. rewrite A. reflexivity.
Qed.

(* The syntax. *)
Lemma module_key c id : is_module c id = true <-> module_keyword c id.
Proof. unfold is_module, module_keyword. rewrite orb_true_iff, andb_true_iff, !beqb_eq. destruct c; cbn; intuition congruence. Qed.
Lemma import_key c id : is_import c id = true <-> import_keyword c id.
Proof. unfold is_import, import_keyword. rewrite orb_true_iff, andb_true_iff, !beqb_eq. destruct c; cbn; intuition congruence. Qed.
Lemma import_not_module c id : import_keyword c id -> is_module c id = false.
Proof. intros [->|[-> ->]]; [destruct c|]; reflexivity. Qed.
Lemma on_follows l ts : (forall x, In x l -> In x [Identifier; Dot; Colon; Semi; Less; Greater; Str]) -> existsb (fun x => on_line x ts) l = true <-> follows l ts.
Proof.
  intros K. rewrite existsb_exists. unfold follows. split.
  - intros (x & Hx & O). apply on_line_true in O; [|apply K; exact Hx]. destruct O as (t & ts' & -> & T & S). exists t, ts'. split; [reflexivity|]. split; [exact S|]. rewrite T. exact Hx.
  - intros (t & ts' & -> & S & Hx). exists (type t). split; [exact Hx|]. apply on_line_true; [apply K; exact Hx|]. exists t, ts'. split; [reflexivity|]. split; [reflexivity|exact S].
Qed.
Lemma follows_module ts : on_line Semi ts || on_line Identifier ts = true <-> follows [Semi; Identifier] ts.
Proof. rewrite <- on_follows by (cbn; intuition (subst; auto)). cbn [existsb]. rewrite orb_false_r. reflexivity. Qed.
Lemma follows_import ts : on_line Less ts || on_line Colon ts || on_line Str ts || on_line Identifier ts = true <-> follows [Less; Colon; Str; Identifier] ts.
Proof. rewrite <- on_follows by (cbn; intuition (subst; auto)). cbn [existsb]. rewrite orb_false_r, !orb_assoc. reflexivity. Qed.
Lemma module_follows ex l d ts : module_decl ex l d -> follows [Semi; Identifier] (l ++ ts).
Proof.
  intros [s _ [T S]|l0 n r N _|l0 n c ps p r N _ _ _].
  - exists s, ts. rewrite T. split; [reflexivity|]. split; [exact S|left; reflexivity].
  - destruct (dotted_head _ _ N) as (t & l' & -> & T & S). eexists t, _. rewrite T. split; [reflexivity|]. split; [exact S|right; left; reflexivity].
  - destruct (dotted_head _ _ N) as (t & l' & -> & T & S). eexists t, _. rewrite T. split; [reflexivity|]. split; [exact S|right; left; reflexivity].
Qed.
Lemma import_follows ex l d ts : import_decl ex l d -> follows [Less; Colon; Str; Identifier] (l ++ ts).
Proof.
  intros [l0 n r N _|c ps p r [T S] _ _|s r [T S] _|l0 l1 g r [T S] _ _ _ _].
  - destruct (dotted_head _ _ N) as (t & l' & -> & T & S). eexists t, _. rewrite T. split; [reflexivity|]. split; [exact S|cbn; tauto].
  - eexists _, _. rewrite T. split; [reflexivity|]. split; [exact S|cbn; tauto].
  - eexists _, _. rewrite T. split; [reflexivity|]. split; [exact S|cbn; tauto].
  - eexists _, _. rewrite T. split; [reflexivity|]. split; [exact S|cbn; tauto].
Qed.
(* What the keyword function does. *)
Lemma keyword_cases c ex id ts k u :
  (module_keyword c id /\ follows [Semi; Identifier] ts /\ keyword c k ex id ts u = match parse_module ex ts u with Some (ts, u) => k ts u | None => None end) \/
  (import_keyword c id /\ follows [Less; Colon; Str; Identifier] ts /\ keyword c k ex id ts u = match parse_import ex ts u with Some (ts, u) => k ts u | None => None end) \/
  (~ (module_keyword c id /\ follows [Semi; Identifier] ts) /\ ~ (import_keyword c id /\ follows [Less; Colon; Str; Identifier] ts) /\ keyword c k ex id ts u = k ts u).
Proof.
  unfold keyword. destruct (is_module c id) eqn:M.
  - assert (NI : ~ import_keyword c id) by (intros H; apply import_not_module in H; congruence). destruct (on_line Semi ts || on_line Identifier ts) eqn:F.
    + left. split; [apply module_key; exact M|]. split; [apply follows_module; exact F|reflexivity].
    + right; right. split; [intros [_ H]; apply follows_module in H; congruence|]. split; [tauto|reflexivity].
  - assert (NM : ~ module_keyword c id) by (intros H; apply module_key in H; congruence). destruct (is_import c id) eqn:Im.
    + destruct (on_line Less ts || on_line Colon ts || on_line Str ts || on_line Identifier ts) eqn:F.
      * right; left. split; [apply import_key; exact Im|]. split; [apply follows_import; exact F|reflexivity].
      * right; right. split; [tauto|]. split; [intros [_ H]; apply follows_import in H; congruence|reflexivity].
    + right; right. split; [tauto|]. split; [|reflexivity]. intros [H _]. apply import_key in H. congruence.
Qed.
Lemma leads_cases ex l id t ts : leads ex l id -> forall r, l ++ r = t :: ts -> type t = Identifier /\ first t = true /\
  ((ex = false /\ l = [t] /\ id = value t /\ r = ts /\ value t <> b "export") \/ (exists i, ex = true /\ l = [t; i] /\ id = value i /\ ts = i :: r /\ value t = b "export" /\ tok Identifier i)).
Proof.
  intros [t' T F V|e i T F V Ti] r E; injection E as -> E.
  - split; [exact T|]. split; [exact F|]. left. repeat (split; [assumption || reflexivity|]). assumption.
  - split; [exact T|]. split; [exact F|]. right. exists i. repeat (split; [assumption || reflexivity || (symmetry; assumption)|]). assumption.
Qed.
Lemma other_not_candidate c t ts : (type t <> Identifier \/ first t = false) -> ~ candidate c (t :: ts).
Proof.
  intros H C. remember (t :: ts) as s eqn:E. destruct C as [ex l id ts' L _ _|ex l id ts' L _ _]; destruct (leads_cases _ _ _ _ _ L _ E) as (T & F & _); destruct H; congruence.
Qed.

Definition run (u : option unit_) (ds : list decl) : option unit_ := fold_left (fun u d => match u with Some u => step u d | None => None end) ds u.
Lemma run_none ds : run None ds = None.
Proof. induction ds; [reflexivity|exact IHds]. Qed.
Lemma run_cons u d ds : run (Some u) (d :: ds) = run (step u d) ds.
Proof. reflexivity. Qed.

(* One step on an identifier that can start a declaration. *)
Lemma loop_keyword n c t ts u : type t = Identifier -> first t = true -> value t <> b "export" ->
  parse_loop (S n) c 0 (t :: ts) u = keyword c (parse_loop n c 0) false (value t) ts u.
Proof. intros T F V. cbn [parse_loop]. rewrite T, F. cbn [Nat.eqb andb]. destruct (beqb (value t) (b "export")) eqn:E; [apply beqb_eq in E; contradiction|reflexivity]. Qed.
Lemma loop_export n c t i ts u : type t = Identifier -> first t = true -> value t = b "export" -> tok Identifier i ->
  parse_loop (S n) c 0 (t :: i :: ts) u = keyword c (parse_loop n c 0) true (value i) ts u.
Proof. intros T F V Ti. cbn [parse_loop]. rewrite T, F, V. cbn [Nat.eqb andb]. rewrite beqb_refl, (is_on_line _ _ _ Ti) by kinds. reflexivity. Qed.
Lemma loop_export_not n c t ts u : type t = Identifier -> first t = true -> value t = b "export" -> on_line Identifier ts = false ->
  parse_loop (S n) c 0 (t :: ts) u = parse_loop n c 0 ts u.
Proof. intros T F V O. cbn [parse_loop]. rewrite T, F, V. cbn [Nat.eqb andb]. rewrite beqb_refl, O. destruct ts; reflexivity. Qed.
Lemma loop_other n c bb t ts u : type t <> LBrace -> type t <> RBrace -> (bb <> 0 \/ type t <> Identifier \/ first t = false) ->
  parse_loop (S n) c bb (t :: ts) u = parse_loop n c bb ts u.
Proof.
  intros N1 N2 H. cbn [parse_loop]. destruct (type t) eqn:T; try reflexivity; try congruence. destruct bb as [|bb]; [|reflexivity]. destruct (first t) eqn:F; [|reflexivity]. destruct H as [H|[H|H]]; congruence.
Qed.

Lemma loop_sound n : forall c bb ts u u', parse_loop n c bb ts u = Some u' -> exists ds, declares c bb ts ds /\ run (Some u) ds = Some u'.
Proof.
  induction n as [|n IH]; intros c bb ts u u' E; [discriminate E|]. destruct ts as [|t ts]; [injection E as <-; exists []; split; [constructor|reflexivity]|].
  assert (KW : forall ex l id r, leads ex l id -> t :: ts = l ++ r -> keyword c (parse_loop n c 0) ex id r u = Some u' ->
     (exists ds, declares c 0 (t :: ts) ds /\ run (Some u) ds = Some u') \/ (~ candidate c (t :: ts) /\ parse_loop n c 0 r u = Some u')).
  { intros ex l id r L El K. rewrite El. destruct (keyword_cases c ex id r (parse_loop n c 0) u) as [(M & F & Ek)|[(M & F & Ek)|(NM & NI & Ek)]]; rewrite Ek in K.
    - left. destruct (parse_module ex r u) as [[ts1 u1]|] eqn:P; [|discriminate K]. destruct (module_sound _ _ _ _ _ P) as (l1 & d & -> & D & Sd). destruct (IH _ _ _ _ _ K) as (ds & Hd & R).
      exists (d :: ds). rewrite app_assoc. split; [apply ds_decl; [eapply dc_module; eassumption|exact Hd]|]. rewrite run_cons, Sd. exact R.
    - left. destruct (parse_import ex r u) as [[ts1 u1]|] eqn:P; [|discriminate K]. destruct (import_sound _ _ _ _ _ P) as (l1 & d & -> & D & Sd). destruct (IH _ _ _ _ _ K) as (ds & Hd & R).
      exists (d :: ds). rewrite app_assoc. split; [apply ds_decl; [eapply dc_import; eassumption|exact Hd]|]. rewrite run_cons, Sd. exact R.
    - right. split; [|exact K]. rewrite <- El. intros C. remember (t :: ts) as s eqn:Es. symmetry in El. destruct C as [ex' l' id' r' L' M' F'|ex' l' id' r' L' M' F'].
      + destruct (leads_cases _ _ _ _ _ L' _ Es) as (_ & _ & H'). rewrite Es in El. destruct (leads_cases _ _ _ _ _ L _ El) as (_ & _ & H).
        destruct H as [(_ & _ & -> & -> & V)|(i & _ & _ & -> & X & V & _)], H' as [(_ & _ & E1 & E2 & V')|(i' & _ & _ & E1 & E2 & V' & _)]; try contradiction; [apply NM; rewrite <- E1, <- E2; split; assumption|]. rewrite X in E2. injection E2 as -> ->. apply NM; rewrite <- E1; split; assumption.
      + destruct (leads_cases _ _ _ _ _ L' _ Es) as (_ & _ & H'). rewrite Es in El. destruct (leads_cases _ _ _ _ _ L _ El) as (_ & _ & H).
        destruct H as [(_ & _ & -> & -> & V)|(i & _ & _ & -> & X & V & _)], H' as [(_ & _ & E1 & E2 & V')|(i' & _ & _ & E1 & E2 & V' & _)]; try contradiction; [apply NI; rewrite <- E1, <- E2; split; assumption|]. rewrite X in E2. injection E2 as -> ->. apply NI; rewrite <- E1; split; assumption. }
  destruct (type t) eqn:T; try (rewrite loop_other in E by (rewrite ?T; try discriminate; right; left; discriminate);
    destruct (IH _ _ _ _ _ E) as (ds & Hd & R); exists ds; split; [apply ds_other; [rewrite T; discriminate|rewrite T; discriminate| |exact Hd]; intros _; apply other_not_candidate; left; rewrite T; discriminate|exact R]).
  - (* { *) cbn [parse_loop] in E. rewrite T in E. destruct (IH _ _ _ _ _ E) as (ds & Hd & R). exists ds. split; [apply ds_open; assumption|exact R].
  - (* } *) cbn [parse_loop] in E. rewrite T in E. destruct bb as [|bb].
    + injection E as <-. exists []. split; [apply ds_extra; exact T|reflexivity].
    + destruct (IH _ _ _ _ _ E) as (ds & Hd & R). exists ds. split; [apply ds_close; assumption|exact R].
  - (* identifier *)
    destruct bb as [|bb]; [|rewrite loop_other in E by (rewrite ?T; try discriminate; left; discriminate); destruct (IH _ _ _ _ _ E) as (ds & Hd & R); exists ds; split; [apply ds_other; [rewrite T; discriminate|rewrite T; discriminate|discriminate|exact Hd]|exact R]].
    destruct (first t) eqn:F; [|rewrite loop_other in E by (rewrite ?T; try discriminate; right; right; exact F); destruct (IH _ _ _ _ _ E) as (ds & Hd & R); exists ds;
      split; [apply ds_other; [rewrite T; discriminate|rewrite T; discriminate|intros _; apply other_not_candidate; right; exact F|exact Hd]|exact R]].
    destruct (beqb (value t) (b "export")) eqn:V.
    + apply beqb_eq in V. destruct (on_line Identifier ts) eqn:O.
      * apply on_line_true in O; [|kinds]. destruct O as (i & r & -> & Ti). rewrite loop_export in E by assumption. destruct (KW true [t; i] (value i) r (le_export _ _ T F V Ti) eq_refl E) as [G|[NC K]]; [exact G|].
        destruct (IH _ _ _ _ _ K) as (ds & Hd & R). exists ds. split; [|exact R]. destruct Ti as [Ti Si].
        apply ds_other; [rewrite T; discriminate|rewrite T; discriminate|intros _; exact NC|]. apply ds_other; [rewrite Ti; discriminate|rewrite Ti; discriminate|intros _; apply other_not_candidate; right; exact Si|exact Hd].
      * rewrite loop_export_not in E by assumption. destruct (IH _ _ _ _ _ E) as (ds & Hd & R). exists ds. split; [|exact R]. apply ds_other; [rewrite T; discriminate|rewrite T; discriminate| |exact Hd]. intros _ C.
        remember (t :: ts) as s eqn:Es. destruct C as [ex' l' id' r' L' M' F'|ex' l' id' r' L' M' F'];
          destruct (leads_cases _ _ _ _ _ L' _ Es) as (_ & _ & [(_ & _ & _ & _ & X)|(i & _ & _ & _ & -> & _ & Ti)]); try contradiction; rewrite (is_on_line _ _ _ Ti) in O by kinds; discriminate O.
    + assert (V' : value t <> b "export") by (intros X; apply beqb_eq in X; congruence). rewrite loop_keyword in E by assumption. destruct (KW false [t] (value t) ts (le_keyword _ T F V') eq_refl E) as [G|[NC K]]; [exact G|].
      destruct (IH _ _ _ _ _ K) as (ds & Hd & R). exists ds. split; [|exact R]. apply ds_other; [rewrite T; discriminate|rewrite T; discriminate|intros _; exact NC|exact Hd].
Qed.

Lemma leads_length ex l id : leads ex l id -> length l >= 1.
Proof. intros []; cbn; lia. Qed.
Lemma loop_complete c bb ts ds : declares c bb ts ds -> forall n u u', n > length ts -> run (Some u) ds = Some u' -> parse_loop n c bb ts u = Some u'.
Proof.
  induction 1 as [bb|bb t ts ds T H IH|bb t ts ds T H IH|t ts T|l d ts ds D H IH|bb t ts ds N1 N2 NC H IH]; intros n u u' L R; (destruct n as [|n]; [lia|]).
  - exact R.
  - cbn [parse_loop]. rewrite T. apply IH; [cbn in L; lia|exact R].
  - cbn [parse_loop]. rewrite T. apply IH; [cbn in L; lia|exact R].
  - cbn [parse_loop]. rewrite T. exact R.
  - rewrite run_cons in R. destruct (step u d) as [u1|] eqn:Sd; [|rewrite run_none in R; discriminate R].
    assert (KW : exists ex l0 id l1, l = l0 ++ l1 /\ leads ex l0 id /\ keyword c (parse_loop n c 0) ex id (l1 ++ ts) u = parse_loop n c 0 ts u1).
    { destruct D as [ex l0 id l1 d L0 M Dm|ex l0 id l1 d L0 M Dm]; exists ex, l0, id, l1; (split; [reflexivity|]); (split; [exact L0|]).
      - destruct (keyword_cases c ex id (l1 ++ ts) (parse_loop n c 0) u) as [(_ & _ & Ek)|[(M' & _)|(NM & _)]].
        + rewrite Ek, (module_complete _ _ _ _ _ Dm), Sd. reflexivity.
        + apply import_not_module in M'. apply module_key in M. congruence.
        + exfalso. apply NM. split; [exact M|eapply module_follows; exact Dm].
      - destruct (keyword_cases c ex id (l1 ++ ts) (parse_loop n c 0) u) as [(M' & _)|[(_ & _ & Ek)|(_ & NM & _)]].
        + apply import_not_module in M. apply module_key in M'. congruence.
        + rewrite Ek, (import_complete _ _ _ _ _ Dm), Sd. reflexivity.
        + exfalso. apply NM. split; [exact M|eapply import_follows; exact Dm]. }
    destruct KW as (ex & l0 & id & l1 & -> & L0 & Ek). pose proof (leads_length _ _ _ L0) as Ln. rewrite !app_length in L. rewrite <- app_assoc.
    rewrite <- (IH n u1 u') by (lia || exact R). rewrite <- Ek. destruct L0 as [t T F V|e i T F V Ti]; [apply loop_keyword|apply loop_export]; assumption.
  - cbn [length] in L. destruct (type t) eqn:T; try congruence; try (rewrite loop_other by (rewrite ?T; congruence || (right; left; congruence)); apply IH; [lia|exact R]).
    destruct bb as [|bb]; [|rewrite loop_other by (rewrite ?T; try discriminate; left; discriminate); apply IH; [lia|exact R]]. specialize (NC eq_refl).
    destruct (first t) eqn:F; [|rewrite loop_other by (rewrite ?T; try discriminate; right; right; exact F); apply IH; [lia|exact R]].
    destruct (beqb (value t) (b "export")) eqn:V.
    + apply beqb_eq in V. destruct (on_line Identifier ts) eqn:O; [|rewrite loop_export_not by assumption; apply IH; [lia|exact R]].
      apply on_line_true in O; [|kinds]. destruct O as (i & r & -> & Ti). rewrite loop_export by assumption. pose proof (le_export _ _ T F V Ti) as Ld.
      destruct (keyword_cases c true (value i) r (parse_loop n c 0) u) as [(M & Fo & _)|[(M & Fo & _)|(_ & _ & Ek)]]; [exfalso; apply NC; exact (cd_module c _ _ _ _ Ld M Fo)|exfalso; apply NC; exact (cd_import c _ _ _ _ Ld M Fo)|].
      rewrite Ek. cbn [length] in L, IH. rewrite <- (IH (S n) u u') by (lia || exact R). destruct Ti as [Ti Si]. symmetry. apply loop_other; [rewrite Ti; discriminate|rewrite Ti; discriminate|right; right; exact Si].
    + assert (V' : value t <> b "export") by (intros X; apply beqb_eq in X; congruence). rewrite loop_keyword by assumption. pose proof (le_keyword _ T F V') as Ld.
      destruct (keyword_cases c false (value t) ts (parse_loop n c 0) u) as [(M & Fo & _)|[(M & Fo & _)|(_ & _ & Ek)]]; [exfalso; apply NC; exact (cd_module c _ _ _ _ Ld M Fo)|exfalso; apply NC; exact (cd_import c _ _ _ _ Ld M Fo)|].
      rewrite Ek. apply IH; [lia|exact R].
Qed.

(* The meaning. *)
Definition proper_decl (d : decl) : Prop :=
  match d with
  | ModuleDecl _ n _ => n <> [] /\ ~ In ":"%char n
  | _ => True
  end.
Lemma dotted_proper l m : dotted_name l m -> proper_tokens l -> m <> [] /\ ~ In ":"%char m.
Proof.
  induction 1 as [t [T _]|t d ts m [T _] [D _] N IH]; intros P; destruct (P t (or_introl eq_refl) T) as [V1 V2]; [split; assumption|].
  destruct IH as [I1 I2]; [intros x Hx; apply P; right; right; exact Hx|]. split; [destruct (value t); [contradiction|discriminate]|]. intros H. apply in_app_iff in H. destruct H as [H|H]; [contradiction|]. destruct H as [H|H]; [discriminate H|contradiction].
Qed.
Lemma proper_app_l a z : proper_tokens (a ++ z) -> proper_tokens a.
Proof. intros P t H. apply P. apply in_app_iff. left. exact H. Qed.
Lemma proper_app_r a z : proper_tokens (a ++ z) -> proper_tokens z.
Proof. intros P t H. apply P. apply in_app_iff. right. exact H. Qed.
Lemma module_proper ex l d : module_decl ex l d -> proper_tokens l -> proper_decl d.
Proof. intros [s _ _|ts n r N _|ts n c ps p r N _ _ _] P; [exact I| |]; apply (dotted_proper _ _ N); eapply proper_app_l; exact P. Qed.
Lemma declares_proper c bb ts ds : declares c bb ts ds -> proper_tokens ts -> Forall proper_decl ds.
Proof.
  induction 1 as [bb|bb t ts ds T H IH|bb t ts ds T H IH|t ts T|l d ts ds D H IH|bb t ts ds N1 N2 NC H IH]; intros P; try constructor; try (apply IH; apply (proper_app_r [t]); exact P).
  - apply proper_app_l in P. destruct D as [ex l0 id l1 d L0 M Dm|ex l0 id l1 d L0 M Dm]; [eapply module_proper; [exact Dm|eapply proper_app_r; exact P]|]. destruct Dm; exact I.
  - apply IH. eapply proper_app_r; exact P.
Qed.

Lemma before_colon_app n m : ~ In ":"%char n -> before_colon (n ++ ":"%char :: m) = n.
Proof.
  induction n as [|c n IH]; intros H; cbn [app before_colon]; [reflexivity|]. destruct (ceqb c ":"%char) eqn:E; [apply ceqb_eq in E; subst; exfalso; apply H; left; reflexivity|].
  rewrite IH; [reflexivity|]. intros X. apply H. right. exact X.
Qed.

(* Imports. *)
Lemma firsts_app seen l x : firsts seen (l ++ [x]) =
  firsts seen l ++ (if existsb (beqb (snd (fst x))) seen || existsb (fun y => beqb (snd (fst x)) (snd (fst y))) l then [] else [fst x]).
Proof.
  revert seen. induction l as [|[[t n] ex] l IH]; intros seen; cbn [app firsts existsb].
  - destruct x as [[t n] ex]. cbn. rewrite orb_false_r. destruct (existsb (beqb n) seen); reflexivity.
  - cbn [fst snd]. destruct (existsb (beqb n) seen) eqn:S.
    + rewrite IH. f_equal. destruct (beqb (snd (fst x)) n) eqn:E; [|reflexivity]. apply beqb_eq in E. rewrite E, S. reflexivity.
    + rewrite IH. cbn [app existsb]. f_equal. f_equal. destruct (beqb (snd (fst x)) n), (existsb (beqb (snd (fst x))) seen); reflexivity.
Qed.
Lemma firsts_names seen l n : In n (map snd (firsts seen l)) <-> existsb (beqb n) seen = false /\ existsb (fun y => beqb n (snd (fst y))) l = true.
Proof.
  revert seen. induction l as [|[[t m] ex] l IH]; intros seen; cbn [firsts existsb map]; [cbn; intuition congruence|]. cbn [fst snd].
  destruct (existsb (beqb m) seen) eqn:S.
  - rewrite IH. rewrite orb_true_iff, beqb_eq. split; [tauto|]. intros [H1 [->|H2]]; [congruence|tauto].
  - cbn [map In snd]. rewrite IH. cbn [existsb]. rewrite orb_true_iff, orb_false_iff. rewrite beqb_eq. destruct (beqb n m) eqn:E.
    + apply beqb_eq in E. subst. rewrite S. intuition congruence.
    + assert (m <> n) by (intros ->; rewrite beqb_refl in E; discriminate E). assert (n <> m) by congruence. tauto.
Qed.
Lemma firsts_nodup seen l : NoDup (map snd (firsts seen l)).
Proof.
  revert seen. induction l as [|[[t m] ex] l IH]; intros seen; cbn [firsts map]; [constructor|]. destruct (existsb (beqb m) seen) eqn:S; [apply IH|]. cbn [map snd]. constructor; [|apply IH].
  rewrite firsts_names. cbn [existsb]. rewrite beqb_refl. intros [X _]. discriminate X.
Qed.

Lemma add_import_new i l : (forall j, In j l -> iname j <> iname i) -> add_import i l = l ++ [i].
Proof.
  induction l as [|j l IH]; intros H; [reflexivity|]. cbn [add_import app]. destruct (beqb (iname j) (iname i)) eqn:E; [apply beqb_eq in E; exfalso; exact (H j (or_introl eq_refl) E)|].
  f_equal. apply IH. intros k Hk. apply H. right. exact Hk.
Qed.
Lemma add_import_old i l : NoDup (map iname l) -> In (iname i) (map iname l) ->
  add_import i l = map (fun j => if beqb (iname j) (iname i) then mkimport (itype j) (iname j) (exported j || exported i) else j) l.
Proof.
  induction l as [|j l IH]; intros N H; [destruct H|]. cbn [add_import map] in *. inversion N as [|? ? Nj Nl]; subst. destruct (beqb (iname j) (iname i)) eqn:E.
  - f_equal. apply beqb_eq in E. rewrite <- (map_id l) at 1. apply map_ext_in. intros k Hk. destruct (beqb (iname k) (iname i)) eqn:Ek; [|reflexivity]. apply beqb_eq in Ek. exfalso. apply Nj. rewrite E, <- Ek. apply in_map. exact Hk.
  - f_equal. apply IH; [exact Nl|]. destruct H as [H|H]; [rewrite H, beqb_refl in E; discriminate E|exact H].
Qed.
Lemma imports_add l t n ex : imports_of (l ++ [(t, n, ex)]) = add_import (mkimport t n ex) (imports_of l).
Proof.
  unfold imports_of. assert (N : map iname (map (fun '(t, n) => mkimport t n (existsb (fun '(_, m, ex) => beqb m n && ex) l)) (firsts [] l)) = map snd (firsts [] l)).
  { rewrite map_map. apply map_ext. intros [t' n']. reflexivity. }
  rewrite firsts_app. cbn [existsb fst snd orb]. destruct (existsb (fun y => beqb n (snd (fst y))) l) eqn:S.
  - rewrite app_nil_r, add_import_old; [| |].
    + rewrite map_map. apply map_ext. intros [t' n']. cbn [iname itype exported]. rewrite existsb_app. cbn [existsb]. rewrite orb_false_r. destruct (beqb n' n) eqn:E.
      * apply beqb_eq in E. subst n'. rewrite beqb_refl. reflexivity.
      * destruct (beqb n n') eqn:E'; [apply beqb_eq in E'; subst; rewrite beqb_refl in E; discriminate E|]. cbn [andb]. rewrite orb_false_r. reflexivity.
    + rewrite N. apply firsts_nodup.
    + rewrite N. cbn [iname]. apply firsts_names. split; [reflexivity|exact S].
  - rewrite map_app, add_import_new.
    + f_equal.
      * apply map_ext_in. intros [t' n'] H. f_equal. rewrite existsb_app. cbn [existsb]. rewrite orb_false_r. destruct (beqb n n') eqn:E'; [|cbn [andb]; rewrite orb_false_r; reflexivity]. apply beqb_eq in E'. subst n'.
        exfalso. apply (in_map snd) in H. apply firsts_names in H. destruct H as [_ H]. cbn [snd] in H. congruence.
      * cbn [map]. rewrite existsb_app. cbn [existsb]. rewrite beqb_refl. cbn [andb]. rewrite orb_false_r. f_equal. f_equal.
        assert (X : existsb (fun '(_, m, ex) => beqb m n && ex) l = false); [|rewrite X; reflexivity]. clear - S. induction l as [|[[t' m] ex'] l IH]; [reflexivity|]. cbn [existsb fst snd] in *. apply orb_false_iff in S. destruct S as [S1 S2].
        rewrite IH by exact S2. destruct (beqb m n) eqn:E; [apply beqb_eq in E; subst; rewrite beqb_refl in S1; discriminate S1|reflexivity].
    + intros j Hj. apply (in_map iname) in Hj. rewrite N in Hj. apply firsts_names in Hj. destruct Hj as [_ Hj]. cbn [iname]. intros X. rewrite X in Hj. congruence.
Qed.

(* Valid so far: without the condition on the marker. *)
Definition valid_so_far (ds : list decl) : Prop := length (modules ds) <= 1 /\ (forall a ex p z, ds = a ++ Part ex p :: z -> modules a <> []).
Lemma modules_app a z : modules (a ++ z) = modules a ++ modules z.
Proof. apply filter_app. Qed.
Lemma valid_snoc ds d : valid_so_far (ds ++ [d]) <-> valid_so_far ds /\ match d with ModuleDecl _ _ _ => modules ds = [] | Part _ _ => modules ds <> [] | _ => True end.
Proof.
  unfold valid_so_far. rewrite modules_app, app_length. split.
  - intros [H1 H2]. split; [split; [lia|]|].
    + intros a ex p z ->. apply (H2 a ex p (z ++ [d])). rewrite <- app_assoc. reflexivity.
    + destruct d as [|ex n p|ex n|ex p|]; try exact I; [cbn in H1; destruct (modules ds); [reflexivity|cbn in H1; lia]|]. exact (H2 ds ex p [] eq_refl).
  - intros [[H1 H2] H3]. split; [destruct d; try (cbn; lia); rewrite H3; cbn; lia|]. intros a ex p z E. destruct (exists_last (l := Part ex p :: z)) as (z' & x & Ez); [discriminate|]. rewrite Ez, app_assoc in E. apply app_inj_tail in E. destruct E as [E ->].
    destruct z' as [|y z'].
    + rewrite app_nil_r in E. subst. injection Ez as Ex _. subst x. exact H3.
    + injection Ez as <- Ez. apply (H2 a ex p z'). exact E.
Qed.
Lemma one_module ds : length (modules ds) <= 1 -> modules ds = [] \/ exists ex n p, modules ds = [ModuleDecl ex n p].
Proof.
  intros L. destruct (modules ds) as [|d l] eqn:E; [left; reflexivity|]. destruct l; [|cbn in L; lia]. assert (H : In d (modules ds)) by (rewrite E; left; reflexivity). apply filter_In in H. destruct H as [_ H]. destruct d; try discriminate H. right. eauto.
Qed.
Lemma imported_name ds1 ds2 l : module_name ds1 = module_name ds2 \/ (forall ex p, ~ In (Part ex p) l) ->
  flat_map (fun d => match d with Import ex n => [(ImportIntf, n, ex)] | Part ex p => [(ImportPart, module_name ds1 ++ b ":" ++ p, ex)] | _ => [] end) l =
  flat_map (fun d => match d with Import ex n => [(ImportIntf, n, ex)] | Part ex p => [(ImportPart, module_name ds2 ++ b ":" ++ p, ex)] | _ => [] end) l.
Proof.
  intros H. induction l as [|d l IH]; [reflexivity|]. cbn [flat_map]. rewrite IH; [|destruct H as [H|H]; [left; exact H|right; intros ex p X; apply (H ex p); right; exact X]].
  destruct d as [|ex n p|ex n|ex p|]; try reflexivity. destruct H as [H|H]; [rewrite H; reflexivity|]. exfalso. apply (H ex p). left. reflexivity.
Qed.
Lemma run_snoc u ds d : run u (ds ++ [d]) = match run u ds with Some u => step u d | None => None end.
Proof. unfold run. rewrite fold_left_app. reflexivity. Qed.

Lemma run_meaning ds : Forall proper_decl ds -> forall u, run (Some no_unit) ds = Some u <-> valid_so_far ds /\ u = unit_of ds.
Proof.
  induction ds as [|d ds IH] using rev_ind; intros P u.
  - split; [intros E; injection E as <-; split; [|reflexivity]; split; [cbn; lia|intros [|? ?] ? ? ? E; discriminate E]|intros [_ ->]; reflexivity].
  - apply Forall_app in P. destruct P as [P Pd]. apply Forall_inv in Pd. specialize (IH P). rewrite run_snoc, valid_snoc.
    assert (St : valid_so_far ds -> forall u, step (unit_of ds) d = Some u <-> match d with ModuleDecl _ _ _ => modules ds = [] | Part _ _ => modules ds <> [] | _ => True end /\ u = unit_of (ds ++ [d])).
    { clear u IH. intros V u. destruct V as [V1 V2]. assert (Mk : forall l, existsb (fun d => match d with Marker => true | _ => false end) (ds ++ [l]) = existsb (fun d => match d with Marker => true | _ => false end) ds || match l with Marker => true | _ => false end).
      { intros l. rewrite existsb_app. cbn [existsb]. rewrite orb_false_r. reflexivity. }
      assert (Same : modules (ds ++ [d]) = modules ds -> unit_of (ds ++ [d]) = mkunit (unit_type_of ds) (full_name ds) (imports_of (imported ds ++
          match d with Import ex n => [(ImportIntf, n, ex)] | Part ex p => [(ImportPart, module_name ds ++ b ":" ++ p, ex)] | _ => [] end))
          (existsb (fun d => match d with Marker => true | _ => false end) ds || match d with Marker => true | _ => false end)).
      { intros E. unfold unit_of, unit_type_of, full_name, imported. rewrite E, Mk, flat_map_app. cbn [flat_map]. rewrite app_nil_r. assert (En : module_name (ds ++ [d]) = module_name ds) by (unfold module_name; rewrite E; reflexivity).
        rewrite (imported_name _ ds ds (or_introl En)), En. reflexivity. }
      assert (S0 : match d with ModuleDecl _ _ _ => False | _ => True end -> modules (ds ++ [d]) = modules ds).
      { intros H. rewrite modules_app. destruct d; try destruct H; apply app_nil_r. }
      destruct d as [|ex n p|ex n|ex p|].
      - rewrite (Same (S0 I)), app_nil_r, orb_true_r. cbn [step]. split; [intros E; injection E as <-; split; [exact I|reflexivity]|intros [_ ->]; reflexivity].
      - cbn [step]. destruct (one_module _ V1) as [M|(ex' & n' & p' & M)].
        + assert (U : uname (unit_of ds) = []) by (cbn [unit_of uname]; unfold full_name; rewrite M; reflexivity). rewrite U.
          assert (M' : modules (ds ++ [ModuleDecl ex n p]) = [ModuleDecl ex n p]) by (rewrite modules_app, M; reflexivity).
          assert (E : unit_of (ds ++ [ModuleDecl ex n p]) = mkunit (match p with Some _ => if ex then ModuleIntfPart else ModuleImplPart | None => if ex then ModuleIntf else ModuleImpl end)
                      (match p with Some p => n ++ b ":" ++ p | None => n end) (imports (unit_of ds)) (marker (unit_of ds))).
          { unfold unit_of. cbn [imports marker]. rewrite Mk, orb_false_r. f_equal.
            - unfold unit_type_of. rewrite M'. destruct ex, p; reflexivity.
            - unfold full_name. rewrite M'. reflexivity.
            - f_equal. unfold imported. rewrite flat_map_app. cbn [flat_map]. rewrite app_nil_r. apply imported_name. right. intros ex' p' H. apply in_split in H. destruct H as (a & z & ->). apply (V2 a ex' p' z eq_refl).
              rewrite modules_app in M. apply app_eq_nil in M. apply M. }
          rewrite E. split; [intros H; injection H as <-; split; [exact M|reflexivity]|intros [_ ->]; reflexivity].
        + assert (U : uname (unit_of ds) <> []).
          { cbn [unit_of uname]. unfold full_name. rewrite M. assert (H : In (ModuleDecl ex' n' p') ds) by (assert (X : In (ModuleDecl ex' n' p') (modules ds)) by (rewrite M; left; reflexivity); apply filter_In in X; apply X).
            rewrite Forall_forall in P. apply P in H. destruct H as [H _]. destruct p'; [destruct n'; [contradiction|discriminate]|exact H]. }
          destruct (uname (unit_of ds)); [contradiction|]. split; [discriminate|]. intros [H _]. congruence.
      - rewrite (Same (S0 I)), imports_add, orb_false_r. cbn [step]. split; [intros E; injection E as <-; split; [exact I|reflexivity]|intros [_ ->]; reflexivity].
      - rewrite (Same (S0 I)), imports_add, orb_false_r. cbn [step]. destruct (one_module _ V1) as [M|(ex' & n' & p' & M)].
        + assert (U : utype (unit_of ds) = NonModular) by (cbn [unit_of utype]; unfold unit_type_of; rewrite M; reflexivity). rewrite U. split; [discriminate|intros [H _]; contradiction].
        + assert (H : In (ModuleDecl ex' n' p') ds) by (assert (X : In (ModuleDecl ex' n' p') (modules ds)) by (rewrite M; left; reflexivity); apply filter_In in X; apply X). rewrite Forall_forall in P. apply P in H. destruct H as [_ H].
          assert (Nn : modules ds <> []) by (rewrite M; discriminate). assert (Mn : module_name ds = n') by (unfold module_name; rewrite M; reflexivity). rewrite Mn.
          cbn [unit_of utype uname imports marker]. unfold unit_type_of, full_name. rewrite M.
          destruct ex', p' as [p'|]; cbv beta iota; try (change (b ":" ++ p') with (":"%char :: p'); rewrite before_colon_app by exact H); (split; [intros E; injection E as <-; split; [discriminate|reflexivity]|intros [_ ->]; reflexivity]).
      - rewrite (Same (S0 I)), app_nil_r, orb_false_r. cbn [step]. split; [intros E; injection E as <-; split; [exact I|reflexivity]|intros [_ ->]; reflexivity]. }
    split.
    + intros E. destruct (run (Some no_unit) ds) as [u1|]; [|discriminate E]. destruct (proj1 (IH u1) eq_refl) as [V ->]. apply (St V) in E. tauto.
    + intros [[V H] ->]. rewrite (proj2 (IH _) (conj V eq_refl)). apply (St V). tauto.
Qed.

Theorem parse_unit_correct c ts : proper_tokens ts -> forall u, parse_unit c ts = Some u <-> exists ds, declares c 0 ts ds /\ valid ds /\ u = unit_of ds.
Proof.
  intros P u. unfold parse_unit. assert (Mk : forall ds, Forall proper_decl ds -> valid_so_far ds -> (marker (unit_of ds) && match uname (unit_of ds) with [] => true | _ => false end = false <-> (In Marker ds -> modules ds <> []))).
  { intros ds Pd [V1 _]. cbn [unit_of marker uname]. assert (X : existsb (fun d => match d with Marker => true | _ => false end) ds = true <-> In Marker ds).
    { rewrite existsb_exists. split; [intros (d & H & E); destruct d; try discriminate E; exact H|intros H; exists Marker; auto]. }
    destruct (existsb (fun d => match d with Marker => true | _ => false end) ds); cbn [andb]; [|split; [intros _ H; apply X in H; discriminate H|reflexivity]].
    destruct (one_module _ V1) as [M|(ex' & n' & p' & M)]; unfold full_name; rewrite M.
    - split; [discriminate|]. intros H. exfalso. apply H; [apply X; reflexivity|reflexivity].
    - assert (H : In (ModuleDecl ex' n' p') ds) by (assert (Y : In (ModuleDecl ex' n' p') (modules ds)) by (rewrite M; left; reflexivity); apply filter_In in Y; apply Y). rewrite Forall_forall in Pd. apply Pd in H. destruct H as [H _].
      split; [intros _ _; discriminate|]. intros _. destruct p', n'; try contradiction; reflexivity. }
  split.
  - intros E. destruct (parse_loop _ c 0 ts no_unit) as [u1|] eqn:L; [|discriminate E]. destruct (loop_sound _ _ _ _ _ _ L) as (ds & D & R). pose proof (declares_proper _ _ _ _ D P) as Pd. apply (run_meaning _ Pd) in R. destruct R as [V ->].
    exists ds. split; [exact D|]. destruct (marker (unit_of ds) && _) eqn:M; [discriminate E|]. injection E as <-. pose proof (proj1 (Mk _ Pd V) M) as M'. destruct V as [V1 V2]. split; [split; [exact V1|split; [exact M'|exact V2]]|reflexivity].
  - intros (ds & D & (V1 & V2 & V3) & ->). pose proof (declares_proper _ _ _ _ D P) as Pd. assert (V : valid_so_far ds) by (split; assumption).
    rewrite (loop_complete _ _ _ _ D _ no_unit (unit_of ds)); [|lia|apply run_meaning; [exact Pd|split; [exact V|reflexivity]]]. rewrite (proj2 (Mk _ Pd V) V2). reflexivity.
Qed.

(* There is one reading. *)
Definition probe : unit_ := mkunit ModuleIntf [] [] false.
Lemma colon_split n1 p1 n2 p2 : ~ In ":"%char n1 -> ~ In ":"%char n2 -> n1 ++ b ":" ++ p1 = n2 ++ b ":" ++ p2 -> n1 = n2 /\ p1 = p2.
Proof.
  intros N1 N2 E. change (n1 ++ ":"%char :: p1 = n2 ++ ":"%char :: p2) in E. assert (n1 = n2) by (rewrite <- (before_colon_app n1 p1 N1), <- (before_colon_app n2 p2 N2), E; reflexivity). subst n2. split; [reflexivity|].
  apply app_inv_head in E. injection E as E. exact E.
Qed.
Lemma probe_some d : exists u, step probe d = Some u.
Proof. destruct d; eexists; reflexivity. Qed.
Lemma probe_inj d1 d2 : proper_decl d1 -> proper_decl d2 -> step probe d1 = step probe d2 -> d1 = d2.
Proof.
  intros P1 P2 E. destruct d1 as [|ex1 n1 p1|ex1 n1|ex1 p1|], d2 as [|ex2 n2 p2|ex2 n2|ex2 p2|]; cbn in E; try discriminate E; try reflexivity.
  - injection E as Et En. destruct p1 as [p1|], p2 as [p2|], ex1, ex2; try discriminate Et; try (rewrite En; reflexivity); destruct (colon_split _ _ _ _ (proj2 P1) (proj2 P2) En) as [-> ->]; reflexivity.
  - destruct P1 as [P1 _]. injection E as _ E. destruct p1, n1; try discriminate E; contradiction.
  - injection E as -> ->. reflexivity.
  - injection E as -> ->. reflexivity.
  - destruct P2 as [P2 _]. injection E as _ E. destruct p2, n2; try discriminate E; contradiction.
Qed.
Lemma declaration_leads c l d ts : declaration c l d -> exists ex l0 id l1, l = l0 ++ l1 /\ leads ex l0 id /\
  (forall k u, keyword c k ex id (l1 ++ ts) u = match step u d with Some u => k ts u | None => None end).
Proof.
  intros [ex l0 id l1 d' L0 M Dm|ex l0 id l1 d' L0 M Dm]; exists ex, l0, id, l1; (split; [reflexivity|]); (split; [exact L0|]); intros k u.
  - destruct (keyword_cases c ex id (l1 ++ ts) k u) as [(_ & _ & Ek)|[(M' & _)|(NM & _)]].
    + rewrite Ek, (module_complete _ _ _ _ _ Dm). destruct (step u d'); reflexivity.
    + apply import_not_module in M'. apply module_key in M. congruence.
    + exfalso. apply NM. split; [exact M|eapply module_follows; exact Dm].
  - destruct (keyword_cases c ex id (l1 ++ ts) k u) as [(M' & _)|[(_ & _ & Ek)|(_ & NM & _)]].
    + apply import_not_module in M. apply module_key in M'. congruence.
    + rewrite Ek, (import_complete _ _ _ _ _ Dm). destruct (step u d'); reflexivity.
    + exfalso. apply NM. split; [exact M|eapply import_follows; exact Dm].
Qed.
Lemma leads_same ex1 l1 id1 r1 ex2 l2 id2 r2 : leads ex1 l1 id1 -> leads ex2 l2 id2 -> l1 ++ r1 = l2 ++ r2 -> ex1 = ex2 /\ id1 = id2 /\ r1 = r2.
Proof.
  intros L1 L2 E. destruct l1 as [|t l1]; [inversion L1|]. cbn [app] in E. symmetry in E. destruct (leads_cases _ _ _ _ _ L2 _ E) as (_ & _ & H2).
  destruct (leads_cases _ _ _ t (l1 ++ r1) L1 r1 eq_refl) as (_ & _ & H1).
  destruct H1 as [(-> & _ & -> & -> & V)|(i & -> & _ & -> & X & V & _)], H2 as [(-> & _ & -> & -> & V')|(i' & -> & _ & -> & X' & V' & _)]; try contradiction; [auto|]. rewrite X in X'. injection X' as -> ->. auto.
Qed.
Lemma declaration_candidate c l d ts : declaration c l d -> candidate c (l ++ ts).
Proof.
  intros [ex l0 id l1 d' L0 M Dm|ex l0 id l1 d' L0 M Dm]; rewrite <- app_assoc; [eapply cd_module|eapply cd_import]; try eassumption; [eapply module_follows|eapply import_follows]; exact Dm.
Qed.
Lemma declaration_proper c l d : declaration c l d -> proper_tokens l -> proper_decl d.
Proof. intros [ex l0 id l1 d' L0 M Dm|ex l0 id l1 d' L0 M Dm] P; [eapply module_proper; [exact Dm|eapply proper_app_r; exact P]|]. destruct Dm; exact I. Qed.
Lemma declaration_unique c l1 d1 ts1 l2 d2 ts2 : proper_tokens (l1 ++ ts1) -> declaration c l1 d1 -> declaration c l2 d2 -> l1 ++ ts1 = l2 ++ ts2 -> l1 = l2 /\ d1 = d2 /\ ts1 = ts2.
Proof.
  intros P D1 D2 E. pose proof (declaration_proper _ _ _ D1 (proper_app_l _ _ P)) as P1. assert (P2 : proper_decl d2) by (apply (declaration_proper _ _ _ D2); rewrite E in P; exact (proper_app_l _ _ P)).
  destruct (declaration_leads _ _ _ ts1 D1) as (ex1 & a1 & id1 & z1 & -> & L1 & K1), (declaration_leads _ _ _ ts2 D2) as (ex2 & a2 & id2 & z2 & -> & L2 & K2).
  pose proof E as E'. rewrite <- !app_assoc in E'. destruct (leads_same _ _ _ _ _ _ _ _ L1 L2 E') as (-> & -> & Ez). rewrite Ez in K1.
  destruct (probe_some d1) as [u1 U1], (probe_some d2) as [u2 U2].
  assert (Ku : forall k, k ts1 u1 = k ts2 u2) by (intros k; specialize (K1 k probe); specialize (K2 k probe); rewrite U1 in K1; rewrite U2 in K2; congruence).
  assert (u1 = u2) by (specialize (Ku (fun _ u => Some u)); injection Ku as Ku; exact Ku). subst u2. assert (d1 = d2) by (apply probe_inj; [exact P1|exact P2|congruence]). subst d2.
  assert (Lt : length ts1 = length ts2).
  { specialize (Ku (fun ts _ => Some (mkunit NonModular [] (repeat (mkimport ImportIntf [] false) (length ts)) false))). injection Ku as Ku. apply (f_equal (@length import)) in Ku. rewrite !repeat_length in Ku. exact Ku. }
  assert (ts1 = ts2).
  { apply (f_equal (skipn (length ((a1 ++ z1) ++ ts1) - length ts1))) in E. rewrite !app_length in E. assert (A : length (a1 ++ z1) + length ts1 = length (a2 ++ z2) + length ts2) by (rewrite <- !app_length; apply (f_equal (@length token)) in E'; rewrite !app_assoc in E'; exact E').
    rewrite !app_length in A. replace (length a1 + length z1 + length ts1 - length ts1) with (length (a1 ++ z1)) in E at 1 by (rewrite app_length; lia). rewrite skipn_app, skipn_all, Nat.sub_diag in E.
    replace (length a1 + length z1 + length ts1 - length ts1) with (length (a2 ++ z2)) in E by (rewrite app_length; lia). rewrite skipn_app, skipn_all, Nat.sub_diag in E. exact E. }
  subst ts2. split; [|split; reflexivity]. apply app_inv_tail in E. exact E.
Qed.
Lemma declares_unique c n ts ds1 : declares c n ts ds1 -> proper_tokens ts -> forall ds2, declares c n ts ds2 -> ds1 = ds2.
Proof.
  assert (Kw : forall l d, declaration c l d -> exists t r, l = t :: r /\ type t = Identifier).
  { intros l d [ex l0 id l1 d' L0 _ _|ex l0 id l1 d' L0 _ _]; destruct L0 as [t T _ _|e i T _ _ _]; eexists _, _; (split; [reflexivity|exact T]). }
  induction 1 as [bb|bb t ts ds T H IH|bb t ts ds T H IH|t ts T|l d ts ds D H IH|bb t ts ds N1 N2 NC H IH]; intros P ds2 H2.
  - remember [] as s eqn:Es in H2. destruct H2; try discriminate Es; [reflexivity|]. apply app_eq_nil in Es. destruct Es as [-> _]. destruct (Kw _ _ H) as (? & ? & X & _). discriminate X.
  - remember (t :: ts) as s eqn:Es in H2. destruct H2 as [|? t' ts' ds' T' H'|? t' ts' ds' T' H'|t' ts' T'|l d ts' ds' D H'|? t' ts' ds' N1 N2 NC H']; try discriminate Es; try (injection Es as -> ->); try congruence.
    + apply IH; [eapply (proper_app_r [t]); exact P|exact H'].
    + destruct (Kw _ _ D) as (x & r & -> & X). injection Es as -> _. congruence.
  - remember (t :: ts) as s eqn:Es in H2. remember (S bb) as m eqn:Em in H2. destruct H2 as [|? t' ts' ds' T' H'|m' t' ts' ds' T' H'|t' ts' T'|l d ts' ds' D H'|? t' ts' ds' N1 N2 NC H']; try discriminate Es; try discriminate Em; try (injection Es as -> ->); try congruence.
    injection Em as ->. apply IH; [eapply (proper_app_r [t]); exact P|exact H'].
  - remember (t :: ts) as s eqn:Es in H2. remember 0 as m eqn:Em in H2. destruct H2 as [|? t' ts' ds' T' H'|m' t' ts' ds' T' H'|t' ts' T'|l d ts' ds' D H'|? t' ts' ds' N1 N2 NC H']; try discriminate Es; try discriminate Em; try (injection Es as -> ->); try congruence.
    destruct (Kw _ _ D) as (x & r & -> & X). injection Es as -> _. congruence.
  - remember (l ++ ts) as s eqn:Es in H2. remember 0 as m eqn:Em in H2. destruct (Kw _ _ D) as (x & r & El & X).
    destruct H2 as [m|m t' ts' ds' T' H'|m t' ts' ds' T' H'|t' ts' T'|l' d' ts' ds' D' H'|m t' ts' ds' N1 N2 NC H']; try discriminate Em.
    + rewrite El in Es. discriminate Es.
    + rewrite El in Es. injection Es as -> _. congruence.
    + rewrite El in Es. injection Es as -> _. congruence.
    + symmetry in Es. destruct (declaration_unique _ _ _ _ _ _ _ P D D' Es) as (_ & -> & ->). f_equal. apply IH; [eapply proper_app_r; exact P|exact H'].
    + exfalso. apply (NC Em). rewrite Es. eapply declaration_candidate. exact D.
  - remember (t :: ts) as s eqn:Es in H2. destruct H2 as [|? t' ts' ds' T' H'|? t' ts' ds' T' H'|t' ts' T'|l d ts' ds' D H'|? t' ts' ds' N1' N2' NC' H']; try discriminate Es; try (injection Es as -> ->); try congruence.
    + exfalso. apply (NC eq_refl). rewrite <- Es. eapply declaration_candidate. exact D.
    + apply IH; [eapply (proper_app_r [t]); exact P|exact H'].
Qed.

(* The lexer returns such tokens. *)
Lemma identifier_chars n : forall id st r c st', identifier n id st = Some (r, c, st') -> Forall (fun c => ident c = true) id -> id <> [] -> Forall (fun c => ident c = true) r /\ r <> [].
Proof.
  induction n as [|n IH]; intros id st r c st' E A N; [discriminate E|]. cbn [identifier] in E. destruct (peek true st) as [d st1]. destruct (ch d) as [x|]; [destruct (ident x) eqn:Ix|].
  - apply IH in E; [exact E|constructor; assumption|discriminate].
  - injection E as <- _ _. auto.
  - injection E as <- _ _. auto.
Qed.
Lemma next_token_proper n c f st t st' : next_token n c f st = Some (t, st') -> type t = Identifier -> value t <> [] /\ ~ In ":"%char (value t).
Proof.
  unfold next_token. intros E T. destruct (ch c) as [x|]; [|discriminate E].
  repeat match type of E with
  | (if ident x then _ else _) = _ => fail 1
  | (if ?b then _ else _) = _ => destruct b
  | (let '(_, _) := ?p in _) = _ => destruct p
  | match ?r with Some _ => _ | None => _ end = _ => destruct r; [|discriminate E]
  | Some (mktoken _ _ _ _, _) = _ => injection E as E _; subst t; first [discriminate T|cbn [type] in T; match type of T with context [if ?b then _ else _] => destruct b; discriminate T end]
  end.
  destruct (ident x) eqn:Ix.
  - destruct (identifier _ _ _) as [[[id d] st1]|] eqn:Id; [|discriminate E]. apply identifier_chars in Id; [|constructor; [exact Ix|constructor]|discriminate]. destruct Id as [A N].
    assert (G : t = mktoken Identifier f (rev id) (match log st with Some l => l | None => xline c end) -> value t <> [] /\ ~ In ":"%char (value t)).
    { intros ->. cbn [value]. split; [intros X; apply N; rewrite <- (rev_involutive id), X; reflexivity|]. intros X. rewrite <- in_rev in X. rewrite Forall_forall in A. apply A in X. discriminate X. }
    repeat match type of E with
    | (if ?b then _ else _) = _ => destruct b
    | (let '(_, _) := ?p in _) = _ => destruct p
    | match ?r with Some _ => _ | None => _ end = _ => destruct r; [|discriminate E]
    | Some (mktoken _ _ _ _, _) = _ => injection E as E _; first [apply G; symmetry; exact E|subst t; discriminate T]
    end.
  - repeat match type of E with
    | (if ?b then _ else _) = _ => destruct b
    | match ?r with Some _ => _ | None => _ end = _ => destruct r; [|discriminate E]
    | Some (mktoken _ _ _ _, _) = _ => injection E as E _; subst t; discriminate T
    end.
Qed.
Lemma next_proper n : forall pp st t st', next n pp st = Some (t, st') -> type t = Identifier -> value t <> [] /\ ~ In ":"%char (value t).
Proof.
  induction n as [|n IH]; intros pp st t st' E T; [discriminate E|]. cbn [next] in E. destruct (skip_spaces n true st) as [[[c f] st1]|]; [|discriminate E]. destruct (ch c) as [x|]; [|injection E as <- _; discriminate T].
  destruct (ceqb x "#"); [|eapply next_token_proper; eassumption]. destruct (directive _ _ _ _); [|discriminate E]. eapply IH; eassumption.
Qed.
Lemma lex_proper pp name s ts h : lex pp name s = Some (ts, h) -> proper_tokens ts.
Proof.
  unfold lex. destruct (lex_all _ pp _) as [[l st]|] eqn:L; [|discriminate]. intros E. injection E as <- _. revert L. generalize (start name s). generalize (3 * length s + 5)%nat. intros n. revert l st.
  induction n as [|n IH]; intros l st st0 E; [discriminate E|]. cbn [lex_all] in E. destruct (next n pp st0) as [[t st1]|] eqn:N; [|discriminate E]. assert (P : type t = Identifier -> value t <> [] /\ ~ In ":"%char (value t)) by (eapply next_proper; exact N).
  assert (G : match lex_all n pp st1 with Some (l, st) => Some (t :: l, st) | None => None end = Some (l, st) -> proper_tokens l).
  { destruct (lex_all n pp st1) as [[l1 st2]|] eqn:L1; [|discriminate]. intros X. injection X as <- _. intros x [<-|Hx]; [exact P|]. exact (IH _ _ _ L1 _ Hx). }
  destruct (type t) eqn:T; try (apply G; exact E). injection E as <- _. intros x [].
Qed.
