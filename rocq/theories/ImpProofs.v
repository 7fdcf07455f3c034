(* Proofs about importation. *)
From Coq Require Import Permutation.
From Verif Require Import Base ImpModel ImpSpec.

Lemma dir_eqb_eq a c : dir_eqb a c = true <-> a = c.
Proof.
  revert c. induction a as [|x a IH]; destruct c as [|y c]; cbn; split; try discriminate; auto.
  - intros H. apply andb_true_iff in H as [H1 H2]. apply beqb_eq in H1. apply IH in H2. congruence.
  - intros E. injection E as -> ->. rewrite beqb_refl. now apply IH.
Qed.
Lemma dir_eqb_neq a c : dir_eqb a c = false <-> a <> c.
Proof. rewrite <- dir_eqb_eq. destruct (dir_eqb a c); split; congruence. Qed.
Lemma sub_iff d r : sub d r = true <-> exists x, d = r ++ x.
Proof.
  revert d. induction r as [|y r IH]; intros d.
  - split; [intros _; now exists d | intros _; destruct d; reflexivity].
  - destruct d as [|x d]; [split; [discriminate | intros (z & E); discriminate]|]. cbn. rewrite andb_true_iff, IH, beqb_eq. split.
    + intros [-> (z & ->)]. now exists z.
    + intros (z & E). injection E as -> ->. eauto.
Qed.

Lemma get_app {A} k (a c : list (bytes * A)) : get k (a ++ c) = match get k a with Some v => Some v | None => get k c end.
Proof. induction a as [|[k' v] a IH]; cbn; [reflexivity|]. destruct (beqb k' k); auto. Qed.
Lemma get_none {A} k (a : list (bytes * A)) : get k a = None <-> ~ In k (map fst a).
Proof.
  induction a as [|[k' v] a IH]; cbn; [split; auto|]. destruct (beqb k' k) eqn:E.
  - apply beqb_eq in E. subst. split; [discriminate | intros H; destruct H; now left].
  - rewrite IH. split; [|auto]. intros H [->|I]; [now rewrite beqb_refl in E | auto].
Qed.

Section Sub.
Context (is_out is_src : list bytes -> bool) (pname : list bytes -> bool -> option bytes).
Notation scan := (scan is_out is_src pname).
Notation project_in := (project_in is_out is_src).
Notation named := (named pname).

Lemma named_iff sd src d k : named sd src d k <-> exists n, pname sd src = Some n /\ k = key_of n d.
Proof.
  unfold ImpSpec.named. split.
  - intros (n & E & H). exists n. split; [exact E|]. destruct H as [[N ->]|[-> ->]]; [destruct n; [congruence | reflexivity] | reflexivity].
  - intros (n & E & ->). exists n. split; [exact E|]. destruct n; cbn; [right; auto | left; split; [discriminate | reflexivity]].
Qed.
Lemma named_fun sd src d k k' : named sd src d k -> named sd src d k' -> k = k'.
Proof. rewrite !named_iff. intros (n & E & ->) (n' & E' & ->). congruence. Qed.

Lemma visible_iff e : hidden (de_name e) || negb (de_dir e) = false <-> visible e.
Proof.
  unfold visible. rewrite orb_false_iff, negb_false_iff. unfold hidden. destruct (de_name e) as [|c n].
  - split; [intros [? _]; discriminate | intros (_ & H & _); congruence].
  - rewrite ceqb_neq. split.
    + intros [H1 H2]. split; [auto|]. split; [discriminate|]. intros m E. congruence.
    + intros (H1 & _ & H2). split; [|auto]. intros ->. now apply (H2 n).
Qed.

(* Of one entry. *)
Definition proj1_ (r : list bytes) (out : bool) (e : dentry) (sd : list bytes) (src : bool) (d : bytes) : Prop := project_in r out [e] sd src d.
Lemma project_in_cons r out e es sd src d : project_in r out (e :: es) sd src d <-> project_in r out [e] sd src d \/ project_in r out es sd src d.
Proof.
  unfold ImpSpec.project_in. split.
  - intros (x & [->|I] & H); [left; exists x; split; [now left | exact H] | right; eauto].
  - intros [(x & [->|[]] & H)|(x & I & H)]; exists x; (split; [|exact H]); [now left | now right].
Qed.

Definition cand (r : list bytes) (out : bool) (es : list dentry) (k : bytes) (d : list bytes) : Prop :=
  exists sd src n, d = [n] /\ project_in r out es sd src n /\ named sd src n k.
Definition unnamed (r : list bytes) (out : bool) (es : list dentry) : Prop :=
  exists sd src n, project_in r out es sd src n /\ pname sd src = None.

Lemma scan_spec r out es : forall m,
  match scan r out es m with
  | Some m' => (forall k d, get k m' = Some d <-> get k m = Some d \/ cand r out es k d) /\ ~ unnamed r out es /\
               (NoDup (map fst m) -> NoDup (map fst m'))
  | None => unnamed r out es \/ exists k d d', d <> d' /\ (get k m = Some d \/ cand r out es k d) /\ cand r out es k d'
  end.
Proof.
  induction es as [|e es IH]; intros m; cbn -[dir_eqb get].
  - split; [|split; [|auto]].
    + intros k d. split; [auto|]. intros [H|(sd & src & n & _ & (x & [] & _) & _)]. exact H.
    + intros (sd & src & n & (x & [] & _) & _).
  - assert (CC : forall k d, cand r out (e :: es) k d <-> cand r out [e] k d \/ cand r out es k d).
    { intros k d. unfold cand. split.
      - intros (sd & src & n & E & P & N). apply project_in_cons in P as [P|P]; [left | right]; exists sd, src, n; auto.
      - intros [(sd & src & n & E & P & N)|(sd & src & n & E & P & N)]; exists sd, src, n; (split; [exact E|]; split; [|exact N]); apply project_in_cons; auto. }
    assert (UC : unnamed r out (e :: es) <-> unnamed r out [e] \/ unnamed r out es).
    { unfold unnamed. split.
      - intros (sd & src & n & P & N). apply project_in_cons in P as [P|P]; [left | right]; exists sd, src, n; auto.
      - intros [(sd & src & n & P & N)|(sd & src & n & P & N)]; exists sd, src, n; (split; [|exact N]); apply project_in_cons; auto. }
    assert (SKIP : (forall sd src n, ~ project_in r out [e] sd src n) -> 
      match scan r out es m with
      | Some m' => (forall k d, get k m' = Some d <-> get k m = Some d \/ cand r out (e :: es) k d) /\ ~ unnamed r out (e :: es) /\ (NoDup (map fst m) -> NoDup (map fst m'))
      | None => unnamed r out (e :: es) \/ exists k d d', d <> d' /\ (get k m = Some d \/ cand r out (e :: es) k d) /\ cand r out (e :: es) k d'
      end).
    { intros NP. assert (N1 : forall k d, ~ cand r out [e] k d) by (intros k d (sd & src & n & _ & P & _); eapply NP; eauto).
      assert (N2 : ~ unnamed r out [e]) by (intros (sd & src & n & P & _); eapply NP; eauto).
      specialize (IH m). destruct (scan r out es m) as [m'|].
      - destruct IH as (I1 & I2 & I3). split; [|split; [|exact I3]].
        + intros k d. rewrite CC, I1. specialize (N1 k d). tauto.
        + rewrite UC. tauto.
      - destruct IH as [I|(k & d & d' & D & A & C)]; [left; apply UC; now right|]. right. exists k, d, d'. rewrite !CC. tauto. }
    destruct (hidden (de_name e) || negb (de_dir e)) eqn:V.
    + apply SKIP. intros sd src n (x & [<-|[]] & V' & _). apply visible_iff in V'. congruence.
    + apply visible_iff in V. destruct (out && is_out (r ++ [de_name e]) || is_src (r ++ [de_name e])) eqn:P; cbn [negb].
      * set (sd := r ++ [de_name e]) in *. set (src := negb (out && is_out sd) && is_src sd).
        assert (PI : forall sd' src' n, project_in r out [e] sd' src' n <-> sd' = sd /\ src' = src /\ n = de_name e).
        { intros sd' src' n. unfold ImpSpec.project_in. split.
          - intros (x & [<-|[]] & _ & -> & -> & H). split; [reflexivity|]. split; [|reflexivity]. unfold src. fold sd in H.
            destruct H as [(-> & -> & ->)|([-> | ->] & -> & ->)]; [reflexivity | reflexivity | now rewrite andb_false_r].
          - intros (-> & -> & ->). exists e. split; [now left|]. split; [exact V|]. split; [reflexivity|]. split; [reflexivity|].
            unfold src. destruct out, (is_out sd), (is_src sd); cbn in *; try discriminate; auto. }
        assert (C1 : forall k d, cand r out [e] k d <-> d = [de_name e] /\ named sd src (de_name e) k).
        { intros k d. unfold cand. split.
          - intros (sd' & src' & n & -> & Q & N). apply PI in Q as (-> & -> & ->). auto.
          - intros [-> N]. exists sd, src, (de_name e). split; [reflexivity|]. split; [apply PI; auto | exact N]. }
        assert (U1 : unnamed r out [e] <-> pname sd src = None).
        { unfold unnamed. split.
          - intros (sd' & src' & n & Q & N). apply PI in Q as (-> & -> & ->). auto.
          - intros N. exists sd, src, (de_name e). split; [apply PI; auto | exact N]. }
        fold src. destruct (pname sd src) as [n|] eqn:N; [|left; apply UC; left; now apply U1].
        assert (NK : forall k, named sd src (de_name e) k <-> k = key_of n (de_name e)).
        { intros k. rewrite named_iff. split; [intros (n' & E & ->); congruence | intros ->; eauto]. }
        set (k0 := key_of n (de_name e)) in *. destruct (get k0 m) as [d1|] eqn:G.
        -- destruct (dir_eqb [de_name e] d1) eqn:D.
           ++ apply dir_eqb_eq in D. specialize (IH m). destruct (scan r out es m) as [m'|].
              ** destruct IH as (I1 & I2 & I3). split; [|split; [|exact I3]].
                 --- intros k d. rewrite CC, I1, C1, NK. split; [tauto|]. intros [H|[[-> ->]|H]]; auto. left. congruence.
                 --- rewrite UC, U1. intros [H|H]; [discriminate | auto].
              ** destruct IH as [I|(k & d & d' & D' & A & C)]; [left; apply UC; now right|]. right. exists k, d, d'. rewrite !CC. tauto.
           ++ right. apply dir_eqb_neq in D. exists k0, d1, [de_name e]. split; [congruence|]. split; [now left|]. rewrite CC, C1, NK. auto.
        -- specialize (IH (m ++ [(k0, [de_name e])])). assert (GA : forall k d, get k (m ++ [(k0, [de_name e])]) = Some d <-> get k m = Some d \/ d = [de_name e] /\ k = k0).
           { intros k d. rewrite get_app. destruct (get k m) as [d2|] eqn:G2.
             - split; [auto|]. intros [H|[-> ->]]; congruence.
             - cbn. destruct (beqb k0 k) eqn:B.
               + apply beqb_eq in B. subst k. split; [intros E; injection E as <-; auto | intros [H|[-> _]]; [discriminate | reflexivity]].
               + split; [discriminate|]. intros [H|[_ ->]]; [discriminate | now rewrite beqb_refl in B]. }
           destruct (scan r out es (m ++ [(k0, [de_name e])])) as [m'|].
           ++ destruct IH as (I1 & I2 & I3). split; [|split].
              ** intros k d. rewrite CC, I1, GA, C1, NK. tauto.
              ** rewrite UC, U1. intros [H|H]; [discriminate | auto].
              ** intros ND. apply I3. rewrite map_app. cbn. apply (Permutation_NoDup (Permutation_cons_append (map fst m) k0)).
                 constructor; [now apply get_none | exact ND].
           ++ destruct IH as [I|(k & d & d' & D' & A & C)]; [left; apply UC; now right|]. right. exists k, d, d'. rewrite GA in A.
              rewrite !CC, C1, NK. tauto.
      * apply SKIP. apply orb_false_iff in P as [P1 P2]. intros sd src n (x & [<-|[]] & _ & -> & -> & H). rewrite P2 in H.
        destruct H as [(-> & H & _)|(_ & H & _)]; [|discriminate]. rewrite H in P1. discriminate.
Qed.

Notation discover := (discover is_out is_src pname).
Notation subproject := (subproject is_out is_src pname).
Notation subdir := (subdir is_out is_src).

Lemma discover_spec o s oes ses :
  match discover o s oes ses with
  | Some m => NoDup (map fst m) /\ (forall k d, get k m = Some d <-> subproject o s oes ses k d) /\
              forall sd src n, subdir o s oes ses sd src n -> pname sd src <> None
  | None => (exists sd src n, subdir o s oes ses sd src n /\ pname sd src = None) \/
            exists k d d', d <> d' /\ subproject o s oes ses k d /\ subproject o s oes ses k d'
  end.
Proof.
  assert (SP : forall k d, subproject o s oes ses k d <-> cand o true oes k d \/ o <> s /\ cand s false ses k d).
  { intros k d. unfold ImpSpec.subproject, ImpSpec.subdir, cand. split.
    - intros (sd & src & n & E & [P|[X P]] & N); [left | right; split; [exact X|]]; exists sd, src, n; auto.
    - intros [(sd & src & n & E & P & N)|[X (sd & src & n & E & P & N)]]; exists sd, src, n; auto. }
  unfold ImpModel.discover. pose proof (scan_spec o true oes []) as H1. destruct (scan o true oes []) as [m|].
  - destruct H1 as (A1 & A2 & A3). destruct (dir_eqb o s) eqn:E.
    + apply dir_eqb_eq in E. split; [apply A3; constructor|]. split.
      * intros k d. rewrite A1, SP. cbn. intuition congruence.
      * intros sd src n [P|[X _]]; [|congruence]. intros N. apply A2. exists sd, src, n. auto.
    + apply dir_eqb_neq in E. pose proof (scan_spec s false ses m) as H2. destruct (scan s false ses m) as [m'|].
      * destruct H2 as (B1 & B2 & B3). split; [apply B3, A3; constructor|]. split.
        -- intros k d. rewrite B1, A1, SP. cbn. intuition congruence.
        -- intros sd src n [P|[_ P]] N; [apply A2 | apply B2]; exists sd, src, n; auto.
      * destruct H2 as [(sd & src & n & P & N)|(k & d & d' & D & A & C)].
        -- left. exists sd, src, n. split; [right; auto | exact N].
        -- right. exists k, d, d'. split; [exact D|]. rewrite !SP. rewrite A1 in A. cbn in A. intuition (try discriminate).
  - destruct H1 as [(sd & src & n & P & N)|(k & d & d' & D & A & C)].
    + left. exists sd, src, n. split; [left; exact P | exact N].
    + right. exists k, d, d'. split; [exact D|]. rewrite !SP. cbn in A. intuition discriminate.
Qed.

Lemma subdir_perm o s oes ses oes' ses' sd src n : (forall e, In e oes <-> In e oes') -> (forall e, In e ses <-> In e ses') ->
  subdir o s oes ses sd src n -> subdir o s oes' ses' sd src n.
Proof.
  intros O S [(e & I & H)|[X (e & I & H)]]; [left | right; split; [exact X|]]; exists e; (split; [|exact H]); [now apply O | now apply S].
Qed.

Lemma discover_perm o s oes ses oes' ses' k : (forall e, In e oes <-> In e oes') -> (forall e, In e ses <-> In e ses') ->
  option_map (get k) (discover o s oes ses) = option_map (get k) (discover o s oes' ses').
Proof.
  intros O S. assert (O' : forall e, In e oes' <-> In e oes) by (intros; symmetry; apply O). assert (S' : forall e, In e ses' <-> In e ses) by (intros; symmetry; apply S).
  assert (SP : forall k d, subproject o s oes ses k d <-> subproject o s oes' ses' k d).
  { intros k0 d. split; intros (sd & src & n & E & P & N); exists sd, src, n; (split; [exact E|]; split; [|exact N]); eapply subdir_perm; eauto. }
  assert (SOME : forall oes ses oes' ses' m, (forall sd src n, subdir o s oes' ses' sd src n -> subdir o s oes ses sd src n) ->
    (forall k d, subproject o s oes' ses' k d -> subproject o s oes ses k d) -> discover o s oes ses = Some m -> discover o s oes' ses' <> None).
  { intros oes1 ses1 oes2 ses2 m P1 P2 D N. pose proof (discover_spec o s oes1 ses1) as H1. pose proof (discover_spec o s oes2 ses2) as H2.
    rewrite D in H1. rewrite N in H2. destruct H1 as (_ & A & B). destruct H2 as [(sd & src & n & Q & Z)|(k0 & d & d' & X & Y & Z)].
    - eapply B; eauto.
    - apply P2, A in Y. apply P2, A in Z. congruence. }
  pose proof (discover_spec o s oes ses) as H1. pose proof (discover_spec o s oes' ses') as H2.
  destruct (discover o s oes ses) as [m|] eqn:D1, (discover o s oes' ses') as [m'|] eqn:D2; cbn.
  - f_equal. destruct H1 as (_ & A & _), H2 as (_ & A' & _). destruct (get k m) as [d|] eqn:G, (get k m') as [d'|] eqn:G'; auto.
    + apply A, SP, A' in G. congruence.
    + apply A, SP, A' in G. congruence.
    + apply A', SP, A in G'. congruence.
  - exfalso. eapply SOME; [| |exact D1|exact D2]; [intros; eapply subdir_perm; [apply O' | apply S' | eassumption] | intros; now apply SP].
  - exfalso. eapply SOME; [| |exact D2|exact D1]; [intros; eapply subdir_perm; [apply O | apply S | eassumption] | intros; now apply SP].
  - reflexivity.
Qed.
End Sub.

(* The list. *)
Section Listed.
Context (pname_at : list bytes -> option bytes).
Definition lname (x : option bytes * list bytes) : option bytes :=
  match fst x with Some n => Some n | None => option_map (fun n => key_of n (posix (snd x))) (pname_at (snd x)) end.
Lemma listed_get k l : forall m m', listed pname_at l m = Some m' ->
  get k m' = match get k m with
             | Some d => Some d
             | None => option_map snd (find (fun x => match lname x with Some n => beqb n k | None => false end) l)
             end.
Proof.
  induction l as [|[n d] l IH]; intros m m'; cbn [listed find].
  - intros E. injection E as ->. now destruct (get k m').
  - destruct (_ || bad_dir d); [discriminate|]. unfold lname at 1. cbn [fst snd].
    destruct (match n with Some n => Some n | None => _ end) as [k0|]; [|discriminate]. intros E. rewrite (IH _ _ E).
    destruct (get k0 m) as [d0|] eqn:G0.
    + destruct (get k m) eqn:G; [reflexivity|]. destruct (beqb k0 k) eqn:B; [apply beqb_eq in B; congruence | reflexivity].
    + rewrite get_app. destruct (get k m); [reflexivity|]. cbn. destruct (beqb k0 k); reflexivity.
Qed.
End Listed.

(* The nearest. *)
Lemma has_fun first proj r d d' : has first proj r d -> has first proj r d' -> d = d'.
Proof.
  intros [(A & B & ->)|([A|A] & s & B & ->)] [(A' & B' & ->)|([A'|A'] & s' & B' & ->)]; try congruence.
Qed.
Lemma has_iff first proj r :
  match (if negb first && beqb (r_name r) proj then Some (r_out r) else match get proj (r_subs r) with Some d => Some (r_out r ++ d) | None => None end) with
  | Some d => has first proj r d
  | None => forall d, ~ has first proj r d
  end.
Proof.
  destruct (negb first && beqb (r_name r) proj) eqn:E.
  - apply andb_true_iff in E as [E1 E2]. apply negb_true_iff in E1. apply beqb_eq in E2. left. auto.
  - assert (Q : first = true \/ r_name r <> proj).
    { destruct first; [now left|]. right. intros Q. apply beqb_eq in Q. cbn in E. congruence. }
    destruct (get proj (r_subs r)) as [s|] eqn:G; [right; eauto|]. intros d [(A & B & _)|(_ & s & B & _)]; [|congruence]. destruct Q; congruence.
Qed.
Lemma nearest_iff proj rs : forall first d, nearest first proj rs = Some d <->
  exists a r c, rs = a ++ r :: c /\ has (first && match a with [] => true | _ => false end) proj r d /\ (forall x, In x a -> r_amalg x = true) /\
    forall a1 x a2, a = a1 ++ x :: a2 -> forall d', ~ has (first && match a1 with [] => true | _ => false end) proj x d'.
Proof.
  induction rs as [|r rs IH]; intros first d; cbn [nearest].
  - split; [discriminate | intros ([|? ?] & ? & ? & E & _); discriminate].
  - pose proof (has_iff first proj r) as H. split.
    + intros E. assert (HERE : forall d0, has first proj r d0 -> d0 = d -> exists a r0 c, r :: rs = a ++ r0 :: c /\ has (first && match a with [] => true | _ => false end) proj r0 d /\
        (forall x, In x a -> r_amalg x = true) /\ forall a1 x a2, a = a1 ++ x :: a2 -> forall d', ~ has (first && match a1 with [] => true | _ => false end) proj x d').
      { intros d0 Q ->. exists [], r, rs. split; [reflexivity|]. split; [now rewrite andb_true_r|]. split; [contradiction|].
        intros a1 x a2 E'. destruct a1; discriminate. }
      destruct (negb first && beqb (r_name r) proj); [apply (HERE _ H); congruence|].
      destruct (get proj (r_subs r)) as [s|]; [apply (HERE _ H); congruence|]. destruct (r_amalg r) eqn:AM; [|discriminate].
      apply IH in E as (a & r0 & c & -> & E1 & E2 & E3). exists (r :: a), r0, c. split; [reflexivity|]. split; [now rewrite andb_false_r|]. split.
      * intros x [<-|I]; auto.
      * intros a1 x a2 E' d'. destruct a1 as [|y a1]; cbn in E'.
        -- injection E' as -> _. rewrite andb_true_r. apply H.
        -- injection E' as -> E'. rewrite andb_false_r. apply (E3 a1 x a2 E' d').
    + intros (a & r0 & c & E & E1 & E2 & E3). destruct a as [|y a]; cbn in E.
      * injection E as <- <-. rewrite andb_true_r in E1. destruct (negb first && beqb (r_name r) proj); [f_equal; eapply has_fun; eauto|].
        destruct (get proj (r_subs r)) as [s|]; [f_equal; eapply has_fun; eauto|]. exfalso. eapply H. eauto.
      * injection E as <- ->. assert (N : forall d', ~ has first proj r d').
        { intros d'. specialize (E3 [] r a eq_refl d'). now rewrite andb_true_r in E3. }
        destruct (negb first && beqb (r_name r) proj); [exfalso; eapply N; eauto|].
        destruct (get proj (r_subs r)) as [s|]; [exfalso; eapply N; eauto|]. rewrite (E2 r (or_introl eq_refl)).
        apply IH. exists a, r0, c. split; [reflexivity|]. rewrite andb_false_r in E1. split; [exact E1|]. split; [intros; apply E2; now right|].
        intros a1 x a2 -> d'. specialize (E3 (r :: a1) x a2 eq_refl d'). now rewrite andb_false_r in E3.
Qed.
