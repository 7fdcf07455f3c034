(* C83: what is imported. *)
From Coq Require Import Permutation.
From Verif Require Import Base ImpModel ImpSpec ImpProofs ImpProofs2.

Section Sub.
Context (is_out is_src : list bytes -> bool) (pname : list bytes -> bool -> option bytes).
Notation discover := (discover is_out is_src pname).
Notation subproject := (subproject is_out is_src pname).
Notation subdir := (subdir is_out is_src).

(* The subprojects discovered are exactly the subdirectories that are projects, each name once. *)
Theorem C83_discovered o s oes ses m : discover o s oes ses = Some m ->
  NoDup (map fst m) /\ forall k d, get k m = Some d <-> subproject o s oes ses k d.
Proof. intros E. pose proof (discover_spec is_out is_src pname o s oes ses) as H. rewrite E in H. tauto. Qed.

(* It fails exactly if the name of one of them cannot be found or two of them have the same. *)
Theorem C83_discovered_fails o s oes ses : discover o s oes ses = None <->
  (exists sd src n, subdir o s oes ses sd src n /\ pname sd src = None) \/
  exists k d d', d <> d' /\ subproject o s oes ses k d /\ subproject o s oes ses k d'.
Proof.
  pose proof (discover_spec is_out is_src pname o s oes ses) as H. split; [intros E; now rewrite E in H|].
  destruct (discover o s oes ses) as [m|]; [|reflexivity]. destruct H as (_ & A & B). intros [(sd & src & n & P & N)|(k & d & d' & D & X & Y)].
  - exfalso. eapply B; eauto.
  - apply A in X. apply A in Y. congruence.
Qed.

(* And this does not depend on the order in which the directories are listed. *)
Theorem C83_discovered_order o s oes ses oes' ses' k : Permutation oes oes' -> Permutation ses ses' ->
  option_map (get k) (discover o s oes ses) = option_map (get k) (discover o s oes' ses').
Proof.
  intros O S. apply discover_perm; intros e; split; intros I; (eapply Permutation_in; [|exact I]); auto; now apply Permutation_sym.
Qed.
End Sub.
Print Assumptions C83_discovered.
Print Assumptions C83_discovered_fails.
Print Assumptions C83_discovered_order.

Definition ex_name (d : list bytes) (_ : bool) : option bytes := match rev d with n :: _ => if beqb n (b "tests") then Some [] else Some (b "lib" ++ n) | [] => None end.
Definition ex_isrc (d : list bytes) : bool := negb (beqb (last d []) (b "doc")).
Example C83_discovered_ex : discover (fun _ => false) ex_isrc ex_name [b "o"] [b "s"] []
    [mkdentry (b "foo") true; mkdentry (b "doc") true; mkdentry (b ".git") true; mkdentry (b "tests") true; mkdentry (b "README") false] =
  Some [(b "libfoo", [b "foo"]); (b "tests/", [b "tests"])].
Proof. reflexivity. Qed.
Example C83_discovered_fails_ex : discover (fun _ => false) (fun _ => true) (fun _ _ => Some (b "foo")) [b "o"] [b "s"] []
    [mkdentry (b "a") true; mkdentry (b "b") true] = None.
Proof. reflexivity. Qed.

(* Of listed subprojects, the first with the name is the one. *)
Section Listed.
Context (pname_at : list bytes -> option bytes).
Definition called (x : option bytes * list bytes) (k : bytes) : Prop :=
  fst x = Some k \/ fst x = None /\ exists n, pname_at (snd x) = Some n /\ k = key_of n (posix (snd x)).
Lemma called_iff x k : match lname pname_at x with Some n => beqb n k | None => false end = true <-> called x k.
Proof.
  unfold lname, called. destruct x as [[n|] d]; cbn [fst snd].
  - rewrite beqb_eq. split; [intros ->; auto | intros [E|[E _]]; congruence].
  - destruct (pname_at d) as [n|]; cbn [option_map].
    + rewrite beqb_eq. split; [intros <-; right; eauto | intros [E|[_ (n' & E & ->)]]; congruence].
    + split; [discriminate | intros [E|[_ (n' & E & _)]]; congruence].
Qed.
Theorem C83_listed l m k d : listed pname_at l [] = Some m ->
  (get k m = Some d <-> exists a n c, l = a ++ (n, d) :: c /\ called (n, d) k /\ forall x, In x a -> ~ called x k).
Proof.
  intros E. rewrite (listed_get pname_at k l [] m E). cbn [get]. clear E. induction l as [|[n0 d0] l IH]; cbn [find].
  - split; [discriminate | intros ([|? ?] & ? & ? & E & _); discriminate].
  - pose proof (called_iff (n0, d0) k) as C. destruct (match lname pname_at (n0, d0) with Some n => beqb n k | None => false end).
    + cbn. split.
      * intros E. injection E as ->. exists [], n0, l. split; [reflexivity|]. split; [now apply C | contradiction].
      * intros ([|x a] & n & c & E & H & N); cbn in E; [congruence|]. injection E as <- _. exfalso. apply (N (n0, d0)); [now left | now apply C].
    + rewrite IH. split.
      * intros (a & n & c & -> & H & N). exists ((n0, d0) :: a), n, c. split; [reflexivity|]. split; [exact H|].
        intros x [<-|I]; [rewrite <- C; discriminate | auto].
      * intros ([|x a] & n & c & E & H & N); cbn in E; [injection E as -> -> ->; apply C in H; discriminate|]. injection E as <- ->.
        exists a, n, c. split; [reflexivity|]. split; [exact H|]. intros x I. apply N. now right.
Qed.
End Listed.
Print Assumptions C83_listed.
Example C83_listed_ex : listed (fun d => Some (last d [])) [(None, [b "foo"]); (Some (b "bar"), [b "x"; b "y"])] [] =
  Some [(b "foo", [b "foo"]); (b "bar", [b "x"; b "y"])].
Proof. reflexivity. Qed.

(* Two directories listed under one name are accepted and one of them is ignored; discovered, the same two are an error. *)
Theorem C83_listed_refuted : exists is_out is_src pname l m k d d',
  d <> d' /\ In (None, d) l /\ In (None, d') l /\ called (fun x => pname ([b "s"] ++ x) true) (None, d) k /\ called (fun x => pname ([b "s"] ++ x) true) (None, d') k /\
  listed (fun x => pname ([b "s"] ++ x) true) l [] = Some m /\ (forall k', get k' m <> Some d') /\
  discover is_out is_src pname [b "o"] [b "s"] [] (map (fun x => mkdentry (concat (snd x)) true) l) = None.
Proof.
  exists (fun _ => false), (fun _ => true), (fun _ _ => Some (b "foo")), [(None, [b "a"]); (None, [b "b"])], [(b "foo", [b "a"])], (b "foo"), [b "a"], [b "b"].
  split; [discriminate|]. split; [now left|]. split; [right; now left|]. split; [right; split; [reflexivity | now exists (b "foo")]|].
  split; [right; split; [reflexivity | now exists (b "foo")]|]. split; [reflexivity|]. split; [|reflexivity].
  intros k'. cbn [get]. destruct (beqb (b "foo") k'); discriminate.
Qed.
Print Assumptions C83_listed_refuted.

(* Without the variable, and unless the outer root scope is a simple project: amalgamated by the innermost of the enclosing project in the
   file system and the outer root scope. *)
Theorem C83_amalgamated ars enc : (forall ad, ars <> Some (ad, true)) ->
  (forall ad d, ars = Some (ad, false) -> enc = Some d -> sub d ad = true \/ sub ad d = true) ->
  exists r, amalgamation None ars enc = Some r /\
  (r = None <-> ars = None /\ enc = None) /\
  forall d, r = Some d -> (ars = Some (d, false) \/ enc = Some d) /\
    (forall ad, ars = Some (ad, false) -> sub d ad = true) /\ forall e, enc = Some e -> sub d e = true.
Proof.
  intros NS CH. assert (R : forall x, sub x x = true) by (intros x; apply sub_iff; exists []; now rewrite app_nil_r).
  destruct ars as [[ad [|]]|]; [destruct (NS ad eq_refl)| |].
  - destruct enc as [e|]; cbn [amalgamation].
    + destruct (negb (dir_eqb e ad) && sub e ad) eqn:Q.
      * apply andb_true_iff in Q as [_ Q]. exists (Some e). split; [reflexivity|]. split; [split; [discriminate | intros [? _]; discriminate]|].
        intros d E. injection E as <-. split; [now right|]. split; [intros a E; injection E as <-; exact Q | intros a E; injection E as <-; apply R].
      * exists (Some ad). split; [reflexivity|]. split; [split; [discriminate | intros [? _]; discriminate]|].
        intros d E. injection E as <-. split; [now left|]. split; [intros a E; injection E as <-; apply R|]. intros a E. injection E as <-.
        destruct (CH ad e eq_refl eq_refl) as [H|H]; [|exact H]. rewrite H, andb_true_r in Q. apply negb_false_iff, dir_eqb_eq in Q. subst. exact H.
    + exists (Some ad). split; [reflexivity|]. split; [split; [discriminate | intros [? _]; discriminate]|].
      intros d E. injection E as <-. split; [now left|]. split; [intros a E; injection E as <-; apply R | discriminate].
  - destruct enc as [e|]; cbn [amalgamation].
    + exists (Some e). split; [reflexivity|]. split; [split; [discriminate | intros [_ ?]; discriminate]|].
      intros d E. injection E as <-. split; [now right|]. split; [discriminate | intros a E; injection E as <-; apply R].
    + exists None. split; [reflexivity|]. split; [tauto | discriminate].
Qed.
Print Assumptions C83_amalgamated.
Example C83_amalgamated_ex : amalgamation None (Some ([b "a"], false)) (Some [b "a"; b "b"]) = Some (Some [b "a"; b "b"]) /\
  amalgamation None (Some ([b "a"; b "b"], false)) (Some [b "a"]) = Some (Some [b "a"; b "b"]).
Proof. split; reflexivity. Qed.

(* The variable, if set, is what it says: empty disables amalgamation, and one outside of the outer root scope is an error. *)
Theorem C83_amalgamation_set d ars enc r : amalgamation (Some d) ars enc = Some r ->
  r = (match d with [] => None | _ => Some d end) /\ (d <> [] -> forall ad s, ars = Some (ad, s) -> exists x, d = ad ++ x).
Proof.
  destruct d as [|x d]; cbn [amalgamation].
  - intros E. injection E as <-. split; [reflexivity | congruence].
  - destruct ars as [[ad s]|].
    + destruct (sub (x :: d) ad) eqn:Q; [|discriminate]. intros E. injection E as <-. split; [reflexivity|]. intros _ a s' E'. injection E' as <- <-.
      now apply sub_iff in Q.
    + intros E. injection E as <-. split; [reflexivity | discriminate].
Qed.
Print Assumptions C83_amalgamation_set.

(* A simple project that happens to be loaded hides the enclosing one further out. *)
Theorem C83_amalgamated_refuted : exists ad e, sub ad e = true /\ amalgamation None None (Some e) = Some (Some e) /\
  amalgamation None (Some (ad, true)) (Some e) = Some None.
Proof. exists [b "a"; b "b"], [b "a"]. repeat split. Qed.
Print Assumptions C83_amalgamated_refuted.

(* The nearest root of the chain, not beyond one that is not amalgamated, that has the project; the first is the one importing. *)
Theorem C83_nearest proj rs d : nearest true proj rs = Some d <->
  exists a r c, rs = a ++ r :: c /\ has (match a with [] => true | _ => false end) proj r d /\ (forall x, In x a -> r_amalg x = true) /\
    forall a1 x a2, a = a1 ++ x :: a2 -> forall d', ~ has (match a1 with [] => true | _ => false end) proj x d'.
Proof. apply (nearest_iff proj rs true d). Qed.
Print Assumptions C83_nearest.
Example C83_nearest_ex : nearest true (b "foo")
    [mkroot [b "a"; b "b"] (b "foo") [] true; mkroot [b "a"] (b "bar") [(b "foo", [b "c"])] true; mkroot [] (b "foo") [] false] = Some [b "a"; b "c"] /\
  nearest true (b "foo") [mkroot [b "a"; b "b"] (b "foo") [] false; mkroot [b "a"] (b "bar") [(b "foo", [b "c"])] true] = None.
Proof. split; reflexivity. Qed.

Section Search.
Context (cfg : bytes -> option (option path)) (import_build2 : option (list bytes)) (var_of sanitize : bytes -> bytes).
Context (icase_eq : bytes -> bytes -> bool) (path_based : option bytes -> option bool).
Notation search := (search cfg import_build2 var_of sanitize icase_eq path_based).

(* Variables that specify a target, the most specific first. *)
Definition specific (proj : bytes) (t : tgt) : list bytes :=
  match t_type t with
  | Some ty =>
    (if beqb ty (b "exe") && icase_eq (var_of proj) (sanitize (t_value t)) then [b "config." ++ var_of proj] else []) ++
    [b "config.import." ++ var_of proj ++ b "." ++ sanitize (t_value t) ++ b "." ++ sanitize ty]
  | None => []
  end ++ [b "config.import." ++ var_of proj ++ b "." ++ sanitize (t_value t)].

Lemma adhoc_first opt proj t a v c : specific proj t = a ++ v :: c -> (forall x, In x a -> cfg x = None) -> cfg v <> None ->
  exists exe, adhoc_lookup cfg var_of sanitize icase_eq opt proj t = lookup cfg opt v exe /\ lookup cfg opt v exe <> LUndef.
Proof.
  intros E A V. assert (NU : forall e, lookup cfg opt v e <> LUndef).
  { intros e. unfold lookup. destruct (cfg v) as [[p|]|]; [| |congruence].
    - destruct (p_empty p); [discriminate|]. destruct (negb e || to_directory p || negb (is_false p)); [discriminate|]. destruct opt; discriminate.
    - destruct opt; discriminate. }
  assert (U : forall x e, In x a -> lookup cfg opt x e = LUndef) by (intros x e I; unfold lookup; now rewrite (A x I)).
  assert (K : exists e, adhoc_lookup cfg var_of sanitize icase_eq opt proj t = lookup cfg opt v e); [|destruct K as (e & K); exists e; auto].
  unfold adhoc_lookup. rewrite <- !app_assoc. unfold specific in E. destruct (t_type t) as [ty|].
  - destruct (beqb ty (b "exe") && icase_eq (var_of proj) (sanitize (t_value t))).
    + destruct a as [|x a]; [injection E as <- _; exists (beqb ty (b "exe")); destruct (lookup cfg opt _ (beqb ty (b "exe"))) eqn:Q; auto; now apply NU in Q|].
      injection E as <- E. rewrite (U _ _ (or_introl eq_refl)). cbn [app] in E.
      destruct a as [|x a]; [injection E as <- _; exists (beqb ty (b "exe")); destruct (lookup cfg opt _ (beqb ty (b "exe"))) eqn:Q; auto; now apply NU in Q|].
      injection E as <- E. rewrite (U _ _ (or_intror (or_introl eq_refl))).
      destruct a as [|x a]; [injection E as <- _; exists false; reflexivity | destruct a; discriminate].
    + cbn [app] in E.
      destruct a as [|x a]; [injection E as <- _; exists (beqb ty (b "exe")); destruct (lookup cfg opt _ (beqb ty (b "exe"))) eqn:Q; auto; now apply NU in Q|].
      injection E as <- E. rewrite (U _ _ (or_introl eq_refl)).
      destruct a as [|x a]; [injection E as <- _; exists false; reflexivity | destruct a; discriminate].
  - cbn [app] in E. destruct a as [|x a]; [injection E as <- _; exists false; reflexivity | destruct a; discriminate].
Qed.
Lemma adhoc_undef opt proj t : (forall v, In v (specific proj t) -> cfg v = None) -> adhoc_lookup cfg var_of sanitize icase_eq opt proj t = LUndef.
Proof.
  intros A. assert (U : forall x e, In x (specific proj t) -> lookup cfg opt x e = LUndef) by (intros x e I; unfold lookup; now rewrite (A x I)).
  unfold adhoc_lookup. rewrite <- !app_assoc. unfold specific in U. destruct (t_type t) as [ty|].
  - destruct (beqb ty (b "exe") && icase_eq (var_of proj) (sanitize (t_value t))).
    + rewrite (U _ _ (or_introl eq_refl)), (U _ _ (or_intror (or_introl eq_refl))). apply U. right. right. now left.
    + rewrite (U _ _ (or_introl eq_refl)). apply U. right. now left.
  - apply U. now left.
Qed.

(* The most specific variable that is defined decides, whatever less specific ones, config.import.<proj> and the subprojects are: its path
   is the target's. *)
Theorem C83_configured base rs proj t opt subp a v c p : t_abs t = false -> proj <> [] -> t_value t <> [] ->
  specific proj t = a ++ v :: c -> (forall x, In x a -> cfg x = None) -> cfg v = Some (Some p) -> p_leaf p <> b "false" -> p_empty p = false ->
  path_based (t_type t) <> None ->
  exists pr, search base rs (Some proj) t opt subp =
    Outside pr (mktgt (p_abs p) (p_dir p) (t_type t) (if to_directory p then t_value t else p_leaf p)) /\
    (pr = None <-> p_abs p = true /\ path_based (t_type t) = Some true).
Proof.
  intros AB PN VN E A V NF NE PB. destruct (adhoc_first opt proj t a v c E A) as (e & K & _); [congruence|].
  assert (L : lookup cfg opt v e = LPath p).
  { unfold lookup. rewrite V, NE. replace (is_false p) with false; [now rewrite orb_true_r|]. symmetry. unfold is_false.
    destruct (beqb (p_leaf p) (b "false")) eqn:Q; [apply beqb_eq in Q; congruence | apply andb_false_r]. }
  unfold ImpModel.search. destruct proj as [|pc pr]; [congruence|]. rewrite AB.
  replace (match t_value t with [] => LUndef | _ :: _ => adhoc_lookup cfg var_of sanitize icase_eq opt (pc :: pr) t end) with (LPath p)
    by (destruct (t_value t); [congruence|]; congruence).
  destruct (p_abs p); cbn [negb].
  - cbn [t_type]. destruct (path_based (t_type t)) as [[|]|]; [| |congruence]; eexists; (split; [reflexivity|]); split; auto; try discriminate; intros [_ ?]; discriminate.
  - eexists. split; [reflexivity|]. split; [discriminate | intros [? _]; discriminate].
Qed.

(* Otherwise config.import.<proj> does, whatever the subprojects are; null or empty is to skip them. *)
Theorem C83_explicit base rs proj t opt subp p : t_abs t = false -> proj <> [] -> (forall v, In v (specific proj t) -> cfg v = None) ->
  cfg (b "config.import." ++ var_of proj) = Some p ->
  search base rs (Some proj) t opt subp =
    match p with Some p => if p_empty p then Phase2 proj t else At (Some proj) t (p_dir p) | None => Phase2 proj t end.
Proof.
  intros AB PN A V. unfold ImpModel.search. destruct proj as [|pc pr]; [congruence|]. rewrite AB, (adhoc_undef opt _ t A), V.
  destruct (t_value t), p; reflexivity.
Qed.

(* Otherwise, except for build2 itself, the nearest does, and if there is none then it is left to the second phase. *)
Theorem C83_searched base rs proj t opt : t_abs t = false -> proj <> [] -> proj <> b "build2" \/ import_build2 = None ->
  (forall v, In v (specific proj t) -> cfg v = None) -> cfg (b "config.import." ++ var_of proj) = None ->
  (forall d, search base rs (Some proj) t opt true = At (Some proj) t d <-> nearest true proj rs = Some d) /\
  (search base rs (Some proj) t opt true = Phase2 proj t <-> nearest true proj rs = None) /\
  search base rs (Some proj) t opt false = Phase2 proj t.
Proof.
  intros AB PN NB A V. unfold ImpModel.search. destruct proj as [|pc pr]; [congruence|]. rewrite AB, (adhoc_undef opt _ t A), V.
  assert (Q : (if beqb (pc :: pr) (b "build2") then import_build2 else None) = None).
  { destruct NB as [NB| ->]; [|now destruct (beqb (pc :: pr) (b "build2"))]. destruct (beqb (pc :: pr) (b "build2")) eqn:E; [apply beqb_eq in E; congruence | reflexivity]. }
  rewrite Q. destruct (t_value t), (nearest true (pc :: pr) rs); split; try split; try split; try reflexivity; try discriminate; try (intros E; injection E as <-; reflexivity); congruence.
Qed.

(* An unqualified target is in this project, which must have a name, unless it is absolute or a directory. *)
Theorem C83_local base r rs t opt subp : t_abs t = false -> t_directory t = false ->
  search base (r :: rs) None t opt subp = match r_name r with [] => Failed | n => At (Some n) t (r_out r) end.
Proof. intros A D. unfold ImpModel.search. rewrite D. cbn [andb]. rewrite A. reflexivity. Qed.
End Search.
Print Assumptions C83_configured.
Print Assumptions C83_explicit.
Print Assumptions C83_searched.
Print Assumptions C83_local.

Definition ex_id (x : bytes) : bytes := x.
Definition ex_cfg (x : bytes) : option (option path) :=
  if beqb x (b "config.foo") then Some (Some (mkpath true [b "bin"] (b "foo")))
  else if beqb x (b "config.import.foo") then Some (Some (mkpath true [b "foo"] []))
  else if beqb x (b "config.import.bar") then Some None else None.
Notation ex_search := (search ex_cfg None ex_id ex_id beqb (fun _ => Some true)).
Definition ex_t (ty n : bytes) : tgt := mktgt false [] (Some ty) n.
Definition ex_chain := [mkroot [b "a"; b "b"] (b "x") [] true; mkroot [b "a"] (b "y") [(b "foo", [b "c"]); (b "bar", [b "d"]); (b "baz", [b "e"])] false].
Example C83_configured_ex : ex_search [] ex_chain (Some (b "foo")) (ex_t (b "exe") (b "foo")) false true =
  Outside None (mktgt true [b "bin"] (Some (b "exe")) (b "foo")).
Proof. reflexivity. Qed.
Example C83_explicit_ex : ex_search [] ex_chain (Some (b "foo")) (ex_t (b "lib") (b "foo")) false true = At (Some (b "foo")) (ex_t (b "lib") (b "foo")) [b "foo"] /\
  ex_search [] ex_chain (Some (b "bar")) (ex_t (b "lib") (b "bar")) false true = Phase2 (b "bar") (ex_t (b "lib") (b "bar")).
Proof. split; reflexivity. Qed.
Example C83_searched_ex : ex_search [] ex_chain (Some (b "baz")) (ex_t (b "lib") (b "baz")) false true = At (Some (b "baz")) (ex_t (b "lib") (b "baz")) [b "a"; b "e"] /\
  ex_search [] ex_chain (Some (b "fox")) (ex_t (b "lib") (b "fox")) false true = Phase2 (b "fox") (ex_t (b "lib") (b "fox")).
Proof. split; reflexivity. Qed.

Section Load.
Context {result : Type}.
Context (fwd : list bytes -> list bytes) (proj_at : list bytes -> option root) (export : root -> tgt -> N -> option result).

(* Every import of a process, in whatever order, is of the project named: the cache is not observable. Missing: the same target being
   imported from two projects by way of the same directory (see C83_cached_refuted). *)
Theorem C83_cached_partial fuel xs vs : unambiguous fwd proj_at xs -> loads fwd proj_at export fuel [] xs = Some vs ->
  Forall2 (imports fwd proj_at export) xs vs.
Proof. intros U. apply (loads_sound fwd proj_at export xs U); [apply incl_refl | intros o t m v []]. Qed.

(* And what can be imported is, with two steps. *)
Theorem C83_loaded_partial xs vs : unambiguous fwd proj_at xs -> (forall x, In x xs -> consistent proj_at (i_proj x)) ->
  Forall2 (imports fwd proj_at export) xs vs -> loads fwd proj_at export 2 [] xs = Some vs.
Proof. intros U. apply (loads_complete fwd proj_at export xs U); [apply incl_refl | intros o t m v []]. Qed.
End Load.
Print Assumptions C83_cached_partial.
Print Assumptions C83_loaded_partial.

(* An amalgamation with two subprojects, that export what they are asked for. *)
Definition ex_at (d : list bytes) : option root :=
  if dir_eqb d [b "a"] then Some (mkroot [b "a"] (b "all") [(b "foo", [b "f"]); (b "bar", [b "g"])] false)
  else if dir_eqb d [b "a"; b "f"] then Some (mkroot [b "a"; b "f"] (b "foo") [] true)
  else if dir_eqb d [b "a"; b "g"] then Some (mkroot [b "a"; b "g"] (b "bar") [] true)
  else None.
Definition ex_export (r : root) (t : tgt) (_ : N) : option (bytes * bytes) := Some (r_name r, t_value t).
Definition ex_imp (p : bytes) (o : list bytes) (n : bytes) : import := mkimport p o (ex_t (b "lib") n) 0.
Example C83_cached_ex : loads (fun d => d) ex_at ex_export 2 [] [ex_imp (b "foo") [b "a"] (b "f"); ex_imp (b "bar") [b "a"] (b "g"); ex_imp (b "foo") [b "a"] (b "f"); ex_imp (b "foo") [b "a"; b "f"] (b "f")] =
  Some [(b "foo", b "f"); (b "bar", b "g"); (b "foo", b "f"); (b "foo", b "f")].
Proof. reflexivity. Qed.
Example C83_unambiguous_ex : unambiguous (fun d => d) ex_at [ex_imp (b "foo") [b "a"] (b "f"); ex_imp (b "bar") [b "a"] (b "g"); ex_imp (b "foo") [b "a"] (b "f"); ex_imp (b "foo") [b "a"; b "f"] (b "f")].
Proof.
  intros x y o X Y _ _ T _. cbn in X, Y. destruct X as [<-|[<-|[<-|[<-|[]]]]], Y as [<-|[<-|[<-|[<-|[]]]]]; try reflexivity; cbn in T; discriminate.
Qed.
Example C83_consistent_ex : consistent ex_at (b "foo").
Proof.
  intros out r d r'. unfold ex_at at 1. destruct (dir_eqb out [b "a"]).
  - intros E. injection E as <-. intros G. injection G as <-. intros H. injection H as <-. reflexivity.
  - destruct (dir_eqb out [b "a"; b "f"]); [intros E; injection E as <-; discriminate|]. destruct (dir_eqb out [b "a"; b "g"]); [intros E; injection E as <-; discriminate | discriminate].
Qed.

(* The same target of two subprojects of one amalgamation: the second import is of the first one's. And one that fails on its own does
   not if another project in the directory has been imported from. *)
Theorem C83_cached_refuted : exists (proj_at : list bytes -> option root) (export : root -> tgt -> N -> option (bytes * bytes)) x y z v w,
  v <> w /\ imports (fun d => d) proj_at export x v /\ imports (fun d => d) proj_at export y w /\
  loads (fun d => d) proj_at export 2 [] [x; y] = Some [v; v] /\ loads (fun d => d) proj_at export 2 [] [y; x] = Some [w; w] /\
  loads (fun d => d) proj_at export 2 [] [z] = None /\ exists y', loads (fun d => d) proj_at export 2 [] [y'; z] = Some [w; w].
Proof.
  exists ex_at, ex_export, (ex_imp (b "foo") [b "a"] (b "x")), (ex_imp (b "bar") [b "a"] (b "x")), (ex_imp (b "foo") [b "a"; b "g"] (b "x")), (b "foo", b "x"), (b "bar", b "x").
  split; [discriminate|]. split.
  { exists (mkroot [b "a"; b "f"] (b "foo") [] true). split; [|reflexivity]. eapply ResSub; [reflexivity | discriminate | reflexivity|]. now apply ResHere. }
  split.
  { exists (mkroot [b "a"; b "g"] (b "bar") [] true). split; [|reflexivity]. eapply ResSub; [reflexivity | discriminate | reflexivity|]. now apply ResHere. }
  split; [reflexivity|]. split; [reflexivity|]. split; [reflexivity|]. exists (ex_imp (b "bar") [b "a"; b "g"] (b "x")). reflexivity.
Qed.
Print Assumptions C83_cached_refuted.
