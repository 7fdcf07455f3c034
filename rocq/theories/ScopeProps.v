(* C62: the map of scopes. *)
From Verif Require Import Base ScopeModel ScopeSpec ScopeProofs ScopeProofs2.

(* Scopes can be inserted in any order. *)
Theorem C62_total : forall os, exists m, made os m.
Proof. intros os. destruct (made_inv os) as (m & M & _). exists m. exact M. Qed.
Print Assumptions C62_total.

(* A directory is in the innermost scope. *)
Theorem C62_innermost : forall os m d x, made os m -> (find_out m d = Some x <-> innermost (is_scope os) d x).
Proof. intros os m d x M. exact (find_out_iff _ _ _ _ _ _ (made_is _ _ M)). Qed.
Print Assumptions C62_innermost.
Theorem C62_found : forall os m d, made os m -> exists x, find_out m d = Some x.
Proof. intros os m d M. exact (find_out_some _ _ _ _ _ (made_is _ _ M)). Qed.
Print Assumptions C62_found.

(* The scopes are those inserted, the parent of each is the nearest one above and its root is the
   innermost project. *)
Theorem C62_scopes : forall os m d, made os m -> (is_scope os d <-> exists s, out m d = Some s).
Proof. intros os m d M. exact (i_out _ _ _ _ (made_is _ _ M) d). Qed.
Print Assumptions C62_scopes.
Theorem C62_parent : forall os m d s, made os m -> out m d = Some s ->
  match parent s with Some p => nearest (is_scope os) d p | None => d = [] end.
Proof. intros os m d s M E. exact (i_parent _ _ _ _ (made_is _ _ M) d s E). Qed.
Print Assumptions C62_parent.
Theorem C62_root : forall os m d s, made os m -> out m d = Some s ->
  match root s with Some r => innermost (is_root os) d r | None => forall r, is_root os r -> ~ within r d end.
Proof. intros os m d s M E. exact (i_root _ _ _ _ (made_is _ _ M) d s E). Qed.
Print Assumptions C62_root.

(* The order of insertions does not matter. *)
Theorem C62_any_order : forall os os' m m', made os m -> made os' m' -> (forall o, In o os <-> In o os') ->
  forall d, out m d = out m' d /\ find_out m d = find_out m' d.
Proof.
  intros os os' m m' M M' E d. pose proof (made_is _ _ M) as I. pose proof (made_is _ _ M') as I'.
  assert (ES : forall x, is_scope os x <-> is_scope os' x) by (intros x; unfold is_scope; split; (intros [X|(rt & X)]; [left; exact X|right; exists rt; apply E, X])).
  assert (ER : forall x, is_root os x <-> is_root os' x) by (intros x; apply E).
  assert (I2 : Inv (is_scope os) (is_root os) (is_src os) m') by (apply (Inv_ext _ _ _ _ _ _ _ (fun x => iff_sym (ES x)) (fun x => iff_sym (ER x)) (fun x y => iff_sym (E (Src y x))) I')).
  split.
  - destruct (out m d) as [s|] eqn:Ed, (out m' d) as [s'|] eqn:Ed'; [|exfalso|exfalso|reflexivity].
    + f_equal. pose proof (i_parent _ _ _ _ I d s Ed) as P. pose proof (i_parent _ _ _ _ I2 d s' Ed') as P'. pose proof (i_root _ _ _ _ I d s Ed) as R. pose proof (i_root _ _ _ _ I2 d s' Ed') as R'. destruct s as [p r], s' as [p' r']. cbn in *. f_equal.
      * destruct p as [p|], p' as [p'|]; [f_equal; exact (nearest_unique _ _ _ _ P P')| | |reflexivity]; cbn in *; subst d; [destruct P as (_ & (a & z & X) & _); destruct p; discriminate X|destruct P' as (_ & (a & z & X) & _); destruct p'; discriminate X].
      * destruct r as [r|], r' as [r'|]; [f_equal; exact (innermost_unique _ _ _ _ R R')| | |reflexivity]; cbn in *; exfalso; [destruct R as (A & B & _); exact (R' r A B)|destruct R' as (A & B & _); exact (R r' A B)].
    + destruct (proj1 (i_out _ _ _ _ I2 d) (proj2 (i_out _ _ _ _ I d) (ex_intro _ s Ed))) as (x & X). congruence.
    + destruct (proj1 (i_out _ _ _ _ I d) (proj2 (i_out _ _ _ _ I2 d) (ex_intro _ s' Ed'))) as (x & X). congruence.
  - destruct (find_out_some _ _ _ _ d I) as (x & X). rewrite X. symmetry. apply (find_out_iff _ _ _ _ _ _ I2), (find_out_iff _ _ _ _ _ _ I), X.
Qed.
Print Assumptions C62_any_order.

(* All the scopes of a directory, out or src: those of the innermost directory that has any. *)
Theorem C62_all : forall os m d, made os m ->
  exists k r, find m d = Some r /\ innermost (fun x => is_scope os x \/ exists s, is_src os x s) d k /\
    forall s, In s r <-> (s = k /\ is_scope os k) \/ is_src os k s.
Proof.
  intros os m d M. pose proof (made_is _ _ M) as I. unfold find. destruct (List.find (fun x => existsb (dir_eqb x) (keys m)) (sups d)) as [k|] eqn:E.
  - apply find_sups_some in E. destruct E as (E1 & E2 & E3). rewrite in_keys in E1. assert (X : innermost (fun x => is_scope os x \/ exists s, is_src os x s) d k).
    { split; [apply (i_keys _ _ _ _ I), E1|]. split; [exact E2|]. intros y Y. apply E3. rewrite in_keys. apply (i_keys _ _ _ _ I), Y. }
    assert (Y : forall s, In s ((match out m k with Some _ => [k] | None => [] end) ++ src m k) <-> (s = k /\ is_scope os k) \/ is_src os k s).
    { intros s. rewrite in_app_iff, (i_src _ _ _ _ I k s). pose proof (i_out _ _ _ _ I k) as O. destruct (out m k) as [sk|]; cbn.
      - assert (Z : is_scope os k) by (apply O; exists sk; reflexivity). intuition.
      - assert (Z : ~ is_scope os k) by (intros Z; apply O in Z; destruct Z as (z & Z); discriminate Z). intuition. }
    destruct (_ ++ _) as [|a l] eqn:L; [|exists k, (a :: l); auto]. exfalso. apply (i_keys _ _ _ _ I) in E1. destruct E1 as [Z|(s & Z)]; [apply (proj2 (Y k)); auto|apply (proj2 (Y s)); auto].
  - exfalso. pose proof (find_sups_none _ _ E [] (nil_within d)) as X. cbv beta in X. assert (Y : In [] (keys m)) by (apply (i_keys _ _ _ _ I); left; left; reflexivity). apply in_keys in Y. congruence.
Qed.
Print Assumptions C62_all.

(* A project can be amalgamated into those above: w is the outermost one that this is, through projects
   all of which can be. *)
Definition amalgamated (os : list op) (can : dir -> bool) (w r : dir) : Prop := forall q, is_root os q -> above w q -> within q r -> can q = true.
Theorem C62_weak : forall os m can d s r, made os m -> ~ is_root os [] -> out m d = Some s -> root s = Some r ->
  exists w, weak_scope m can d = Some (Some w) /\ is_root os w /\ within w r /\ amalgamated os can w r /\ (can w = true -> forall y, is_root os y -> ~ above y w).
Proof.
  intros os m can d s r M NG E Er. pose proof (made_is _ _ M) as I. unfold weak_scope. rewrite E, Er. pose proof (i_root _ _ _ _ I d s E) as Hr. rewrite Er in Hr. destruct (weak_ok _ _ _ _ I NG can (S (length r)) r (proj1 Hr) (le_n _)) as (w & W & X). rewrite W. exists w. split; [reflexivity|exact X].
Qed.
Print Assumptions C62_weak.
Theorem C62_sub_root : forall os m can t r, made os m -> ~ is_root os [] -> is_root os r ->
  exists x, sub_root m can t r = Some x /\ (x = true <-> is_root os t /\ above t r /\ amalgamated os can t r).
Proof. intros os m can t r M NG R. exact (sub_root_ok _ _ _ _ (made_is _ _ M) NG can (S (length r)) t r R (le_n _)). Qed.
Print Assumptions C62_sub_root.
(* The parent for looking things up: projects that cannot be amalgamated are directly in the global scope. *)
Theorem C62_parent_scope : forall os m can d s, made os m -> out m d = Some s ->
  (is_root os d -> can d = false -> parent_scope m can d = Some []) /\ (~ is_root os d \/ can d = true -> parent_scope m can d = parent s).
Proof.
  intros os m can d s M E. pose proof (made_is _ _ M) as I. unfold parent_scope. rewrite E. split.
  - intros X C. rewrite (proj2 (opt_eqb_eq _ _) (proj2 (root_iff _ _ _ _ I _ _ E) X)), C. reflexivity.
  - intros X. destruct (opt_eqb (root s) (Some d)) eqn:Y; [|reflexivity]. apply opt_eqb_eq in Y. destruct X as [X|X]; [destruct (X (proj1 (root_iff _ _ _ _ I _ _ E) Y))|rewrite X; reflexivity].
Qed.
Print Assumptions C62_parent_scope.

(* Concrete cases: a directory between others inserted last; a project made one of an existing scope;
   src references. *)
Definition ops1 : list op := [Out [1; 2; 3] false; Out [1] true; Out [1; 4] false; Out [1; 2; 3; 5] true; Out [1; 2] true; Src [1; 2] [7]; Src [1] [7]; Out [1; 2; 3] true].
Definition shown (os : list op) (ds : list dir) := option_map (fun m => map (fun d => option_map (fun s => (parent s, root s)) (out m d)) ds) (run empty (Out [] false :: os)).
Example ex_shown : shown ops1 [[]; [1]; [1; 2]; [1; 2; 3]; [1; 2; 3; 5]; [1; 4]; [7]] =
  Some [Some (None, None); Some (Some [], Some [1]); Some (Some [1], Some [1; 2]); Some (Some [1; 2], Some [1; 2; 3]); Some (Some [1; 2; 3], Some [1; 2; 3; 5]); Some (Some [1], Some [1]); None].
Proof. vm_compute. reflexivity. Qed.
Example ex_find : exists m, made ops1 m /\ find_out m [1; 2; 6; 7] = Some [1; 2] /\ find_out m [7; 8] = Some [] /\ find m [7; 8] = Some [[1; 2]; [1]] /\
  weak_scope m (fun d => negb (dir_eqb d [1; 2])) [1; 2; 3; 5] = Some (Some [1; 2]) /\ sub_root m (fun _ => true) [1] [1; 2; 3; 5] = Some true /\ ~ is_root ops1 [].
Proof.
  destruct (made_inv ops1) as (m & M & _). exists m. split; [exact M|]. unfold made in M. vm_compute in M. injection M as <-. repeat split; try reflexivity. intros X. repeat (destruct X as [X|X]; [discriminate X|]). exact X.
Qed.
