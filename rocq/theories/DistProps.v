(* C85: distributions. *)
From Verif Require Import Base ImpModel DistModel DistSpec DistProofs DistProofs2.

Section Match.
Context (out_root : list bytes) (tdir : nat -> list bytes) (prereqs : nat -> list prereq) (enters : nat -> list nat) (ks : list nat) (root : nat).
Notation mstep := (mstep out_root tdir prereqs enters).
Notation msteps := (msteps out_root tdir prereqs enters).
Notation reached := (reached out_root tdir prereqs enters ks root).
Notation declared := (declared out_root tdir prereqs enters ks root).

(* If matching succeeds then each prerequisite, within the project, of a matched target is known: a target, matched if in out, or a source file.
   In whatever order they are seen. *)
Theorem C85_complete s t p : msteps (start prereqs enters ks root) (Some s) -> finished s -> In t (matched s) -> In p (prereqs t) -> used p ->
  (exists x, (x = p_out p \/ p_file p = true /\ p_src p = Some x) /\ In x (known s) /\ (under (tdir x) out_root -> In x (matched s))) \/
  p_file p = true /\ p_outside p = true /\ p_src p = None.
Proof. intros M F T I U. eapply final_done; eauto. eapply inv_steps; eauto. apply inv_start. Qed.

(* It is exactly those reached that are matched and those declared that are known. *)
Theorem C85_matched s : (forall t p, In p (prereqs t) -> p_outside p = true -> ~ under (tdir (p_out p)) out_root) -> one_of out_root tdir prereqs enters ks root ->
  msteps (start prereqs enters ks root) (Some s) -> finished s -> (forall t, In t (matched s) <-> reached t) /\ (forall x, In x (known s) <-> declared x).
Proof.
  intros O ONE M F. assert (H : Inv out_root tdir prereqs enters ks root s) by (eapply inv_steps; eauto; apply inv_start).
  destruct (final_complete out_root tdir prereqs enters ks root O s ONE H F) as (A & _ & C). destruct H as (HA & HB & _).
  split; [intros t; split; [apply HA | apply A] | intros x; split; [apply HB | apply C]].
Qed.
Theorem C85_order s s' : (forall t p, In p (prereqs t) -> p_outside p = true -> ~ under (tdir (p_out p)) out_root) -> one_of out_root tdir prereqs enters ks root ->
  msteps (start prereqs enters ks root) (Some s) -> finished s -> msteps (start prereqs enters ks root) (Some s') -> finished s' ->
  (forall t, In t (matched s) <-> In t (matched s')) /\ (forall x, In x (known s) <-> In x (known s')).
Proof.
  intros O ONE M F M' F'. destruct (C85_matched s O ONE M F) as [A B], (C85_matched s' O ONE M' F') as [A' B'].
  split; intros x; [rewrite A, A' | rewrite B, B']; tauto.
Qed.
(* Something that is neither a source file nor a target is an error. *)
Theorem C85_missing s t p : (forall t p, In p (prereqs t) -> p_outside p = true -> ~ under (tdir (p_out p)) out_root) -> one_of out_root tdir prereqs enters ks root ->
  reached t -> In p (prereqs t) -> used p -> p_file p = true -> p_src p = None -> ~ declared (p_out p) -> p_outside p = false ->
  ~ (msteps (start prereqs enters ks root) (Some s) /\ finished s).
Proof.
  intros O ONE R I U PF PS ND PO [M F]. destruct (C85_matched s O ONE M F) as [A B].
  destruct (C85_complete s t p M F (proj2 (A t) R) I U) as [(x & [->|[_ X]] & K & _)|(_ & X & _)]; [apply ND, B, K | congruence | congruence].
Qed.
(* Matching ends, in whatever order: there is no infinite sequence of steps, and there is a next one until finished. *)
Theorem C85_ends U : (forall x, reached x -> In x U) ->
  Acc (fun s' s => mstep s (Some s')) (start prereqs enters ks root) /\ forall s, finished s \/ exists r, mstep s r.
Proof. intros H. split; [eapply ends; [exact H | apply inv_start] | intros s; apply progress]. Qed.
End Match.
Print Assumptions C85_complete.
Print Assumptions C85_matched.
Print Assumptions C85_order.
Print Assumptions C85_missing.
Print Assumptions C85_ends.

Section Copy.
Context (src_root out_root : list bytes) (tdir : nat -> list bytes) (tname : nat -> bytes).
Context (is_file see_through : nat -> bool) (group : nat -> option nat) (dist : nat -> dval) (members : nat -> option (list nat)).
Notation place := (place src_root out_root tdir tname dist).
Notation dist_project := (dist_project src_root out_root tdir tname is_file see_through group dist members).
Notation distributed := (distributed src_root out_root tdir dist is_file see_through group members).

(* The distribution has exactly the files that are to be distributed, each where it is to be, and nothing of what was there before. *)
Theorem C85_exact ks updated td d : dist_project ks updated false td = (true, Some d) ->
  updated = true /\ (forall p t, In (p, t) d <-> distributed ks t /\ place t = Some p) /\ (forall t, distributed ks t -> exists p, place t = Some p) /\
  forall p t u, In (p, t) d -> In (p, u) d -> t = u.
Proof.
  unfold DistModel.dist_project. destruct updated; cbn [negb]; [|discriminate].
  destruct (resolve _ _ _ _ _ _ _ _) as [ts|] eqn:R; [|discriminate]. destruct (copy _ _ _ _ _ false ts []) as [d'|] eqn:C; [|discriminate].
  intros E. assert (d' = d) by congruence. subst d'. clear E.
  assert (IC : forall t, In t ts <-> distributed ks t) by (eapply in_collected; eauto). apply copy_some in C as (ND & A & B); [|constructor].
  split; [reflexivity|]. split; [|split].
  - intros p t. rewrite B, IC. split; [intros [[]|H]; exact H | now right].
  - intros t D. apply A, IC, D.
  - intros p t u T V. clear - ND T V. induction d as [|e d IH]; [contradiction|]. cbn in ND. apply NoDup_cons_iff in ND as [N ND].
    destruct T as [->|T], V as [V|V]; [congruence | | |now apply IH].
    + exfalso. apply N. apply in_map_iff. exists (p, u). auto.
    + subst e. exfalso. apply N. apply in_map_iff. exists (p, t). auto.
Qed.
(* No file is where a directory is to be. *)
Theorem C85_apart ks updated td d d1 n1 d2 n2 t u : dist_project ks updated false td = (true, Some d) -> In ((d1, n1), t) d -> In ((d2, n2), u) d -> ~ under d2 (d1 ++ [n1]).
Proof.
  unfold DistModel.dist_project. destruct updated; cbn [negb]; [|discriminate].
  destruct (resolve _ _ _ _ _ _ _ _) as [ts|] eqn:R; [|discriminate]. destruct (copy _ _ _ _ _ false ts []) as [d'|] eqn:C; [|discriminate].
  intros E T V (s & S). assert (d' = d) by congruence. subst d'. clear E. assert (Z0 : apart []) by (intros e e' []). pose proof (copy_apart src_root out_root tdir tname is_file see_through group dist members ts [] d C Z0) as Z. clear C.
  specialize (Z _ _ T V). unfold at_, full in Z. cbn [fst snd] in Z. assert (Q : d2 ++ [n2] = d1 ++ [n1]) by (apply Z; exists (s ++ [n2]); now rewrite S, !app_assoc).
  apply (f_equal (@length _)) in Q. rewrite S, !app_length in Q. cbn in Q. lia.
Qed.
(* If it fails, then what was there before is there or nothing is: no incomplete distribution. *)
Theorem C85_failed ks updated cmd td td' : dist_project ks updated cmd td = (false, td') -> td' = td \/ td' = None.
Proof.
  unfold DistModel.dist_project. destruct updated; cbn [negb]; [|intros E; left; congruence]. destruct (resolve _ _ _ _ _ _ _ _) as [ts|]; [|intros E; left; congruence].
  destruct (copy _ _ _ _ _ cmd ts []); [discriminate | intros E; right; congruence].
Qed.
(* Without config.dist.cmd, two files with the same place are an error. *)
Theorem C85_same_place ks updated td d t u p : distributed ks t -> distributed ks u -> t <> u -> place t = Some p -> place u = Some p ->
  dist_project ks updated false td <> (true, Some d).
Proof.
  intros DT DU N PT PU E. destruct (C85_exact _ _ _ _ E) as (_ & A & _ & B). apply N. apply (B p); apply A; auto.
Qed.
(* The place: the same relative to the root, for both source and output files, unless remapped. *)
Theorem C85_place t d n : (dist t = DNull \/ dist t = DTrue) -> (place t = Some (d, n) <-> n = tname t /\ (tdir t = src_root ++ d \/ ~ under (tdir t) src_root /\ tdir t = out_root ++ d)).
Proof. intros D. unfold DistModel.place. destruct D as [-> | ->]; rewrite locate_iff; cbn; split; (intros [<- H] || intros [-> H]); auto. Qed.
(* Remapping: the name, a subdirectory, a directory next to it. *)
Theorem C85_remap t s m : (forall x, In x (tdir t ++ s) -> x <> b "." /\ x <> b "..") ->
  (dist t = DPath false [b "."] (Some m) -> place t = locate src_root out_root (tdir t) m) /\
  (s <> [] -> dist t = DPath false s (Some m) -> place t = locate src_root out_root (tdir t ++ s) m) /\
  (dist t = DPath false s None -> place t = locate src_root out_root (tdir t ++ s) (tname t)) /\
  (dist t = DPath true s None -> place t = locate src_root out_root s (tname t)) /\
  (forall d0 x, tdir t = d0 ++ [x] -> dist t = DPath false (b ".." :: s) None -> place t = locate src_root out_root (d0 ++ s) (tname t)) /\
  (dist t = DPath false [] (Some m) -> place t = None).
Proof.
  intros P. unfold DistModel.place. assert (PT : forall x, In x (tdir t) -> x <> b "." /\ x <> b "..") by (intros x I; apply P, in_or_app; now left).
  assert (PS : forall x, In x s -> x <> b "." /\ x <> b "..") by (intros x I; apply P, in_or_app; now right).
  split; [|split; [|split; [|split; [|split]]]].
  - intros ->. rewrite (norm_app (tdir t)) by exact PT. cbn [norm]. change (beqb (b ".") (b ".")) with true. cbn. now rewrite app_nil_r, rev_involutive.
  - intros N ->. destruct s as [|x s]; [contradiction|]. now rewrite norm_plain.
  - intros ->. destruct s; now rewrite norm_plain.
  - intros ->. destruct s; now rewrite norm_plain.
  - intros d0 x E ->. rewrite (norm_app (tdir t)) by exact PT. rewrite E, rev_app_distr. cbn [rev app norm]. change (beqb (b "..") (b ".")) with false. change (beqb (b "..") (b "..")) with true. cbn [norm].
    rewrite app_nil_r, norm_plain by exact PS. now rewrite rev_involutive.
  - now intros ->.
Qed.
(* Not above the root directory. *)
Theorem C85_above t k m : (forall x, In x (tdir t) -> x <> b "." /\ x <> b "..") -> dist t = DPath false (repeat (b "..") k) m -> length (tdir t) < k -> place t = None.
Proof.
  intros P D L. unfold DistModel.place. rewrite D. rewrite norm_app by exact P. rewrite app_nil_r.
  assert (N : forall acc k, length acc < k -> norm acc (repeat (b "..") k) = None).
  { clear. intros acc. induction acc as [|x acc IH]; intros [|k] L; cbn in L; try lia; cbn [repeat norm]; change (beqb (b "..") (b ".")) with false; change (beqb (b "..") (b "..")) with true; cbn iota; [reflexivity|]. apply IH. lia. }
  rewrite N by (now rewrite rev_length). destruct k as [|k]; [lia|]. reflexivity.
Qed.
End Copy.
Print Assumptions C85_exact.
Print Assumptions C85_failed.
Print Assumptions C85_same_place.
Print Assumptions C85_place.
Print Assumptions C85_remap.
Print Assumptions C85_apart.
Print Assumptions C85_above.

(* All together: a source file that a reached target needs is in the distribution, at the same place in it, unless its dist is false. *)
Theorem C85_sources src_root out_root tdir tname prereqs enters ks root is_file see_through group dist members s updated td d t p x :
  (forall t p, In p (prereqs t) -> p_outside p = true -> ~ under (tdir (p_out p)) out_root) -> one_of out_root tdir prereqs enters ks root ->
  msteps out_root tdir prereqs enters (start prereqs enters ks root) (Some s) -> finished s ->
  dist_project src_root out_root tdir tname is_file see_through group dist members (known s) updated false td = (true, Some d) ->
  reached out_root tdir prereqs enters ks root t -> In p (prereqs t) -> used p -> p_file p = true -> p_src p = Some x ->
  is_file x = true -> see_through x = false -> group x = None ->
  forall r, tdir x = src_root ++ r -> dist x = DNull \/ dist x = DTrue -> In ((r, tname x), x) d.
Proof.
  intros O ONE M F DP R I U PF PS FX SX GX r TD D. destruct (C85_matched _ _ _ _ _ _ s O ONE M F) as [_ B].
  destruct (C85_exact _ _ _ _ _ _ _ _ _ _ _ _ _ DP) as (_ & A & _). apply A. split.
  - split; [exact FX|]. split; [left; split; [now exists r | destruct D; congruence]|]. left. split; [|split; [exact SX | congruence]].
    apply B. eapply d_named; eauto. now apply n_source.
  - apply C85_place; auto.
Qed.
Print Assumptions C85_sources.

(* The bootstrap mode. *)
Theorem C85_bootstrap ls fuel d r : subdir ls fuel d [] = Some r -> (forall f, In f r -> there ls d f) /\
  ((forall d n t, In (n, ELink t) (ls d) -> ignored n = false -> ~ under d t) -> forall f, there ls d f -> In f r).
Proof. intros E. split; [eapply subdir_sound; eauto | intros N; eapply subdir_complete; eauto; intros x []]. Qed.
(* What is not distributed in this mode: .git*, .bdep, .bpkg, .build2. *)
Theorem C85_ignored n : ignored n = true <-> (exists s, n = b ".git" ++ s) \/ n = b ".bdep" \/ n = b ".bpkg" \/ n = b ".build2".
Proof.
  unfold ignored. rewrite !orb_true_iff, !beqb_eq. split.
  - intros [[[E|E]|E]|E]; auto. left. exists (skipn 4 n). rewrite <- E. symmetry. apply firstn_skipn.
  - intros [(s & ->)|H]; [left; left; left; reflexivity | tauto].
Qed.
Print Assumptions C85_ignored.
Theorem C85_bootstrap_ends ls N d : (forall d n e, In (n, e) (ls d) -> e <> EFile -> length d < N) -> exists r, subdir ls (S N) d [] = Some r.
Proof. intros H. eapply subdir_ends; [exact H | lia | lia]. Qed.
Print Assumptions C85_bootstrap.
Print Assumptions C85_bootstrap_ends.

(* A project: 0 is the root directory, with a library 1 (a group with the member 2), a source 3 of the library, and a test 4 that needs the member
   of the library (2), a generated header 5 with dist set that is remapped, and files outside. *)
Definition ex_src : list bytes := [b "src"].
Definition ex_out : list bytes := [b "out"].
Definition ex_tdir (n : nat) : list bytes := match n with 3 => [b "src"; b "lib"] | 6 => [b "src"; b "lib"] | 7 => [b "usr"] | _ => [b "out"; b "lib"] end.
Definition ex_tname (n : nat) : bytes := match n with 3 => b "l.c" | 5 => b "v.h" | 6 => b "v.h.in" | _ => b "x" end.
Definition ex_dir (n : nat) : prereq := mkprereq false false false n None false.
Definition ex_file (n : nat) (s : option nat) : prereq := mkprereq true false false n s false.
Definition ex_prereqs (n : nat) : list prereq :=
  match n with
  | 0 => [ex_file 4 None; ex_dir 1; mkprereq true false false 7 None true; mkprereq true true false 8 None false]
  | 2 => [ex_file 10 (Some 3); ex_file 5 None]
  | 4 => [ex_file 2 None]
  | 5 => [ex_file 11 (Some 6)]
  | _ => []
  end.
Definition ex_enters (n : nat) : list nat := match n with 1 => [2] | _ => [] end.
Definition ex_isfile (n : nat) : bool := match n with 0 | 1 => false | _ => true end.
Definition ex_dist (n : nat) : dval := match n with 5 => DPath false [b ".."; b "gen"] None | _ => DNull end.
Fixpoint ex_run (cs : list nat) (s : mstate) : option mstate :=
  match cs with
  | [] => Some s
  | c :: cs =>
    match nth_error (pend s) c with
    | Some p => ex_run cs (apply1 ex_out ex_tdir ex_prereqs ex_enters (mkm (known s) (matched s) (firstn c (pend s) ++ skipn (S c) (pend s)) (post s)) p)
    | None => match pend s, post s with
              | [], p :: ps => match again ex_out ex_tdir ex_prereqs ex_enters (mkm (known s) (matched s) [] ps) p with Some s => ex_run cs s | None => None end
              | _, _ => None
              end
    end
  end.
Lemma ex_run_msteps cs : forall s s', ex_run cs s = Some s' -> msteps ex_out ex_tdir ex_prereqs ex_enters s (Some s').
Proof.
  induction cs as [|c cs IH]; intros s s'; cbn [ex_run]; [intros E; injection E as <-; constructor|].
  destruct (nth_error (pend s) c) as [p|] eqn:N.
  - intros E. eapply mss_step; [|apply IH, E]. apply ms_pend. clear - N. revert N. generalize (pend s). intros l. revert c. induction l as [|x l IH]; intros [|c] N; try discriminate; cbn in *.
    + now injection N as ->.
    + now rewrite <- IH.
  - destruct (pend s) as [|q l] eqn:P; [|discriminate]. destruct (post s) as [|p ps] eqn:Q; [discriminate|].
    destruct (again _ _ _ _ _ p) as [s1|] eqn:A; [|discriminate]. intros E. eapply mss_step; [|apply IH, E]. rewrite <- A. now apply ms_post.
Qed.
Example C85_matched_ex : exists s, msteps ex_out ex_tdir ex_prereqs ex_enters (start ex_prereqs ex_enters [0; 4; 5] 0) (Some s) /\ finished s /\
  known s = [6; 5; 3; 2; 2; 1; 4; 0; 4; 5] /\ matched s = [5; 2; 1; 4; 0].
Proof.
  exists (mkm [6; 5; 3; 2; 2; 1; 4; 0; 4; 5] [5; 2; 1; 4; 0] [] []). split; [apply (ex_run_msteps [0; 3; 0; 0; 0; 0; 0; 0; 0]); vm_compute; reflexivity|].
  split; [split; reflexivity | split; reflexivity].
Qed.
Example C85_exact_ex : dist_project ex_src ex_out ex_tdir ex_tname ex_isfile (fun _ => false) (fun _ => None) ex_dist (fun _ => None) [6; 5; 3; 2; 1; 4; 0] true false None =
  (true, Some [(([b "lib"], b "v.h.in"), 6); (([b "gen"], b "v.h"), 5); (([b "lib"], b "l.c"), 3)]).
Proof. reflexivity. Qed.

(* What is postponed is seen once, in order: with 1 not known before 3 is matched, and what 2 is only when 1 is matched, the order in which
   prerequisites are seen decides whether it fails. *)
Theorem C85_postponed_refuted : exists prereqs enters s, let tdir := fun _ => ex_out in
  one_of ex_out tdir prereqs enters [] 0 /\ msteps ex_out tdir prereqs enters (start prereqs enters [] 0) (Some s) /\ finished s /\
  msteps ex_out tdir prereqs enters (start prereqs enters [] 0) None.
Proof.
  set (prereqs := fun n => match n with 0 => [ex_file 1 None; ex_file 2 None; ex_dir 3] | _ => [] end).
  set (enters := fun n => match n with 3 => [1] | 1 => [2] | _ => [] end). exists prereqs, enters. eexists. cbn zeta.
  split; [|split; [|split]].
  - intros t p x R I PS. exfalso. unfold prereqs in I. destruct t as [|t]; [|destruct I]. destruct I as [<-|[<-|[<-|[]]]]; discriminate.
  - eapply mss_step; [apply (ms_pend _ _ _ _ _ []); reflexivity|]. eapply mss_step; [apply (ms_pend _ _ _ _ _ []); reflexivity|].
    eapply mss_step; [apply (ms_pend _ _ _ _ _ []); reflexivity|]. 
    eapply mss_step; [match goal with |- DistModel.mstep _ _ _ _ ?s _ => exact (ms_post _ _ _ _ s (ex_file 1 None) [ex_file 2 None] eq_refl eq_refl) end|].
    eapply mss_step; [match goal with |- DistModel.mstep _ _ _ _ ?s _ => exact (ms_post _ _ _ _ s (ex_file 2 None) [] eq_refl eq_refl) end|]. apply mss_refl.
  - split; reflexivity.
  - eapply mss_step; [apply (ms_pend _ _ _ _ _ [ex_file 1 None]); reflexivity|]. eapply mss_step; [apply (ms_pend _ _ _ _ _ []); reflexivity|].
    eapply mss_step; [apply (ms_pend _ _ _ _ _ []); reflexivity|].
    apply mss_fail. match goal with |- DistModel.mstep _ _ _ _ ?s _ => exact (ms_post _ _ _ _ s (ex_file 2 None) [ex_file 1 None] eq_refl eq_refl) end.
Qed.
Print Assumptions C85_postponed_refuted.

(* With config.dist.cmd two files with the same place are not an error: one of them is lost. *)
Theorem C85_same_place_refuted : exists dist d, let dp := dist_project ex_src ex_out (fun _ => ex_src) (fun t => match t with 0 => b "x" | _ => b "y" end) (fun _ => true)
    (fun _ => false) (fun _ => None) dist (fun _ => None) [0; 1] true in
  dp true None = (true, Some d) /\ (forall p, ~ In (p, 0) d) /\ fst (dp false None) = false.
Proof.
  exists (fun t => match t with 0 => DNull | _ => DPath false [b "."] (Some (b "x")) end). eexists. cbn zeta. split; [reflexivity|]. split; [|reflexivity].
  intros p [E|[]]. discriminate.
Qed.
Print Assumptions C85_same_place_refuted.

(* If out is a subdirectory of src then outputs are taken for sources and distributed. *)
Theorem C85_nested_refuted : exists d, dist_project ex_src (ex_src ++ [b "out"]) (fun _ => ex_src ++ [b "out"]) (fun _ => b "x.o") (fun _ => true)
    (fun _ => false) (fun _ => None) (fun _ => DNull) (fun _ => None) [0] true false None = (true, Some d) /\ In (([b "out"], b "x.o"), 0) d.
Proof. eexists. split; [reflexivity | now left]. Qed.
Print Assumptions C85_nested_refuted.

(* A link to an enclosing directory: the entries after it are not distributed. *)
Definition ex_ls (d : list bytes) : list (bytes * ent) :=
  if dir_eqb d ex_src then [(b "a", EFile); (b "d", EDir); (b ".gitignore", EFile)]
  else if dir_eqb d (ex_src ++ [b "d"]) then [(b "f", EFile); (b "up", ELink ex_src); (b "g", EFile)] else [].
Theorem C85_cycle_refuted : exists r, subdir ex_ls 3 ex_src [] = Some r /\ there ex_ls ex_src (ex_src ++ [b "d"; b "g"]) /\ ~ In (ex_src ++ [b "d"; b "g"]) r.
Proof.
  eexists. split; [reflexivity|]. split.
  - apply (t_in _ _ (b "d") EDir); [cbn; auto | discriminate | reflexivity|]. apply (t_here ex_ls (ex_src ++ [b "d"])); [cbn; auto | reflexivity].
  - intros [E|[E|[]]]; discriminate.
Qed.
Print Assumptions C85_cycle_refuted.
Example C85_bootstrap_ex : subdir (fun d => if dir_eqb d ex_src then [(b "a", EFile); (b "d", EDir); (b ".gitignore", EFile); (b "l", ELink [b "other"])]
  else if dir_eqb d (ex_src ++ [b "d"]) then [(b "f", EFile)] else if dir_eqb d (ex_src ++ [b "l"]) then [(b "h", EFile)] else []) 3 ex_src [] =
  Some [ex_src ++ [b "a"]; ex_src ++ [b "d"; b "f"]; ex_src ++ [b "l"; b "h"]].
Proof. reflexivity. Qed.

(* src/a/x is a link to src/d, and src/d/y to src/d. The cycle is detected in d but not, by name, when it is come to by way of a/x: there is no end. *)
Definition ex_loop (d : list bytes) : list (bytes * ent) :=
  if dir_eqb d ex_src then [(b "a", EDir); (b "d", EDir)]
  else if dir_eqb d (ex_src ++ [b "a"]) then [(b "x", ELink (ex_src ++ [b "d"]))]
  else [(b "y", ELink (ex_src ++ [b "d"]))].
Theorem C85_diverges_refuted fuel : subdir ex_loop fuel ex_src [] = None.
Proof.
  assert (L : forall fuel k prev, (forall p, In p prev -> p <> ex_src ++ [b "d"]) -> subdir ex_loop fuel (ex_src ++ b "a" :: b "x" :: repeat (b "y") k) prev = None).
  { induction fuel0 as [|fuel0 IH]; intros k prev H; [reflexivity|]. cbn [subdir].
    change (ex_loop (ex_src ++ b "a" :: b "x" :: repeat (b "y") k)) with [(b "y", ELink (ex_src ++ [b "d"]))]. cbn [walk]. change (ignored (b "y")) with false.
    match goal with |- (if false then _ else if ?c then _ else _) = _ => assert (C : c = false) end.
    { cbn [existsb]. apply orb_false_iff. split; [reflexivity|]. destruct (existsb _ prev) eqn:X; [|reflexivity]. apply existsb_exists in X as (q & I & Q). apply dir_eqb_iff in Q. destruct (H q I). now symmetry. }
    rewrite C. assert (R : (ex_src ++ b "a" :: b "x" :: repeat (b "y") k) ++ [b "y"] = ex_src ++ b "a" :: b "x" :: repeat (b "y") (S k)).
    { rewrite <- app_assoc. cbn [app]. do 3 f_equal. clear. induction k; cbn in *; [reflexivity | now rewrite IHk]. }
    rewrite R, IH; [reflexivity|]. intros p [<-|I]; [discriminate | auto]. }
  destruct fuel as [|[|fuel]]; [reflexivity | reflexivity|]. cbn [subdir]. change (ex_loop ex_src) with [(b "a", EDir); (b "d", EDir)]. cbn [walk].
  change (ignored (b "a")) with false. cbn iota. change (ex_loop (ex_src ++ [b "a"])) with [(b "x", ELink (ex_src ++ [b "d"]))]. cbn [walk]. change (ignored (b "x")) with false. cbn iota.
  change (existsb (dir_eqb (ex_src ++ [b "d"])) [ex_src ++ [b "a"]; ex_src]) with false. cbn iota.
  assert (Z := L fuel 0 [ex_src ++ [b "a"]; ex_src]). cbn [repeat] in Z. change ((ex_src ++ [b "a"]) ++ [b "x"]) with (ex_src ++ [b "a"; b "x"]). rewrite Z; [reflexivity|].
  intros p [<-|[<-|[]]]; discriminate.
Qed.
Print Assumptions C85_diverges_refuted.
(* The project above meets the conditions of C85_matched. *)
Example C85_conditions_ex : one_of ex_out ex_tdir ex_prereqs ex_enters [0; 4; 5] 0 /\
  forall t p, In p (ex_prereqs t) -> p_outside p = true -> ~ under (ex_tdir (p_out p)) ex_out.
Proof.
  assert (PR : forall t p, In p (ex_prereqs t) -> In p [ex_file 4 None; ex_dir 1; mkprereq true false false 7 None true; mkprereq true true false 8 None false; ex_file 10 (Some 3); ex_file 5 None; ex_file 2 None; ex_file 11 (Some 6)]).
  { intros t p I. destruct t as [|[|[|[|[|[|t]]]]]]; cbn in *; tauto. }
  split.
  - assert (H : (forall t, reached ex_out ex_tdir ex_prereqs ex_enters [0; 4; 5] 0 t -> True) /\
      (forall p x, names ex_out ex_tdir ex_prereqs ex_enters [0; 4; 5] 0 p x -> x = p_out p /\ (p_file p = false \/ In x [0; 1; 2; 3; 4; 5; 6]) \/ p_src p = Some x) /\
      (forall x, declared ex_out ex_tdir ex_prereqs ex_enters [0; 4; 5] 0 x -> In x [0; 1; 2; 3; 4; 5; 6])).
    { apply reach_ind; auto.
      - intros x I. cbn in *. tauto.
      - intros t x _ _ I. destruct t as [|[|t]]; cbn in *; tauto.
      - intros t p x _ _ I _ _ N. apply PR in I. cbn in I.
        destruct I as [<-|[<-|[<-|[<-|[<-|[<-|[<-|[<-|[]]]]]]]]]; cbn in N; destruct N as [[-> [N|N]]|N]; try discriminate; try injection N as <-; cbn in *; tauto. }
    destruct H as (_ & _ & H). intros t p x _ I S D. apply H in D. apply PR in I. cbn in I. exfalso.
    destruct I as [<-|[<-|[<-|[<-|[<-|[<-|[<-|[<-|[]]]]]]]]]; cbn in S, D; try discriminate; repeat (destruct D as [D|D]; [discriminate|]); exact D.
  - intros t p I O (s & E). apply PR in I. cbn in I. destruct I as [<-|[<-|[<-|[<-|[<-|[<-|[<-|[<-|[]]]]]]]]]; cbn in *; discriminate.
Qed.
