(* The properties of the dependency database (C01-C06). The statements use the
   model's entry points (DepdbModel) and the specification (DepdbSpec) only. *)
From Verif Require Import Base DepdbModel DepdbSpec DepdbProofs DepdbProofs2.

(* --- C01: what a properly closed session stored is what the next one reads --- *)

Theorem C01_session_follows_spec :
  forall f os d vs,
    legal false os = true ->
    run (open_db false f) os = Some (d, vs) ->
    exists a0 a, aopen f a0 /\ aruns a0 os vs a /\
      (complete a -> alines a <> [] -> forall t, holds (close_db t d) (alines a) true).
Proof. exact session_closed_holds. Qed.

Theorem C01_closed_session_reads_back :
  forall f os d vs t,
    legal false os = true -> starts_with_read os = true ->
    run (open_db false f) os = Some (d, vs) ->
    exists a0 a, aopen f a0 /\ aruns a0 os vs a /\
      (complete a ->
       exists ls, alines a = version :: ls /\
       exists d2,
         run (open_db false (Some (close_db t d))) (repeat ORead (length ls) ++ [ORead]) =
           Some (d2, map (fun l => VLine (Some l)) ls ++ [VLine None]) /\
         st d2 = ReadEof).
Proof. exact session_reads_back. Qed.

(* [holds] is a function of the contents: every file has exactly one reading. *)
Theorem C01_reading_unique :
  forall f, exists ls cl, holds f ls cl /\
    forall ls' cl', holds f ls' cl' -> ls' = ls /\ cl' = cl.
Proof. exact holds_function. Qed.

(* A session that reads one line, replaces the second and adds a third. *)
Definition ex_file : bytes := b "1" ++ [NL] ++ b "cxx" ++ [NL] ++ b "old" ++ [NL; NUL].
Definition ex_ops : list op := [OExpect (b "cxx"); OExpect (b "new"); OWrite (b "a/") false; OWrite (b "b.hxx") true].

Example C01_example :
  exists d vs,
    legal false ex_ops = true /\ starts_with_read ex_ops = true /\
    run (open_db false (Some ex_file)) ex_ops = Some (d, vs) /\
    vs = [VLine None; VLine (Some (b "old")); VUnit; VUnit] /\
    close_db TNone d = b "1" ++ [NL] ++ b "cxx" ++ [NL] ++ b "new" ++ [NL] ++ b "a/b.hxx" ++ [NL; NUL].
Proof. eexists _, _. vm_compute. repeat split. Qed.

(* Finding: a session whose very first operation is a write on a valid
   database overwrites the version line (the caller must read first). *)
Theorem C01_write_first_refuted :
  exists f os d vs,
    legal false os = true /\ holds f [version; b "x"] true /\
    run (open_db false (Some f)) os = Some (d, vs) /\
    Forall (fun o => exists l, o = OWrite l true /\ line_ok l) os /\
    ~ (exists ls, holds (close_db TNone d) (version :: ls) true).
Proof. exact write_first_refuted. Qed.

(* --- C02: crashes --- *)

Theorem C02_crash_in_session :
  forall f os d vs k,
    legal false os = true ->
    run (open_db false f) os = Some (d, vs) ->
    (st d <> Write -> f = Some (image d k)) /\
    (st d = Write ->
     exists a0 a, aopen f a0 /\ aruns a0 os vs a /\
       (storable a -> exists ls, holds (image d k) ls false /\ prefix ls (alines a))).
Proof. exact session_crash. Qed.

Theorem C02_crash_in_close :
  forall f os d vs t k,
    legal false os = true ->
    run (open_db false f) os = Some (d, vs) ->
    exists a0 a, aopen f a0 /\ aruns a0 os vs a /\
      (complete a -> alines a <> [] ->
       (exists ls, holds (image (closing t d) k) ls false /\ prefix ls (alines a)) \/
       holds (image (closing t d) k) (alines a) true).
Proof. exact session_crash_close. Qed.

(* The next session notices: reading an improperly closed database always ends
   up in the write mode. *)
Theorem C02_unclosed_is_noticed :
  forall f ls n,
    holds f ls false -> length ls <= n ->
    exists d vs, run (open_db false (Some f)) (repeat ORead n) = Some (d, vs) /\ st d = Write.
Proof. exact unclosed_detected. Qed.

Example C02_example :
  exists d vs, run (open_db false (Some ex_file)) ex_ops = Some (d, vs) /\ st d = Write /\
    image d 5 = b "1" ++ [NL] ++ b "cxx" ++ [NL] ++ b "new" ++ [NL] ++ b "a" /\
    holds (image d 5) [version; b "cxx"; b "new"] false.
Proof.
  eexists _, _. split; [reflexivity|]. split; [reflexivity|]. split; [reflexivity|].
  vm_compute.
  apply (holds_more (b "1") "c"%char); [vm_compute; intuition discriminate|discriminate|].
  apply (holds_more (b "cxx") "n"%char); [vm_compute; intuition discriminate|discriminate|].
  apply (holds_more (b "new") "a"%char); [vm_compute; intuition discriminate|discriminate|].
  apply (holds_eof (b "a")). vm_compute; intuition discriminate.
Qed.

(* --- C03: expect --- *)

Theorem C03_expect :
  forall f vs,
    Forall line_ok vs ->
    exists d outs,
      run (open_db false f) (map OExpect vs) = Some (d, outs) /\
      (forall t, holds (close_db t d) (version :: vs) true) /\
      (st d <> Write -> exists c rest cl, f = Some c /\ holds c (version :: vs ++ rest) cl) /\
      (forall c, f = Some c -> holds c (version :: vs) true ->
         st d = ReadEof /\ outs = map (fun _ => VLine None) vs).
Proof. exact expects_session. Qed.

Theorem C03_interrupted_update_is_redone :
  forall f vs d outs k,
    Forall line_ok vs ->
    run (open_db false f) (map OExpect vs) = Some (d, outs) -> st d = Write ->
    exists d2 outs2,
      run (open_db false (Some (image d k))) (map OExpect vs) = Some (d2, outs2) /\ st d2 = Write.
Proof. exact crash_detected. Qed.

Example C03_example_changed :
  exists d outs, run (open_db false (Some ex_file)) (map OExpect [b "cxx"; b "new"]) = Some (d, outs) /\
    st d = Write /\ outs = [VLine None; VLine (Some (b "old"))].
Proof. eexists _, _. vm_compute. repeat split. Qed.

Example C03_example_same :
  exists d outs, run (open_db false (Some ex_file)) (map OExpect [b "cxx"; b "old"]) = Some (d, outs) /\
    st d = ReadEof /\ outs = [VLine None; VLine None].
Proof. eexists _, _. vm_compute. repeat split. Qed.

(* --- C04: skip() --- *)

Theorem C04_skip_true_means_readable_to_the_end :
  forall f n d vs r d',
    run (open_db false f) (repeat ORead n) = Some (d, vs) -> st d = Read ->
    skip d = Some (r, d') -> r = true ->
    exists m d2 vs2, run d (repeat ORead m) = Some (d2, vs2) /\ st d2 = ReadEof /\
                     ~ In (VLine None) vs2.
Proof. exact skip_sound. Qed.

Theorem C04_skip_complete_without_blank_lines :
  forall f n d vs m d2 vs2,
    run (open_db false f) (repeat ORead n) = Some (d, vs) -> st d = Read ->
    run d (repeat ORead m) = Some (d2, vs2) -> st d2 = ReadEof ->
    no_blank (skipn (gpos d) (file d)) ->
    exists d', skip d = Some (true, d').
Proof. exact skip_complete. Qed.

(* Finding: with an empty line right before the end marker, reading succeeds
   but skipping declares the database invalid. *)
Theorem C04_skip_agrees_with_read_refuted :
  exists f d2 vs2 d',
    run (open_db false (Some f)) [ORead; ORead] = Some (d2, vs2) /\
    ~ In (VLine None) vs2 /\ st d2 = ReadEof /\
    skip (open_db false (Some f)) = Some (false, d') /\ st d' = Write.
Proof. exact skip_refuted. Qed.

Example C04_example :
  exists d, skip (open_db false (Some ex_file)) = Some (true, d) /\ st (open_db false (Some ex_file)) = Read.
Proof. eexists. vm_compute. repeat split. Qed.

(* --- C05: close_to_reopen() --- *)

Theorem C05_close_to_reopen :
  forall f os d vs,
    not_skipped_b os = true ->
    run (open_db false f) os = Some (d, vs) ->
    exists a0 a, aopen f a0 /\ aruns a0 os vs a /\
      (complete a -> alines a <> [] -> forall ls, Forall line_ok ls ->
       let (f', p) := close_to_reopen d in
       holds f' (alines a) true /\
       exists d2, run (reopen f' p) (map (fun l => OWrite l true) ls) =
                    Some (d2, map (fun _ => VUnit) ls) /\
                  forall t, holds (close_db t d2) (alines a ++ ls) true).
Proof. exact session_reopen. Qed.

Theorem C05_crash_after_reopen :
  forall f os d vs,
    not_skipped_b os = true ->
    run (open_db false f) os = Some (d, vs) -> st d <> ReadEof ->
    exists a0 a, aopen f a0 /\ aruns a0 os vs a /\
      (complete a -> alines a <> [] -> forall ls k, Forall line_ok ls ->
       let (f', p) := close_to_reopen d in
       forall d2 ws, run (reopen f' p) (map (fun l => OWrite l true) ls) = Some (d2, ws) ->
         0 < k <= length (wbuf d2) ->
         exists ls', holds (image d2 k) ls' false /\ prefix ls' (alines a ++ ls)).
Proof. exact session_reopen_crash. Qed.

Example C05_example :
  exists d vs f' p d2 vs2,
    run (open_db false (Some ex_file)) [OExpect (b "cxx"); OExpect (b "old")] = Some (d, vs) /\
    close_to_reopen d = (f', p) /\
    run (reopen f' p) [OWrite (b "x.h") true] = Some (d2, vs2) /\
    close_db TNone d2 = b "1" ++ [NL] ++ b "cxx" ++ [NL] ++ b "old" ++ [NL] ++ b "x.h" ++ [NL; NUL].
Proof. eexists _, _, _, _, _, _. vm_compute. repeat split. Qed.

(* --- C06: read-only sessions --- *)

Theorem C06_read_only :
  forall f os d vs,
    forallb read_only_op os = true ->
    run (open_db true f) os = Some (d, vs) ->
    (forall k, image d k = contents f) /\
    (forall t, close_db t d = contents f) /\
    exists dw, run (open_db false f) os = Some (dw, vs) /\ st dw = st d.
Proof. exact read_only_session. Qed.

Example C06_example :
  exists d vs, forallb read_only_op [ORead; ORead; ORead] = true /\
    run (open_db true (Some ex_file)) [ORead; ORead; ORead] = Some (d, vs) /\
    vs = [VLine (Some (b "cxx")); VLine (Some (b "old")); VLine None].
Proof. eexists _, _. vm_compute. repeat split. Qed.

Print Assumptions C01_session_follows_spec.
Print Assumptions C01_closed_session_reads_back.
Print Assumptions C01_reading_unique.
Print Assumptions C01_write_first_refuted.
Print Assumptions C02_crash_in_session.
Print Assumptions C02_crash_in_close.
Print Assumptions C02_unclosed_is_noticed.
Print Assumptions C03_expect.
Print Assumptions C03_interrupted_update_is_redone.
Print Assumptions C04_skip_true_means_readable_to_the_end.
Print Assumptions C04_skip_complete_without_blank_lines.
Print Assumptions C04_skip_agrees_with_read_refuted.
Print Assumptions C05_close_to_reopen.
Print Assumptions C05_crash_after_reopen.
Print Assumptions C06_read_only.
