From Verif Require Import Base CacheModel CacheSpec CacheProofs.

(* C11. Whatever is done with the entry, a reader sees the contents the entry
   was initialised with, opening never fails by itself, no assertion fails. *)
Theorem C11_reader_sees_contents : forall lzc lzd, lossless lzc lzd -> forall c f d l w,
  initialised lzd c f d l -> run lzc lzd (create c f) l = Some w ->
  0 < w_readers w -> f_plain (w_fs w) = Some d.
Proof. exact reader_sees. Qed.
Print Assumptions C11_reader_sees_contents.

Theorem C11_open_provides_contents : forall lzc lzd, lossless lzc lzd -> forall c f d l w,
  initialised lzd c f d l -> run lzc lzd (create c f) l = Some w ->
  exists w' tr, step lzc lzd w (OOpen DOk) = Done w' tr /\ f_plain (w_fs w') = Some d.
Proof. exact open_ok. Qed.
Print Assumptions C11_open_provides_contents.

Theorem C11_no_assertion_fails : forall lzc lzd, lossless lzc lzd -> forall c f d l w o,
  initialised lzd c f d l -> run lzc lzd (create c f) l = Some w ->
  (forall rm, o <> ONew rm) -> (forall rm, o <> OExisting rm) -> step lzc lzd w o <> AssertFailed.
Proof. exact no_assert. Qed.
Print Assumptions C11_no_assertion_fails.

(* A later build that starts from the files sees the same contents. *)
Theorem C11_next_build_sees_contents : forall lzc lzd, lossless lzc lzd -> forall c f d l w rm,
  initialised lzd c f d l -> run lzc lzd (create c f) l = Some w ->
  next_build lzc lzd c rm (w_fs w) = Some d.
Proof. exact next_sees. Qed.
Print Assumptions C11_next_build_sees_contents.

(* A toy compressor and a history with compression, a failed compression,
   decompression and two readers. *)
Definition toy_c (d : bytes) : bytes := "Z"%char :: d.
Definition toy_d (z : bytes) : option bytes := match z with "Z"%char :: d => Some d | _ => None end.
Example toy_lossless : lossless toy_c toy_d. Proof. intros d. reflexivity. Qed.

Definition hist : list op :=
  [ONew true; OWrite (b "x"); ODropWrite cok; ONew false; OWrite (b "int i;")] ++ OClose ::
  [ODropWrite cok; OUnpin (mkcenv (CFail 2) true true); OPin; OUnpin cok; OOpen DOk; OPin; OUnpin cok; ODropRead cok;
   OOpen DOk; OOpen DOk; ODropRead cok].

Example C11_ex_init : initialised toy_d true (mkfs None (Some (b "stale"))) (b "int i;") hist.
Proof. apply init_by_write; reflexivity. Qed.

Example C11_ex : option_map (fun w => (w_readers w, f_plain (w_fs w), f_comp (w_fs w)))
    (run toy_c toy_d (create true (mkfs None (Some (b "stale")))) hist)
  = Some (1, Some (b "int i;"), Some (b "Zint i;")).
Proof. vm_compute. reflexivity. Qed.

(* C12. A crash at any point of any operation - other than opening (which
   decompresses) an entry whose uncompressed file is gone - loses nothing. *)
Theorem C12_crash_loses_nothing : forall lzc lzd, lossless lzc lzd -> forall c f d l w o g rm,
  initialised lzd c f d l -> run lzc lzd (create c f) l = Some w ->
  (forall v, o <> OOpen v) \/ f_plain (w_fs w) <> None ->
  In g (crash_points (step lzc lzd w o)) -> next_build lzc lzd c rm g = Some d.
Proof. exact crash_ok. Qed.
Print Assumptions C12_crash_loses_nothing.

(* The compression of the example goes through partial compressed files. *)
Example C12_ex :
  option_map (fun w => length (crash_points (step toy_c toy_d w (OUnpin cok))))
    (run toy_c toy_d (create true (mkfs None None)) [ONew true; OWrite (b "int i;"); OClose; ODropWrite cok])
  = Some 9.
Proof. vm_compute. reflexivity. Qed.

(* C13. Opening a compressed entry is different: for every compressor and every
   contents there is a crash point after which the next build reads an empty
   file (and removes the good compressed one). *)
Theorem C13_crash_while_decompressing_refuted : forall lzc lzd d rm, lossless lzc lzd -> d <> [] ->
  exists w g, initialised lzd true (mkfs None None) d (compressed_history d) /\
    run lzc lzd (create true (mkfs None None)) (compressed_history d) = Some w /\
    In g (crash_points (step lzc lzd w (OOpen DOk))) /\
    next_build lzc lzd true rm g = Some [].
Proof. exact crash_decompress. Qed.
Print Assumptions C13_crash_while_decompressing_refuted.

(* No crash is needed: a decompression that fails has the same effect. *)
Theorem C13_failed_decompression_refuted : forall lzc lzd d rm, lossless lzc lzd -> d <> [] ->
  exists w w' tr, run lzc lzd (create true (mkfs None None)) (compressed_history d) = Some w /\
    step lzc lzd w (OOpen (DFail [])) = Thrown w' tr /\
    next_build lzc lzd true rm (w_fs w') = Some [].
Proof. exact failed_decompress. Qed.
Print Assumptions C13_failed_decompression_refuted.

(* What does hold: the compressed copy itself is intact at every such point, so
   removing the partial uncompressed file by hand recovers the contents. *)
Theorem C13_compressed_copy_intact_partial : forall lzc lzd, lossless lzc lzd -> forall c f d l w v g,
  initialised lzd c f d l -> run lzc lzd (create c f) l = Some w ->
  f_plain (w_fs w) = None ->
  In g (crash_points (step lzc lzd w (OOpen v))) ->
  exists z, f_comp g = Some z /\ lzd z = Some d.
Proof. exact compressed_intact. Qed.
Print Assumptions C13_compressed_copy_intact_partial.

(* C41. A temporary entry leaves nothing behind when it is destroyed, provided
   files can be removed; the compressed name is not touched if compression is
   disabled. *)
Theorem C41_temporary_entry_leaves_nothing : forall lzc lzd c f l w,
  forallb removals_succeed l = true -> run lzc lzd (create c f) l = Some w ->
  e_temp (w_e w) = true ->
  destroy true true w = mkfs None (if c then None else f_comp f).
Proof. exact destroy_cleans. Qed.
Print Assumptions C41_temporary_entry_leaves_nothing.

Theorem C41_permanent_entry_is_kept : forall rc rp w, e_temp (w_e w) = false -> destroy rc rp w = w_fs w.
Proof. exact permanent_kept. Qed.
Print Assumptions C41_permanent_entry_is_kept.

Example C41_ex :
  option_map (fun w => (e_temp (w_e w), f_plain (w_fs w), f_comp (w_fs w)))
    (run toy_c toy_d (create true (mkfs (Some (b "old")) (Some (b "old"))))
       [ONew true; OWrite (b "int i;"); OClose; ODropWrite cok; OUnpin cok; OOpen DOk])
  = Some (true, Some (b "int i;"), Some (b "Zint i;")).
Proof. vm_compute. reflexivity. Qed.
