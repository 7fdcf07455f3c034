(* Which headers are included. *)
From Verif Require Import Base HdrModel.

Section Spec.
Context (P : params).
(* What the preprocessor would have read if all the headers were up to date. *)
Definition fresh (hs : list header) : list (header * option content) := map (fun h => (h, goal P h)) hs.
(* These are the first headers that are included if all of them are up to date. *)
Inductive leads : list header -> Prop :=
| leads_nil : leads []
| leads_more hs h : leads hs -> next P (fresh hs) = Include h -> goal P h <> None -> leads (hs ++ [h]).
(* These are all of them: what is included in a build from scratch. *)
Definition includes (hs : list header) : Prop := leads hs /\ next P (fresh hs) = Complete.
(* There is no such header. *)
Definition lacks (h : header) : Prop := exists hs, leads hs /\ next P (fresh hs) = Include h /\ goal P h = None.
(* The source is wrong (or includes too much). *)
Definition wrong : Prop := exists hs, leads hs /\ (next P (fresh hs) = Error \/ (length hs = limit P /\ exists h, next P (fresh hs) = Include h)).

(* The source is wrong if some of what it includes is as it was at the beginning. *)
Definition wrong_mixed (w : world) : Prop := exists hist, (forall h c, In (h, c) hist -> c = goal P h \/ c = file w h) /\
  (next P hist = Error \/ (length hist = limit P /\ exists h, next P hist = Include h)).

(* How things are at the beginning. *)
Record start (w : world) : Prop := {
  start_known : forall h, known w h = Unknown;
  (* a header that needs not be generated is what it should be *)
  start_fresh : forall h, goal P h <> None -> stale P h = false -> file w h = goal P h;
  (* what doesn't exist has to be generated *)
  start_none : forall h, goal P h = None -> file w h = None;
  start_time : target_time P <= clock w }.
(* What is in the database was included at the time when contents were f, and those that have changed since
   then are newer than the target. *)
Record stored (w : world) (f : header -> option content) (hs : list header) (e : bool) : Prop := {
  stored_leads : forall a h c, hs = a ++ h :: c -> next P (map (fun h => (h, f h)) a) = Include h;
  stored_all : e = true -> next P (map (fun h => (h, f h)) hs) = Complete;
  stored_newer : forall h, In h hs -> file w h <> f h -> target_time P < time w h }.
Definition previous (w : world) (f : header -> option content) (old : option (list header * bool)) : Prop :=
  match old with None => True | Some (hs, e) => stored w f hs e end.
(* The compiler reports all the headers it has read, even if it fails. *)
Definition reports : Prop := forall k, limit P <= reported P k.
End Spec.
