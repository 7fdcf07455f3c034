(* What a target name and its extension can be, independently of how they are
   combined into and split from the single string. *)
From Verif Require Import Base.

Definition no_slash (s : bytes) : Prop := ~ In "/"%char s.
(* The directory part of a name: nothing or something that ends with a slash. *)
Definition directory_part (d : bytes) : Prop := d = [] \/ exists d', d = d' ++ ["/"%char].
Definition starts_with_dot (s : bytes) : Prop := exists s', s = "."%char :: s'.
Definition ends_with_dot (s : bytes) : Prop := exists s', s = s' ++ ["."%char].
Definition only_dots (s : bytes) : Prop := Forall (fun c => c = "."%char) s.

(* A lone dot inside: not next to another dot, not the first and not the last
   character. This is what normally separates the extension. *)
Definition lone_dot_inside (s : bytes) : Prop :=
  exists x y, s = x ++ "."%char :: y /\ x <> [] /\ y <> [] /\ ~ ends_with_dot x /\ ~ starts_with_dot y.

(* The name (without the directory) and the extension that can be told apart. None
   is the default extension and the empty one is no extension. de: whether there is
   a default extension. *)
Definition separable (l : bytes) (e : option bytes) (de : bool) : Prop :=
  no_slash l /\ ~ only_dots l /\
  match e with
  | Some x => no_slash x /\ ~ starts_with_dot x /\ (ends_with_dot l -> x = [] /\ ~ lone_dot_inside l)
  | None => ~ ends_with_dot l /\ (de = false -> ~ lone_dot_inside l)
  end.
