(* Shared vocabulary: bytes, byte strings and a few list facts that have
   nothing to do with build2. *)
From Coq Require Export String.
From Coq Require Export Ascii List Arith ZArith Lia Bool.
Export ListNotations.
Open Scope list_scope.

(* A C++ [char] / file byte, and [std::string] / file contents. *)
Notation byte := Ascii.ascii (only parsing).
Notation bytes := (list ascii).

Definition NL  : ascii := "010"%char.   (* '\n' *)
Definition NUL : ascii := "000"%char.   (* '\0' *)
Definition SP  : ascii := " "%char.
Definition TAB : ascii := "009"%char.

(* String literals as byte strings (for examples). *)
Fixpoint b (s : string) : bytes :=
  match s with
  | EmptyString => []
  | String c s' => c :: b s'
  end.

Definition beqb (x y : bytes) : bool := if list_eq_dec ascii_dec x y then true else false.

Lemma beqb_eq x y : beqb x y = true <-> x = y.
Proof. unfold beqb. destruct (list_eq_dec ascii_dec x y); split; congruence. Qed.

Lemma beqb_refl x : beqb x x = true.
Proof. apply beqb_eq. reflexivity. Qed.

Definition ceqb (x y : ascii) : bool := Ascii.eqb x y.

Lemma ceqb_eq x y : ceqb x y = true <-> x = y.
Proof. apply Ascii.eqb_eq. Qed.

Lemma ceqb_neq x y : ceqb x y = false <-> x <> y.
Proof. apply Ascii.eqb_neq. Qed.

(* [prefix x y]: x is an initial segment of y. *)
Definition prefix {A} (x y : list A) : Prop := exists z, y = x ++ z.

Lemma prefix_refl {A} (x : list A) : prefix x x.
Proof. exists []. rewrite app_nil_r. reflexivity. Qed.

Lemma prefix_nil {A} (x : list A) : prefix [] x.
Proof. exists x. reflexivity. Qed.

Lemma prefix_cons {A} (a : A) x y : prefix x y -> prefix (a :: x) (a :: y).
Proof. intros [z ->]. exists z. reflexivity. Qed.

Lemma prefix_app {A} (p x y : list A) : prefix x y -> prefix (p ++ x) (p ++ y).
Proof. intros [z ->]. exists z. rewrite app_assoc. reflexivity. Qed.

Lemma prefix_app_l {A} (x y z : list A) : prefix x y -> prefix x (y ++ z).
Proof. intros [w ->]. exists (w ++ z). rewrite app_assoc. reflexivity. Qed.

Lemma prefix_trans {A} (x y z : list A) : prefix x y -> prefix y z -> prefix x z.
Proof. intros [u ->] [v ->]. exists (u ++ v). rewrite app_assoc. reflexivity. Qed.

Lemma prefix_firstn {A} n (x : list A) : prefix (firstn n x) x.
Proof. exists (skipn n x). symmetry. apply firstn_skipn. Qed.

Lemma In_firstn {A} (x : A) k l : In x (firstn k l) -> In x l.
Proof.
  intros H. rewrite <- (firstn_skipn k l). apply in_or_app. left; exact H.
Qed.
