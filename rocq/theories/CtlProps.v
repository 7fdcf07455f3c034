(* Flow control in buildfiles executes what is written. *)
From Verif Require Import Base CtlModel CtlSpec CtlProofs CtlProofs2 CtlProofs3 CtlProofs4.

Section Props.
Context {state val elem : Type}.
Context (eval : nat -> state -> option val) (truth null empty : val -> option bool)
        (compare : val -> option nat -> nat -> state -> option (bool * val))
        (elems : nat -> state -> option (list elem)) (touch : nat -> state -> state) (assign : nat -> elem -> state -> option state)
        (exec : nat -> state -> option state) (enter : nat -> state -> option state) (leave : state -> state -> state)
        (declare : nat -> list nat -> list (list line) -> state -> option state).
Notation Parse := (parse eval truth null empty compare elems touch assign exec enter leave declare).
Notation Means := (runs_block eval truth null empty compare elems touch assign exec enter leave declare false).
Implicit Types s : state.

Lemma parse_sound n p s r : wfs p -> Parse n (prints p) s = r -> r <> More -> exists o, Means p s o /\ r = fin [] o.
Proof.
  intros W <- N. unfold parse in *. pose proof (and_then_more N) as N'.
  destruct (proj1 (sound eval truth null empty compare elems touch assign exec enter leave declare n) 0 false p s [] _ W (or_introl eq_refl) eq_refl) as (o & R & E);
    rewrite app_nil_r in *; [ exact N' | ].
  exists o. split; [ exact R | ]. rewrite E. now destruct o.
Qed.
Lemma parse_complete p s o : wfs p -> Means p s o -> exists n0, forall n, n0 <= n -> Parse n (prints p) s = fin [] o.
Proof.
  intros W R.
  destruct (proj1 (proj2 (complete_all eval truth null empty compare elems touch assign exec enter leave declare)) false p s o R W 0 false [] eq_refl (or_introl eq_refl)) as (n0 & H).
  exists n0. intros n L. specialize (H n L). cbn beta in H. rewrite app_nil_r in H. unfold parse. rewrite H. now destruct o.
Qed.
Lemma no_jump p s o c s' : wfs p -> Means p s o -> o <> Jump c s'.
Proof. intros W R. exact (proj1 (proj2 (jumpless eval truth null empty compare elems touch assign exec enter leave declare)) false p s o R eq_refl c s'). Qed.


(* C68. For every buildfile that can be written down (any nesting of if-else, switch, for, while, directory scopes,
   variable blocks and recipes), loading it ends with a state exactly if that is what it means: the body of the first
   branch whose condition holds is executed and no other, neither conditions after it are evaluated nor anything of
   what is skipped is executed; for and while execute their bodies as many times as there are elements and while the
   condition holds; continue and break apply to the innermost loop. It fails exactly if executing does, including
   because of continue or break outside a loop. *)
Theorem C68_flow p s : wfs p ->
  (forall s', (exists n, Parse n (prints p) s = Done [] s') <-> Means p s (Normal s'))
  /\ ((exists n, Parse n (prints p) s = Failed) <-> Means p s Error)
  /\ (forall n, Parse n (prints p) s = More \/ Parse n (prints p) s = Failed \/ exists s', Parse n (prints p) s = Done [] s').
Proof.
  intros W. repeat split.
  - intros (n & E). destruct (parse_sound n p s _ W E ltac:(discriminate)) as ([ s1 | | ] & R & X); cbn in X; try discriminate. injection X as <-. exact R.
  - intros R. destruct (parse_complete p s _ W R) as (n & H). exists n. now apply H.
  - intros (n & E). destruct (parse_sound n p s _ W E ltac:(discriminate)) as ([ s1 | | ] & R & X); cbn in X; try discriminate. exact R.
  - intros R. destruct (parse_complete p s _ W R) as (n & H). exists n. now apply H.
  - intros n. destruct (Parse n (prints p) s) as [ ls s1 | c s1 | | ] eqn:E; auto;
    destruct (parse_sound n p s _ W E ltac:(discriminate)) as ([ s2 | c2 s2 | ] & R & X); cbn in X; try discriminate; injection X as -> ->.
    + right. right. now exists s2.
    + exfalso. exact (no_jump p s _ c2 s2 W R eq_refl).
Qed.
(* There is one outcome, whatever the limit. *)
Theorem C68_one p s o o' : wfs p -> Means p s o -> Means p s o' -> o = o'.
Proof.
  intros W A B. destruct (parse_complete p s _ W A) as (a & HA). destruct (parse_complete p s _ W B) as (c & HC).
  specialize (HA (max a c) ltac:(lia)). specialize (HC (max a c) ltac:(lia)). rewrite HA in HC. destruct o, o'; cbn in HC; congruence.
Qed.
(* Loading a buildfile without while ends. *)
Theorem C68_ends p s : wfs p -> boundeds p -> exists n, Parse n (prints p) s = Failed \/ exists s', Parse n (prints p) s = Done [] s'.
Proof.
  intros W B. destruct (proj1 (proj2 (total eval truth null empty compare elems touch assign exec enter leave declare)) p W B false s) as (o & R).
  destruct (parse_complete p s o W R) as (n & H). exists n. specialize (H n (le_n _)). destruct o as [ s1 | c s1 | ]; cbn in H.
  - right. now exists s1.
  - exfalso. exact (no_jump p s _ c s1 W R eq_refl).
  - now left.
Qed.
End Props.
Print Assumptions C68_flow.
Print Assumptions C68_one.
Print Assumptions C68_ends.

(* An example: values are numbers, the state is what has been executed and the loop variable. *)
Definition st := (list nat * nat)%type.
Definition ex_eval (e : nat) (s : st) : option nat := if e =? 99 then Some (snd s) else if e =? 50 then None else Some e.
Definition ex_truth (v : nat) : option bool := match v with 0 => Some false | 1 => Some true | _ => None end.
Definition ex_compare (v : nat) (f : option nat) (p : nat) (s : st) : option (bool * nat) :=
  if p =? 60 then None else Some (match f with Some g => v <? g + p | None => v =? p end, v).
Definition ex_elems (e : nat) (s : st) : option (list nat) := Some (seq 1 e).
Definition ex_touch (v : nat) (s : st) : st := s.
Definition ex_assign (v x : nat) (s : st) : option st := Some (fst s, x).
Definition ex_exec (c : nat) (s : st) : option st := if c =? 70 then None else Some (fst s ++ [c], snd s).
Definition ex_enter (d : nat) (s : st) : option st := Some (fst s ++ [d], snd s).
Definition ex_leave (s s' : st) : st := (fst s' ++ [0], snd s').
Definition ex_declare (c : nat) (vs : list nat) (rs : list (list line)) (s : st) : option st := Some (fst s ++ [c; length vs; length rs], snd s).
Definition ex_parse := parse ex_eval ex_truth ex_truth ex_truth ex_compare ex_elems ex_touch ex_assign ex_exec ex_enter ex_leave ex_declare.
Definition ex_runs := runs_block ex_eval ex_truth ex_truth ex_truth ex_compare ex_elems ex_touch ex_assign ex_exec ex_enter ex_leave ex_declare false.
Fixpoint blk (xs : list stmt) : block := match xs with [] => Nil | x :: xs => Cons x (blk xs) end.

(* for x: 1 2 3 4 5 6
   {
     switch $x
     {
       case 2
         continue
       case 3 | 4
       case 9
       {
         dir/
         {
           if false
           {
             foo: bar
             {{
             {
             }
             }}
             break
           }
           elif true
             print 10
           elif <error>
             print 11
         }
       }
       case 5
         break
       case <error>
       default
         print 12
     }
     print 13
   } *)
Definition ex_prog (last : nat) : block := blk
  [SFor 0 6 (Block (blk
    [SSwitch [(99, None)]
       (CCase [[[2]]] (Line (SJump Cont))
       (CCase [[[3; 4]]; [[9]]]
          (Block (blk [SScope 20 (blk [SIf Truth false 0 (Block (blk [SDecl 5 None [[Open; Close]]; SJump Brk]))
             (BElif Truth false 1 (Line (SPlain 10)) (BElif Truth false 50 (Line (SPlain 11)) BEnd))])]))
       (CCase [[[5]]] (Line (SJump Brk))
       (CDefault [[[last]]] (Line (SPlain 12))))));
     SPlain 13])); SPlain 14].
Example C68_flow_example :
  wfs (ex_prog 8) /\ boundeds (ex_prog 8)
  /\ ex_parse 60 (prints (ex_prog 8)) ([], 0) = Done [] ([12; 13; 20; 10; 0; 13; 20; 10; 0; 13; 14], 5)
  /\ ex_parse 60 (prints (ex_prog 60)) ([], 0) = Failed
  /\ ex_runs (ex_prog 8) ([], 0) (Normal ([12; 13; 20; 10; 0; 13; 20; 10; 0; 13; 14], 5)).
Proof.
  assert (W : forall n, wfs (ex_prog n)).
  { intros n. assert (B : Forall (fun r => balanced r /\ ~ In Unmulti r) [[Open; Close]]).
    { constructor; [ split | constructor ]; [ exact (bal_block [] [] bal_nil bal_nil) | ]. intros [H | [H | []]]; discriminate. }
    cbn. repeat first [ exact B | discriminate | constructor ]. }
  assert (P : ex_parse 60 (prints (ex_prog 8)) ([], 0) = Done [] ([12; 13; 20; 10; 0; 13; 20; 10; 0; 13; 14], 5)) by now vm_compute.
  split; [ apply W | ]. split; [ now vm_compute | ]. split; [ exact P | ]. split; [ now vm_compute | ].
  apply (proj1 (C68_flow _ _ _ _ _ _ _ _ _ _ _ _ (ex_prog 8) ([], 0) (W 8))). exists 60. exact P.
Qed.
(* while x! = 1 ... : the condition is evaluated every time. *)
Example C68_while_example :
  let p := blk [SWhile true 99 (Block (blk [SPlain 4; SFor 0 1 (Line (SPlain 5))])); SJump Brk] in
  let q := blk [SWhile true 99 (Block (blk [SPlain 4; SFor 0 1 (Line (SPlain 5))])); SPlain 6] in
  wfs p /\ ex_parse 20 (prints p) ([], 0) = Failed /\ ex_parse 20 (prints q) ([], 0) = Done [] ([4; 5; 6], 1).
Proof. repeat split; now vm_compute. Qed.

(* The property does not extend to bodies that are not simple. An if whose line is another if on its own lines is
   executed as one thing if the condition holds, but only its first line is skipped if it does not:
     if false
       if true
         print 10 *)
Theorem C68_nested_refuted : exists p s s' s'', s' <> s'' /\ ex_runs p s (Normal s') /\ exists n, ex_parse n (prints p) s = Done [] s''.
Proof.
  exists (blk [SIf Truth false 0 (Line (SIf Truth false 1 (Line (SPlain 10)) BEnd)) BEnd]), ([], 0), ([], 0), ([10], 0).
  split; [ discriminate | ]. split.
  - cbn. eapply r_cons; [ | apply r_nil ]. apply r_if. apply r_skipped; [ | apply r_end ]. now apply (holds_intro _ _ _ _ Truth false 0 _ 0 false).
  - exists 10. now vm_compute.
Qed.
(* A recipe with a sole closing brace can be executed but not skipped: in
     if <condition>
     {
       foo:
       {{ c++
       if (x) {
       }
       }}
     }
   the brace in the recipe ends the block. *)
Theorem C68_recipe_refuted : exists r,
  let p k := blk [SIf Truth false k (Block (blk [SDecl 5 None [r]])) BEnd] in
  (exists n, ex_parse n (prints (p 1)) ([], 0) = Done [] ([5; 0; 1], 0))
  /\ ex_runs (p 0) ([], 0) (Normal ([], 0)) /\ (exists n, ex_parse n (prints (p 0)) ([], 0) = Failed)
  /\ ~ (exists n s, ex_parse n (prints (p 0)) ([], 0) = Done [] s).
Proof.
  exists [Plain 1; Close]. cbn zeta. split; [ exists 10; now vm_compute | ]. split; [ | split ].
  - cbn. eapply r_cons; [ | apply r_nil ]. apply r_if. apply r_skipped; [ | apply r_end ]. now apply (holds_intro _ _ _ _ Truth false 0 _ 0 false).
  - exists 10. now vm_compute.
  - intros (n & s & E). destruct n as [ | [ | [ | [ | n ] ] ] ]; vm_compute in E; discriminate.
Qed.
Print Assumptions C68_nested_refuted.
Print Assumptions C68_recipe_refuted.
