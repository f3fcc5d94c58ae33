(** * C84: how often the repair loops of the RedBlackTree go round, over a whole history

    [rba_step cmp] (AmortModel.v) makes one call on a tree beside which stands a number of rounds: every round of the loops of [_fix_insert] and [_fix_remove] takes
    one of them, and a round with none left is the failure [OutOfFuel]. Where a history computed so gives the answers and the tree of the history without the count, all its
    repairs together make no more rounds than there were at the beginning. [updates ops] is the number of insertions and removals among the calls. *)
From Verif Require Import Spec RBMain RBProps AmortModel AmortProof AmortCount.

(** with any number of rounds: out of them, or the same answer and the same tree *)
Theorem C84_copies `{Profile} {K V : Type} (cmp : K → K → comparison) (o : option (om_op K V)) (t : rbt K V) (n : nat) :
  (∃ s, rba_step cmp o (t, n) = Fail OutOfFuel s) ∨
  ∃ left, call (rba_step cmp o) (t, n) = ((call (rb_step cmp o) t).1, ((call (rb_step cmp o) t).2, left)).
Proof. exact (rba_step_ok cmp o t n). Qed.
Print Assumptions C84_copies.

(** The count is exact: each update takes, from every state, some number [r] of rounds; with fewer it runs out, and of [n] it leaves [n - r] *)
Theorem C84_count `{Profile} {K V : Type} (cmp : K → K → comparison) (t : rbt K V) :
  (∀ k v, ∃ r, ∀ n, ((n < r)%nat → ∃ t', rba_insert cmp n k v t = Fail OutOfFuel t') ∧
     ((r ≤ n)%nat → rba_insert cmp n k v t = match rb_insert cmp k v t with Ret a t' => Ret (a, (n - r)%nat) t' | Fail e t' => Fail e t' end)) ∧
  (∀ k, ∃ r, ∀ n, ((n < r)%nat → ∃ t', rba_remove cmp n k t = Fail OutOfFuel t') ∧
     ((r ≤ n)%nat → rba_remove cmp n k t = match rb_remove cmp k t with Ret a t' => Ret (a, (n - r)%nat) t' | Fail e t' => Fail e t' end)) ∧
  (∃ r, ∀ n, ((n < r)%nat → ∃ t', rba_remove_root n t = Fail OutOfFuel t') ∧
     ((r ≤ n)%nat → rba_remove_root n t = match rb_remove_root t with Ret a t' => Ret (a, (n - r)%nat) t' | Fail e t' => Fail e t' end)).
Proof.
  split_and!; [intros k v; exact (insert_counted cmp k v t)|intros k; exact (remove_counted cmp k t)|exact (remove_root_counted t)].
Qed.
Print Assumptions C84_count.

(** A round is a round of the loops of the model: [left] of [n] remain exactly if the loop with [n - left] rounds at its disposal ends in the same state and the loop
    with fewer does not *)
Theorem C84_loops `{Profile} {K V : Type} (fuel n : nat) (t t' : rbt K V) (left : nat) :
  (∀ i, rba_fix_insert_loop fuel n i t = Ret left t' →
     ∃ r, (n = left + r)%nat ∧ rb_fix_insert_loop r i t = Ret () t' ∧ ∀ m, (m < r)%nat → ∃ t1, rb_fix_insert_loop m i t = Fail OutOfFuel t1) ∧
  (∀ i d, rba_fix_remove_loop fuel n i d t = Ret left t' →
     ∃ r, (n = left + r)%nat ∧ rb_fix_remove_loop r i d t = Ret () t' ∧ ∀ m, (m < r)%nat → ∃ t1, rb_fix_remove_loop m i d t = Fail OutOfFuel t1).
Proof. split; [intros i; exact (fix_insert_loop_exactly fuel n i t left t')|intros i d; exact (fix_remove_loop_exactly fuel n i d t left t')]. Qed.
Print Assumptions C84_loops.

(** From the empty tree: four rounds for each insertion and each removal are enough for all of them together, although a single one may need as many as the tree
    is high *)
Theorem C84_rb_amortised `{Profile} {K V : Type} (cmp : K → K → comparison) (ms : nat) (d : K * V) (ops : list (option (om_op K V))) :
  OrdLaws cmp → (0 < ms)%nat → N.of_nat ms + 1 < W32 →
  ∃ left, history (rba_step cmp) ops (rb_new ms d, (4 * updates ops)%nat) = (rb_answers cmp ms d ops, (rb_after cmp ms d ops, left)).
Proof.
  intros HO H0 Hw. eapply (rba_history cmp HO (N.of_nat ms)); [lia|by apply rbok_new|simpl; lia].
Qed.
Print Assumptions C84_rb_amortised.

(** From any tree a history leads to: one more round for each entry that is present at the beginning *)
Theorem C84_rb_amortised_from `{Profile} {K V : Type} (cmp : K → K → comparison) (ms : nat) (d : K * V) (o ops : list (option (om_op K V))) :
  OrdLaws cmp → (0 < ms)%nat → N.of_nat ms + 1 < W32 →
  let t := rb_after cmp ms d o in
  ∃ left, history (rba_step cmp) ops (t, (N.to_nat (rb_len t) + 4 * updates ops)%nat) =
    ((history (rb_step cmp) ops t).1, ((history (rb_step cmp) ops t).2, left)).
Proof.
  intros HO H0 Hw t. destruct (rb_reach cmp HO ms d o H0 Hw) as (U & l & _ & Hok & _).
  eapply (rba_history cmp HO (N.of_nat ms)); [lia|exact Hok|]. pose proof (rbok_pot cmp _ _ _ Hok). subst t. lia.
Qed.
Print Assumptions C84_rb_amortised_from.

(** ** Cases *)
Local Instance ex_profile : Profile := {| overflow_checks := true |}.
Definition ex_up (n : nat) : list (option (om_op N N)) := (λ k, Some (MInsert (N.of_nat k) 0)) <$> seq 1 n.
Definition ex_down (n : nat) : list (option (om_op N N)) := (λ k, Some (MRemove (N.of_nat k))) <$> seq 1 n.
(** 60 ascending insertions make 157 rounds, fewer would not do; then emptying the tree makes 52 *)
Example ex_C84_history :
  let ops := ex_up 60 ++ [Some (MGet 7); Some (MGetMut 8 (λ _, 5)); None] ++ ex_down 60 in
  updates ops = 121%nat ∧
  rb_len (rb_after N.compare 64 (0, 0) (ex_up 60)) = 60 ∧ rb_len (rb_after N.compare 64 (0, 0) ops) = 0 ∧
  (history (rba_step N.compare) (ex_up 60) (rb_new 64 (0, 0), 157%nat)).2.2 = 0%nat ∧
  (history (rba_step N.compare) (ex_up 60) (rb_new 64 (0, 0), 157%nat)).1 = rb_answers N.compare 64 (0, 0) (ex_up 60) ∧
  Err OutOfFuel ∈ (history (rba_step N.compare) (ex_up 60) (rb_new 64 (0, 0), 156%nat)).1 ∧
  (history (rba_step N.compare) ops (rb_new 64 (0, 0), (4 * updates ops)%nat)).1 = rb_answers N.compare 64 (0, 0) ops.
Proof.
  split_and!; try by vm_compute.
  set (l := (history _ _ _).1). vm_compute in l. apply elem_of_list_In. subst l. repeat (left; done) || right.
  all: try by left.
Qed.
(** a single insertion may need more than four rounds: the 38th makes five *)
Example ex_C84_single :
  let t := rb_after N.compare 64 (0, 0) (ex_up 37) in
  match rba_insert N.compare 4 38 0 t, rba_insert N.compare 5 38 0 t, rb_insert N.compare 38 0 t with
  | Fail e _, Ret (o, n) t1, Ret o' t2 => e = OutOfFuel ∧ o = o' ∧ n = 0%nat ∧ t1 = t2
  | _, _, _ => False
  end.
Proof. by vm_compute. Qed.
Example ex_C84_from :
  let t := rb_after N.compare 64 (0, 0) (ex_up 46) in
  rb_len t = 46 ∧ updates ([Some (MRemove 1)] : list (option (om_op N N))) = 1%nat ∧
  match rba_remove N.compare 3 1 t, rba_remove N.compare 4 1 t, rb_remove N.compare 1 t with
  | Fail e _, Ret (o, n) t1, Ret o' t2 => e = OutOfFuel ∧ o = o' ∧ n = 0%nat ∧ t1 = t2
  | _, _, _ => False
  end.
Proof. by vm_compute. Qed.
(** the loop alone, on a tree in which the parent 3 of the red node 4 has been coloured red: two rounds *)
Example ex_C84_loops :
  let t := (call (rb_color_red 3) (rb_after N.compare 64 (0, 0) (ex_up 4))).2 in
  match rba_fix_insert_loop 9 7 4 t, rb_fix_insert_loop 2 4 t, rb_fix_insert_loop 1 4 t with
  | Ret n t1, Ret _ t2, Fail e _ => n = 5%nat ∧ t1 = t2 ∧ t1 ≠ t ∧ e = OutOfFuel
  | _, _, _ => False
  end.
Proof. vm_compute. by split_and!. Qed.
