(** * Loops on memory with any contents: vocabulary *)
From Verif Require Export RBModel.

(** [f m] is what a loop has computed when it is stopped, with the failure [OutOfFuel], after [m] rounds; [f 0] is that failure.
    [settled f n]: [n] rounds tell everything. More rounds never give anything else than [f n], and fewer either the same or [OutOfFuel]. So
    if the loop is over after [n] rounds [f n] is the result of the loop without a bound; and if [f n] is [OutOfFuel] the loop is never
    over: then [f m] is [OutOfFuel] for every [m]. *)
Definition settled {R} (f : nat → R) (n : nat) : Prop := ∀ m, f m = f n ∨ (m < n)%nat ∧ f m = f 0%nat.

(** The bytes of a red-black tree with [n] entries in which both children of every node are the next node: node 1 is the root, node [n] a
    leaf, and every node is black. Not the state of any tree, but a state that a buffer may hold. *)
Definition ladder (n : nat) : rbt N N :=
  RBT 1 (Alloc (N.of_nat n) (N.of_nat n + 1) (N.of_nat n + 1)
    ((λ i, let next := if decide (i < n)%nat then N.of_nat i + 1 else 0 in Node [next; next; 0; 0] (0, 0)) <$> seq 1 n)).
