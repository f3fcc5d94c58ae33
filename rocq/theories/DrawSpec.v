(** * Shapes: search trees drawn on paper

    Independent of the model's memory: a drawing says which pair sits where. [av_reads t i b] says that the drawing [b] is what one sees following the left and
    right registers from node [i] (avl_tree.rs: the registers of lines 15–25, read with get_field, lines 275–277; the pair read with get_node, lines 255–257). *)
From Verif Require Export MapSpec AVLModel.

Inductive drawing (A : Type) := Empty | Fork (l : drawing A) (x : A) (r : drawing A).
Global Arguments Empty {A}.
Global Arguments Fork {A} l x r.

Section drawing.
  Context {A : Type}.
  (** from left to right *)
  Fixpoint inorder (b : drawing A) : list A := match b with Empty => [] | Fork l x r => inorder l ++ x :: inorder r end.
  (** the number of nodes on the longest way down *)
  Fixpoint tall (b : drawing A) : nat := match b with Empty => 0 | Fork l _ r => S (Nat.max (tall l) (tall r)) end.
  (** at no node is one side more than one node higher than the other *)
  Fixpoint balanced (b : drawing A) : Prop :=
    match b with
    | Empty => True
    | Fork l _ r => balanced l ∧ balanced r ∧ (tall l ≤ tall r + 1)%nat ∧ (tall r ≤ tall l + 1)%nat
    end.
End drawing.

(** insertion as on the first page of a textbook: where the search ends a leaf is hung up, nothing else moves *)
Fixpoint hang {K V} (cmp : K → K → comparison) (k : K) (v : V) (b : drawing (K * V)) : drawing (K * V) :=
  match b with
  | Empty => Fork Empty (k, v) Empty
  | Fork l x r =>
      match cmp k x.1 with
      | Lt => Fork (hang cmp k v l) x r
      | Gt => Fork l x (hang cmp k v r)
      | Eq => Fork l (x.1, v) r
      end
  end.

Inductive av_reads `{Profile} {K V} (t : avlt K V) : N → drawing (K * V) → Prop :=
| av_reads_none : av_reads t SENTINEL Empty
| av_reads_node i l r x y kv :
    i ≠ SENTINEL → av_get_field t i Left = Val l → av_get_field t i Right = Val r → av_get_node t i = Val kv →
    av_reads t l x → av_reads t r y → av_reads t i (Fork x kv y).
(** the drawing of a whole tree *)
Definition av_drawn `{Profile} {K V} (t : avlt K V) (b : drawing (K * V)) : Prop := av_reads t (as_u32 (av_root t)) b.
