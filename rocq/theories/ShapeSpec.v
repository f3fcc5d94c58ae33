(** * The radix tree of a set of 128-bit keys *)
From Verif Require Export CritApi.

(** A binary radix tree without one-way branches; [TInner p l r] branches on bit [p] (0 is the most significant of the 128 bits) *)
Inductive trie (V : Type) := TLeaf (k : N) (v : V) | TInner (p : N) (l r : trie V).
Arguments TLeaf {V} _ _.
Arguments TInner {V} _ _ _.

(** Textbook construction: look at the bits from the most significant on; [n] of them are left. Bits on which all keys agree are skipped. *)
Definition key_bit {V} (p : N) (kv : N * V) : bool := N.testbit kv.1 (127 - p).
Fixpoint radix_tree {V} (n : nat) (l : list (N * V)) : option (trie V) :=
  match l with
  | [] => None
  | [(k, v)] => Some (TLeaf k v)
  | _ =>
    match n with
    | O => None
    | S m =>
      let p := 127 - N.of_nat m in
      let zeros := filter (λ kv, key_bit p kv = false) l in
      let ones := filter (λ kv, key_bit p kv = true) l in
      match zeros, ones with
      | [], _ | _, [] => radix_tree m l
      | _, _ => match radix_tree m zeros, radix_tree m ones with Some a, Some b => Some (TInner p a b) | _, _ => None end
      end
    end
  end.
Definition radix_tree_of {V} (l : list (N * V)) : option (trie V) := radix_tree 128 l.

Section shape.
  Context `{Profile} {V : Type}.
  (** [cb_shape t i T]: the nodes reachable from [i] through the registers of [t] form the tree [T] *)
  Inductive cb_shape (t : critbit V) : N → trie V → Prop :=
  | shape_leaf i k v li :
      i ≠ SENTINEL → cb_get_leaf_index t i = Val li → li ≠ SENTINEL → cb_entry t i = Val (k, v) → cb_shape t i (TLeaf k v)
  | shape_inner i l r nd L R :
      i ≠ SENTINEL → cb_get_leaf_index t i = Val SENTINEL → cb_get_node t i = Val nd → cb_get_left t i = Val l → cb_get_right t i = Val r →
      cb_shape t l L → cb_shape t r R → cb_shape t i (TInner (cn_prefix_len nd) L R).
End shape.
