(** * The calls of the AVLTree API *)
From Verif Require Export MapApi AVLModel.

Section api.
  Context `{Profile} {K V : Type} (pcmp : K → K → option comparison).
  (** A full [iter()] / [iter_mut()] session *)
  Definition av_iterate (t : avlt K V) (script : list fb) : res (list (option (K * V))) :=
    drive (av_iter_next t) (av_iter_next_back t) script (av_iter t).
  Definition av_iterate_mut (script : list (fb * (V → V))) : M (avlt K V) (list (option (N * (K * V)))) :=
    λ t, match drive_mut av_iter_mut_next av_iter_mut_next_back script (t, av_iter t) with
         | Ret a (t, _) => Ret a t | Fail e (t, _) => Fail e t end.
  Definition av_api : oapi (avlt K V) K V := {|
    a_insert := av_insert pcmp; a_remove := av_remove pcmp; a_get := av_get pcmp; a_get_mut := av_get_mut pcmp;
    a_contains := av_contains pcmp; a_len := av_len; a_capacity := av_capacity; a_min := av_get_min; a_max := av_get_max;
    a_index := av_index pcmp; a_index_mut := av_index_mut pcmp; a_iter := av_iterate; a_iter_mut := av_iterate_mut;
    a_addr := av_get_addr pcmp; a_node := av_get_node |}.
  Definition av_step (o : om_op K V) : M (avlt K V) (om_out K V) := om_step av_api o.
  (** ** Readable descriptions of the shape of a tree *)
  (** [av_sub t i h]: the nodes below register value [i] form a tree of height [h] (number of nodes on the longest path) in which
      at every node the heights of the two subtrees differ by at most 1, and the height register is the length of the longest
      path down from the node, counted in edges *)
  Inductive av_sub (t : avlt K V) : N → nat → Prop :=
  | av_sub_none : av_sub t SENTINEL 0
  | av_sub_node i l r hl hr :
      i ≠ SENTINEL → av_get_field t i Left = Val l → av_get_field t i Right = Val r →
      av_sub t l hl → av_sub t r hr → (hl ≤ S hr)%nat → (hr ≤ S hl)%nat →
      av_get_field t i Height = Val (N.of_nat (Nat.max hl hr)) →
      av_sub t i (S (Nat.max hl hr)).
  (** [av_path t i p]: following left and right registers from [i] one can visit the nodes [p] *)
  Inductive av_path (t : avlt K V) : N → list N → Prop :=
  | av_path_nil i : av_path t i []
  | av_path_left i l p : i ≠ SENTINEL → av_get_field t i Left = Val l → av_path t l p → av_path t i (i :: p)
  | av_path_right i r p : i ≠ SENTINEL → av_get_field t i Right = Val r → av_path t r p → av_path t i (i :: p).
End api.
(** Fibonacci numbers: 0, 1, 1, 2, 3, 5, ... *)
Fixpoint fib (n : nat) : N :=
  match n with O => 0 | S m => match m with O => 1 | S p => fib m + fib p end end.
