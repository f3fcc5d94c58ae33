(** * The calls of the RedBlackTree API *)
From Verif Require Export MapApi RBModel.

Section api.
  Context `{Profile} {K V : Type} (cmp : K → K → comparison).
  (** A full [iter()] / [iter_mut()] session *)
  Definition rb_iterate (t : rbt K V) (script : list fb) : res (list (option (K * V))) :=
    drive (rb_iter_next t) (rb_iter_next_back t) script (rb_iter t).
  Definition rb_iterate_mut (script : list (fb * (V → V))) : M (rbt K V) (list (option (N * (K * V)))) :=
    λ t, match drive_mut rb_iter_mut_next rb_iter_mut_next_back script (t, rb_iter t) with
         | Ret a (t, _) => Ret a t | Fail e (t, _) => Fail e t end.
  Definition rb_api : oapi (rbt K V) K V := {|
    a_insert := rb_insert cmp; a_remove := rb_remove cmp; a_get := rb_get cmp; a_get_mut := rb_get_mut cmp;
    a_contains := rb_contains cmp; a_len := rb_len; a_capacity := rb_capacity; a_min := rb_get_min; a_max := rb_get_max;
    a_index := rb_index cmp; a_index_mut := rb_index_mut cmp; a_iter := rb_iterate; a_iter_mut := rb_iterate_mut;
    a_addr := rb_get_addr cmp; a_node := rb_get_node |}.
  (** The trait calls, and [remove_root] as [None] *)
  Definition rb_step (o : option (om_op K V)) : M (rbt K V) (om_out K V) :=
    match o with
    | Some o => om_step rb_api o
    | None => o ← rb_remove_root; mret (MPair o)
    end.
  (** ** Readable descriptions of the shape of a tree *)
  (** [rb_sub t i n]: the nodes below register value [i] form a red-black tree with [n] black nodes on every path from [i] to a
      missing child *)
  Inductive rb_sub (t : rbt K V) : N → nat → Prop :=
  | rb_sub_none : rb_sub t SENTINEL 0
  | rb_sub_red i l r n :
      rb_get_color t i = Val Red → rb_get_left t i = Val l → rb_get_right t i = Val r →
      rb_get_color t l = Val Black → rb_get_color t r = Val Black →
      rb_sub t l n → rb_sub t r n → rb_sub t i n
  | rb_sub_black i l r n :
      i ≠ SENTINEL →
      rb_get_color t i = Val Black → rb_get_left t i = Val l → rb_get_right t i = Val r →
      rb_sub t l n → rb_sub t r n → rb_sub t i (S n).
  (** [rb_path t i p]: following left and right registers from [i] one can visit the nodes [p] *)
  Inductive rb_path (t : rbt K V) : N → list N → Prop :=
  | rb_path_nil i : rb_path t i []
  | rb_path_left i l p : i ≠ SENTINEL → rb_get_left t i = Val l → rb_path t l p → rb_path t i (i :: p)
  | rb_path_right i r p : i ≠ SENTINEL → rb_get_right t i = Val r → rb_path t r p → rb_path t i (i :: p).
End api.
