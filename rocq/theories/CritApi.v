(** * The calls of the Critbit API *)
From Verif Require Export MapApi CritModel.

Section api.
  Context `{Profile} {V : Type}.
  (** A full [iter()] / [iter_mut()] session *)
  Definition cb_iterate (t : critbit V) (script : list fb) : res (list (option (N * V))) :=
    drive (cb_iter_next t) (cb_iter_next_back t) script (cb_iter t).
  Definition cb_iterate_mut (script : list (fb * (V → V))) : M (critbit V) (list (option (N * (N * V)))) :=
    λ t, match drive_mut cb_iter_mut_next cb_iter_mut_next_back script (t, cb_iter t) with
         | Ret a (t, _) => Ret a t | Fail e (t, _) => Fail e t end.
  Definition cb_api : oapi (critbit V) N V := {|
    a_insert := cb_insert; a_remove := cb_remove; a_get := cb_get; a_get_mut := cb_get_mut;
    a_contains := cb_contains; a_len := cb_len; a_capacity := cb_capacity; a_min := cb_get_min; a_max := cb_get_max;
    a_index := cb_index; a_index_mut := cb_index_mut; a_iter := cb_iterate; a_iter_mut := cb_iterate_mut;
    a_addr := cb_get_addr; a_node := cb_entry |}.
  Definition cb_step (o : om_op N V) : M (critbit V) (om_out N V) := om_step cb_api o.
  (** ** Readable descriptions of the shape of a tree *)
  (** [cb_sub t par i ns ks]: following the registers from node [i] one finds a tree with nodes [ns] and leaf keys [ks] (from left to right).
      Inner nodes have no value register and two children; leaf nodes have a value register and no children; children point
      back to their parent [par]. *)
  Inductive cb_sub (t : critbit V) : N → N → list N → list N → Prop :=
  | cb_sub_leaf par i k v li :
      i ≠ SENTINEL → cb_get_left t i = Val SENTINEL → cb_get_right t i = Val SENTINEL → cb_get_parent t i = Val par →
      cb_get_leaf_index t i = Val li → li ≠ SENTINEL → cb_entry t i = Val (k, v) → cb_sub t par i [i] [k]
  | cb_sub_inner par i l r nl nr kl kr :
      i ≠ SENTINEL → cb_get_left t i = Val l → cb_get_right t i = Val r → cb_get_parent t i = Val par →
      cb_get_leaf_index t i = Val SENTINEL → cb_sub t i l nl kl → cb_sub t i r nr kr →
      cb_sub t par i (i :: nl ++ nr) (kl ++ kr).
  (** Add nodes to the pool, one after the other *)
  Fixpoint add_all {T} (vs : list T) : M (alloc T) (list N) :=
    match vs with [] => mret [] | v :: vs => i ← na_add_node v; is ← add_all vs; mret (i :: is) end.
  (** The slot of the leaf pool holding the value of key [k] *)
  Definition cb_value_slot (t : critbit V) (k : N) : res N := i ← cb_get_addr t k; cb_get_leaf_index t i.
End api.

(** Keys are u128 *)
Definition u128_op {V} (o : om_op N V) : Prop :=
  match o with
  | MInsert k _ | MRemove k | MGet k | MGetMut k _ | MContains k | MIndex k | MIndexMut k _ => k < W128
  | _ => True
  end.
(** What Critbit does: the ordered map of MapSpec.v, except that [insert] on a full map changes nothing and returns [None] even if
    the key is present *)
Definition cb_spec {V} (cap : N) (o : om_op N V) (l : list (N * V)) : res (om_out N V) * list (N * V) :=
  match o with
  | MInsert k v => if decide (lengthN l < cap) then om_spec N.compare cap o l else (Val (MBool false), l)
  | _ => om_spec N.compare cap o l
  end.
