(** * The calls of the HashTable API as operations of a history *)
From Verif Require Export HashSpec HashModel.

Section api.
  Context `{Profile} {K V : Type} (keq : K → K → bool) (hash : K → N).
  (** A full [iter()] / [iter_mut()] session *)
  Definition ht_iterate (h : htable K V) (script : list fb) : res (list (option (K * V))) :=
    it ← ht_mk_iter h; drive (ht_iter_next h) (ht_iter_next_back h) script it.
  Definition ht_iterate_mut (script : list (fb * (V → V))) : M (htable K V) (list (option (N * (K * V)))) :=
    λ h, match ht_mk_iter h with
         | Err e => Fail e h
         | Val it =>
             match drive_mut ht_iter_mut_next ht_iter_mut_next_back script (h, it) with
             | Ret a (h, _) => Ret a h | Fail e (h, _) => Fail e h end
         end.

  (** One call. node_allocator.rs:43-45 [is_empty] is the provided method [self.len() == 0]. Slots are not part of the result. *)
  Definition ht_step (o : hm_op K V) : M (htable K V) (hm_out K V) :=
    match o with
    | HInsert k v => o ← ht_insert keq hash k v; mret (HBool (is_found o))
    | HRemove k => o ← ht_remove keq hash k; mret (HVal o)
    | HGet k => o ← gets (λ h, ht_get keq hash h k); mret (HVal o)
    | HGetMut k f => o ← ht_get_mut keq hash k f; mret (HVal o)
    | HContains k => b ← gets (λ h, ht_contains_trait keq hash h k); mret (HBool b)
    | HContainsInherent k => b ← gets (λ h, ht_contains keq hash h k); mret (HBool b)
    | HLen => h ← mget; mret (HNum (ht_len h))
    | HIsEmpty => h ← mget; mret (HBool (bool_decide (ht_len h = 0)))
    | HCapacity => h ← mget; mret (HNum (ht_capacity h))
    | HIndex k => v ← gets (λ h, ht_index keq hash h k); mret (HRef v)
    | HIndexMut k f => v ← ht_index_mut keq hash k f; mret (HRef v)
    | HIter n => l ← gets (λ h, ht_iterate h (replicate n Fwd)); mret (HList l)
    | HIterMut fs => l ← ht_iterate_mut (map (λ f, (Fwd, f)) fs); mret (HList (no_index l))
    end.
End api.
