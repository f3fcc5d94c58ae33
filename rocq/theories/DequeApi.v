(** * The calls of the Deque API as operations of a history *)
From Verif Require Export Spec DequeModel.

Section api.
  Context `{Profile} {T : Type}.
  (** A full [iter()] session *)
  Definition dq_iterate (script : list fb) (d : deque T) : res (list (option (N * T))) :=
    drive (dq_iter_next d) (dq_iter_next_back d) script (dq_mk_iter d).
  (** A full [iter_mut()] session *)
  Definition dq_iterate_mut (script : list (fb * (T → T))) : M (deque T) (list (option (N * T))) :=
    λ d, match drive_mut dq_iter_mut_next dq_iter_mut_next_back script (d, dq_mk_iter d) with
         | Ret a (d, _) => Ret a d | Fail e (d, _) => Fail e d end.

  (** One call; the slot indices yielded by iterators are not part of the abstract result *)
  Definition dq_step (o : dq_op T) : M (deque T) (dq_out T) :=
    match o with
    | DPushFront v => dq_push_front v;; mret DUnit
    | DPushBack v => dq_push_back v;; mret DUnit
    | DPopFront => o ← dq_pop_front; mret (DVal o)
    | DPopBack => o ← dq_pop_back; mret (DVal o)
    | DFront => o ← gets dq_front; mret (DVal o)
    | DBack => o ← gets dq_back; mret (DVal o)
    | DLen => d ← mget; mret (DNum (dq_len d))
    | DIsEmpty => d ← mget; mret (DBool (dq_is_empty d))
    | DIter sc => l ← gets (dq_iterate sc); mret (DList (no_index l))
    | DIterMut sc => l ← dq_iterate_mut sc; mret (DList (no_index l))
    end.
End api.
