(** * C71: containers whose const parameters are 0

    The answer of an empty map to a call, where a call that would need room (or a bucket) panics. *)
From Verif Require Export MapSpec HashSpec.

Section spec.
  Context {K V : Type}.

  (** [MAX_SIZE = 0]: [insert] panics (it does not answer [None]), everything else is answered as by any empty map *)
  Definition zero_answer (o : om_op K V) : res (om_out K V) :=
    match o with
    | MInsert _ _ => Err Panic
    | MRemove _ | MGet _ | MGetMut _ _ => Val (MVal None)
    | MContains _ => Val (MBool false)
    | MLen | MCapacity => Val (MNum 0)
    | MIsEmpty => Val (MBool true)
    | MGetMin | MGetMax => Val (MPair None)
    | MIndex _ | MIndexMut _ _ => Err Panic
    | MIter sc => Val (MList (map (λ _, None) sc))
    | MIterMut sc => Val (MList (map (λ _, None) sc))
    end.
  (** the same with [remove_root], written [None] *)
  Definition zero_answer_rb (o : option (om_op K V)) : res (om_out K V) :=
    match o with Some o => zero_answer o | None => Val (MPair None) end.

  (** [NUM_BUCKETS = 0]: every call with a key panics (it computes a remainder modulo 0), also the lookups; iteration panics as well (it
      looks at bucket 0) *)
  Definition no_bucket_answer (cap : N) (o : hm_op K V) : res (hm_out K V) :=
    match o with
    | HLen => Val (HNum 0)
    | HIsEmpty => Val (HBool true)
    | HCapacity => Val (HNum cap)
    | _ => Err Panic
    end.
End spec.

(** How many calls of a history are insertions *)
Definition is_insertion {K V} (o : om_op K V) : bool := match o with MInsert _ _ => true | _ => false end.
Definition insertions {K V} (o : list (om_op K V)) : N := lengthN (List.filter is_insertion o).
