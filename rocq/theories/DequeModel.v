(** * Model of src/deque.rs *)
From Verif Require Export AllocModel.

(** deque.rs:8-9 register aliases *)
Definition PREV : N := 0.
Definition NEXT : N := 1.

(** deque.rs:11-18 [struct Deque<T, MAX_SIZE>] *)
Record deque (T : Type) := Deque { dq_seqno : N; dq_head : N; dq_tail : N; dq_al : alloc T }.
Global Arguments Deque {T} dq_seqno dq_head dq_tail dq_al.
Global Arguments dq_seqno {T} d.
Global Arguments dq_head {T} d.
Global Arguments dq_tail {T} d.
Global Arguments dq_al {T} d.

(** deque.rs:44-60 [default] / [new] ([NodeAllocator::<T, MAX_SIZE, 2>::default()], inlined) *)
Definition dq_new {T} (ms : nat) (d : T) : deque T :=
  Deque 0 SENTINEL SENTINEL (Alloc 0 1 1 (replicate ms (node_default 2 d))).
(** A Deque viewed in a zeroed buffer (deque.rs:20-23 [Zeroable]) *)
Definition dq_zeroed {T} (ms : nat) (z : T) : deque T := Deque 0 0 0 (na_zeroed ms 2 z).

Section Deque.
  Context `{Profile} {T : Type}.
  Implicit Types d : deque T.

  Definition set_head (x : N) d := Deque (dq_seqno d) x (dq_tail d) (dq_al d).
  Definition set_tail (x : N) d := Deque (dq_seqno d) (dq_head d) x (dq_al d).
  Definition set_seqno (x : N) d := Deque x (dq_head d) (dq_tail d) (dq_al d).
  Definition set_dal (x : alloc T) d := Deque (dq_seqno d) (dq_head d) (dq_tail d) x.
  (** [self.allocator.<method>(...)] *)
  Definition dq_on {A} (m : M (alloc T) A) : M (deque T) A := zoom dq_al set_dal m.

  (** deque.rs:62-64 [initialize] *)
  Definition dq_initialize : M (deque T) () := dq_on na_initialize.

  (** deque.rs:89-91 [get_node] *)
  Definition dq_get_node d (i : N) : res T := n ← na_get (dq_al d) i; Val (val n).

  (** deque.rs:66-71 [front] *)
  Definition dq_front d : res (option T) :=
    if decide (dq_head d = SENTINEL) then Val None
    else v ← dq_get_node d (dq_head d); Val (Some v).
  (** deque.rs:73-78 [back] *)
  Definition dq_back d : res (option T) :=
    if decide (dq_tail d = SENTINEL) then Val None
    else n ← na_get (dq_al d) (dq_tail d); Val (Some (val n)).

  (** deque.rs:80-82 [get_next] *)
  Definition dq_get_next d (i : N) : res N := na_get_register (dq_al d) i NEXT.
  (** deque.rs:84-86 [get_prev] *)
  Definition dq_get_prev d (i : N) : res N := na_get_register (dq_al d) i PREV.

  (** [self.sequence_number += 1] (deque.rs:102, 114, 154) *)
  Definition dq_bump_seq : M (deque T) () :=
    d ← mget; s ← lift (u64_add (dq_seqno d) 1); modify (set_seqno s).

  (** deque.rs:93-103 [push_back] *)
  Definition dq_push_back (v : T) : M (deque T) () :=
    index ← dq_on (na_add_node v);
    d ← mget;
    (if decide (dq_head d = SENTINEL) then modify (set_head index) else mret ());;
    d ← mget;
    (if decide (dq_tail d = SENTINEL) then mret ()
     else dq_on (na_connect index (dq_tail d) PREV NEXT));;
    modify (set_tail index);;
    dq_bump_seq.

  (** deque.rs:105-115 [push_front] *)
  Definition dq_push_front (v : T) : M (deque T) () :=
    index ← dq_on (na_add_node v);
    d ← mget;
    (if decide (dq_tail d = SENTINEL) then modify (set_tail index) else mret ());;
    d ← mget;
    (if decide (dq_head d = SENTINEL) then mret ()
     else dq_on (na_connect index (dq_head d) NEXT PREV));;
    modify (set_head index);;
    dq_bump_seq.

  (** deque.rs:133-156 [_remove] *)
  Definition dq_remove (i : N) : M (deque T) (option T) :=
    value ← gets (λ d, dq_get_node d i);
    left ← gets (λ d, dq_get_prev d i);
    right ← gets (λ d, dq_get_next d i);
    dq_on (na_clear_register i PREV);;
    dq_on (na_clear_register i NEXT);;
    (if decide (left ≠ SENTINEL ∧ right ≠ SENTINEL)
     then dq_on (na_connect left right NEXT PREV) else mret ());;
    d ← mget;
    (if decide (i = dq_head d) then
       modify (set_head right);; dq_on (na_clear_register right PREV)
     else mret ());;
    d ← mget;
    (if decide (i = dq_tail d) then
       modify (set_tail left);; dq_on (na_clear_register left NEXT)
     else mret ());;
    dq_on (na_remove_node i);;
    dq_bump_seq;;
    mret (Some value).

  (** deque.rs:117-123 [pop_front] *)
  Definition dq_pop_front : M (deque T) (option T) :=
    d ← mget;
    if decide (dq_head d = SENTINEL) then mret None else dq_remove (dq_head d).
  (** deque.rs:125-131 [pop_back] *)
  Definition dq_pop_back : M (deque T) (option T) :=
    d ← mget;
    if decide (dq_tail d = SENTINEL) then mret None else dq_remove (dq_tail d).

  (** deque.rs:158-160 [len] ([u64 as usize] is the identity on a 64-bit target) *)
  Definition dq_len d : N := size (dq_al d).
  (** deque.rs:162-164 [is_empty] *)
  Definition dq_is_empty d : bool := bool_decide (dq_len d = 0).

  (** deque.rs:187-192 [DequeIterator] and 238-243 [DequeIteratorMut], without the reference to the deque *)
  Record dq_iter := DqIter { dqi_fwd_ptr : N; dqi_rev_ptr : N; dqi_terminated : bool }.

  (** deque.rs:166-173 [iter] and 175-184 [iter_mut] *)
  Definition dq_mk_iter d : dq_iter := DqIter (dq_head d) (dq_tail d) false.

  (** deque.rs:199-214 [DequeIterator::next] *)
  Definition dq_iter_next d (it : dq_iter) : res (option (N * T) * dq_iter) :=
    if dqi_terminated it then Val (None, it)
    else if decide (dqi_fwd_ptr it = SENTINEL) then Val (None, it)
    else
      let ptr := dqi_fwd_ptr it in
      let term := if decide (ptr = dqi_rev_ptr it) then true else dqi_terminated it in
      p ← dq_get_next d ptr;
      v ← dq_get_node d ptr;
      Val (Some (ptr, v), DqIter p (dqi_rev_ptr it) term).

  (** deque.rs:220-235 [DequeIterator::next_back] *)
  Definition dq_iter_next_back d (it : dq_iter) : res (option (N * T) * dq_iter) :=
    if dqi_terminated it then Val (None, it)
    else if decide (dqi_rev_ptr it = SENTINEL) then Val (None, it)
    else
      let ptr := dqi_rev_ptr it in
      let term := if decide (ptr = dqi_fwd_ptr it) then true else dqi_terminated it in
      p ← dq_get_prev d ptr;
      v ← dq_get_node d ptr;
      Val (Some (ptr, v), DqIter (dqi_fwd_ptr it) p term).
End Deque.

Section DequeMut.
  Context `{Profile} {T : Type}.
  (** deque.rs:250-273 [DequeIteratorMut::next]; the state is the deque together with the iterator. The result is
      the index the caller sees and the value it finds behind the reference; [f] is what it stores there. *)
  Definition dq_iter_mut_next (f : T → T) : M (deque T * dq_iter) (option (N * T)) :=
    st ← mget;
    let '(d, it) := st in
    if dqi_terminated it then mret None
    else if decide (dqi_fwd_ptr it = SENTINEL) then mret None
    else
      let ptr := dqi_fwd_ptr it in
      let term := if decide (ptr = dqi_rev_ptr it) then true else dqi_terminated it in
      p ← lift (dq_get_next d ptr);
      modify (λ st, (st.1, DqIter p (dqi_rev_ptr it) term));;
      v ← zoom fst (λ d st, (d, st.2)) (dq_on (na_raw_update ptr f));
      mret (Some (ptr, v)).

  (** deque.rs:279-302 [DequeIteratorMut::next_back] *)
  Definition dq_iter_mut_next_back (f : T → T) : M (deque T * dq_iter) (option (N * T)) :=
    st ← mget;
    let '(d, it) := st in
    if dqi_terminated it then mret None
    else if decide (dqi_rev_ptr it = SENTINEL) then mret None
    else
      let ptr := dqi_rev_ptr it in
      let term := if decide (ptr = dqi_fwd_ptr it) then true else dqi_terminated it in
      p ← lift (dq_get_prev d ptr);
      modify (λ st, (st.1, DqIter (dqi_fwd_ptr it) p term));;
      v ← zoom fst (λ d st, (d, st.2)) (dq_on (na_raw_update ptr f));
      mret (Some (ptr, v)).
End DequeMut.
