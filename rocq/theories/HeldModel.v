(** * Mutable iterators whose references are kept and used later

    In the models of [iter_mut] so far the caller writes through a reference at the moment it is yielded. The signature
    [Item = (&'a K, &'a mut V)] (deque.rs:248, hash_table.rs:460, red_black_tree.rs:877, avl_tree.rs:755, critbit.rs:693) allows more: a program may
    keep all references, ask the iterator further in between, and read and write through the references later, in any order and any number
    of times. Here [next]/[next_back] only produce the reference; using it is a separate step. A reference is represented by the 1-based
    index it was made from (its address is [nodes.as_mut_ptr().add(ptr - 1)]). *)
From Verif Require Export Spec DequeModel HashModel RBModel AVLModel CritModel.

(** One step of a program that holds an iterator and references: ask the iterator at one end and keep what it yields (also a [None]); read the key
    through the [j]-th kept result; read the value behind the [j]-th and store [f] of it. *)
Inductive hact (V : Type) := HNext (e : fb) | HKey (j : nat) | HUse (j : nat) (f : V → V).
Global Arguments HNext {V} e.
Global Arguments HKey {V} j.
Global Arguments HUse {V} j f.
(** What the program sees: the index yielded; the key read; the value found. [None] when the [j]-th result does not exist or is a [None] (such a
    step does nothing). *)
Inductive hans (K V : Type) := HGot (i : option N) | HKeyIs (k : option K) | HFound (v : option V).
Global Arguments HGot {K V} i.
Global Arguments HKeyIs {K V} k.
Global Arguments HFound {K V} v.

Section held.
  Context {S R K V : Type} (next next_back : M S (option R)) (index : R → N) (key : R → S → res K) (use : R → (V → V) → M S V).
  (** The program run; [hs] are the results kept so far *)
  Fixpoint held (script : list (hact V)) (hs : list (option R)) : M S (list (hans K V)) :=
    match script with
    | [] => mret []
    | HNext e :: script =>
        r ← (match e with Fwd => next | Bwd => next_back end);
        rs ← held script (hs ++ [r]);
        mret (HGot (index <$> r) :: rs)
    | HKey j :: script =>
        k ← (match hs !! j with Some (Some r) => k ← gets (key r); mret (Some k) | _ => mret None end);
        rs ← held script hs;
        mret (HKeyIs k :: rs)
    | HUse j f :: script =>
        v ← (match hs !! j with Some (Some r) => v ← use r f; mret (Some v) | _ => mret None end);
        rs ← held script hs;
        mret (HFound v :: rs)
    end.
End held.

Section refs.
  Context `{Profile} {T : Type}.
  (** Making the reference [&mut ( *nodes.as_mut_ptr().add((ptr - 1) as usize)).value] without using it; outside the array it is [UB] *)
  Definition na_ref (ptr : N) (a : alloc T) : res N :=
    j ← u32_sub ptr 1; match lookupN (nodes a) j with Some _ => Val ptr | None => Err UB end.
  (** Reading through such a reference *)
  Definition na_deref (ptr : N) (a : alloc T) : res T :=
    j ← u32_sub ptr 1; match lookupN (nodes a) j with Some n => Val (val n) | None => Err UB end.
End refs.

Section Deque.
  Context `{Profile} {T : Type}.
  (** deque.rs:250-273 [DequeIteratorMut::next], 279-302 [next_back] *)
  Definition dq_ref_next : M (deque T * dq_iter) (option N) :=
    st ← mget;
    let '(d, it) := st in
    if dqi_terminated it then mret None
    else if decide (dqi_fwd_ptr it = SENTINEL) then mret None
    else
      let ptr := dqi_fwd_ptr it in
      let term := if decide (ptr = dqi_rev_ptr it) then true else dqi_terminated it in
      p ← lift (dq_get_next d ptr);
      modify (λ st, (st.1, DqIter p (dqi_rev_ptr it) term));;
      r ← gets (λ st, na_ref ptr (dq_al st.1));
      mret (Some r).
  Definition dq_ref_next_back : M (deque T * dq_iter) (option N) :=
    st ← mget;
    let '(d, it) := st in
    if dqi_terminated it then mret None
    else if decide (dqi_rev_ptr it = SENTINEL) then mret None
    else
      let ptr := dqi_rev_ptr it in
      let term := if decide (ptr = dqi_fwd_ptr it) then true else dqi_terminated it in
      p ← lift (dq_get_prev d ptr);
      modify (λ st, (st.1, DqIter (dqi_fwd_ptr it) p term));;
      r ← gets (λ st, na_ref ptr (dq_al st.1));
      mret (Some r).
  Definition dq_ref_use (r : N) (f : T → T) : M (deque T * dq_iter) T :=
    zoom fst (λ d st, (d, st.2)) (dq_on (na_raw_update r f)).
  (** A Deque has no keys: [HKey] answers [()] *)
  Definition dq_held (script : list (hact T)) : M (deque T) (list (hans () T)) :=
    λ d, match held dq_ref_next dq_ref_next_back id (λ _ _, Val ()) dq_ref_use script [] (d, dq_mk_iter d) with
         | Ret a (d, _) => Ret a d | Fail e (d, _) => Fail e d end.
End Deque.

Section Hash.
  Context `{Profile} {K V : Type}.
  (** hash_table.rs:462-483 [HashTableIteratorMut::next], 494-496 [next_back] *)
  Definition ht_ref_next : M (htable K V * ht_iter) (option N) :=
    st ← mget;
    let '(h, it) := st in
    if decide (hti_bucket it < lengthN (buckets h)) then
      r ← lift (ht_skip (S (length (buckets h))) h it);
      let '(o, it) := r in
      match o with
      | None => modify (λ st, (st.1, it));; mret None
      | Some ptr =>
          nx ← lift (ht_get_next h ptr);
          modify (λ st, (st.1, HtIter (hti_bucket it) nx));;
          r ← gets (λ st, na_ref ptr (ht_al st.1));
          mret (Some r)
      end
    else mret None.
  Definition ht_ref_next_back : M (htable K V * ht_iter) (option N) := mret None.
  Definition ht_ref_key (r : N) (st : htable K V * ht_iter) : res K := n ← na_deref r (ht_al st.1); Val n.1.
  Definition ht_ref_use (r : N) (f : V → V) : M (htable K V * ht_iter) V :=
    n ← zoom fst (λ h st, (h, st.2)) (ht_on (na_raw_update r (λ n, (n.1, f n.2))));
    mret n.2.
  Definition ht_held (script : list (hact V)) : M (htable K V) (list (hans K V)) :=
    λ h, match ht_mk_iter h with
         | Err e => Fail e h
         | Val it =>
             match held ht_ref_next ht_ref_next_back id ht_ref_key ht_ref_use script [] (h, it) with
             | Ret a (h, _) => Ret a h | Fail e (h, _) => Fail e h end
         end.
End Hash.

Section Tree.
  Context `{Profile} {K V : Type}.
  Notation al := (alloc (K * V)).
  (** red_black_tree.rs:879-907 [RedBlackTreeIteratorMut::next], 917-945 [next_back]; avl_tree.rs:757-785, 795-823 *)
  Definition ti_ref_next : M (al * titer) (option N) :=
    st ← mget;
    r ← lift (ti_fwd (ti_fuel st.1) st.1 st.2);
    modify (λ st, (st.1, r.2));;
    match r.1 with
    | None => mret None
    | Some c => c ← gets (λ st, na_ref c st.1); mret (Some c)
    end.
  Definition ti_ref_next_back : M (al * titer) (option N) :=
    st ← mget;
    r ← lift (ti_rev (ti_fuel st.1) st.1 st.2);
    modify (λ st, (st.1, r.2));;
    match r.1 with
    | None => mret None
    | Some c => c ← gets (λ st, na_ref c st.1); mret (Some c)
    end.
  Definition ti_ref_key (r : N) (st : al * titer) : res K := n ← na_deref r st.1; Val n.1.
  Definition ti_ref_use (r : N) (f : V → V) : M (al * titer) V :=
    n ← zoom fst (λ a st, (a, st.2)) (na_raw_update r (λ n, (n.1, f n.2)));
    mret n.2.
  Definition rb_held (script : list (hact V)) : M (rbt K V) (list (hans K V)) :=
    λ t, match held (rb_on_iter ti_ref_next) (rb_on_iter ti_ref_next_back) id (λ r st, ti_ref_key r (rb_al st.1, st.2))
                    (λ r f, rb_on_iter (ti_ref_use r f)) script [] (t, rb_iter t) with
         | Ret a (t, _) => Ret a t | Fail e (t, _) => Fail e t end.
  Definition av_held (script : list (hact V)) : M (avlt K V) (list (hans K V)) :=
    λ t, match held (av_on_iter ti_ref_next) (av_on_iter ti_ref_next_back) id (λ r st, ti_ref_key r (av_al st.1, st.2))
                    (λ r f, av_on_iter (ti_ref_use r f)) script [] (t, av_iter t) with
         | Ret a (t, _) => Ret a t | Fail e (t, _) => Fail e t end.
End Tree.

Section Critbit.
  Context `{Profile} {V : Type}.
  (** critbit.rs:695-729 [CritbitIteratorMut::next], 739-773 [next_back]. The key reference points into the node pool (index [n]), the value
      reference into the leaf pool (index [i]). *)
  Definition cb_ref_next : M (critbit V * citer) (option (N * N)) :=
    st ← mget;
    r ← lift (ci_fwd (cb_fuel st.1) st.1 st.2);
    modify (λ st, (st.1, r.2));;
    match r.1 with
    | None => mret None
    | Some (n, i) =>
        n ← gets (λ st, na_ref n (cb_nodes st.1));
        i ← gets (λ st, na_ref i (cb_leaves st.1));
        mret (Some (n, i))
    end.
  Definition cb_ref_next_back : M (critbit V * citer) (option (N * N)) :=
    st ← mget;
    r ← lift (ci_rev (cb_fuel st.1) st.1 st.2);
    modify (λ st, (st.1, r.2));;
    match r.1 with
    | None => mret None
    | Some (n, i) =>
        n ← gets (λ st, na_ref n (cb_nodes st.1));
        i ← gets (λ st, na_ref i (cb_leaves st.1));
        mret (Some (n, i))
    end.
  Definition cb_ref_key (r : N * N) (st : critbit V * citer) : res N := n ← na_deref r.1 (cb_nodes st.1); Val (cn_key n).
  Definition cb_ref_use (r : N * N) (f : V → V) : M (critbit V * citer) V :=
    zoom fst (λ t st, (t, st.2)) (cb_onl (na_raw_update r.2 f)).
  Definition cb_held (script : list (hact V)) : M (critbit V) (list (hans N V)) :=
    λ t, match held cb_ref_next cb_ref_next_back snd cb_ref_key cb_ref_use script [] (t, cb_iter t) with
         | Ret a (t, _) => Ret a t | Fail e (t, _) => Fail e t end.
End Critbit.
