(** * The mutable iterators with every reference they make

    The functions of HeldModel.v again, each with the reborrows, reads and writes it makes to the memory of the container (AliasSpec.v). The [&mut] reference everything starts
    from is the one the iterator holds (deque.rs:239, hash_table.rs:447, red_black_tree.rs:859, avl_tree.rs:737, critbit.rs:679). Simplified: a [&] made from a [&] (the [&self] calls
    inside a [&self] function, [as_ptr]) is merged with it, and so is a [&mut] reborrowed unchanged to be passed or returned. *)
From Verif Require Export HeldModel AliasSpec.

(** Does a part of the trace of a program in state [S] *)
Definition emit {S} (e : event) : M (S * trace) () := modify (λ st, (st.1, st.2 ++ [e])).
(** A reborrow, and the pointer it makes *)
Definition reborrow {S} (k : kind) (p : ptr) (g : region) : M (S * trace) ptr :=
  st ← mget; emit (Reborrow k p g);; mret ((k, length st.2) :: p).
(** Program on the container and iterator alone *)
Definition quietly {S A} (m : M S A) : M (S * trace) A := zoom fst (λ s st, (s, st.2)) m.

(** What the program gets: the pointers behind the [&K] and the [&mut V] of an item, and the places they cover *)
Record refs := Refs { rf_key : option (ptr * region); rf_val : ptr * region }.

Section reading.
  Context `{Profile} {S T : Type}.
  (** [self.tree.get_left(i)] and its like: the container is reborrowed as [&self] (deque.rs:80-86, hash_table.rs:226-232, red_black_tree.rs:385-392, avl_tree.rs:275-277,
      critbit.rs:229-253); [NodeAllocator::get_register] (node_allocator.rs:331-337) then reads the registers of the node, of SENTINEL nothing *)
  Definition bget (pool : bool) (a : alloc T) (i r : N) : M (S * trace) N :=
    s ← reborrow KShr [] Whole;
    (if decide (i = SENTINEL) then mret () else emit (Read s (RegsOf pool i)));;
    lift (na_get_register a i r).
End reading.

Section yielding.
  Context {S : Type}.
  (** The [unsafe] blocks: [self.deque.allocator.nodes.as_mut_ptr()] reborrows the whole node array as [&mut [Node]] (the receiver of the slice method [as_mut_ptr]) and makes a
      [*mut]; [( *ptr.add(i - 1)).get_value_mut()] (node_allocator.rs:123-125) makes a [&mut Node] and from it a [&mut T] *)
  Definition bvalue (pool : bool) (g : region) (i : N) : M (S * trace) ptr :=
    u ← reborrow KMut [] (Pool pool);
    r ← reborrow KRaw u (Pool pool);
    n ← reborrow KMut r (Slot pool i);
    reborrow KMut n g.
  (** deque.rs:262-270, 291-299 *)
  Definition byield_value (i : N) : M (S * trace) refs :=
    v ← bvalue false (ValOf false i) i;
    mret (Refs None (v, ValOf false i)).
  (** hash_table.rs:475-479, red_black_tree.rs:893-902, 931-940, avl_tree.rs:772-781, 810-819: [(&node.key, &mut node.value)] *)
  Definition byield_entry (i : N) : M (S * trace) refs :=
    e ← bvalue false (Entry false i) i;
    k ← reborrow KShr e (KeyOf false i);
    v ← reborrow KMut e (ValOf false i);
    mret (Refs (Some (k, KeyOf false i)) (v, ValOf false i)).
  (** critbit.rs:707-719, 751-763: the key from [node_allocator.nodes.as_ptr()], the value from [leaves.nodes.as_mut_ptr()]. The node pool is [false], the leaf pool [true]. *)
  Definition byield_leaf (n i : N) : M (S * trace) refs :=
    s ← reborrow KShr [] (Pool false);
    k ← reborrow KShr s (KeyOf false n);
    v ← bvalue true (ValOf true i) i;
    mret (Refs (Some (k, KeyOf false n)) (v, ValOf true i)).
End yielding.

Section program.
  Context {S R K V : Type} (next next_back : M (S * trace) (option (R * refs))) (index : R → N) (key : R → S → res K) (use : R → (V → V) → M S V).
  (** The program of HeldModel.v: [HKey] reads through the [&K], [HUse] reads and writes through the [&mut V] *)
  Fixpoint traced (script : list (hact V)) (hs : list (option (R * refs))) : M (S * trace) (list (hans K V)) :=
    match script with
    | [] => mret []
    | HNext e :: script =>
        r ← (match e with Fwd => next | Bwd => next_back end);
        rs ← traced script (hs ++ [r]);
        mret (HGot (index ∘ fst <$> r) :: rs)
    | HKey j :: script =>
        k ← (match hs !! j with
             | Some (Some (r, p)) =>
                 (match rf_key p with Some (q, g) => emit (Read q g) | None => mret () end);;
                 k ← gets (λ st, key r st.1); mret (Some k)
             | _ => mret None
             end);
        rs ← traced script hs;
        mret (HKeyIs k :: rs)
    | HUse j f :: script =>
        v ← (match hs !! j with
             | Some (Some (r, p)) =>
                 emit (Read (rf_val p).1 (rf_val p).2);; emit (Write (rf_val p).1 (rf_val p).2);;
                 v ← quietly (use r f); mret (Some v)
             | _ => mret None
             end);
        rs ← traced script hs;
        mret (HFound v :: rs)
    end.
End program.

(** The container and the trace after a program run on container and iterator *)
Definition drop_iter {C I A} (o : outcome ((C * I) * trace) A) : outcome (C * trace) A :=
  match o with Ret a st => Ret a (st.1.1, st.2) | Fail e st => Fail e (st.1.1, st.2) end.

Section Deque.
  Context `{Profile} {T : Type}.
  (** deque.rs:250-273 *)
  Definition dq_b_next : M ((deque T * dq_iter) * trace) (option (N * refs)) :=
    st ← mget;
    let '((d, it), _) := st in
    if dqi_terminated it then mret None
    else if decide (dqi_fwd_ptr it = SENTINEL) then mret None
    else
      let ptr := dqi_fwd_ptr it in
      let term := if decide (ptr = dqi_rev_ptr it) then true else dqi_terminated it in
      p ← bget false (dq_al d) ptr NEXT;
      quietly (modify (λ st, (st.1, DqIter p (dqi_rev_ptr it) term)));;
      r ← gets (λ st, na_ref ptr (dq_al st.1.1));
      q ← byield_value ptr;
      mret (Some (r, q)).
  (** deque.rs:279-302 *)
  Definition dq_b_next_back : M ((deque T * dq_iter) * trace) (option (N * refs)) :=
    st ← mget;
    let '((d, it), _) := st in
    if dqi_terminated it then mret None
    else if decide (dqi_rev_ptr it = SENTINEL) then mret None
    else
      let ptr := dqi_rev_ptr it in
      let term := if decide (ptr = dqi_fwd_ptr it) then true else dqi_terminated it in
      p ← bget false (dq_al d) ptr PREV;
      quietly (modify (λ st, (st.1, DqIter (dqi_fwd_ptr it) p term)));;
      r ← gets (λ st, na_ref ptr (dq_al st.1.1));
      q ← byield_value ptr;
      mret (Some (r, q)).
  Definition dq_traced (script : list (hact T)) (d : deque T) : outcome (deque T * trace) (list (hans () T)) :=
    drop_iter (traced dq_b_next dq_b_next_back id (λ _ _, Val ()) dq_ref_use script [] ((d, dq_mk_iter d), [])).
End Deque.

Section Hash.
  Context `{Profile} {K V S : Type}.
  (** hash_table.rs:464-471: [self.ht.buckets[self.bucket]] reads the header *)
  Fixpoint ht_b_skip (fuel : nat) (h : htable K V) (it : ht_iter) : M (S * trace) (option N * ht_iter) :=
    match fuel with
    | O => mfail OutOfFuel
    | Datatypes.S fuel =>
        if decide (hti_node it = SENTINEL) then
          let b := hti_bucket it + 1 in
          if decide (b = lengthN (buckets h)) then mret (None, HtIter b (hti_node it))
          else emit (Read [] Hdr);; x ← lift (ht_bucket h b); ht_b_skip fuel h (HtIter b x)
        else mret (Some (hti_node it), it)
    end.
End Hash.

Section HashNext.
  Context `{Profile} {K V : Type}.
  (** hash_table.rs:462-483 *)
  Definition ht_b_next : M ((htable K V * ht_iter) * trace) (option (N * refs)) :=
    st ← mget;
    let '((h, it), _) := st in
    if decide (hti_bucket it < lengthN (buckets h)) then
      r ← ht_b_skip (S (length (buckets h))) h it;
      let '(o, it) := r in
      match o with
      | None => quietly (modify (λ st, (st.1, it)));; mret None
      | Some ptr =>
          nx ← bget false (ht_al h) ptr Right;
          quietly (modify (λ st, (st.1, HtIter (hti_bucket it) nx)));;
          r ← gets (λ st, na_ref ptr (ht_al st.1.1));
          q ← byield_entry ptr;
          mret (Some (r, q))
      end
    else mret None.
  (** hash_table.rs:494-496 *)
  Definition ht_b_next_back : M ((htable K V * ht_iter) * trace) (option (N * refs)) := mret None.
  Definition ht_traced (script : list (hact V)) (h : htable K V) : outcome (htable K V * trace) (list (hans K V)) :=
    match ht_mk_iter h with
    | Err e => Fail e (h, [])
    | Val it => drop_iter (traced ht_b_next ht_b_next_back id ht_ref_key ht_ref_use script [] ((h, it), []))
    end.
End HashNext.

Section Tree.
  Context `{Profile} {K V S : Type}.
  Notation al := (alloc (K * V)).
  (** red_black_tree.rs:880-892, avl_tree.rs:758-770 *)
  Fixpoint ti_b_fwd (fuel : nat) (a : al) (it : titer) : M (S * trace) (option N * titer) :=
    match fuel with
    | O => mfail OutOfFuel
    | Datatypes.S fuel =>
        let '(TIter fs fp fn rs rp rn tm) := it in
        if tm then mret (None, it)
        else if decide (fp = SENTINEL) then
          match fs with
          | [] => mret (None, it)
          | c :: fs' =>
              if decide (Some c = rn) then mret (None, TIter fs' fp fn rs rp rn true)
              else
                p ← bget false a c Right;
                mret (Some c, TIter fs' p (Some c) rs rp rn tm)
          end
        else
          p ← bget false a fp Left;
          ti_b_fwd fuel a (TIter (fp :: fs) p fn rs rp rn tm)
    end.
  (** red_black_tree.rs:918-930, avl_tree.rs:796-808 *)
  Fixpoint ti_b_rev (fuel : nat) (a : al) (it : titer) : M (S * trace) (option N * titer) :=
    match fuel with
    | O => mfail OutOfFuel
    | Datatypes.S fuel =>
        let '(TIter fs fp fn rs rp rn tm) := it in
        if tm then mret (None, it)
        else if decide (rp = SENTINEL) then
          match rs with
          | [] => mret (None, it)
          | c :: rs' =>
              if decide (Some c = fn) then mret (None, TIter fs fp fn rs' rp rn true)
              else
                p ← bget false a c Left;
                mret (Some c, TIter fs fp fn rs' p (Some c) tm)
          end
        else
          p ← bget false a rp Right;
          ti_b_rev fuel a (TIter fs fp fn (rp :: rs) p rn tm)
    end.
End Tree.

Section TreeNext.
  Context `{Profile} {K V : Type}.
  Notation al := (alloc (K * V)).
  (** red_black_tree.rs:879-907, avl_tree.rs:757-785 *)
  Definition ti_b_next : M ((al * titer) * trace) (option (N * refs)) :=
    st ← mget;
    r ← ti_b_fwd (ti_fuel st.1.1) st.1.1 st.1.2;
    quietly (modify (λ st, (st.1, r.2)));;
    match r.1 with
    | None => mret None
    | Some c => c' ← gets (λ st, na_ref c st.1.1); q ← byield_entry c; mret (Some (c', q))
    end.
  (** red_black_tree.rs:917-945, avl_tree.rs:795-823 *)
  Definition ti_b_next_back : M ((al * titer) * trace) (option (N * refs)) :=
    st ← mget;
    r ← ti_b_rev (ti_fuel st.1.1) st.1.1 st.1.2;
    quietly (modify (λ st, (st.1, r.2)));;
    match r.1 with
    | None => mret None
    | Some c => c' ← gets (λ st, na_ref c st.1.1); q ← byield_entry c; mret (Some (c', q))
    end.
  (** The same iterators serve both trees: run on the allocator of the tree *)
  Definition rb_on_traced {A} (m : M ((al * titer) * trace) A) : M ((rbt K V * titer) * trace) A :=
    zoom (λ st, ((rb_al st.1.1, st.1.2), st.2)) (λ x st, ((RBT (rb_root st.1.1) x.1.1, x.1.2), x.2)) m.
  Definition av_on_traced {A} (m : M ((al * titer) * trace) A) : M ((avlt K V * titer) * trace) A :=
    zoom (λ st, ((av_al st.1.1, st.1.2), st.2)) (λ x st, ((AVLT (av_root st.1.1) x.1.1, x.1.2), x.2)) m.
  Definition rb_traced (script : list (hact V)) (t : rbt K V) : outcome (rbt K V * trace) (list (hans K V)) :=
    drop_iter (traced (rb_on_traced ti_b_next) (rb_on_traced ti_b_next_back) id (λ r st, ti_ref_key r (rb_al st.1, st.2))
                      (λ r f, rb_on_iter (ti_ref_use r f)) script [] ((t, rb_iter t), [])).
  Definition av_traced (script : list (hact V)) (t : avlt K V) : outcome (avlt K V * trace) (list (hans K V)) :=
    drop_iter (traced (av_on_traced ti_b_next) (av_on_traced ti_b_next_back) id (λ r st, ti_ref_key r (av_al st.1, st.2))
                      (λ r f, av_on_iter (ti_ref_use r f)) script [] ((t, av_iter t), [])).
End TreeNext.

Section Crit.
  Context `{Profile} {V S : Type}.
  (** critbit.rs:696-706, 720-723 *)
  Fixpoint ci_b_fwd (fuel : nat) (t : critbit V) (it : citer) : M (S * trace) (option (N * N) * citer) :=
    match fuel with
    | O => mfail OutOfFuel
    | Datatypes.S fuel =>
        let '(CIter fs fn rs rn tm) := it in
        if tm then mret (None, it)
        else
          match fs with
          | [] => mret (None, it)
          | n :: fs =>
              x ← bget false (cb_nodes t) n FValue;
              if negb (bool_decide (x = SENTINEL)) then
                i ← bget false (cb_nodes t) n FValue;
                if decide (Some i = rn) then mret (None, CIter fs fn rs rn true)
                else mret (Some (n, i), CIter fs (Some i) rs rn tm)
              else
                r ← bget false (cb_nodes t) n Right;
                l ← bget false (cb_nodes t) n Left;
                ci_b_fwd fuel t (CIter (l :: r :: fs) fn rs rn tm)
          end
    end.
  (** critbit.rs:740-750, 764-767 *)
  Fixpoint ci_b_rev (fuel : nat) (t : critbit V) (it : citer) : M (S * trace) (option (N * N) * citer) :=
    match fuel with
    | O => mfail OutOfFuel
    | Datatypes.S fuel =>
        let '(CIter fs fn rs rn tm) := it in
        if tm then mret (None, it)
        else
          match rs with
          | [] => mret (None, it)
          | n :: rs =>
              x ← bget false (cb_nodes t) n FValue;
              if negb (bool_decide (x = SENTINEL)) then
                i ← bget false (cb_nodes t) n FValue;
                if decide (Some i = fn) then mret (None, CIter fs fn rs rn true)
                else mret (Some (n, i), CIter fs fn rs (Some i) tm)
              else
                l ← bget false (cb_nodes t) n Left;
                r ← bget false (cb_nodes t) n Right;
                ci_b_rev fuel t (CIter fs fn (r :: l :: rs) rn tm)
          end
    end.
End Crit.

Section CritNext.
  Context `{Profile} {V : Type}.
  (** critbit.rs:695-729 *)
  Definition cb_b_next : M ((critbit V * citer) * trace) (option ((N * N) * refs)) :=
    st ← mget;
    r ← ci_b_fwd (cb_fuel st.1.1) st.1.1 st.1.2;
    quietly (modify (λ st, (st.1, r.2)));;
    match r.1 with
    | None => mret None
    | Some (n, i) =>
        n' ← gets (λ st, na_ref n (cb_nodes st.1.1));
        i' ← gets (λ st, na_ref i (cb_leaves st.1.1));
        q ← byield_leaf n i;
        mret (Some ((n', i'), q))
    end.
  (** critbit.rs:739-773 *)
  Definition cb_b_next_back : M ((critbit V * citer) * trace) (option ((N * N) * refs)) :=
    st ← mget;
    r ← ci_b_rev (cb_fuel st.1.1) st.1.1 st.1.2;
    quietly (modify (λ st, (st.1, r.2)));;
    match r.1 with
    | None => mret None
    | Some (n, i) =>
        n' ← gets (λ st, na_ref n (cb_nodes st.1.1));
        i' ← gets (λ st, na_ref i (cb_leaves st.1.1));
        q ← byield_leaf n i;
        mret (Some ((n', i'), q))
    end.
  Definition cb_traced (script : list (hact V)) (t : critbit V) : outcome (critbit V * trace) (list (hans N V)) :=
    drop_iter (traced cb_b_next cb_b_next_back snd cb_ref_key cb_ref_use script [] ((t, cb_iter t), [])).
End CritNext.
