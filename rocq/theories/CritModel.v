(** * Model of src/critbit.rs *)
From Verif Require Export AllocModel WalkModel.

(** critbit.rs:11-15 [struct CritbitNode] ([_padding] omitted: always 0 when written, never read) *)
Record cnode := CNode { cn_key : N; cn_prefix_len : N }.

(** critbit.rs:32-46 [struct Critbit] (paddings omitted) *)
Record critbit (V : Type) := Crit { cb_root : N; cb_nodes : alloc cnode; cb_leaves : alloc V }.
Global Arguments Crit {V} cb_root cb_nodes cb_leaves.
Global Arguments cb_root {V} _.
Global Arguments cb_nodes {V} _.
Global Arguments cb_leaves {V} _.

(** critbit.rs:66-75 [default], 212-214 [new]; [nn] is NUM_NODES, [ms] MAX_SIZE; [None] is the panic of
    [assert!(NUM_NODES >= 2 * MAX_SIZE)] *)
Definition cb_new {V} (nn ms : nat) (d : V) : option (critbit V) :=
  if decide (2 * ms ≤ nn)%nat
  then Some (Crit SENTINEL (Alloc 0 1 1 (replicate nn (node_default 4 (CNode 0 0))))
                           (Alloc 0 1 1 (replicate ms (node_default 4 d))))
  else None.
(** A Critbit viewed in a zeroed buffer (critbit.rs:48-56) *)
Definition cb_zeroed {V} (nn ms : nat) (z : V) : critbit V :=
  Crit 0 (na_zeroed nn 4 (CNode 0 0)) (na_zeroed ms 4 z).

(** [u128] operations *)
Definition W128 : N := 340282366920938463463374607431768211456.
(** [x.leading_zeros()] for a u128 *)
Definition leading_zeros128 (x : N) : N := 128 - N.size x.
(** [(1u128 << 127) >> s] for a u64 shift amount: a shift by 128 or more overflows (panic with overflow checks, otherwise the
    amount is masked to 7 bits) *)
Definition crit_bit_mask `{Profile} (s : N) : res N :=
  if decide (s < 128) then Val (N.shiftr (N.shiftl 1 127) s)
  else if overflow_checks then Err Panic
  else Val (N.shiftr (N.shiftl 1 127) (s mod 128)).

Section Crit.
  Context `{Profile} {V : Type}.
  Implicit Types t : critbit V.

  Definition set_croot (x : N) t := Crit x (cb_nodes t) (cb_leaves t).
  Definition set_cnodes (x : alloc cnode) t := Crit (cb_root t) x (cb_leaves t).
  Definition set_cleaves (x : alloc V) t := Crit (cb_root t) (cb_nodes t) x.
  Definition cb_onn {A} (m : M (alloc cnode) A) : M (critbit V) A := zoom cb_nodes set_cnodes m.
  Definition cb_onl {A} (m : M (alloc V) A) : M (critbit V) A := zoom cb_leaves set_cleaves m.

  (** critbit.rs:216-219 [initialize] *)
  Definition cb_initialize : M (critbit V) () := cb_onn na_initialize;; cb_onl na_initialize.
  (** critbit.rs:221-223 [get_leaf] *)
  Definition cb_get_leaf t (i : N) : res V := n ← na_get (cb_leaves t) i; Val (val n).
  (** critbit.rs:225-227 [get_leaf_mut] followed by an assignment of [v]; 265-267 [replace_leaf] *)
  Definition cb_replace_leaf (i : N) (v : V) : M (critbit V) () := cb_onl (na_get_mut i (node_set_value v)).
  (** critbit.rs:229-235 [get_leaf_index], [is_inner_node] *)
  Definition cb_get_leaf_index t (i : N) : res N := na_get_register (cb_nodes t) i FValue.
  Definition cb_is_inner_node t (i : N) : res bool :=
    r ← na_get_register (cb_nodes t) i FValue; Val (bool_decide (r = SENTINEL)).
  (** critbit.rs:237-243 [get_node], [get_key] *)
  Definition cb_get_node t (i : N) : res cnode := n ← na_get (cb_nodes t) i; Val (val n).
  Definition cb_get_key t (i : N) : res N := n ← na_get (cb_nodes t) i; Val (cn_key (val n)).
  (** critbit.rs:246-258 [get_left], [get_right], [get_parent] *)
  Definition cb_get_left t (i : N) : res N := na_get_register (cb_nodes t) i Left.
  Definition cb_get_right t (i : N) : res N := na_get_register (cb_nodes t) i Right.
  Definition cb_get_parent t (i : N) : res N := na_get_register (cb_nodes t) i Parent.

  (** critbit.rs:154-164 [size], [len], [capacity]; node_allocator.rs:43-45 [is_empty] *)
  Definition cb_len t : N := size (cb_leaves t).
  Definition cb_capacity t : N := MAX_SIZE (cb_leaves t).
  Definition cb_is_empty t : bool := bool_decide (cb_len t = 0).
  Definition cb_fuel t : nat := S (length (nodes (cb_nodes t))).

  (** critbit.rs:270-277 [add_leaf] *)
  Definition cb_add_leaf (k : N) (v : V) : M (critbit V) (N * N) :=
    node_index ← cb_onn (na_add_node (CNode k 128));
    leaf_index ← cb_onl (na_add_node v);
    cb_onn (na_set_register node_index leaf_index FValue);;
    cb_onl (na_get_mut leaf_index (node_set_value v));;
    mret (node_index, leaf_index).

  (** critbit.rs:280-287 [get_child] *)
  Definition cb_get_child t (prefix_len node_index search_key : N) : res (N * bool) :=
    mask ← crit_bit_mask prefix_len;
    if decide (N.land search_key mask ≠ 0)
    then r ← cb_get_right t node_index; Val (r, true)
    else l ← cb_get_left t node_index; Val (l, false).

  (** critbit.rs:290-304 [duplicate] *)
  Definition cb_duplicate (node_index : N) : M (critbit V) N :=
    n ← gets (λ t, cb_get_node t node_index);
    index ← cb_onn (na_add_node n);
    left ← gets (λ t, cb_get_left t node_index);
    right ← gets (λ t, cb_get_right t node_index);
    value ← gets (λ t, na_get_register (cb_nodes t) node_index FValue);
    cb_onn (na_set_register index value FValue);;
    cb_onn (na_connect index left Left Parent);;
    cb_onn (na_connect index right Right Parent);;
    mret index.

  (** critbit.rs:307-321 [replace_node] *)
  Definition cb_replace_node (node_index : N) (c : cnode) (left right : N) : M (critbit V) () :=
    cb_onn (na_get_mut node_index (node_set_value c));;
    cb_onn (na_clear_register node_index FValue);;
    cb_onn (na_connect node_index left Left Parent);;
    cb_onn (na_connect node_index right Right Parent).

  (** critbit.rs:324-354 [migrate] *)
  Definition cb_migrate (source target : N) : M (critbit V) () :=
    content ← gets (λ t, cb_get_node t source);
    cb_onn (na_get_mut target (node_set_value content));;
    inner ← gets (λ t, cb_is_inner_node t source);
    (if negb inner then
       l ← gets (λ t, cb_get_left t source);
       massert (bool_decide (l = SENTINEL));;
       r ← gets (λ t, cb_get_right t source);
       massert (bool_decide (r = SENTINEL));;
       leaf_index ← gets (λ t, cb_get_leaf_index t source);
       cb_onn (na_clear_register source FValue);;
       cb_onn (na_set_register target leaf_index FValue)
     else mret ());;
    li ← gets (λ t, cb_get_leaf_index t source);
    massert (bool_decide (li = SENTINEL));;
    l ← gets (λ t, cb_get_left t source);
    cb_onn (na_connect target l Left Parent);;
    r ← gets (λ t, cb_get_right t source);
    cb_onn (na_connect target r Right Parent);;
    cb_onn (na_clear_register source Left);;
    cb_onn (na_clear_register source Right);;
    cb_onn (na_remove_node source);;
    mret ().

  (** critbit.rs:357-384 [remove_leaf] *)
  Definition cb_remove_leaf (node_index : N) : M (critbit V) V :=
    leaf_index ← gets (λ t, cb_get_leaf_index t node_index);
    value ← gets (λ t, cb_get_leaf t leaf_index);
    cb_onn (na_clear_register node_index FValue);;
    li ← gets (λ t, cb_get_leaf_index t node_index);
    massert (bool_decide (li = SENTINEL));;
    parent ← gets (λ t, cb_get_parent t node_index);
    l ← gets (λ t, cb_get_left t parent);
    (if decide (node_index = l) then cb_onn (na_disconnect node_index parent Parent Left)
     else
       r ← gets (λ t, cb_get_right t parent);
       if decide (node_index = r) then cb_onn (na_disconnect node_index parent Parent Right)
       else if decide (parent ≠ SENTINEL) then mfail Panic
       else mret ());;
    cb_onl (na_remove_node leaf_index);;
    cb_onn (na_remove_node node_index);;
    mret value.

  (** critbit.rs:386-405 [get_addr] *)
  Fixpoint cb_walk (fuel : nat) t (k : N) (node_index : N) : res N :=
    match fuel with
    | O => Err OutOfFuel
    | S fuel =>
        node ← cb_get_node t node_index;
        inner ← cb_is_inner_node t node_index;
        if negb inner then
          Val (if decide (cn_key node = k) then node_index else SENTINEL)
        else
          let shared_prefix_len := leading_zeros128 (N.lxor (cn_key node) k) in
          if decide (cn_prefix_len node ≤ shared_prefix_len) then
            c ← cb_get_child t (cn_prefix_len node) node_index k;
            cb_walk fuel t k c.1
          else Val SENTINEL
    end.
  Definition cb_get_addr t (k : N) : res N := cb_walk (cb_fuel t) t k (cb_root t).
  (** critbit.rs:104-127 [get] *)
  Fixpoint cb_get_loop (fuel : nat) t (k : N) (node_index : N) : res (option V) :=
    match fuel with
    | O => Err OutOfFuel
    | S fuel =>
        node ← cb_get_node t node_index;
        inner ← cb_is_inner_node t node_index;
        if negb inner then
          if decide (cn_key node = k) then
            leaf_index ← cb_get_leaf_index t node_index;
            v ← cb_get_leaf t leaf_index;
            Val (Some v)
          else Val None
        else
          let shared_prefix_len := leading_zeros128 (N.lxor (cn_key node) k) in
          if decide (cn_prefix_len node ≤ shared_prefix_len) then
            c ← cb_get_child t (cn_prefix_len node) node_index k;
            cb_get_loop fuel t k c.1
          else Val None
    end.
  Definition cb_get t (k : N) : res (option V) :=
    if cb_is_empty t then Val None else cb_get_loop (cb_fuel t) t k (cb_root t).
  (** critbit.rs:100-102 [contains] *)
  Definition cb_contains t (k : N) : res bool :=
    o ← cb_get t k; Val (match o with Some _ => true | None => false end).
  (** critbit.rs:129-152 [get_mut]; [f] is the caller's update through the reference *)
  Fixpoint cb_get_mut_loop (fuel : nat) (k : N) (f : V → V) (node_index : N) : M (critbit V) (option V) :=
    match fuel with
    | O => mfail OutOfFuel
    | S fuel =>
        node ← gets (λ t, cb_get_node t node_index);
        inner ← gets (λ t, cb_is_inner_node t node_index);
        if negb inner then
          if decide (cn_key node = k) then
            leaf_index ← gets (λ t, cb_get_leaf_index t node_index);
            v ← gets (λ t, cb_get_leaf t leaf_index);
            cb_replace_leaf leaf_index (f v);;
            mret (Some v)
          else mret None
        else
          let shared_prefix_len := leading_zeros128 (N.lxor (cn_key node) k) in
          if decide (cn_prefix_len node ≤ shared_prefix_len) then
            c ← gets (λ t, cb_get_child t (cn_prefix_len node) node_index k);
            cb_get_mut_loop fuel k f c.1
          else mret None
    end.
  Definition cb_get_mut (k : N) (f : V → V) : M (critbit V) (option V) :=
    t ← mget;
    if cb_is_empty t then mret None else cb_get_mut_loop (cb_fuel t) k f (cb_root t).

  (** critbit.rs:418-442 the loop of [_insert] *)
  Fixpoint cb_insert_loop (fuel : nat) (k : N) (v : V) (node_index : N) : M (critbit V) (option N) :=
    match fuel with
    | O => mfail OutOfFuel
    | S fuel =>
        node ← gets (λ t, cb_get_node t node_index);
        same ← (if decide (cn_key node = k) then
                  inner ← gets (λ t, cb_is_inner_node t node_index); mret (negb inner)
                else mret false);
        if (same : bool) then
          leaf_index ← gets (λ t, cb_get_leaf_index t node_index);
          cb_replace_leaf leaf_index v;;
          mret (Some node_index)
        else
          let shared_prefix_len := leading_zeros128 (N.lxor (cn_key node) k) in
          if decide (cn_prefix_len node ≤ shared_prefix_len) then
            c ← gets (λ t, cb_get_child t (cn_prefix_len node) node_index k);
            cb_insert_loop fuel k v c.1
          else
            mask ← lift (crit_bit_mask shared_prefix_len);
            let is_right := bool_decide (N.land mask k ≠ 0) in
            nl ← cb_add_leaf k v;
            let node_leaf_index := nl.1 in
            moved_node_index ← cb_duplicate node_index;
            let new_node := CNode k shared_prefix_len in
            (if is_right
             then cb_replace_node node_index new_node moved_node_index node_leaf_index
             else cb_replace_node node_index new_node node_leaf_index moved_node_index);;
            mret (Some node_leaf_index)
    end.
  (** critbit.rs:407-443 [_insert] *)
  Definition cb_insert (k : N) (v : V) : M (critbit V) (option N) :=
    t ← mget;
    if decide (cb_root t = SENTINEL) then
      nl ← cb_add_leaf k v;
      modify (set_croot nl.1);;
      mret (Some nl.1)
    else if decide (cb_capacity t ≤ cb_len t) then mret None
    else cb_insert_loop (cb_fuel t) k v (cb_root t).

  (** critbit.rs:469-483 the loop of [_remove]; [None] = key not found, otherwise (parent, child, is_right) *)
  Fixpoint cb_remove_walk (fuel : nat) t (k : N) (parent child : N) (is_right : bool) :
      res (option (N * N * bool)) :=
    match fuel with
    | O => Err OutOfFuel
    | S fuel =>
        node ← cb_get_node t child;
        inner ← cb_is_inner_node t child;
        if (inner : bool) then
          gc ← cb_get_child t (cn_prefix_len node) child k;
          cb_remove_walk fuel t k child gc.1 gc.2
        else if decide (cn_key node ≠ k) then Val None
        else Val (Some (parent, child, is_right))
    end.

  (** critbit.rs:445-494 [_remove] *)
  Definition cb_remove (k : N) : M (critbit V) (option V) :=
    t ← mget;
    let nsize := size (cb_nodes t) in
    let lsize := size (cb_leaves t) in
    let parent := cb_root t in
    if decide (cb_len t = 0) then mret None
    else
      inner ← gets (λ t, cb_is_inner_node t parent);
      if (inner : bool) then
        node ← gets (λ t, cb_get_node t parent);
        c ← gets (λ t, cb_get_child t (cn_prefix_len node) parent k);
        w ← gets (λ t, cb_remove_walk (cb_fuel t) t k parent c.1 c.2);
        match w with
        | None => mret None
        | Some (parent, child, is_right) =>
            sibling ← (if (is_right : bool) then gets (λ t, cb_get_left t parent)
                       else gets (λ t, cb_get_right t parent));
            leaf ← cb_remove_leaf child;
            cb_migrate sibling parent;;
            t ← mget;
            dn ← lift (u64_sub nsize (size (cb_nodes t)));
            massert (bool_decide (dn = 2));;
            dl ← lift (u64_sub lsize (size (cb_leaves t)));
            massert (bool_decide (dl = 1));;
            mret (Some leaf)
        end
      else
        leaf ← gets (λ t, cb_get_node t parent);
        if decide (cn_key leaf = k) then
          modify (set_croot SENTINEL);;
          t ← mget;
          massert (bool_decide (cb_len t = 1));;
          v ← cb_remove_leaf parent;
          mret (Some v)
        else mret None.

  (** critbit.rs:496-510 [find_min], [find_max]; 178-206 [get_min_index], [get_max_index], [get_min], [get_max] *)
  Definition cb_get_min_index t : res N := na_find_dir (cb_fuel t) (cb_nodes t) Left (cb_root t).
  Definition cb_get_max_index t : res N := na_find_dir (cb_fuel t) (cb_nodes t) Right (cb_root t).
  Definition cb_entry t (i : N) : res (N * V) :=
    n ← cb_get_node t i; li ← cb_get_leaf_index t i; v ← cb_get_leaf t li; Val (cn_key n, v).
  Definition cb_get_min t : res (option (N * V)) :=
    i ← cb_get_min_index t;
    if decide (i = SENTINEL) then Val None else e ← cb_entry t i; Val (Some e).
  Definition cb_get_max t : res (option (N * V)) :=
    i ← cb_get_max_index t;
    if decide (i = SENTINEL) then Val None else e ← cb_entry t i; Val (Some e).

  (** critbit.rs:781-791 [Index], [IndexMut] *)
  Definition cb_index t (k : N) : res V :=
    o ← cb_get t k; match o with Some v => Val v | None => Err Panic end.
  Definition cb_index_mut (k : N) (f : V → V) : M (critbit V) V :=
    o ← cb_get_mut k f; match o with Some v => mret v | None => mfail Panic end.

  (** critbit.rs:588-600, 672-684 the iterators without the reference to the tree (top of the stacks first) *)
  Record citer := CIter {
    ci_fwd_stack : list N; ci_fwd_node : option N;
    ci_rev_stack : list N; ci_rev_node : option N; ci_terminated : bool }.
  (** critbit.rs:512-555 [_iter], [_iter_mut] *)
  Definition cb_iter t : citer :=
    if decide (cb_root t = SENTINEL) then CIter [] None [] None false
    else CIter [cb_root t] None [cb_root t] None false.

  (** The [while] loop of [next], critbit.rs:612-634 (= 696-728). Returns (node index n, leaf index i) of the yielded leaf; reading the entry is
      left to the callers below. *)
  Fixpoint ci_fwd (fuel : nat) t (it : citer) : res (option (N * N) * citer) :=
    match fuel with
    | O => Err OutOfFuel
    | S fuel =>
        let '(CIter fs fn rs rn tm) := it in
        if tm then Val (None, it)
        else
          match fs with
          | [] => Val (None, it)
          | n :: fs =>
              inner ← cb_is_inner_node t n;
              if negb inner then
                i ← cb_get_leaf_index t n;
                if decide (Some i = rn) then Val (None, CIter fs fn rs rn true)
                else Val (Some (n, i), CIter fs (Some i) rs rn tm)
              else
                r ← cb_get_right t n;
                l ← cb_get_left t n;
                ci_fwd fuel t (CIter (l :: r :: fs) fn rs rn tm)
          end
    end.
  (** The [while] loop of [next_back], critbit.rs:646-668 (= 740-772) *)
  Fixpoint ci_rev (fuel : nat) t (it : citer) : res (option (N * N) * citer) :=
    match fuel with
    | O => Err OutOfFuel
    | S fuel =>
        let '(CIter fs fn rs rn tm) := it in
        if tm then Val (None, it)
        else
          match rs with
          | [] => Val (None, it)
          | n :: rs =>
              inner ← cb_is_inner_node t n;
              if negb inner then
                i ← cb_get_leaf_index t n;
                if decide (Some i = fn) then Val (None, CIter fs fn rs rn true)
                else Val (Some (n, i), CIter fs fn rs (Some i) tm)
              else
                l ← cb_get_left t n;
                r ← cb_get_right t n;
                ci_rev fuel t (CIter fs fn (r :: l :: rs) rn tm)
          end
    end.
  (** critbit.rs:611-635 [CritbitIterator::next], 645-669 [next_back] *)
  Definition cb_iter_next t (it : citer) : res (option (N * V) * citer) :=
    r ← ci_fwd (cb_fuel t) t it;
    match r.1 with
    | None => Val (None, r.2)
    | Some (n, i) => v ← cb_get_leaf t i; k ← cb_get_key t n; Val (Some (k, v), r.2)
    end.
  Definition cb_iter_next_back t (it : citer) : res (option (N * V) * citer) :=
    r ← ci_rev (cb_fuel t) t it;
    match r.1 with
    | None => Val (None, r.2)
    | Some (n, i) => v ← cb_get_leaf t i; k ← cb_get_key t n; Val (Some (k, v), r.2)
    end.
  (** The key reference obtained by raw pointer arithmetic (critbit.rs:708-715) *)
  Definition cb_raw_key t (n : N) : res N :=
    j ← u32_sub n 1;
    match lookupN (nodes (cb_nodes t)) j with Some c => Val (cn_key (val c)) | None => Err UB end.
  (** critbit.rs:695-729 [CritbitIteratorMut::next], 739-773 [next_back]. Result: leaf index behind the reference, key, value found *)
  Definition cb_iter_mut_next (f : V → V) : M (critbit V * citer) (option (N * (N * V))) :=
    st ← mget;
    r ← lift (ci_fwd (cb_fuel st.1) st.1 st.2);
    modify (λ st, (st.1, r.2));;
    match r.1 with
    | None => mret None
    | Some (n, i) =>
        k ← gets (λ st, cb_raw_key st.1 n);
        v ← zoom fst (λ t st, (t, st.2)) (cb_onl (na_raw_update i f));
        mret (Some (i, (k, v)))
    end.
  Definition cb_iter_mut_next_back (f : V → V) : M (critbit V * citer) (option (N * (N * V))) :=
    st ← mget;
    r ← lift (ci_rev (cb_fuel st.1) st.1 st.2);
    modify (λ st, (st.1, r.2));;
    match r.1 with
    | None => mret None
    | Some (n, i) =>
        k ← gets (λ st, cb_raw_key st.1 n);
        v ← zoom fst (λ t st, (t, st.2)) (cb_onl (na_raw_update i f));
        mret (Some (i, (k, v)))
    end.
End Crit.
