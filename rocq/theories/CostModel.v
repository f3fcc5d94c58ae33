(** * The operations with every loop stopped after [rounds] rounds

    Each definition below is the definition of the same name in RBModel.v, AVLModel.v, CritModel.v or HashModel.v ([rbn_]/[avn_]/[cbn_]/[htn_]
    instead of [rb_]/[av_]/[cb_]/[ht_]) with the bound of every loop, in the model the length of the node array, replaced by the smaller of that and
    [rounds]: a loop that has not ended after [rounds] rounds ends the operation with [OutOfFuel]. That such a copy computes the same as the operation means that
    no loop of the operation runs more than [rounds] rounds. *)
From Verif Require Export RBModel AVLModel CritModel HashModel.

Section RB.
  Context `{Profile} {K V : Type} (cmp : K → K → comparison) (rounds : nat).
  Implicit Types t : rbt K V.

  (** red_black_tree.rs:510-539 [_fix_insert] *)
  Definition rbn_fix_insert (node : N) : M (rbt K V) () :=
    t ← mget;
    rb_fix_insert_loop (Nat.min rounds (rb_fuel t)) node;;
    t ← mget;
    rb_color_black (rb_root t).
  (** red_black_tree.rs:474-508 [_insert]: the descent loop *)
  Fixpoint rbn_insert_loop (fuel : nat) (k : K) (v : V) (parent : N) : M (rbt K V) (option N) :=
    match fuel with
    | O => mfail OutOfFuel
    | S fuel =>
        n ← gets (λ t, rb_get_node t parent);
        let go (target dir : N) :=
          if decide (target = SENTINEL) then
            t ← mget;
            if decide (rb_capacity t ≤ rb_len t) then mret None
            else
              node_index ← rb_on (na_add_node (k, v));
              rb_color_red node_index;;
              rb_connect parent node_index dir;;
              grandparent ← gets (λ t, rb_get_parent t parent);
              (if decide (grandparent ≠ SENTINEL) then rbn_fix_insert node_index else mret ());;
              mret (Some node_index)
          else rbn_insert_loop fuel k v target in
        match cmp k n.1 with
        | Lt => target ← gets (λ t, rb_get_left t parent); go target Left
        | Gt => target ← gets (λ t, rb_get_right t parent); go target Right
        | Eq => rb_set_node_value parent v;; mret (Some parent)
        end
    end.
  (** red_black_tree.rs:474-508 [_insert] *)
  Definition rbn_insert (k : K) (v : V) : M (rbt K V) (option N) :=
    t ← mget;
    if decide (rb_root t = SENTINEL) then
      node_index ← rb_on (na_add_node (k, v));
      modify (set_rroot node_index);;
      mret (Some node_index)
    else rbn_insert_loop (Nat.min rounds (rb_fuel t)) k v (rb_root t).
  (** red_black_tree.rs:635-640 [_fix_remove]: the argument of [unwrap_or] is evaluated eagerly *)
  Definition rbn_fix_remove (node_index : N) (parent_and_dir : option (N * N)) : M (rbt K V) () :=
    p ← gets (λ t, rb_get_parent t node_index);
    d ← gets (λ t, rb_child_dir t p node_index);
    let pd := match parent_and_dir with Some pd => pd | None => (p, d) end in
    t ← mget;
    rb_fix_remove_loop (Nat.min rounds (rb_fuel t)) pd.1 pd.2.
  (** red_black_tree.rs:708-722 [_find_max] *)
  Definition rbn_find_max t (i : N) : res N := na_find_dir (Nat.min rounds (rb_fuel t)) (rb_al t) Right i.
  (** red_black_tree.rs:708-722 [_find_min], [_find_max] *)
  Definition rbn_find_min t (i : N) : res N := na_find_dir (Nat.min rounds (rb_fuel t)) (rb_al t) Left i.
  (** red_black_tree.rs:566-633 [_remove_tree_node]; the result of the [if] chain is (pivot, parent_and_dir, is_black) *)
  Definition rbn_remove_tree_node (node_index : N) : M (rbt K V) () :=
    is_black ← gets (λ t, rb_is_black t node_index);
    left ← gets (λ t, rb_get_left t node_index);
    right ← gets (λ t, rb_get_right t node_index);
    leaf ← gets (λ t, rb_is_leaf t node_index);
    r ← (if (leaf : bool) then
           t ← mget;
           if negb (rb_is_root t node_index) then
             parent ← gets (λ t, rb_get_parent t node_index);
             dir ← gets (λ t, rb_child_dir t parent node_index);
             rb_connect parent SENTINEL dir;;
             mret (SENTINEL, Some (parent, dir), is_black)
           else
             modify (set_rroot SENTINEL);;
             mret (SENTINEL, None, is_black)
         else if decide (left = SENTINEL) then
           rb_transplant node_index right;;
           mret (right, None, is_black)
         else if decide (right = SENTINEL) then
           rb_transplant node_index left;;
           mret (left, None, is_black)
         else
           max_left ← gets (λ t, rbn_find_max t left);
           max_left_parent ← gets (λ t, rb_get_parent t max_left);
           max_left_child ← gets (λ t, rb_get_left t max_left);
           is_black ← gets (λ t, rb_is_black t max_left);
           mp ← gets (λ t, rb_get_parent t max_left);
           parent_and_dir ←
             (if decide (mp ≠ node_index) then
                rb_transplant max_left max_left_child;;
                l ← gets (λ t, rb_get_left t node_index);
                rb_connect max_left l Left;;
                mret (if decide (max_left_child = SENTINEL)
                      then Some (max_left_parent, Right) else None)
              else if decide (max_left_child = SENTINEL) then
                lf ← gets (λ t, rb_is_leaf t max_left);
                massert lf;;
                mret (Some (max_left, Left))
              else mret None);
           rb_transplant node_index max_left;;
           r ← gets (λ t, rb_get_right t node_index);
           rb_connect max_left r Right;;
           c ← gets (λ t, rb_get_color t node_index);
           rb_color_node max_left c;;
           mret (max_left_child, parent_and_dir, is_black));
    let '(pivot, parent_and_dir, is_black) := r in
    rb_remove_allocator_node node_index;;
    if (is_black : bool) then
      t ← mget;
      if rb_is_root t pivot then rb_color_black pivot
      else rbn_fix_remove pivot parent_and_dir
    else mret ().
  (** red_black_tree.rs:541-564 [_remove] *)
  Fixpoint rbn_remove_loop (fuel : nat) (k : K) (curr : N) : M (rbt K V) (option V) :=
    match fuel with
    | O => mfail OutOfFuel
    | S fuel =>
        n ← gets (λ t, rb_get_node t curr);
        match cmp k n.1 with
        | Lt => target ← gets (λ t, rb_get_left t curr);
                if decide (target = SENTINEL) then mret None else rbn_remove_loop fuel k target
        | Gt => target ← gets (λ t, rb_get_right t curr);
                if decide (target = SENTINEL) then mret None else rbn_remove_loop fuel k target
        | Eq => rbn_remove_tree_node curr;; mret (Some n.2)
        end
    end.
  (** red_black_tree.rs:541-564 [_remove] *)
  Definition rbn_remove (k : K) : M (rbt K V) (option V) :=
    t ← mget;
    if decide (rb_root t = SENTINEL) then mret None
    else rbn_remove_loop (Nat.min rounds (rb_fuel t)) k (rb_root t).
  (** red_black_tree.rs:404-414 [remove_root] *)
  Definition rbn_remove_root : M (rbt K V) (option (K * V)) :=
    t ← mget;
    if decide (rb_root t = SENTINEL) then mret None
    else
      n ← gets (λ t, rb_get_node t (rb_root t));
      rbn_remove_tree_node (rb_root t);;
      mret (Some n).
  (** red_black_tree.rs:689-706 [get_addr] *)
  Definition rbn_get_addr t (k : K) : res N := bst_get_addr cmp (Nat.min rounds (rb_fuel t)) (rb_al t) (rb_root t) k.
  (** red_black_tree.rs:149-156 [get] *)
  Definition rbn_get t (k : K) : res (option V) :=
    i ← rbn_get_addr t k;
    if decide (i = SENTINEL) then Val None else n ← rb_get_node t i; Val (Some n.2).
  (** red_black_tree.rs:145-147 [contains] *)
  Definition rbn_contains t (k : K) : res bool :=
    o ← rbn_get t k; Val (match o with Some _ => true | None => false end).
  (** red_black_tree.rs:158-165 [get_mut]; [f] is the caller's update through the reference *)
  Definition rbn_get_mut (k : K) (f : V → V) : M (rbt K V) (option V) :=
    i ← gets (λ t, rbn_get_addr t k);
    if decide (i = SENTINEL) then mret None
    else
      n ← gets (λ t, rb_get_node t i);
      rb_set_node_value i (f n.2);;
      mret (Some n.2).
  (** red_black_tree.rs:194-220 [get_min_index], [get_max_index], [get_min], [get_max] *)
  Definition rbn_get_min_index t : res N := rbn_find_min t (rb_root t).
  (** red_black_tree.rs:198-200 [get_max_index] *)
  Definition rbn_get_max_index t : res N := rbn_find_max t (rb_root t).
  (** red_black_tree.rs:202-210 [get_min] *)
  Definition rbn_get_min t : res (option (K * V)) :=
    i ← rbn_get_min_index t;
    if decide (i = SENTINEL) then Val None else n ← rb_get_node t i; Val (Some n).
  (** red_black_tree.rs:212-220 [get_max] *)
  Definition rbn_get_max t : res (option (K * V)) :=
    i ← rbn_get_max_index t;
    if decide (i = SENTINEL) then Val None else n ← rb_get_node t i; Val (Some n).

End RB.


Section AVL.
  Context `{Profile} {K V : Type} (pcmp : K → K → option comparison) (rounds : nat).
  Implicit Types t : avlt K V.

  (** avl_tree.rs:497-539 [rebalance]: [av_rebalance] takes one round per element of the path *)
  Definition avn_rebalance (rpath : list ancestor) : M (avlt K V) () :=
    if decide (length rpath ≤ rounds)%nat then av_rebalance rpath else mfail OutOfFuel.
  (** avl_tree.rs:290-319 the loop of [_insert] and what follows it; [rpath] as above *)
  Fixpoint avn_insert_loop (fuel : nat) (k : K) (v : V) (rpath : list ancestor) (reference_node : N) :
      M (avlt K V) (option N) :=
    match fuel with
    | O => mfail OutOfFuel
    | S fuel =>
        n ← gets (λ t, av_get_node t reference_node);
        let parent := reference_node in
        let go (branch : N) :=
          reference_node ← gets (λ t, av_get_field t parent branch);
          if decide (reference_node = SENTINEL) then
            t ← mget;
            if decide (av_capacity t ≤ av_len t) then mret None
            else
              reference_node ← av_on (na_add_node (k, v));
              av_set_field parent branch reference_node;;
              avn_rebalance rpath;;
              mret (Some reference_node)
          else avn_insert_loop fuel k v ((Some (parent, branch), reference_node) :: rpath) reference_node in
        match av_cmp pcmp k n.1 with
        | Lt => go Left
        | Gt => go Right
        | Eq => av_set_node_value reference_node v;; mret (Some reference_node)
        end
    end.
  (** avl_tree.rs:279-320 [_insert] ([add_node(..) as u64 as u32] is the identity) *)
  Definition avn_insert (k : K) (v : V) : M (avlt K V) (option N) :=
    t ← mget;
    let reference_node := as_u32 (av_root t) in
    if decide (reference_node = SENTINEL) then
      i ← av_on (na_add_node (k, v));
      modify (set_aroot i);;
      mret (Some i)
    else avn_insert_loop (Nat.min rounds (av_fuel t)) k v [(None, reference_node)] reference_node.
  (** avl_tree.rs:322-428 [_remove] *)
  Definition avn_remove (k : K) : M (avlt K V) (option V) :=
    t ← mget;
    let root := as_u32 (av_root t) in
    if decide (root = SENTINEL) then mret None
    else
      w ← gets (λ t, av_remove_walk pcmp (S (Nat.min rounds (av_fuel t))) t k [(None, root)] root);
      let '(node_index, rpath) := w in
      if decide (node_index = SENTINEL) then mret None
      else
        n ← gets (λ t, av_get_node t node_index);
        left ← gets (λ t, av_get_field t node_index Left);
        right ← gets (λ t, av_get_field t node_index Right);
        rr ←
          (if decide (left ≠ SENTINEL ∧ right ≠ SENTINEL) then
             w ← gets (λ t, av_leftmost_walk (Nat.min rounds (av_fuel t)) t right SENTINEL []);
             let '(leftmost, leftmost_parent, inner) := w in
             (if decide (leftmost_parent ≠ SENTINEL) then
                r ← gets (λ t, av_get_field t leftmost Right);
                av_set_field leftmost_parent Left r
              else mret ());;
             av_set_field leftmost Left left;;
             (if decide (right ≠ leftmost) then av_set_field leftmost Right right else mret ());;
             match rpath with
             | [] => mfail Panic
             | (pb, _) :: rpath =>
                 (match pb with
                  | Some (parent, branch) => av_set_field parent branch leftmost
                  | None => mret ()
                  end);;
                 let rpath := (pb, leftmost) :: rpath in
                 let rpath := if decide (right ≠ leftmost)
                              then (Some (leftmost, Right), right) :: rpath else rpath in
                 mret (leftmost, tail inner ++ rpath)
             end
           else
             let child := if decide (left = SENTINEL ∧ right = SENTINEL) then SENTINEL
                          else if decide (left ≠ SENTINEL) then left else right in
             match rpath with
             | [] => mfail Panic
             | (pb, _) :: rpath =>
                 match pb with
                 | Some (parent, branch) =>
                     av_set_field parent branch child;;
                     mret (child, if decide (child ≠ SENTINEL)
                                  then (Some (parent, branch), child) :: rpath else rpath)
                 | None => mret (child, rpath)
                 end
             end);
        let '(replacement, rpath) := rr in
        t ← mget;
        (if decide (node_index = as_u32 (av_root t)) then modify (set_aroot replacement) else mret ());;
        av_delete node_index;;
        avn_rebalance rpath;;
        mret (Some n.2).
  (** avl_tree.rs:541-560 [get_addr]: the loop is that of WalkModel *)
  Definition avn_get_addr t (k : K) : res N :=
    bst_get_addr (av_cmp pcmp) (Nat.min rounds (av_fuel t)) (av_al t) (as_u32 (av_root t)) k.
  (** avl_tree.rs:129-148 [get] *)
  Definition avn_get t (k : K) : res (option V) :=
    if decide (as_u32 (av_root t) = SENTINEL) then Val None else av_get_loop pcmp (Nat.min rounds (av_fuel t)) t k (as_u32 (av_root t)).
  (** avl_tree.rs:125-127 [contains] *)
  Definition avn_contains t (k : K) : res bool :=
    o ← avn_get t k; Val (match o with Some _ => true | None => false end).
  (** avl_tree.rs:150-169 [get_mut] *)
  Definition avn_get_mut (k : K) (f : V → V) : M (avlt K V) (option V) :=
    t ← mget;
    if decide (as_u32 (av_root t) = SENTINEL) then mret None
    else av_get_mut_loop pcmp (Nat.min rounds (av_fuel t)) k f (as_u32 (av_root t)).
  (** avl_tree.rs:562-582 [find_min_index], [find_max_index] (= 198-204 [get_min_index], [get_max_index]) *)
  Definition avn_find_min_index t : res N :=
    if decide (as_u32 (av_root t) = SENTINEL) then Val SENTINEL
    else na_find_dir (Nat.min rounds (av_fuel t)) (av_al t) Left (as_u32 (av_root t)).
  (** avl_tree.rs:573-582 [find_max_index] *)
  Definition avn_find_max_index t : res N :=
    if decide (as_u32 (av_root t) = SENTINEL) then Val SENTINEL
    else na_find_dir (Nat.min rounds (av_fuel t)) (av_al t) Right (as_u32 (av_root t)).
  (** avl_tree.rs:206-224 [get_min], [get_max] *)
  Definition avn_get_min t : res (option (K * V)) :=
    i ← avn_find_min_index t;
    if decide (i = SENTINEL) then Val None else n ← av_get_node t i; Val (Some n).
  (** avl_tree.rs:215-224 [get_max] *)
  Definition avn_get_max t : res (option (K * V)) :=
    i ← avn_find_max_index t;
    if decide (i = SENTINEL) then Val None else n ← av_get_node t i; Val (Some n).

End AVL.


Section Crit.
  Context `{Profile} {V : Type} (rounds : nat).
  Implicit Types t : critbit V.

  (** critbit.rs:386-405 [get_addr] *)
  Definition cbn_get_addr t (k : N) : res N := cb_walk (Nat.min rounds (cb_fuel t)) t k (cb_root t).
  (** critbit.rs:104-127 [get] *)
  Definition cbn_get t (k : N) : res (option V) :=
    if cb_is_empty t then Val None else cb_get_loop (Nat.min rounds (cb_fuel t)) t k (cb_root t).
  (** critbit.rs:100-102 [contains] *)
  Definition cbn_contains t (k : N) : res bool :=
    o ← cbn_get t k; Val (match o with Some _ => true | None => false end).
  (** critbit.rs:129-152 [get_mut] *)
  Definition cbn_get_mut (k : N) (f : V → V) : M (critbit V) (option V) :=
    t ← mget;
    if cb_is_empty t then mret None else cb_get_mut_loop (Nat.min rounds (cb_fuel t)) k f (cb_root t).
  (** critbit.rs:407-443 [_insert] *)
  Definition cbn_insert (k : N) (v : V) : M (critbit V) (option N) :=
    t ← mget;
    if decide (cb_root t = SENTINEL) then
      nl ← cb_add_leaf k v;
      modify (set_croot nl.1);;
      mret (Some nl.1)
    else if decide (cb_capacity t ≤ cb_len t) then mret None
    else cb_insert_loop (Nat.min rounds (cb_fuel t)) k v (cb_root t).
  (** critbit.rs:445-494 [_remove] *)
  Definition cbn_remove (k : N) : M (critbit V) (option V) :=
    t ← mget;
    let nsize := size (cb_nodes t) in
    let lsize := size (cb_leaves t) in
    let parent := cb_root t in
    if decide (cb_len t = 0) then mret None
    else
      inner ← gets (λ t, cb_is_inner_node t parent);
      if (inner : bool) then
        node ← gets (λ t, cb_get_node t parent);
        c ← gets (λ t, cb_get_child t (cn_prefix_len node) parent k);
        w ← gets (λ t, cb_remove_walk (Nat.min rounds (cb_fuel t)) t k parent c.1 c.2);
        match w with
        | None => mret None
        | Some (parent, child, is_right) =>
            sibling ← (if (is_right : bool) then gets (λ t, cb_get_left t parent)
                       else gets (λ t, cb_get_right t parent));
            leaf ← cb_remove_leaf child;
            cb_migrate sibling parent;;
            t ← mget;
            dn ← lift (u64_sub nsize (size (cb_nodes t)));
            massert (bool_decide (dn = 2));;
            dl ← lift (u64_sub lsize (size (cb_leaves t)));
            massert (bool_decide (dl = 1));;
            mret (Some leaf)
        end
      else
        leaf ← gets (λ t, cb_get_node t parent);
        if decide (cn_key leaf = k) then
          modify (set_croot SENTINEL);;
          t ← mget;
          massert (bool_decide (cb_len t = 1));;
          v ← cb_remove_leaf parent;
          mret (Some v)
        else mret None.
  (** critbit.rs:496-510 [find_min], [find_max]; 178-206 [get_min_index], [get_max_index], [get_min], [get_max] *)
  Definition cbn_get_min_index t : res N := na_find_dir (Nat.min rounds (cb_fuel t)) (cb_nodes t) Left (cb_root t).
  (** critbit.rs:178-206 [get_max_index] *)
  Definition cbn_get_max_index t : res N := na_find_dir (Nat.min rounds (cb_fuel t)) (cb_nodes t) Right (cb_root t).
  (** critbit.rs:178-206 [get_min] *)
  Definition cbn_get_min t : res (option (N * V)) :=
    i ← cbn_get_min_index t;
    if decide (i = SENTINEL) then Val None else e ← cb_entry t i; Val (Some e).
  (** critbit.rs:178-206 [get_max] *)
  Definition cbn_get_max t : res (option (N * V)) :=
    i ← cbn_get_max_index t;
    if decide (i = SENTINEL) then Val None else e ← cb_entry t i; Val (Some e).

End Crit.


Section Hash.
  Context `{Profile} {K V : Type} (keq : K → K → bool) (hash : K → N) (rounds : nat).
  Implicit Types h : htable K V.

  (** hash_table.rs:118-132 [get] *)
  Definition htn_get h (k : K) : res (option V) :=
    bucket_index ← ht_bucket_index hash h k;
    curr_node ← ht_bucket h bucket_index;
    ht_get_loop keq (Nat.min rounds (ht_fuel h)) h k curr_node.
  (** hash_table.rs:304-318 [contains] *)
  Definition htn_contains h (k : K) : res bool :=
    bucket_index ← ht_bucket_index hash h k;
    curr_node ← ht_bucket h bucket_index;
    ht_contains_loop keq (Nat.min rounds (ht_fuel h)) h k curr_node.
  (** hash_table.rs:320-334 [get_addr] *)
  Definition htn_get_addr h (k : K) : res N :=
    bucket_index ← ht_bucket_index hash h k;
    curr_node ← ht_bucket h bucket_index;
    ht_get_addr_loop keq (Nat.min rounds (ht_fuel h)) h k curr_node.
  (** hash_table.rs:134-169 [get_mut] *)
  Definition htn_get_mut (k : K) (f : V → V) : M (htable K V) (option V) :=
    bucket_index ← gets (λ h, ht_bucket_index hash h k);
    head ← gets (λ h, ht_bucket h bucket_index);
    h ← mget;
    ht_get_mut_loop keq (Nat.min rounds (ht_fuel h)) k f bucket_index head head.
  (** hash_table.rs:242-271 [_insert] *)
  Definition htn_insert (k : K) (v : V) : M (htable K V) (option N) :=
    bucket_index ← gets (λ h, ht_bucket_index hash h k);
    head ← gets (λ h, ht_bucket h bucket_index);
    h ← mget;
    ht_insert_loop keq (Nat.min rounds (ht_fuel h)) k v bucket_index head head.
  (** hash_table.rs:273-302 [_remove] *)
  Definition htn_remove (k : K) : M (htable K V) (option V) :=
    bucket_index ← gets (λ h, ht_bucket_index hash h k);
    head ← gets (λ h, ht_bucket h bucket_index);
    h ← mget;
    ht_remove_loop keq (Nat.min rounds (ht_fuel h)) k bucket_index head head.

End Hash.
