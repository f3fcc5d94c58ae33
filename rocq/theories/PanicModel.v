(** * The operations when the user's comparison, equality or hash may panic

    RBModel.v, AVLModel.v and HashModel.v take the user's key operations to be functions that always answer. Here they may panic: [cmp], [lt], [gt], [keq], [hash]
    answer in [res], [Err Panic] for a panic. Each definition is the definition of the same name there ([rbp_]/[avp_]/[htp_] instead of
    [rb_]/[av_]/[ht_]) with the call of the key operation at its place among the reads and writes. What calls no key operation is used as it is. *)
From Verif Require Export RBApi AVLApi HashApi.

(** A call of code that does not touch the container *)
Definition mcall {S A} (r : res A) : M S A := gets (λ _, r).

Section RB.
  Context `{Profile} {K V : Type}.
  (** [Ord::cmp] *)
  Context (cmp : K → K → res comparison).
  Implicit Types t : rbt K V.
  (** red_black_tree.rs:689-706 [get_addr], the loop *)
  Fixpoint rbp_b_walk (fuel : nat) (a : alloc (K * V)) (k : K) (i : N) : res N :=
    match fuel with
    | O => Err OutOfFuel
    | S fuel =>
        n ← na_get a i;
        c ← cmp k (val n).1;
        match c with
        | Lt => t ← na_get_register a i Left;
                if decide (t = SENTINEL) then Val SENTINEL else rbp_b_walk fuel a k t
        | Gt => t ← na_get_register a i Right;
                if decide (t = SENTINEL) then Val SENTINEL else rbp_b_walk fuel a k t
        | Eq => Val i
        end
    end.
  (** red_black_tree.rs:689-706 [get_addr] (WalkModel.v) *)
  Definition rbp_b_get_addr (fuel : nat) (a : alloc (K * V)) (root : N) (k : K) : res N :=
    if decide (root = SENTINEL) then Val SENTINEL else rbp_b_walk fuel a k root.
  (** red_black_tree.rs:474-508 [_insert]: the descent loop *)
  Fixpoint rbp_insert_loop (fuel : nat) (k : K) (v : V) (parent : N) : M (rbt K V) (option N) :=
    match fuel with
    | O => mfail OutOfFuel
    | S fuel =>
        n ← gets (λ t, rb_get_node t parent);
        let go (target dir : N) :=
          if decide (target = SENTINEL) then
            t ← mget;
            if decide (rb_capacity t ≤ rb_len t) then mret None
            else
              node_index ← rb_on (na_add_node (k, v));
              rb_color_red node_index;;
              rb_connect parent node_index dir;;
              grandparent ← gets (λ t, rb_get_parent t parent);
              (if decide (grandparent ≠ SENTINEL) then rb_fix_insert node_index else mret ());;
              mret (Some node_index)
          else rbp_insert_loop fuel k v target in
        c ← mcall (cmp k n.1);
        match c with
        | Lt => target ← gets (λ t, rb_get_left t parent); go target Left
        | Gt => target ← gets (λ t, rb_get_right t parent); go target Right
        | Eq => rb_set_node_value parent v;; mret (Some parent)
        end
    end.
  (** red_black_tree.rs:474-508 [_insert] *)
  Definition rbp_insert (k : K) (v : V) : M (rbt K V) (option N) :=
    t ← mget;
    if decide (rb_root t = SENTINEL) then
      node_index ← rb_on (na_add_node (k, v));
      modify (set_rroot node_index);;
      mret (Some node_index)
    else rbp_insert_loop (rb_fuel t) k v (rb_root t).
  (** red_black_tree.rs:541-564 [_remove]: the loop *)
  Fixpoint rbp_remove_loop (fuel : nat) (k : K) (curr : N) : M (rbt K V) (option V) :=
    match fuel with
    | O => mfail OutOfFuel
    | S fuel =>
        n ← gets (λ t, rb_get_node t curr);
        c ← mcall (cmp k n.1);
        match c with
        | Lt => target ← gets (λ t, rb_get_left t curr);
                if decide (target = SENTINEL) then mret None else rbp_remove_loop fuel k target
        | Gt => target ← gets (λ t, rb_get_right t curr);
                if decide (target = SENTINEL) then mret None else rbp_remove_loop fuel k target
        | Eq => rb_remove_tree_node curr;; mret (Some n.2)
        end
    end.
  (** red_black_tree.rs:541-564 [_remove] *)
  Definition rbp_remove (k : K) : M (rbt K V) (option V) :=
    t ← mget;
    if decide (rb_root t = SENTINEL) then mret None
    else rbp_remove_loop (rb_fuel t) k (rb_root t).
  (** red_black_tree.rs:689-706 [get_addr] *)
  Definition rbp_get_addr t (k : K) : res N := rbp_b_get_addr (rb_fuel t) (rb_al t) (rb_root t) k.
  (** red_black_tree.rs:149-156 [get] *)
  Definition rbp_get t (k : K) : res (option V) :=
    i ← rbp_get_addr t k;
    if decide (i = SENTINEL) then Val None else n ← rb_get_node t i; Val (Some n.2).
  (** red_black_tree.rs:145-147 [contains] *)
  Definition rbp_contains t (k : K) : res bool :=
    o ← rbp_get t k; Val (match o with Some _ => true | None => false end).
  (** red_black_tree.rs:158-165 [get_mut] *)
  Definition rbp_get_mut (k : K) (f : V → V) : M (rbt K V) (option V) :=
    i ← gets (λ t, rbp_get_addr t k);
    if decide (i = SENTINEL) then mret None
    else
      n ← gets (λ t, rb_get_node t i);
      rb_set_node_value i (f n.2);;
      mret (Some n.2).
  (** red_black_tree.rs:956-958 [Index] *)
  Definition rbp_index t (k : K) : res V :=
    o ← rbp_get t k; match o with Some v => Val v | None => Err Panic end.
  (** red_black_tree.rs:967-969 [IndexMut] *)
  Definition rbp_index_mut (k : K) (f : V → V) : M (rbt K V) V :=
    o ← rbp_get_mut k f; match o with Some v => mret v | None => mfail Panic end.
  (** As [rb_api], [rb_step] (RBApi.v) *)
  Definition rbp_api : oapi (rbt K V) K V := {|
    a_insert := rbp_insert; a_remove := rbp_remove; a_get := rbp_get; a_get_mut := rbp_get_mut;
    a_contains := rbp_contains; a_len := rb_len; a_capacity := rb_capacity; a_min := rb_get_min; a_max := rb_get_max;
    a_index := rbp_index; a_index_mut := rbp_index_mut; a_iter := rb_iterate; a_iter_mut := rb_iterate_mut;
    a_addr := rbp_get_addr; a_node := rb_get_node |}.
  Definition rbp_step (o : option (om_op K V)) : M (rbt K V) (om_out K V) :=
    match o with
    | Some o => om_step rbp_api o
    | None => o ← rb_remove_root; mret (MPair o)
    end.
End RB.

Section AVL.
  Context `{Profile} {K V : Type}.
  (** [PartialOrd::lt] and [PartialOrd::gt], [k < c] and [k > c] *)
  Context (lt gt : K → K → res bool).
  Implicit Types t : avlt K V.
  (** The two tests [if k < c … else if k > c … else …], avl_tree.rs:136-142, 157-163, 295-304, 335-343, 548-554 *)
  Definition avp_cmp (k c : K) : res comparison :=
    l ← lt k c;
    if (l : bool) then Val Lt
    else g ← gt k c; if (g : bool) then Val Gt else Val Eq.
  (** avl_tree.rs:541-560 [get_addr], the loop *)
  Fixpoint avp_b_walk (fuel : nat) (a : alloc (K * V)) (k : K) (i : N) : res N :=
    match fuel with
    | O => Err OutOfFuel
    | S fuel =>
        n ← na_get a i;
        c ← avp_cmp k (val n).1;
        match c with
        | Lt => t ← na_get_register a i Left;
                if decide (t = SENTINEL) then Val SENTINEL else avp_b_walk fuel a k t
        | Gt => t ← na_get_register a i Right;
                if decide (t = SENTINEL) then Val SENTINEL else avp_b_walk fuel a k t
        | Eq => Val i
        end
    end.
  (** avl_tree.rs:541-560 [get_addr] (WalkModel.v) *)
  Definition avp_b_get_addr (fuel : nat) (a : alloc (K * V)) (root : N) (k : K) : res N :=
    if decide (root = SENTINEL) then Val SENTINEL else avp_b_walk fuel a k root.
  (** avl_tree.rs:291-315 [_insert]: the descent loop *)
  Fixpoint avp_insert_loop (fuel : nat) (k : K) (v : V) (rpath : list ancestor) (reference_node : N) :
      M (avlt K V) (option N) :=
    match fuel with
    | O => mfail OutOfFuel
    | S fuel =>
        n ← gets (λ t, av_get_node t reference_node);
        let parent := reference_node in
        let go (branch : N) :=
          reference_node ← gets (λ t, av_get_field t parent branch);
          if decide (reference_node = SENTINEL) then
            t ← mget;
            if decide (av_capacity t ≤ av_len t) then mret None
            else
              reference_node ← av_on (na_add_node (k, v));
              av_set_field parent branch reference_node;;
              av_rebalance rpath;;
              mret (Some reference_node)
          else avp_insert_loop fuel k v ((Some (parent, branch), reference_node) :: rpath) reference_node in
        c ← mcall (avp_cmp k n.1);
        match c with
        | Lt => go Left
        | Gt => go Right
        | Eq => av_set_node_value reference_node v;; mret (Some reference_node)
        end
    end.
  (** avl_tree.rs:279-320 [_insert] *)
  Definition avp_insert (k : K) (v : V) : M (avlt K V) (option N) :=
    t ← mget;
    let reference_node := as_u32 (av_root t) in
    if decide (reference_node = SENTINEL) then
      i ← av_on (na_add_node (k, v));
      modify (set_aroot i);;
      mret (Some i)
    else avp_insert_loop (av_fuel t) k v [(None, reference_node)] reference_node.
  (** avl_tree.rs:331-346 [_remove]: the search loop *)
  Fixpoint avp_remove_walk (fuel : nat) t (k : K) (rpath : list ancestor) (node_index : N) :
      res (N * list ancestor) :=
    match fuel with
    | O => Err OutOfFuel
    | S fuel =>
        if decide (node_index = SENTINEL) then Val (SENTINEL, rpath)
        else
          n ← av_get_node t node_index;
          let parent := node_index in
          c ← avp_cmp k n.1;
        match c with
          | Lt => c ← av_get_field t parent Left;
                  avp_remove_walk fuel t k ((Some (parent, Left), c) :: rpath) c
          | Gt => c ← av_get_field t parent Right;
                  avp_remove_walk fuel t k ((Some (parent, Right), c) :: rpath) c
          | Eq => Val (node_index, rpath)
          end
    end.
  (** avl_tree.rs:322-428 [_remove] *)
  Definition avp_remove (k : K) : M (avlt K V) (option V) :=
    t ← mget;
    let root := as_u32 (av_root t) in
    if decide (root = SENTINEL) then mret None
    else
      w ← gets (λ t, avp_remove_walk (S (av_fuel t)) t k [(None, root)] root);
      let '(node_index, rpath) := w in
      if decide (node_index = SENTINEL) then mret None
      else
        n ← gets (λ t, av_get_node t node_index);
        left ← gets (λ t, av_get_field t node_index Left);
        right ← gets (λ t, av_get_field t node_index Right);
        rr ←
          (if decide (left ≠ SENTINEL ∧ right ≠ SENTINEL) then
             w ← gets (λ t, av_leftmost_walk (av_fuel t) t right SENTINEL []);
             let '(leftmost, leftmost_parent, inner) := w in
             (if decide (leftmost_parent ≠ SENTINEL) then
                r ← gets (λ t, av_get_field t leftmost Right);
                av_set_field leftmost_parent Left r
              else mret ());;
             av_set_field leftmost Left left;;
             (if decide (right ≠ leftmost) then av_set_field leftmost Right right else mret ());;
             match rpath with
             | [] => mfail Panic
             | (pb, _) :: rpath =>
                 (match pb with
                  | Some (parent, branch) => av_set_field parent branch leftmost
                  | None => mret ()
                  end);;
                 let rpath := (pb, leftmost) :: rpath in
                 let rpath := if decide (right ≠ leftmost)
                              then (Some (leftmost, Right), right) :: rpath else rpath in
                 mret (leftmost, tail inner ++ rpath)
             end
           else
             let child := if decide (left = SENTINEL ∧ right = SENTINEL) then SENTINEL
                          else if decide (left ≠ SENTINEL) then left else right in
             match rpath with
             | [] => mfail Panic
             | (pb, _) :: rpath =>
                 match pb with
                 | Some (parent, branch) =>
                     av_set_field parent branch child;;
                     mret (child, if decide (child ≠ SENTINEL)
                                  then (Some (parent, branch), child) :: rpath else rpath)
                 | None => mret (child, rpath)
                 end
             end);
        let '(replacement, rpath) := rr in
        t ← mget;
        (if decide (node_index = as_u32 (av_root t)) then modify (set_aroot replacement) else mret ());;
        av_delete node_index;;
        av_rebalance rpath;;
        mret (Some n.2).
  (** avl_tree.rs:541-560 [get_addr] *)
  Definition avp_get_addr t (k : K) : res N :=
    avp_b_get_addr (av_fuel t) (av_al t) (as_u32 (av_root t)) k.
  (** avl_tree.rs:129-148 [get]: the loop *)
  Fixpoint avp_get_loop (fuel : nat) t (k : K) (reference_node : N) : res (option V) :=
    match fuel with
    | O => Err OutOfFuel
    | S fuel =>
        ref ← av_get_node t reference_node;
        c ← avp_cmp k ref.1;
        match c with
        | Lt => target ← av_get_field t reference_node Left;
                if decide (target = SENTINEL) then Val None else avp_get_loop fuel t k target
        | Gt => target ← av_get_field t reference_node Right;
                if decide (target = SENTINEL) then Val None else avp_get_loop fuel t k target
        | Eq => n ← av_get_node t reference_node; Val (Some n.2)
        end
    end.
  (** avl_tree.rs:129-148 [get] *)
  Definition avp_get t (k : K) : res (option V) :=
    if decide (as_u32 (av_root t) = SENTINEL) then Val None else avp_get_loop (av_fuel t) t k (as_u32 (av_root t)).
  (** avl_tree.rs:125-127 [contains] *)
  Definition avp_contains t (k : K) : res bool :=
    o ← avp_get t k; Val (match o with Some _ => true | None => false end).
  (** avl_tree.rs:150-169 [get_mut]: the loop *)
  Fixpoint avp_get_mut_loop (fuel : nat) (k : K) (f : V → V) (reference_node : N) : M (avlt K V) (option V) :=
    match fuel with
    | O => mfail OutOfFuel
    | S fuel =>
        ref ← gets (λ t, av_get_node t reference_node);
        c ← mcall (avp_cmp k ref.1);
        match c with
        | Lt => target ← gets (λ t, av_get_field t reference_node Left);
                if decide (target = SENTINEL) then mret None else avp_get_mut_loop fuel k f target
        | Gt => target ← gets (λ t, av_get_field t reference_node Right);
                if decide (target = SENTINEL) then mret None else avp_get_mut_loop fuel k f target
        | Eq => n ← gets (λ t, av_get_node t reference_node);
                av_set_node_value reference_node (f n.2);;
                mret (Some n.2)
        end
    end.
  (** avl_tree.rs:150-169 [get_mut] *)
  Definition avp_get_mut (k : K) (f : V → V) : M (avlt K V) (option V) :=
    t ← mget;
    if decide (as_u32 (av_root t) = SENTINEL) then mret None
    else avp_get_mut_loop (av_fuel t) k f (as_u32 (av_root t)).
  (** avl_tree.rs:834-836 [Index] *)
  Definition avp_index t (k : K) : res V :=
    o ← avp_get t k; match o with Some v => Val v | None => Err Panic end.
  (** avl_tree.rs:845-847 [IndexMut] *)
  Definition avp_index_mut (k : K) (f : V → V) : M (avlt K V) V :=
    o ← avp_get_mut k f; match o with Some v => mret v | None => mfail Panic end.
  (** As [av_api], [av_step] (AVLApi.v) *)
  Definition avp_api : oapi (avlt K V) K V := {|
    a_insert := avp_insert; a_remove := avp_remove; a_get := avp_get; a_get_mut := avp_get_mut;
    a_contains := avp_contains; a_len := av_len; a_capacity := av_capacity; a_min := av_get_min; a_max := av_get_max;
    a_index := avp_index; a_index_mut := avp_index_mut; a_iter := av_iterate; a_iter_mut := av_iterate_mut;
    a_addr := avp_get_addr; a_node := av_get_node |}.
  Definition avp_step (o : om_op K V) : M (avlt K V) (om_out K V) := om_step avp_api o.
End AVL.

Section Hash.
  Context `{Profile} {K V : Type}.
  (** [PartialEq::eq] and [Hash::hash] *)
  Context (keq : K → K → res bool) (hash : K → res N).
  Implicit Types h : htable K V.
  (** [key.hash(&mut hasher)] and [hasher.finish() as usize % NUM_BUCKETS] (hash_table.rs:119-121 and elsewhere) *)
  Definition htp_bucket_index h (k : K) : res N :=
    x ← hash k;
    if decide (lengthN (buckets h) = 0) then Err Panic else Val (x mod lengthN (buckets h)).
  (** hash_table.rs:118-132 [get]: the loop *)
  Fixpoint htp_get_loop (fuel : nat) h (k : K) (curr_node : N) : res (option V) :=
    match fuel with
    | O => Err OutOfFuel
    | S fuel =>
        if decide (curr_node = SENTINEL) then Val None
        else
          node ← ht_get_node h curr_node;
          e ← keq node.1 k;
          if (e : bool) then Val (Some node.2)
          else curr_node ← ht_get_next h curr_node; htp_get_loop fuel h k curr_node
    end.
  (** hash_table.rs:118-132 [get] *)
  Definition htp_get h (k : K) : res (option V) :=
    bucket_index ← htp_bucket_index h k;
    curr_node ← ht_bucket h bucket_index;
    htp_get_loop (ht_fuel h) h k curr_node.
  (** hash_table.rs:114-116 trait [contains] *)
  Definition htp_contains_trait h (k : K) : res bool :=
    o ← htp_get h k; Val (match o with Some _ => true | None => false end).
  (** hash_table.rs:304-318 [contains]: the loop *)
  Fixpoint htp_contains_loop (fuel : nat) h (k : K) (curr_node : N) : res bool :=
    match fuel with
    | O => Err OutOfFuel
    | S fuel =>
        if decide (curr_node = SENTINEL) then Val false
        else
          node ← ht_get_node h curr_node;
          e ← keq node.1 k;
          if (e : bool) then Val true
          else curr_node ← ht_get_next h curr_node; htp_contains_loop fuel h k curr_node
    end.
  (** hash_table.rs:304-318 [contains] *)
  Definition htp_contains h (k : K) : res bool :=
    bucket_index ← htp_bucket_index h k;
    curr_node ← ht_bucket h bucket_index;
    htp_contains_loop (ht_fuel h) h k curr_node.
  (** hash_table.rs:320-334 [get_addr]: the loop *)
  Fixpoint htp_get_addr_loop (fuel : nat) h (k : K) (curr_node : N) : res N :=
    match fuel with
    | O => Err OutOfFuel
    | S fuel =>
        if decide (curr_node = SENTINEL) then Val SENTINEL
        else
          node ← ht_get_node h curr_node;
          e ← keq node.1 k;
          if (e : bool) then Val curr_node
          else curr_node ← ht_get_next h curr_node; htp_get_addr_loop fuel h k curr_node
    end.
  (** hash_table.rs:320-334 [get_addr] *)
  Definition htp_get_addr h (k : K) : res N :=
    bucket_index ← htp_bucket_index h k;
    curr_node ← ht_bucket h bucket_index;
    htp_get_addr_loop (ht_fuel h) h k curr_node.
  (** hash_table.rs:134-169 [get_mut]: the loop *)
  Fixpoint htp_get_mut_loop (fuel : nat) (k : K) (f : V → V) (bucket_index head curr_node : N) : M (htable K V) (option V) :=
    match fuel with
    | O => mfail OutOfFuel
    | S fuel =>
        if decide (curr_node = SENTINEL) then mret None
        else
          node ← gets (λ h, ht_get_node h curr_node);
          e ← mcall (keq node.1 k);
          if (e : bool) then
            prev ← gets (λ h, ht_get_prev h curr_node);
            next ← gets (λ h, ht_get_next h curr_node);
            (if decide (curr_node ≠ head) then
               ht_on (na_clear_register curr_node Left);;
               ht_on (na_connect prev next Right Left);;
               ht_on (na_connect curr_node head Right Left)
             else mret ());;
            ht_set_bucket bucket_index curr_node;;
            n ← gets (λ h, ht_get_node h curr_node);
            ht_set_node_value curr_node (f n.2);;
            mret (Some n.2)
          else
            curr_node ← gets (λ h, ht_get_next h curr_node);
            htp_get_mut_loop fuel k f bucket_index head curr_node
    end.
  (** hash_table.rs:134-169 [get_mut] *)
  Definition htp_get_mut (k : K) (f : V → V) : M (htable K V) (option V) :=
    bucket_index ← gets (λ h, htp_bucket_index h k);
    head ← gets (λ h, ht_bucket h bucket_index);
    h ← mget;
    htp_get_mut_loop (ht_fuel h) k f bucket_index head head.
  (** hash_table.rs:248-256 [_insert]: the loop *)
  Fixpoint htp_insert_loop (fuel : nat) (k : K) (v : V) (bucket_index head curr_node : N) : M (htable K V) (option N) :=
    match fuel with
    | O => mfail OutOfFuel
    | S fuel =>
        if decide (curr_node = SENTINEL) then ht_insert_new_node k v bucket_index head
        else
          node ← gets (λ h, ht_get_node h curr_node);
          e ← mcall (keq node.1 k);
          if (e : bool) then ht_set_node_value curr_node v;; mret (Some curr_node)
          else
            curr_node ← gets (λ h, ht_get_next h curr_node);
            htp_insert_loop fuel k v bucket_index head curr_node
    end.
  (** hash_table.rs:242-271 [_insert] *)
  Definition htp_insert (k : K) (v : V) : M (htable K V) (option N) :=
    bucket_index ← gets (λ h, htp_bucket_index h k);
    head ← gets (λ h, ht_bucket h bucket_index);
    h ← mget;
    htp_insert_loop (ht_fuel h) k v bucket_index head head.
  (** hash_table.rs:273-302 [_remove]: the loop *)
  Fixpoint htp_remove_loop (fuel : nat) (k : K) (bucket_index head curr_node : N) : M (htable K V) (option V) :=
    match fuel with
    | O => mfail OutOfFuel
    | S fuel =>
        if decide (curr_node = SENTINEL) then mret None
        else
          node ← gets (λ h, ht_get_node h curr_node);
          e ← mcall (keq node.1 k);
          if (e : bool) then
            prev ← gets (λ h, ht_get_prev h curr_node);
            next ← gets (λ h, ht_get_next h curr_node);
            ht_on (na_clear_register curr_node Left);;
            ht_on (na_clear_register curr_node Right);;
            ht_on (na_remove_node curr_node);;
            (if decide (head = curr_node) then
               massert (bool_decide (prev = SENTINEL));;
               ht_set_bucket bucket_index next
             else mret ());;
            ht_on (na_connect prev next Right Left);;
            mret (Some node.2)
          else
            curr_node ← gets (λ h, ht_get_next h curr_node);
            htp_remove_loop fuel k bucket_index head curr_node
    end.
  (** hash_table.rs:273-302 [_remove] *)
  Definition htp_remove (k : K) : M (htable K V) (option V) :=
    bucket_index ← gets (λ h, htp_bucket_index h k);
    head ← gets (λ h, ht_bucket h bucket_index);
    h ← mget;
    htp_remove_loop (ht_fuel h) k bucket_index head head.
  (** hash_table.rs:508-510 [Index] *)
  Definition htp_index h (k : K) : res V :=
    o ← htp_get h k; match o with Some v => Val v | None => Err Panic end.
  (** hash_table.rs:520-522 [IndexMut] *)
  Definition htp_index_mut (k : K) (f : V → V) : M (htable K V) V :=
    o ← htp_get_mut k f; match o with Some v => mret v | None => mfail Panic end.
  (** As [ht_step] (HashApi.v) *)
  Definition htp_step (o : hm_op K V) : M (htable K V) (hm_out K V) :=
    match o with
    | HInsert k v => o ← htp_insert k v; mret (HBool (is_found o))
    | HRemove k => o ← htp_remove k; mret (HVal o)
    | HGet k => o ← gets (λ h, htp_get h k); mret (HVal o)
    | HGetMut k f => o ← htp_get_mut k f; mret (HVal o)
    | HContains k => b ← gets (λ h, htp_contains_trait h k); mret (HBool b)
    | HContainsInherent k => b ← gets (λ h, htp_contains h k); mret (HBool b)
    | HIndex k => v ← gets (λ h, htp_index h k); mret (HRef v)
    | HIndexMut k f => v ← htp_index_mut k f; mret (HRef v)
    | _ => ht_step (λ _ _, false) (λ _, 0) o
    end.
End Hash.
