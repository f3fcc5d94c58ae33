(** * Model of src/red_black_tree.rs

    [pretty_print] (229-264) is in PrintModel.v, the [println!]s are not modelled; [assert_proper_alignment] (266-271) is [rb_proper] in BytesModel.v. *)
From Verif Require Export AllocModel WalkModel.

(** red_black_tree.rs:19 *)
Definition COLOR : N := FValue.
(** red_black_tree.rs:22-25 *)
Definition Black : N := 0.
Definition Red : N := 1.
(** red_black_tree.rs:29-31 [opposite]; u32 subtraction, [dir] is only ever 0 or 1 *)
Definition opposite (dir : N) : N := 1 - dir.

(** red_black_tree.rs:68-76 [struct RedBlackTree] ([_padding] omitted: never read or written). [RBNode] (35-41) is the pair (key, value). *)
Record rbt (K V : Type) := RBT { rb_root : N; rb_al : alloc (K * V) }.
Global Arguments RBT {K V} rb_root rb_al.
Global Arguments rb_root {K V} _.
Global Arguments rb_al {K V} _.

(** red_black_tree.rs:107-114 [default], 316-318 [new] *)
Definition rb_new {K V} (ms : nat) (d : K * V) : rbt K V :=
  RBT SENTINEL (Alloc 0 1 1 (replicate ms (node_default 4 d))).
(** A RedBlackTree viewed in a zeroed buffer (red_black_tree.rs:78-91) *)
Definition rb_zeroed {K V} (ms : nat) (z : K * V) : rbt K V := RBT 0 (na_zeroed ms 4 z).

Section RB.
  Context `{Profile} {K V : Type}.
  (** [K: Ord] : [a.cmp(&b)] *)
  Context (cmp : K → K → comparison).
  Implicit Types t : rbt K V.

  Definition set_rroot (x : N) t := RBT x (rb_al t).
  Definition set_ral (x : alloc (K * V)) t := RBT (rb_root t) x.
  Definition rb_on {A} (m : M (alloc (K * V)) A) : M (rbt K V) A := zoom rb_al set_ral m.

  (** red_black_tree.rs:321-323 [initialize] *)
  Definition rb_initialize : M (rbt K V) () := rb_on na_initialize.
  (** red_black_tree.rs:325-327 [get_node] *)
  Definition rb_get_node t (i : N) : res (K * V) := n ← na_get (rb_al t) i; Val (val n).
  (** red_black_tree.rs:329-331 [get_node_mut] followed by [.value = v] *)
  Definition rb_set_node_value (i : N) (v : V) : M (rbt K V) () :=
    rb_on (na_get_mut i (λ n, node_set_value ((val n).1, v) n)).

  (** red_black_tree.rs:334-338 [_color_red] *)
  Definition rb_color_red (i : N) : M (rbt K V) () :=
    if decide (i = SENTINEL) then mret () else rb_on (na_set_register i Red COLOR).
  (** red_black_tree.rs:341-344 [_color_black] *)
  Definition rb_color_black (i : N) : M (rbt K V) () := rb_on (na_set_register i Black COLOR).
  (** red_black_tree.rs:347-349 [_color_node] *)
  Definition rb_color_node (i c : N) : M (rbt K V) () := rb_on (na_set_register i c COLOR).
  (** red_black_tree.rs:352-359 [is_red], [is_black] *)
  Definition rb_is_red t (i : N) : res bool :=
    c ← na_get_register (rb_al t) i COLOR; Val (bool_decide (c = Red)).
  Definition rb_is_black t (i : N) : res bool :=
    c ← na_get_register (rb_al t) i COLOR; Val (bool_decide (c = Black)).
  (** red_black_tree.rs:362-364 [get_child] *)
  Definition rb_get_child t (i dir : N) : res N := na_get_register (rb_al t) i dir.
  (** red_black_tree.rs:385-402 [get_left], [get_right], [get_color], [get_parent] *)
  Definition rb_get_left t (i : N) : res N := na_get_register (rb_al t) i Left.
  Definition rb_get_right t (i : N) : res N := na_get_register (rb_al t) i Right.
  Definition rb_get_color t (i : N) : res N := na_get_register (rb_al t) i COLOR.
  Definition rb_get_parent t (i : N) : res N := na_get_register (rb_al t) i Parent.
  (** red_black_tree.rs:376-382 [get_dir] *)
  Definition rb_get_dir t (i dir : N) : res N :=
    if decide (dir = Left) then rb_get_left t i else rb_get_right t i.
  (** red_black_tree.rs:367-369 [is_leaf] *)
  Definition rb_is_leaf t (i : N) : res bool :=
    l ← rb_get_left t i;
    if decide (l = SENTINEL) then r ← rb_get_right t i; Val (bool_decide (r = SENTINEL))
    else Val false.
  (** red_black_tree.rs:372-374 [is_root] *)
  Definition rb_is_root t (i : N) : bool := bool_decide (rb_root t = i).

  (** red_black_tree.rs:167-177 [size], [len], [capacity]; node_allocator.rs:43-45 [is_empty] *)
  Definition rb_len t : N := size (rb_al t).
  Definition rb_capacity t : N := MAX_SIZE (rb_al t).

  Definition rb_fuel t : nat := S (length (nodes (rb_al t))).

  (** red_black_tree.rs:416-424 [_remove_allocator_node] *)
  Definition rb_remove_allocator_node (i : N) : M (rbt K V) () :=
    rb_on (na_clear_register i Parent);;
    rb_on (na_clear_register i COLOR);;
    rb_on (na_clear_register i Left);;
    rb_on (na_clear_register i Right);;
    rb_on (na_remove_node i);;
    mret ().

  (** red_black_tree.rs:427-430 [_connect] *)
  Definition rb_connect (parent child dir : N) : M (rbt K V) () :=
    rb_on (na_connect parent child dir Parent).

  (** red_black_tree.rs:433-443 [_child_dir] *)
  Definition rb_child_dir t (parent child : N) : res N :=
    l ← rb_get_left t parent;
    r ← rb_get_right t parent;
    if decide (child = l) then Val Left
    else if decide (child = r) then Val Right
    else Err Panic.

  (** red_black_tree.rs:445-472 [_rotate_dir] *)
  Definition rb_rotate_dir (parent_index dir : N) : M (rbt K V) (option N) :=
    grandparent_index ← gets (λ t, rb_get_parent t parent_index);
    if decide (dir ≠ Left ∧ dir ≠ Right) then mret None
    else
      sibling_index ← gets (λ t, rb_get_child t parent_index (opposite dir));
      if decide (sibling_index = SENTINEL) then mret None
      else
        child_index ← gets (λ t, rb_get_child t sibling_index dir);
        rb_connect sibling_index parent_index dir;;
        rb_connect parent_index child_index (opposite dir);;
        (if decide (grandparent_index ≠ SENTINEL) then
           d ← gets (λ t, rb_child_dir t grandparent_index parent_index);
           rb_connect grandparent_index sibling_index d
         else
           rb_on (na_clear_register sibling_index Parent);;
           modify (set_rroot sibling_index));;
        mret (Some sibling_index).

  (** red_black_tree.rs:510-539 [_fix_insert]: the [while] loop *)
  Fixpoint rb_fix_insert_loop (fuel : nat) (node : N) : M (rbt K V) () :=
    match fuel with
    | O => mfail OutOfFuel
    | S fuel =>
        parent ← gets (λ t, rb_get_parent t node);
        red ← gets (λ t, rb_is_red t parent);
        if negb red then mret ()
        else
          grandparent ← gets (λ t, rb_get_parent t parent);
          if decide (grandparent = SENTINEL) then
            t ← mget;
            massert (rb_is_root t parent)
          else
            dir ← gets (λ t, rb_child_dir t grandparent parent);
            uncle ← gets (λ t, rb_get_child t grandparent (opposite dir));
            ured ← gets (λ t, rb_is_red t uncle);
            if (ured : bool) then
              rb_color_black uncle;;
              rb_color_black parent;;
              rb_color_red grandparent;;
              rb_fix_insert_loop fuel grandparent
            else
              cd ← gets (λ t, rb_child_dir t parent node);
              node ← (if decide (cd = opposite dir) then
                        rb_rotate_dir parent dir;; mret parent
                      else mret node);
              parent ← gets (λ t, rb_get_parent t node);
              grandparent ← gets (λ t, rb_get_parent t parent);
              rb_color_black parent;;
              rb_color_red grandparent;;
              rb_rotate_dir grandparent (opposite dir);;
              rb_fix_insert_loop fuel node
    end.
  Definition rb_fix_insert (node : N) : M (rbt K V) () :=
    t ← mget;
    rb_fix_insert_loop (rb_fuel t) node;;
    t ← mget;
    rb_color_black (rb_root t).

  (** red_black_tree.rs:474-508 [_insert]: the descent loop *)
  Fixpoint rb_insert_loop (fuel : nat) (k : K) (v : V) (parent : N) : M (rbt K V) (option N) :=
    match fuel with
    | O => mfail OutOfFuel
    | S fuel =>
        n ← gets (λ t, rb_get_node t parent);
        let go (target dir : N) :=
          if decide (target = SENTINEL) then
            t ← mget;
            if decide (rb_capacity t ≤ rb_len t) then mret None
            else
              node_index ← rb_on (na_add_node (k, v));
              rb_color_red node_index;;
              rb_connect parent node_index dir;;
              grandparent ← gets (λ t, rb_get_parent t parent);
              (if decide (grandparent ≠ SENTINEL) then rb_fix_insert node_index else mret ());;
              mret (Some node_index)
          else rb_insert_loop fuel k v target in
        match cmp k n.1 with
        | Lt => target ← gets (λ t, rb_get_left t parent); go target Left
        | Gt => target ← gets (λ t, rb_get_right t parent); go target Right
        | Eq => rb_set_node_value parent v;; mret (Some parent)
        end
    end.
  Definition rb_insert (k : K) (v : V) : M (rbt K V) (option N) :=
    t ← mget;
    if decide (rb_root t = SENTINEL) then
      node_index ← rb_on (na_add_node (k, v));
      modify (set_rroot node_index);;
      mret (Some node_index)
    else rb_insert_loop (rb_fuel t) k v (rb_root t).

  (** red_black_tree.rs:677-687 [_transplant] *)
  Definition rb_transplant (target source : N) : M (rbt K V) () :=
    parent ← gets (λ t, rb_get_parent t target);
    if decide (parent = SENTINEL) then
      modify (set_rroot source);;
      rb_on (na_set_register source SENTINEL Parent)
    else
      dir ← gets (λ t, rb_child_dir t parent target);
      rb_connect parent source dir.

  (** red_black_tree.rs:641-672 the loop of [_fix_remove] and the final [_color_black] *)
  Fixpoint rb_fix_remove_loop (fuel : nat) (parent dir : N) : M (rbt K V) () :=
    match fuel with
    | O => mfail OutOfFuel
    | S fuel =>
        sibling ← gets (λ t, rb_get_child t parent (opposite dir));
        sred ← gets (λ t, rb_is_red t sibling);
        sibling ← (if (sred : bool) then
                     rb_color_black sibling;;
                     rb_color_red parent;;
                     rb_rotate_dir parent dir;;
                     gets (λ t, rb_get_dir t parent (opposite dir))
                   else mret sibling);
        sl ← gets (λ t, rb_get_left t sibling);
        slb ← gets (λ t, rb_is_black t sl);
        both ← (if (slb : bool) then
                  sr ← gets (λ t, rb_get_right t sibling);
                  gets (λ t, rb_is_black t sr)
                else mret false);
        node_index ←
          (if (both : bool) then rb_color_red sibling;; mret parent
           else
             so ← gets (λ t, rb_get_dir t sibling (opposite dir));
             sob ← gets (λ t, rb_is_black t so);
             sibling ← (if (sob : bool) then
                          sd ← gets (λ t, rb_get_dir t sibling dir);
                          rb_color_black sd;;
                          rb_color_red sibling;;
                          rb_rotate_dir sibling (opposite dir);;
                          gets (λ t, rb_get_dir t parent (opposite dir))
                        else mret sibling);
             c ← gets (λ t, rb_get_color t parent);
             rb_color_node sibling c;;
             rb_color_black parent;;
             so ← gets (λ t, rb_get_dir t sibling (opposite dir));
             rb_color_black so;;
             rb_rotate_dir parent dir;;
             t ← mget;
             mret (rb_root t));
        t ← mget;
        stop ← (if rb_is_root t node_index then mret true else gets (λ t, rb_is_red t node_index));
        if (stop : bool) then rb_color_black node_index
        else
          parent ← gets (λ t, rb_get_parent t node_index);
          dir ← gets (λ t, rb_child_dir t parent node_index);
          rb_fix_remove_loop fuel parent dir
    end.
  (** red_black_tree.rs:635-640 [_fix_remove]: the argument of [unwrap_or] is evaluated eagerly *)
  Definition rb_fix_remove (node_index : N) (parent_and_dir : option (N * N)) : M (rbt K V) () :=
    p ← gets (λ t, rb_get_parent t node_index);
    d ← gets (λ t, rb_child_dir t p node_index);
    let pd := match parent_and_dir with Some pd => pd | None => (p, d) end in
    t ← mget;
    rb_fix_remove_loop (rb_fuel t) pd.1 pd.2.

  (** red_black_tree.rs:708-722 [_find_min], [_find_max] *)
  Definition rb_find_min t (i : N) : res N := na_find_dir (rb_fuel t) (rb_al t) Left i.
  Definition rb_find_max t (i : N) : res N := na_find_dir (rb_fuel t) (rb_al t) Right i.

  (** red_black_tree.rs:566-633 [_remove_tree_node]; the result of the [if] chain is (pivot, parent_and_dir, is_black) *)
  Definition rb_remove_tree_node (node_index : N) : M (rbt K V) () :=
    is_black ← gets (λ t, rb_is_black t node_index);
    left ← gets (λ t, rb_get_left t node_index);
    right ← gets (λ t, rb_get_right t node_index);
    leaf ← gets (λ t, rb_is_leaf t node_index);
    r ← (if (leaf : bool) then
           t ← mget;
           if negb (rb_is_root t node_index) then
             parent ← gets (λ t, rb_get_parent t node_index);
             dir ← gets (λ t, rb_child_dir t parent node_index);
             rb_connect parent SENTINEL dir;;
             mret (SENTINEL, Some (parent, dir), is_black)
           else
             modify (set_rroot SENTINEL);;
             mret (SENTINEL, None, is_black)
         else if decide (left = SENTINEL) then
           rb_transplant node_index right;;
           mret (right, None, is_black)
         else if decide (right = SENTINEL) then
           rb_transplant node_index left;;
           mret (left, None, is_black)
         else
           max_left ← gets (λ t, rb_find_max t left);
           max_left_parent ← gets (λ t, rb_get_parent t max_left);
           max_left_child ← gets (λ t, rb_get_left t max_left);
           is_black ← gets (λ t, rb_is_black t max_left);
           mp ← gets (λ t, rb_get_parent t max_left);
           parent_and_dir ←
             (if decide (mp ≠ node_index) then
                rb_transplant max_left max_left_child;;
                l ← gets (λ t, rb_get_left t node_index);
                rb_connect max_left l Left;;
                mret (if decide (max_left_child = SENTINEL)
                      then Some (max_left_parent, Right) else None)
              else if decide (max_left_child = SENTINEL) then
                lf ← gets (λ t, rb_is_leaf t max_left);
                massert lf;;
                mret (Some (max_left, Left))
              else mret None);
           rb_transplant node_index max_left;;
           r ← gets (λ t, rb_get_right t node_index);
           rb_connect max_left r Right;;
           c ← gets (λ t, rb_get_color t node_index);
           rb_color_node max_left c;;
           mret (max_left_child, parent_and_dir, is_black));
    let '(pivot, parent_and_dir, is_black) := r in
    rb_remove_allocator_node node_index;;
    if (is_black : bool) then
      t ← mget;
      if rb_is_root t pivot then rb_color_black pivot
      else rb_fix_remove pivot parent_and_dir
    else mret ().

  (** red_black_tree.rs:541-564 [_remove] *)
  Fixpoint rb_remove_loop (fuel : nat) (k : K) (curr : N) : M (rbt K V) (option V) :=
    match fuel with
    | O => mfail OutOfFuel
    | S fuel =>
        n ← gets (λ t, rb_get_node t curr);
        match cmp k n.1 with
        | Lt => target ← gets (λ t, rb_get_left t curr);
                if decide (target = SENTINEL) then mret None else rb_remove_loop fuel k target
        | Gt => target ← gets (λ t, rb_get_right t curr);
                if decide (target = SENTINEL) then mret None else rb_remove_loop fuel k target
        | Eq => rb_remove_tree_node curr;; mret (Some n.2)
        end
    end.
  Definition rb_remove (k : K) : M (rbt K V) (option V) :=
    t ← mget;
    if decide (rb_root t = SENTINEL) then mret None
    else rb_remove_loop (rb_fuel t) k (rb_root t).

  (** red_black_tree.rs:404-414 [remove_root] *)
  Definition rb_remove_root : M (rbt K V) (option (K * V)) :=
    t ← mget;
    if decide (rb_root t = SENTINEL) then mret None
    else
      n ← gets (λ t, rb_get_node t (rb_root t));
      rb_remove_tree_node (rb_root t);;
      mret (Some n).

  (** red_black_tree.rs:689-706 [get_addr] *)
  Definition rb_get_addr t (k : K) : res N := bst_get_addr cmp (rb_fuel t) (rb_al t) (rb_root t) k.

  (** red_black_tree.rs:149-156 [get] *)
  Definition rb_get t (k : K) : res (option V) :=
    i ← rb_get_addr t k;
    if decide (i = SENTINEL) then Val None else n ← rb_get_node t i; Val (Some n.2).
  (** red_black_tree.rs:145-147 [contains] *)
  Definition rb_contains t (k : K) : res bool :=
    o ← rb_get t k; Val (match o with Some _ => true | None => false end).
  (** red_black_tree.rs:158-165 [get_mut]; [f] is the caller's update through the reference *)
  Definition rb_get_mut (k : K) (f : V → V) : M (rbt K V) (option V) :=
    i ← gets (λ t, rb_get_addr t k);
    if decide (i = SENTINEL) then mret None
    else
      n ← gets (λ t, rb_get_node t i);
      rb_set_node_value i (f n.2);;
      mret (Some n.2).

  (** red_black_tree.rs:194-220 [get_min_index], [get_max_index], [get_min], [get_max] *)
  Definition rb_get_min_index t : res N := rb_find_min t (rb_root t).
  Definition rb_get_max_index t : res N := rb_find_max t (rb_root t).
  Definition rb_get_min t : res (option (K * V)) :=
    i ← rb_get_min_index t;
    if decide (i = SENTINEL) then Val None else n ← rb_get_node t i; Val (Some n).
  Definition rb_get_max t : res (option (K * V)) :=
    i ← rb_get_max_index t;
    if decide (i = SENTINEL) then Val None else n ← rb_get_node t i; Val (Some n).

  (** red_black_tree.rs:956-958 [Index], 967-969 [IndexMut] *)
  Definition rb_index t (k : K) : res V :=
    o ← rb_get t k; match o with Some v => Val v | None => Err Panic end.
  Definition rb_index_mut (k : K) (f : V → V) : M (rbt K V) V :=
    o ← rb_get_mut k f; match o with Some v => mret v | None => mfail Panic end.

  (** red_black_tree.rs:724-749 and the iterators: [WalkModel] on the tree's allocator *)
  Definition rb_iter t : titer := ti_new (rb_root t).
  Definition rb_iter_next t (it : titer) : res (option (K * V) * titer) := ti_next (rb_al t) it.
  Definition rb_iter_next_back t (it : titer) : res (option (K * V) * titer) := ti_next_back (rb_al t) it.
  Definition rb_on_iter {A} (m : M (alloc (K * V) * titer) A) : M (rbt K V * titer) A :=
    zoom (λ st, (rb_al st.1, st.2)) (λ at_ st, (set_ral at_.1 st.1, at_.2)) m.
  Definition rb_iter_mut_next (f : V → V) : M (rbt K V * titer) (option (N * (K * V))) :=
    rb_on_iter (ti_mut_next f).
  Definition rb_iter_mut_next_back (f : V → V) : M (rbt K V * titer) (option (N * (K * V))) :=
    rb_on_iter (ti_mut_next_back f).

  (** red_black_tree.rs:286-307 the loop of [is_valid_red_black_tree]; [None] = returned false inside the loop, otherwise the
      pushed [black_count]s, in reverse order. Top of the stack first. *)
  Fixpoint rb_valid_loop (fuel : nat) t (stack : list (N * N)) (counts : list N) : res (option (list N)) :=
    match fuel with
    | O => Err OutOfFuel
    | S fuel =>
        match stack with
        | [] => Val (Some counts)
        | (i, count) :: stack =>
            b ← rb_is_black t i;
            count ← u32_add count (if (b : bool) then 1 else 0);
            leaf ← rb_is_leaf t i;
            if (leaf : bool) then rb_valid_loop fuel t stack (count :: counts)
            else
              l ← rb_get_left t i;
              r ← rb_get_right t i;
              let child (c : N) (stack : list (N * N)) : res (option (list (N * N))) :=
                if decide (c = SENTINEL) then Val (Some stack)
                else
                  ri ← rb_is_red t i;
                  rc ← (if (ri : bool) then rb_is_red t c else Val false);
                  if (rc : bool) then Val None else Val (Some ((c, count) :: stack)) in
              s ← child l stack;
              match s with
              | None => Val None
              | Some stack =>
                  s ← child r stack;
                  match s with
                  | None => Val None
                  | Some stack => rb_valid_loop fuel t stack counts
                  end
              end
        end
    end.
  (** red_black_tree.rs:273-314 [is_valid_red_black_tree] *)
  Definition rb_is_valid t : res bool :=
    if decide (rb_len t = 0) then Val true
    else
      rr ← rb_is_red t (rb_root t);
      if (rr : bool) then Val false
      else
        o ← rb_valid_loop (S (rb_fuel t)) t [(rb_root t, 0)] [];
        match o with
        | None => Val false
        | Some counts =>
            match reverse counts with
            | [] => Val true
            | c0 :: _ => Val (forallb (λ x, bool_decide (x = c0)) (reverse counts))
            end
        end.
End RB.
