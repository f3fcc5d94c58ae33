(** * The operations of the two search trees with the rotations counted

    Each definition below is the definition of the same name in RBModel.v or AVLModel.v ([rbr_]/[avr_] instead of [rb_]/[av_]) with a number [rot] of rotations that
    are allowed: every call of [_rotate_dir], [left_rotate] or [right_rotate] uses up one, and a call when none is left ends the operation with
    [OutOfFuel]. That such a copy computes the same as the operation means that the operation rotates at most [rot] times. *)
From Verif Require Export RBModel AVLModel.

Section RB.
  Context `{Profile} {K V : Type} (cmp : K → K → comparison).
  Implicit Types t : rbt K V.

  (** red_black_tree.rs:445-472 [_rotate_dir]; returns how many rotations are left *)
  Definition rbr_rotate_dir (rot : nat) (parent_index dir : N) : M (rbt K V) nat :=
    match rot with O => mfail OutOfFuel | S rot => rb_rotate_dir parent_index dir;; mret rot end.

  (** red_black_tree.rs:510-539 [_fix_insert]: the [while] loop *)
  Fixpoint rbr_fix_insert_loop (fuel rot : nat) (node : N) : M (rbt K V) () :=
    match fuel with
    | O => mfail OutOfFuel
    | S fuel =>
        parent ← gets (λ t, rb_get_parent t node);
        red ← gets (λ t, rb_is_red t parent);
        if negb red then mret ()
        else
          grandparent ← gets (λ t, rb_get_parent t parent);
          if decide (grandparent = SENTINEL) then
            t ← mget;
            massert (rb_is_root t parent)
          else
            dir ← gets (λ t, rb_child_dir t grandparent parent);
            uncle ← gets (λ t, rb_get_child t grandparent (opposite dir));
            ured ← gets (λ t, rb_is_red t uncle);
            if (ured : bool) then
              rb_color_black uncle;;
              rb_color_black parent;;
              rb_color_red grandparent;;
              rbr_fix_insert_loop fuel rot grandparent
            else
              cd ← gets (λ t, rb_child_dir t parent node);
              nr ← (if decide (cd = opposite dir) then
                      rot ← rbr_rotate_dir rot parent dir; mret (parent, rot)
                    else mret (node, rot));
              let '(node, rot) := nr in
              parent ← gets (λ t, rb_get_parent t node);
              grandparent ← gets (λ t, rb_get_parent t parent);
              rb_color_black parent;;
              rb_color_red grandparent;;
              rot ← rbr_rotate_dir rot grandparent (opposite dir);
              rbr_fix_insert_loop fuel rot node
    end.
  (** red_black_tree.rs:510-539 [_fix_insert] *)
  Definition rbr_fix_insert (rot : nat) (node : N) : M (rbt K V) () :=
    t ← mget;
    rbr_fix_insert_loop (rb_fuel t) rot node;;
    t ← mget;
    rb_color_black (rb_root t).

  (** red_black_tree.rs:474-508 [_insert]: the descent loop *)
  Fixpoint rbr_insert_loop (fuel rot : nat) (k : K) (v : V) (parent : N) : M (rbt K V) (option N) :=
    match fuel with
    | O => mfail OutOfFuel
    | S fuel =>
        n ← gets (λ t, rb_get_node t parent);
        let go (target dir : N) :=
          if decide (target = SENTINEL) then
            t ← mget;
            if decide (rb_capacity t ≤ rb_len t) then mret None
            else
              node_index ← rb_on (na_add_node (k, v));
              rb_color_red node_index;;
              rb_connect parent node_index dir;;
              grandparent ← gets (λ t, rb_get_parent t parent);
              (if decide (grandparent ≠ SENTINEL) then rbr_fix_insert rot node_index else mret ());;
              mret (Some node_index)
          else rbr_insert_loop fuel rot k v target in
        match cmp k n.1 with
        | Lt => target ← gets (λ t, rb_get_left t parent); go target Left
        | Gt => target ← gets (λ t, rb_get_right t parent); go target Right
        | Eq => rb_set_node_value parent v;; mret (Some parent)
        end
    end.
  (** red_black_tree.rs:474-508 [_insert] *)
  Definition rbr_insert (rot : nat) (k : K) (v : V) : M (rbt K V) (option N) :=
    t ← mget;
    if decide (rb_root t = SENTINEL) then
      node_index ← rb_on (na_add_node (k, v));
      modify (set_rroot node_index);;
      mret (Some node_index)
    else rbr_insert_loop (rb_fuel t) rot k v (rb_root t).

  (** red_black_tree.rs:641-672 the loop of [_fix_remove] and the final [_color_black] *)
  Fixpoint rbr_fix_remove_loop (fuel rot : nat) (parent dir : N) : M (rbt K V) () :=
    match fuel with
    | O => mfail OutOfFuel
    | S fuel =>
        sibling ← gets (λ t, rb_get_child t parent (opposite dir));
        sred ← gets (λ t, rb_is_red t sibling);
        sr ← (if (sred : bool) then
                rb_color_black sibling;;
                rb_color_red parent;;
                rot ← rbr_rotate_dir rot parent dir;
                sibling ← gets (λ t, rb_get_dir t parent (opposite dir));
                mret (sibling, rot)
              else mret (sibling, rot));
        let '(sibling, rot) := sr in
        sl ← gets (λ t, rb_get_left t sibling);
        slb ← gets (λ t, rb_is_black t sl);
        both ← (if (slb : bool) then
                  sr ← gets (λ t, rb_get_right t sibling);
                  gets (λ t, rb_is_black t sr)
                else mret false);
        nr ←
          (if (both : bool) then rb_color_red sibling;; mret (parent, rot)
           else
             so ← gets (λ t, rb_get_dir t sibling (opposite dir));
             sob ← gets (λ t, rb_is_black t so);
             sr ← (if (sob : bool) then
                     sd ← gets (λ t, rb_get_dir t sibling dir);
                     rb_color_black sd;;
                     rb_color_red sibling;;
                     rot ← rbr_rotate_dir rot sibling (opposite dir);
                     sibling ← gets (λ t, rb_get_dir t parent (opposite dir));
                     mret (sibling, rot)
                   else mret (sibling, rot));
             let '(sibling, rot) := sr in
             c ← gets (λ t, rb_get_color t parent);
             rb_color_node sibling c;;
             rb_color_black parent;;
             so ← gets (λ t, rb_get_dir t sibling (opposite dir));
             rb_color_black so;;
             rot ← rbr_rotate_dir rot parent dir;
             t ← mget;
             mret (rb_root t, rot));
        let '(node_index, rot) := nr in
        t ← mget;
        stop ← (if rb_is_root t node_index then mret true else gets (λ t, rb_is_red t node_index));
        if (stop : bool) then rb_color_black node_index
        else
          parent ← gets (λ t, rb_get_parent t node_index);
          dir ← gets (λ t, rb_child_dir t parent node_index);
          rbr_fix_remove_loop fuel rot parent dir
    end.
  (** red_black_tree.rs:635-640 [_fix_remove]: the argument of [unwrap_or] is evaluated eagerly *)
  Definition rbr_fix_remove (rot : nat) (node_index : N) (parent_and_dir : option (N * N)) : M (rbt K V) () :=
    p ← gets (λ t, rb_get_parent t node_index);
    d ← gets (λ t, rb_child_dir t p node_index);
    let pd := match parent_and_dir with Some pd => pd | None => (p, d) end in
    t ← mget;
    rbr_fix_remove_loop (rb_fuel t) rot pd.1 pd.2.

  (** red_black_tree.rs:566-633 [_remove_tree_node]; the result of the [if] chain is (pivot, parent_and_dir, is_black) *)
  Definition rbr_remove_tree_node (rot : nat) (node_index : N) : M (rbt K V) () :=
    is_black ← gets (λ t, rb_is_black t node_index);
    left ← gets (λ t, rb_get_left t node_index);
    right ← gets (λ t, rb_get_right t node_index);
    leaf ← gets (λ t, rb_is_leaf t node_index);
    r ← (if (leaf : bool) then
           t ← mget;
           if negb (rb_is_root t node_index) then
             parent ← gets (λ t, rb_get_parent t node_index);
             dir ← gets (λ t, rb_child_dir t parent node_index);
             rb_connect parent SENTINEL dir;;
             mret (SENTINEL, Some (parent, dir), is_black)
           else
             modify (set_rroot SENTINEL);;
             mret (SENTINEL, None, is_black)
         else if decide (left = SENTINEL) then
           rb_transplant node_index right;;
           mret (right, None, is_black)
         else if decide (right = SENTINEL) then
           rb_transplant node_index left;;
           mret (left, None, is_black)
         else
           max_left ← gets (λ t, rb_find_max t left);
           max_left_parent ← gets (λ t, rb_get_parent t max_left);
           max_left_child ← gets (λ t, rb_get_left t max_left);
           is_black ← gets (λ t, rb_is_black t max_left);
           mp ← gets (λ t, rb_get_parent t max_left);
           parent_and_dir ←
             (if decide (mp ≠ node_index) then
                rb_transplant max_left max_left_child;;
                l ← gets (λ t, rb_get_left t node_index);
                rb_connect max_left l Left;;
                mret (if decide (max_left_child = SENTINEL)
                      then Some (max_left_parent, Right) else None)
              else if decide (max_left_child = SENTINEL) then
                lf ← gets (λ t, rb_is_leaf t max_left);
                massert lf;;
                mret (Some (max_left, Left))
              else mret None);
           rb_transplant node_index max_left;;
           r ← gets (λ t, rb_get_right t node_index);
           rb_connect max_left r Right;;
           c ← gets (λ t, rb_get_color t node_index);
           rb_color_node max_left c;;
           mret (max_left_child, parent_and_dir, is_black));
    let '(pivot, parent_and_dir, is_black) := r in
    rb_remove_allocator_node node_index;;
    if (is_black : bool) then
      t ← mget;
      if rb_is_root t pivot then rb_color_black pivot
      else rbr_fix_remove rot pivot parent_and_dir
    else mret ().

  (** red_black_tree.rs:541-564 [_remove] *)
  Fixpoint rbr_remove_loop (fuel rot : nat) (k : K) (curr : N) : M (rbt K V) (option V) :=
    match fuel with
    | O => mfail OutOfFuel
    | S fuel =>
        n ← gets (λ t, rb_get_node t curr);
        match cmp k n.1 with
        | Lt => target ← gets (λ t, rb_get_left t curr);
                if decide (target = SENTINEL) then mret None else rbr_remove_loop fuel rot k target
        | Gt => target ← gets (λ t, rb_get_right t curr);
                if decide (target = SENTINEL) then mret None else rbr_remove_loop fuel rot k target
        | Eq => rbr_remove_tree_node rot curr;; mret (Some n.2)
        end
    end.
  (** red_black_tree.rs:541-564 [_remove] *)
  Definition rbr_remove (rot : nat) (k : K) : M (rbt K V) (option V) :=
    t ← mget;
    if decide (rb_root t = SENTINEL) then mret None
    else rbr_remove_loop (rb_fuel t) rot k (rb_root t).

  (** red_black_tree.rs:404-414 [remove_root] *)
  Definition rbr_remove_root (rot : nat) : M (rbt K V) (option (K * V)) :=
    t ← mget;
    if decide (rb_root t = SENTINEL) then mret None
    else
      n ← gets (λ t, rb_get_node t (rb_root t));
      rbr_remove_tree_node rot (rb_root t);;
      mret (Some n).
End RB.

Section AVL.
  Context `{Profile} {K V : Type} (pcmp : K → K → option comparison).
  Implicit Types t : avlt K V.

  (** avl_tree.rs:446-464 [left_rotate], [right_rotate]; they return also how many rotations are left *)
  Definition avr_left_rotate (rot : nat) (index : N) : M (avlt K V) (N * nat) :=
    match rot with O => mfail OutOfFuel | S rot => i ← av_left_rotate index; mret (i, rot) end.
  Definition avr_right_rotate (rot : nat) (index : N) : M (avlt K V) (N * nat) :=
    match rot with O => mfail OutOfFuel | S rot => i ← av_right_rotate index; mret (i, rot) end.

  (** avl_tree.rs:499-537 the body of the loop of [rebalance] for one path entry *)
  Definition avr_rebalance_step (rot : nat) (e : ancestor) : M (avlt K V) nat :=
    let '(pb, child) := e in
    left ← gets (λ t, av_get_field t child Left);
    right ← gets (λ t, av_get_field t child Right);
    bf ← gets (λ t, av_balance_factor t left right);
    ir ←
      (if decide (1 < bf)%Z then
         left_left ← gets (λ t, av_get_field t left Left);
         left_right ← gets (λ t, av_get_field t left Right);
         lbf ← gets (λ t, av_balance_factor t left_left left_right);
         rot ← (if decide (lbf < 0)%Z then
                  ir ← avr_left_rotate rot left;
                  av_set_field child Left ir.1;;
                  mret ir.2
                else mret rot);
         ir ← avr_right_rotate rot child;
         mret (Some ir.1, ir.2)
       else if decide (bf < -1)%Z then
         right_left ← gets (λ t, av_get_field t right Left);
         right_right ← gets (λ t, av_get_field t right Right);
         rbf ← gets (λ t, av_balance_factor t right_left right_right);
         rot ← (if decide (0 < rbf)%Z then
                  ir ← avr_right_rotate rot right;
                  av_set_field child Right ir.1;;
                  mret ir.2
                else mret rot);
         ir ← avr_left_rotate rot child;
         mret (Some ir.1, ir.2)
       else
         av_update_height child;;
         mret (None, rot));
    let '(index, rot) := ir in
    (match index with
    | Some index =>
        match pb with
        | Some (parent, branch) => av_set_field parent branch index
        | None => modify (set_aroot index);; av_update_height index
        end
    | None => mret ()
    end);;
    mret rot.
  (** avl_tree.rs:497-539 [rebalance]; the path is a list with its last element first ([path.iter().rev()]) *)
  Fixpoint avr_rebalance (rot : nat) (rpath : list ancestor) : M (avlt K V) () :=
    match rpath with
    | [] => mret ()
    | e :: rpath => rot ← avr_rebalance_step rot e; avr_rebalance rot rpath
    end.

  (** avl_tree.rs:290-319 the loop of [_insert] and what follows it; [rpath] as above *)
  Fixpoint avr_insert_loop (fuel rot : nat) (k : K) (v : V) (rpath : list ancestor) (reference_node : N) :
      M (avlt K V) (option N) :=
    match fuel with
    | O => mfail OutOfFuel
    | S fuel =>
        n ← gets (λ t, av_get_node t reference_node);
        let parent := reference_node in
        let go (branch : N) :=
          reference_node ← gets (λ t, av_get_field t parent branch);
          if decide (reference_node = SENTINEL) then
            t ← mget;
            if decide (av_capacity t ≤ av_len t) then mret None
            else
              reference_node ← av_on (na_add_node (k, v));
              av_set_field parent branch reference_node;;
              avr_rebalance rot rpath;;
              mret (Some reference_node)
          else avr_insert_loop fuel rot k v ((Some (parent, branch), reference_node) :: rpath) reference_node in
        match av_cmp pcmp k n.1 with
        | Lt => go Left
        | Gt => go Right
        | Eq => av_set_node_value reference_node v;; mret (Some reference_node)
        end
    end.
  (** avl_tree.rs:279-320 [_insert] ([add_node(..) as u64 as u32] is the identity) *)
  Definition avr_insert (rot : nat) (k : K) (v : V) : M (avlt K V) (option N) :=
    t ← mget;
    let reference_node := as_u32 (av_root t) in
    if decide (reference_node = SENTINEL) then
      i ← av_on (na_add_node (k, v));
      modify (set_aroot i);;
      mret (Some i)
    else avr_insert_loop (av_fuel t) rot k v [(None, reference_node)] reference_node.

  (** avl_tree.rs:322-428 [_remove] *)
  Definition avr_remove (rot : nat) (k : K) : M (avlt K V) (option V) :=
    t ← mget;
    let root := as_u32 (av_root t) in
    if decide (root = SENTINEL) then mret None
    else
      w ← gets (λ t, av_remove_walk pcmp (S (av_fuel t)) t k [(None, root)] root);
      let '(node_index, rpath) := w in
      if decide (node_index = SENTINEL) then mret None
      else
        n ← gets (λ t, av_get_node t node_index);
        left ← gets (λ t, av_get_field t node_index Left);
        right ← gets (λ t, av_get_field t node_index Right);
        rr ←
          (if decide (left ≠ SENTINEL ∧ right ≠ SENTINEL) then
             w ← gets (λ t, av_leftmost_walk (av_fuel t) t right SENTINEL []);
             let '(leftmost, leftmost_parent, inner) := w in
             (if decide (leftmost_parent ≠ SENTINEL) then
                r ← gets (λ t, av_get_field t leftmost Right);
                av_set_field leftmost_parent Left r
              else mret ());;
             av_set_field leftmost Left left;;
             (if decide (right ≠ leftmost) then av_set_field leftmost Right right else mret ());;
             match rpath with
             | [] => mfail Panic
             | (pb, _) :: rpath =>
                 (match pb with
                  | Some (parent, branch) => av_set_field parent branch leftmost
                  | None => mret ()
                  end);;
                 let rpath := (pb, leftmost) :: rpath in
                 let rpath := if decide (right ≠ leftmost)
                              then (Some (leftmost, Right), right) :: rpath else rpath in
                 mret (leftmost, tail inner ++ rpath)
             end
           else
             let child := if decide (left = SENTINEL ∧ right = SENTINEL) then SENTINEL
                          else if decide (left ≠ SENTINEL) then left else right in
             match rpath with
             | [] => mfail Panic
             | (pb, _) :: rpath =>
                 match pb with
                 | Some (parent, branch) =>
                     av_set_field parent branch child;;
                     mret (child, if decide (child ≠ SENTINEL)
                                  then (Some (parent, branch), child) :: rpath else rpath)
                 | None => mret (child, rpath)
                 end
             end);
        let '(replacement, rpath) := rr in
        t ← mget;
        (if decide (node_index = as_u32 (av_root t)) then modify (set_aroot replacement) else mret ());;
        av_delete node_index;;
        avr_rebalance rot rpath;;
        mret (Some n.2).
End AVL.
