(** * The red-black tree with the rounds of its repair loops counted over a whole history

    Each definition below is the definition of the same name in RBModel.v ([rba_] instead of [rb_]) with a number [rem] of rounds that are still allowed: every round
    of the loops of [_fix_insert] and [_fix_remove] uses up one (the last look at the condition of the [while] counts as a round), a round when none is left is the
    failure [OutOfFuel], and what remains is returned for the operations that follow. That a history computed in this way gives the same answers means that all
    its operations together make at most so many rounds. *)
From Verif Require Export RBApi.

Section RB.
  Context `{Profile} {K V : Type} (cmp : K → K → comparison).
  Implicit Types t : rbt K V.

  (** red_black_tree.rs:510-539 [_fix_insert]: the [while] loop *)
  Fixpoint rba_fix_insert_loop (fuel rem : nat) (node : N) : M (rbt K V) nat :=
    match fuel, rem with
    | S fuel, S rem =>
        parent ← gets (λ t, rb_get_parent t node);
        red ← gets (λ t, rb_is_red t parent);
        if negb red then mret rem
        else
          grandparent ← gets (λ t, rb_get_parent t parent);
          if decide (grandparent = SENTINEL) then
            t ← mget;
            massert (rb_is_root t parent);;
            mret rem
          else
            dir ← gets (λ t, rb_child_dir t grandparent parent);
            uncle ← gets (λ t, rb_get_child t grandparent (opposite dir));
            ured ← gets (λ t, rb_is_red t uncle);
            if (ured : bool) then
              rb_color_black uncle;;
              rb_color_black parent;;
              rb_color_red grandparent;;
              rba_fix_insert_loop fuel rem grandparent
            else
              cd ← gets (λ t, rb_child_dir t parent node);
              node ← (if decide (cd = opposite dir) then
                        rb_rotate_dir parent dir;; mret parent
                      else mret node);
              parent ← gets (λ t, rb_get_parent t node);
              grandparent ← gets (λ t, rb_get_parent t parent);
              rb_color_black parent;;
              rb_color_red grandparent;;
              rb_rotate_dir grandparent (opposite dir);;
              rba_fix_insert_loop fuel rem node
    | _, _ => mfail OutOfFuel
    end.
  (** red_black_tree.rs:510-539 [_fix_insert] *)
  Definition rba_fix_insert (rem : nat) (node : N) : M (rbt K V) nat :=
    t ← mget;
    rem ← rba_fix_insert_loop (rb_fuel t) rem node;
    t ← mget;
    rb_color_black (rb_root t);;
    mret rem.

  (** red_black_tree.rs:474-508 [_insert]: the descent loop *)
  Fixpoint rba_insert_loop (fuel rem : nat) (k : K) (v : V) (parent : N) : M (rbt K V) (option N * nat) :=
    match fuel with
    | O => mfail OutOfFuel
    | S fuel =>
        n ← gets (λ t, rb_get_node t parent);
        let go (target dir : N) :=
          if decide (target = SENTINEL) then
            t ← mget;
            if decide (rb_capacity t ≤ rb_len t) then mret (None, rem)
            else
              node_index ← rb_on (na_add_node (k, v));
              rb_color_red node_index;;
              rb_connect parent node_index dir;;
              grandparent ← gets (λ t, rb_get_parent t parent);
              rem ← (if decide (grandparent ≠ SENTINEL) then rba_fix_insert rem node_index else mret rem);
              mret (Some node_index, rem)
          else rba_insert_loop fuel rem k v target in
        match cmp k n.1 with
        | Lt => target ← gets (λ t, rb_get_left t parent); go target Left
        | Gt => target ← gets (λ t, rb_get_right t parent); go target Right
        | Eq => rb_set_node_value parent v;; mret (Some parent, rem)
        end
    end.
  (** red_black_tree.rs:474-508 [_insert] *)
  Definition rba_insert (rem : nat) (k : K) (v : V) : M (rbt K V) (option N * nat) :=
    t ← mget;
    if decide (rb_root t = SENTINEL) then
      node_index ← rb_on (na_add_node (k, v));
      modify (set_rroot node_index);;
      mret (Some node_index, rem)
    else rba_insert_loop (rb_fuel t) rem k v (rb_root t).

  (** red_black_tree.rs:641-672 the loop of [_fix_remove] and the final [_color_black] *)
  Fixpoint rba_fix_remove_loop (fuel rem : nat) (parent dir : N) : M (rbt K V) nat :=
    match fuel, rem with
    | S fuel, S rem =>
        sibling ← gets (λ t, rb_get_child t parent (opposite dir));
        sred ← gets (λ t, rb_is_red t sibling);
        sibling ←
          (if (sred : bool) then
             rb_color_black sibling;;
             rb_color_red parent;;
             rb_rotate_dir parent dir;;
             gets (λ t, rb_get_dir t parent (opposite dir))
           else mret sibling);
        sl ← gets (λ t, rb_get_left t sibling);
        slb ← gets (λ t, rb_is_black t sl);
        both ← (if (slb : bool) then
                  sr ← gets (λ t, rb_get_right t sibling);
                  gets (λ t, rb_is_black t sr)
                else mret false);
        node_index ←
          (if (both : bool) then rb_color_red sibling;; mret parent
           else
             so ← gets (λ t, rb_get_dir t sibling (opposite dir));
             sob ← gets (λ t, rb_is_black t so);
             sibling ←
               (if (sob : bool) then
                  sd ← gets (λ t, rb_get_dir t sibling dir);
                  rb_color_black sd;;
                  rb_color_red sibling;;
                  rb_rotate_dir sibling (opposite dir);;
                  gets (λ t, rb_get_dir t parent (opposite dir))
                else mret sibling);
             c ← gets (λ t, rb_get_color t parent);
             rb_color_node sibling c;;
             rb_color_black parent;;
             so ← gets (λ t, rb_get_dir t sibling (opposite dir));
             rb_color_black so;;
             rb_rotate_dir parent dir;;
             t ← mget;
             mret (rb_root t));
        t ← mget;
        stop ← (if rb_is_root t node_index then mret true else gets (λ t, rb_is_red t node_index));
        if (stop : bool) then rb_color_black node_index;; mret rem
        else
          parent ← gets (λ t, rb_get_parent t node_index);
          dir ← gets (λ t, rb_child_dir t parent node_index);
          rba_fix_remove_loop fuel rem parent dir
    | _, _ => mfail OutOfFuel
    end.
  (** red_black_tree.rs:635-640 [_fix_remove]: the argument of [unwrap_or] is evaluated eagerly *)
  Definition rba_fix_remove (rem : nat) (node_index : N) (parent_and_dir : option (N * N)) : M (rbt K V) nat :=
    p ← gets (λ t, rb_get_parent t node_index);
    d ← gets (λ t, rb_child_dir t p node_index);
    let pd := match parent_and_dir with Some pd => pd | None => (p, d) end in
    t ← mget;
    rba_fix_remove_loop (rb_fuel t) rem pd.1 pd.2.

  (** red_black_tree.rs:566-633 [_remove_tree_node]; the result of the [if] chain is (pivot, parent_and_dir, is_black) *)
  Definition rba_remove_tree_node (rem : nat) (node_index : N) : M (rbt K V) nat :=
    is_black ← gets (λ t, rb_is_black t node_index);
    left ← gets (λ t, rb_get_left t node_index);
    right ← gets (λ t, rb_get_right t node_index);
    leaf ← gets (λ t, rb_is_leaf t node_index);
    r ← (if (leaf : bool) then
           t ← mget;
           if negb (rb_is_root t node_index) then
             parent ← gets (λ t, rb_get_parent t node_index);
             dir ← gets (λ t, rb_child_dir t parent node_index);
             rb_connect parent SENTINEL dir;;
             mret (SENTINEL, Some (parent, dir), is_black)
           else
             modify (set_rroot SENTINEL);;
             mret (SENTINEL, None, is_black)
         else if decide (left = SENTINEL) then
           rb_transplant node_index right;;
           mret (right, None, is_black)
         else if decide (right = SENTINEL) then
           rb_transplant node_index left;;
           mret (left, None, is_black)
         else
           max_left ← gets (λ t, rb_find_max t left);
           max_left_parent ← gets (λ t, rb_get_parent t max_left);
           max_left_child ← gets (λ t, rb_get_left t max_left);
           is_black ← gets (λ t, rb_is_black t max_left);
           mp ← gets (λ t, rb_get_parent t max_left);
           parent_and_dir ←
             (if decide (mp ≠ node_index) then
                rb_transplant max_left max_left_child;;
                l ← gets (λ t, rb_get_left t node_index);
                rb_connect max_left l Left;;
                mret (if decide (max_left_child = SENTINEL)
                      then Some (max_left_parent, Right) else None)
              else if decide (max_left_child = SENTINEL) then
                lf ← gets (λ t, rb_is_leaf t max_left);
                massert lf;;
                mret (Some (max_left, Left))
              else mret None);
           rb_transplant node_index max_left;;
           r ← gets (λ t, rb_get_right t node_index);
           rb_connect max_left r Right;;
           c ← gets (λ t, rb_get_color t node_index);
           rb_color_node max_left c;;
           mret (max_left_child, parent_and_dir, is_black));
    let '(pivot, parent_and_dir, is_black) := r in
    rb_remove_allocator_node node_index;;
    if (is_black : bool) then
      t ← mget;
      if rb_is_root t pivot then rb_color_black pivot;; mret rem
      else rba_fix_remove rem pivot parent_and_dir
    else mret rem.

  (** red_black_tree.rs:541-564 [_remove] *)
  Fixpoint rba_remove_loop (fuel rem : nat) (k : K) (curr : N) : M (rbt K V) (option V * nat) :=
    match fuel with
    | O => mfail OutOfFuel
    | S fuel =>
        n ← gets (λ t, rb_get_node t curr);
        match cmp k n.1 with
        | Lt => target ← gets (λ t, rb_get_left t curr);
                if decide (target = SENTINEL) then mret (None, rem) else rba_remove_loop fuel rem k target
        | Gt => target ← gets (λ t, rb_get_right t curr);
                if decide (target = SENTINEL) then mret (None, rem) else rba_remove_loop fuel rem k target
        | Eq => rem ← rba_remove_tree_node rem curr; mret (Some n.2, rem)
        end
    end.
  (** red_black_tree.rs:541-564 [_remove] *)
  Definition rba_remove (rem : nat) (k : K) : M (rbt K V) (option V * nat) :=
    t ← mget;
    if decide (rb_root t = SENTINEL) then mret (None, rem)
    else rba_remove_loop (rb_fuel t) rem k (rb_root t).

  (** red_black_tree.rs:404-414 [remove_root] *)
  Definition rba_remove_root (rem : nat) : M (rbt K V) (option (K * V) * nat) :=
    t ← mget;
    if decide (rb_root t = SENTINEL) then mret (None, rem)
    else
      n ← gets (λ t, rb_get_node t (rb_root t));
      rem ← rba_remove_tree_node rem (rb_root t);
      mret (Some n, rem).

  (** *** Histories: the state is the tree and the rounds that remain *)
  Definition rba_run {A} (m : nat → M (rbt K V) (A * nat)) : M (rbt K V * nat) A :=
    λ s, match m s.2 s.1 with Ret (a, rem) t => Ret a (t, rem) | Fail e t => Fail e (t, s.2) end.
  (** One call, as [rb_step] of RBApi.v. The loops of insertion and removal draw on the rounds; the other calls have no repair loop. *)
  Definition rba_step (o : option (om_op K V)) : M (rbt K V * nat) (om_out K V) :=
    match o with
    | Some (MInsert k v) => o ← rba_run (λ rem, rba_insert rem k v); mret (MBool (match o with Some _ => true | None => false end))
    | Some (MRemove k) => o ← rba_run (λ rem, rba_remove rem k); mret (MVal o)
    | None => o ← rba_run rba_remove_root; mret (MPair o)
    | Some o => rba_run (λ rem, a ← om_step (rb_api cmp) o; mret (a, rem))
    end.
End RB.

(** how many of the calls are insertions and removals *)
Fixpoint updates {K V} (ops : list (option (om_op K V))) : nat :=
  match ops with
  | [] => 0
  | Some (MInsert _ _) :: ops | Some (MRemove _) :: ops | None :: ops => S (updates ops)
  | _ :: ops => updates ops
  end.
