(** * Code shared (textually repeated in the sources) by the tree models *)
From Verif Require Export AllocModel.

Section Walk.
  Context `{Profile} {T : Type}.
  (** Loop [while self.get_left(node) != SENTINEL { node = self.get_left(node) }] (and its mirror image):
      red_black_tree.rs:708-722 [_find_min]/[_find_max], avl_tree.rs:567-569 and 578-580, critbit.rs:496-510
      [find_min]/[find_max]. [r] is the register (Left or Right). *)
  Fixpoint na_find_dir (fuel : nat) (a : alloc T) (r : N) (i : N) : res N :=
    match fuel with
    | O => Err OutOfFuel
    | S fuel =>
        c ← na_get_register a i r;
        if decide (c = SENTINEL) then Val i else na_find_dir fuel a r c
    end.
  Definition na_fuel (a : alloc T) : nat := S (length (nodes a)).
End Walk.

Section Tree.
  Context `{Profile} {K V : Type} (cmp : K → K → comparison).
  Notation al := (alloc (K * V)).

  (** The lookup walk, red_black_tree.rs:689-706 [get_addr] and avl_tree.rs:541-560 [get_addr]. [root] is the tree's root index. For the AVL tree [cmp] is
      instantiated with the three-way outcome of its [<] / [>] tests. *)
  Fixpoint bst_walk (fuel : nat) (a : al) (k : K) (i : N) : res N :=
    match fuel with
    | O => Err OutOfFuel
    | S fuel =>
        n ← na_get a i;
        match cmp k (val n).1 with
        | Lt => t ← na_get_register a i Left;
                if decide (t = SENTINEL) then Val SENTINEL else bst_walk fuel a k t
        | Gt => t ← na_get_register a i Right;
                if decide (t = SENTINEL) then Val SENTINEL else bst_walk fuel a k t
        | Eq => Val i
        end
    end.
  Definition bst_get_addr (fuel : nat) (a : al) (root : N) (k : K) : res N :=
    if decide (root = SENTINEL) then Val SENTINEL else bst_walk fuel a k root.
End Tree.

(** ** In-order iterators of RedBlackTree and AVLTree *)

(** red_black_tree.rs:780-794 and 854-868; avl_tree.rs:658-672 and 732-746. Without the reference to the tree. The [Vec]
    stacks are lists with the top of the stack first. *)
Record titer := TIter {
  ti_fwd_stack : list N; ti_fwd_ptr : N; ti_fwd_node : option N;
  ti_rev_stack : list N; ti_rev_ptr : N; ti_rev_node : option N; ti_terminated : bool }.

(** red_black_tree.rs:724-749 [_iter]/[_iter_mut], avl_tree.rs:602-627 *)
Definition ti_new (root : N) : titer := TIter [] root None [] root None false.

Section Iter.
  Context `{Profile} {K V : Type}.
  Notation al := (alloc (K * V)).
  Implicit Types a : al.

  (** The [while] loop of [next]: red_black_tree.rs:806-822 (= 880-906), avl_tree.rs:684-700 (= 758-784). Returns the index
      [current_node] whose entry is yielded (the reading of the entry itself is done by the callers below). *)
  Fixpoint ti_fwd (fuel : nat) a (it : titer) : res (option N * titer) :=
    match fuel with
    | O => Err OutOfFuel
    | S fuel =>
        let '(TIter fs fp fn rs rp rn tm) := it in
        if tm then Val (None, it)
        else if decide (fp = SENTINEL) then
          match fs with
          | [] => Val (None, it)
          | c :: fs' =>
              if decide (Some c = rn) then Val (None, TIter fs' fp fn rs rp rn true)
              else
                p ← na_get_register a c Right;
                Val (Some c, TIter fs' p (Some c) rs rp rn tm)
          end
        else
          p ← na_get_register a fp Left;
          ti_fwd fuel a (TIter (fp :: fs) p fn rs rp rn tm)
    end.
  (** The [while] loop of [next_back]: red_black_tree.rs:834-850 (= 918-944), avl_tree.rs:712-728 (= 796-822) *)
  Fixpoint ti_rev (fuel : nat) a (it : titer) : res (option N * titer) :=
    match fuel with
    | O => Err OutOfFuel
    | S fuel =>
        let '(TIter fs fp fn rs rp rn tm) := it in
        if tm then Val (None, it)
        else if decide (rp = SENTINEL) then
          match rs with
          | [] => Val (None, it)
          | c :: rs' =>
              if decide (Some c = fn) then Val (None, TIter fs fp fn rs' rp rn true)
              else
                p ← na_get_register a c Left;
                Val (Some c, TIter fs fp fn rs' p (Some c) tm)
          end
        else
          p ← na_get_register a rp Right;
          ti_rev fuel a (TIter fs fp fn (rp :: rs) p rn tm)
    end.

  Definition ti_fuel a : nat := S (S (length (nodes a))).

  (** [next] / [next_back] of the shared iterators (red_black_tree.rs:805-851, avl_tree.rs:683-729) *)
  Definition ti_next a (it : titer) : res (option (K * V) * titer) :=
    r ← ti_fwd (ti_fuel a) a it;
    match r.1 with
    | None => Val (None, r.2)
    | Some c => n ← na_get a c; Val (Some (val n), r.2)
    end.
  Definition ti_next_back a (it : titer) : res (option (K * V) * titer) :=
    r ← ti_rev (ti_fuel a) a it;
    match r.1 with
    | None => Val (None, r.2)
    | Some c => n ← na_get a c; Val (Some (val n), r.2)
    end.

  (** [next] / [next_back] of the mutable iterators (red_black_tree.rs:879-945, avl_tree.rs:757-823). Result: the index behind
      the reference, the key and the value found; [f] is what the caller stores through the reference. *)
  Definition ti_mut_next (f : V → V) : M (al * titer) (option (N * (K * V))) :=
    st ← mget;
    r ← lift (ti_fwd (ti_fuel st.1) st.1 st.2);
    modify (λ st, (st.1, r.2));;
    match r.1 with
    | None => mret None
    | Some c =>
        n ← zoom fst (λ a st, (a, st.2)) (na_raw_update c (λ n, (n.1, f n.2)));
        mret (Some (c, n))
    end.
  Definition ti_mut_next_back (f : V → V) : M (al * titer) (option (N * (K * V))) :=
    st ← mget;
    r ← lift (ti_rev (ti_fuel st.1) st.1 st.2);
    modify (λ st, (st.1, r.2));;
    match r.1 with
    | None => mret None
    | Some c =>
        n ← zoom fst (λ a st, (a, st.2)) (na_raw_update c (λ n, (n.1, f n.2)));
        mret (Some (c, n))
    end.
End Iter.
