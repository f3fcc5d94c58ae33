(** * Model of src/avl_tree.rs

    [Vec::with_capacity((self.len() as f64).log2() as usize)] (287, 328, 361) only reserves memory and is not modelled. *)
From Verif Require Export AllocModel WalkModel.

(** avl_tree.rs:21-25 [enum Field] : Left = 0, Right = 1 as in AllocModel *)
Definition Height : N := 2.

(** avl_tree.rs:66-73 [struct AVLTree]; [root : u64]. [AVLNode] (33-39) is the pair (key, value). *)
Record avlt (K V : Type) := AVLT { av_root : N; av_al : alloc (K * V) }.
Global Arguments AVLT {K V} av_root av_al.
Global Arguments av_root {K V} _.
Global Arguments av_al {K V} _.

(** avl_tree.rs:233-238 [default], 247-249 [new] *)
Definition av_new {K V} (ms : nat) (d : K * V) : avlt K V :=
  AVLT SENTINEL (Alloc 0 1 1 (replicate ms (node_default 4 d))).
(** An AVLTree viewed in a zeroed buffer (avl_tree.rs:75-88) *)
Definition av_zeroed {K V} (ms : nat) (z : K * V) : avlt K V := AVLT 0 (na_zeroed ms 4 z).

(** avl_tree.rs:29 [type Ancestor]; parent and branch are always both [None] or both [Some], kept as one option *)
Notation ancestor := (option (N * N) * N)%type.

(** [x as i32] for a [u32] *)
Definition as_i32 (x : N) : Z :=
  if decide (x < 2147483648) then Z.of_N x else (Z.of_N x - Z.of_N W32)%Z.

Section AVL.
  Context `{Profile} {K V : Type}.
  (** [K: PartialOrd] : [a.partial_cmp(&b)]; [a < b] is [Some Lt], [a > b] is [Some Gt] (a type overriding [lt]/[gt]
      inconsistently with [partial_cmp] is not covered) *)
  Context (pcmp : K → K → option comparison).
  Implicit Types t : avlt K V.

  (** Outcome of [if key < c {..} else if key > c {..} else {..}] *)
  Definition av_cmp (k c : K) : comparison :=
    match pcmp k c with Some Lt => Lt | Some Gt => Gt | _ => Eq end.

  (** i32 arithmetic *)
  Definition i32_chk (z : Z) : res Z :=
    if decide (-2147483648 ≤ z < 2147483648)%Z then Val z
    else if overflow_checks then Err Panic
    else Val ((z + 2147483648) mod 4294967296 - 2147483648)%Z.

  Definition set_aroot (x : N) t := AVLT x (av_al t).
  Definition set_aal (x : alloc (K * V)) t := AVLT (av_root t) x.
  Definition av_on {A} (m : M (alloc (K * V)) A) : M (avlt K V) A := zoom av_al set_aal m.

  (** avl_tree.rs:251-253 [initialize] *)
  Definition av_initialize : M (avlt K V) () := av_on na_initialize.
  (** avl_tree.rs:255-257 [get_node] *)
  Definition av_get_node t (i : N) : res (K * V) := n ← na_get (av_al t) i; Val (val n).
  (** avl_tree.rs:259-261 [get_node_mut] followed by [.value = v] *)
  Definition av_set_node_value (i : N) (v : V) : M (avlt K V) () :=
    av_on (na_get_mut i (λ n, node_set_value ((val n).1, v) n)).

  (** avl_tree.rs:171-181 [size], [len], [capacity] *)
  Definition av_len t : N := size (av_al t).
  Definition av_capacity t : N := MAX_SIZE (av_al t).
  Definition av_fuel t : nat := S (length (nodes (av_al t))).

  (** avl_tree.rs:275-277 [get_field] *)
  Definition av_get_field t (i r : N) : res N := na_get_register (av_al t) i r.

  (** avl_tree.rs:466-488 [update_height]; its final [set_field(index, Height, height)] (264-272 with a register that is
      neither Left nor Right) is inlined to break the recursion *)
  Definition av_update_height (index : N) : M (avlt K V) () :=
    left ← gets (λ t, av_get_field t index Left);
    right ← gets (λ t, av_get_field t index Right);
    height ← (if decide (left = SENTINEL ∧ right = SENTINEL) then mret 0
              else
                lh ← (if decide (left ≠ SENTINEL) then gets (λ t, av_get_field t left Height) else mret 0);
                rh ← (if decide (right ≠ SENTINEL) then gets (λ t, av_get_field t right Height) else mret 0);
                lift (u32_add (N.max lh rh) 1));
    if decide (index ≠ SENTINEL) then av_on (na_set_register index height Height) else mret ().

  (** avl_tree.rs:264-272 [set_field] *)
  Definition av_set_field (i r v : N) : M (avlt K V) () :=
    if decide (i ≠ SENTINEL) then
      av_on (na_set_register i v r);;
      if decide (r = Left ∨ r = Right) then av_update_height i else mret ()
    else mret ().

  (** avl_tree.rs:430-444 [balance_factor] *)
  Definition av_balance_factor t (left right : N) : res Z :=
    lh ← (if decide (left ≠ SENTINEL) then h ← av_get_field t left Height; i32_chk (as_i32 h + 1)%Z
          else Val 0%Z);
    rh ← (if decide (right ≠ SENTINEL) then h ← av_get_field t right Height; i32_chk (as_i32 h + 1)%Z
          else Val 0%Z);
    i32_chk (lh - rh)%Z.

  (** avl_tree.rs:446-454 [left_rotate] *)
  Definition av_left_rotate (index : N) : M (avlt K V) N :=
    right ← gets (λ t, av_get_field t index Right);
    right_left ← gets (λ t, av_get_field t right Left);
    av_set_field index Right right_left;;
    av_set_field right Left index;;
    mret right.
  (** avl_tree.rs:456-464 [right_rotate] *)
  Definition av_right_rotate (index : N) : M (avlt K V) N :=
    left ← gets (λ t, av_get_field t index Left);
    left_right ← gets (λ t, av_get_field t left Right);
    av_set_field index Left left_right;;
    av_set_field left Right index;;
    mret left.

  (** avl_tree.rs:490-495 [delete] *)
  Definition av_delete (i : N) : M (avlt K V) () :=
    av_on (na_clear_register i Left);;
    av_on (na_clear_register i Right);;
    av_on (na_clear_register i Height);;
    av_on (na_remove_node i);;
    mret ().

  (** avl_tree.rs:499-537 the body of the loop of [rebalance] for one path entry *)
  Definition av_rebalance_step (e : ancestor) : M (avlt K V) () :=
    let '(pb, child) := e in
    left ← gets (λ t, av_get_field t child Left);
    right ← gets (λ t, av_get_field t child Right);
    bf ← gets (λ t, av_balance_factor t left right);
    index ←
      (if decide (1 < bf)%Z then
         left_left ← gets (λ t, av_get_field t left Left);
         left_right ← gets (λ t, av_get_field t left Right);
         lbf ← gets (λ t, av_balance_factor t left_left left_right);
         (if decide (lbf < 0)%Z then
            index ← av_left_rotate left;
            av_set_field child Left index
          else mret ());;
         i ← av_right_rotate child;
         mret (Some i)
       else if decide (bf < -1)%Z then
         right_left ← gets (λ t, av_get_field t right Left);
         right_right ← gets (λ t, av_get_field t right Right);
         rbf ← gets (λ t, av_balance_factor t right_left right_right);
         (if decide (0 < rbf)%Z then
            index ← av_right_rotate right;
            av_set_field child Right index
          else mret ());;
         i ← av_left_rotate child;
         mret (Some i)
       else
         av_update_height child;;
         mret None);
    match index with
    | Some index =>
        match pb with
        | Some (parent, branch) => av_set_field parent branch index
        | None => modify (set_aroot index);; av_update_height index
        end
    | None => mret ()
    end.
  (** avl_tree.rs:497-539 [rebalance]; the path is a list with its last element first ([path.iter().rev()]) *)
  Fixpoint av_rebalance (rpath : list ancestor) : M (avlt K V) () :=
    match rpath with
    | [] => mret ()
    | e :: rpath => av_rebalance_step e;; av_rebalance rpath
    end.

  (** avl_tree.rs:290-319 the loop of [_insert] and what follows it; [rpath] as above *)
  Fixpoint av_insert_loop (fuel : nat) (k : K) (v : V) (rpath : list ancestor) (reference_node : N) :
      M (avlt K V) (option N) :=
    match fuel with
    | O => mfail OutOfFuel
    | S fuel =>
        n ← gets (λ t, av_get_node t reference_node);
        let parent := reference_node in
        let go (branch : N) :=
          reference_node ← gets (λ t, av_get_field t parent branch);
          if decide (reference_node = SENTINEL) then
            t ← mget;
            if decide (av_capacity t ≤ av_len t) then mret None
            else
              reference_node ← av_on (na_add_node (k, v));
              av_set_field parent branch reference_node;;
              av_rebalance rpath;;
              mret (Some reference_node)
          else av_insert_loop fuel k v ((Some (parent, branch), reference_node) :: rpath) reference_node in
        match av_cmp k n.1 with
        | Lt => go Left
        | Gt => go Right
        | Eq => av_set_node_value reference_node v;; mret (Some reference_node)
        end
    end.
  (** avl_tree.rs:279-320 [_insert] ([add_node(..) as u64 as u32] is the identity) *)
  Definition av_insert (k : K) (v : V) : M (avlt K V) (option N) :=
    t ← mget;
    let reference_node := as_u32 (av_root t) in
    if decide (reference_node = SENTINEL) then
      i ← av_on (na_add_node (k, v));
      modify (set_aroot i);;
      mret (Some i)
    else av_insert_loop (av_fuel t) k v [(None, reference_node)] reference_node.

  (** avl_tree.rs:331-346 the search loop of [_remove]; returns (node_index, path) *)
  Fixpoint av_remove_walk (fuel : nat) t (k : K) (rpath : list ancestor) (node_index : N) :
      res (N * list ancestor) :=
    match fuel with
    | O => Err OutOfFuel
    | S fuel =>
        if decide (node_index = SENTINEL) then Val (SENTINEL, rpath)
        else
          n ← av_get_node t node_index;
          let parent := node_index in
          match av_cmp k n.1 with
          | Lt => c ← av_get_field t parent Left;
                  av_remove_walk fuel t k ((Some (parent, Left), c) :: rpath) c
          | Gt => c ← av_get_field t parent Right;
                  av_remove_walk fuel t k ((Some (parent, Right), c) :: rpath) c
          | Eq => Val (node_index, rpath)
          end
    end.

  (** avl_tree.rs:363-367 the loop to the leftmost descendant; returns (leftmost, leftmost_parent, inner_path), the path with its last
      element first *)
  Fixpoint av_leftmost_walk (fuel : nat) t (leftmost leftmost_parent : N) (inner : list ancestor) :
      res (N * N * list ancestor) :=
    match fuel with
    | O => Err OutOfFuel
    | S fuel =>
        c ← av_get_field t leftmost Left;
        if decide (c = SENTINEL) then Val (leftmost, leftmost_parent, inner)
        else av_leftmost_walk fuel t c leftmost ((Some (leftmost, Left), c) :: inner)
    end.

  (** avl_tree.rs:322-428 [_remove] *)
  Definition av_remove (k : K) : M (avlt K V) (option V) :=
    t ← mget;
    let root := as_u32 (av_root t) in
    if decide (root = SENTINEL) then mret None
    else
      w ← gets (λ t, av_remove_walk (S (av_fuel t)) t k [(None, root)] root);
      let '(node_index, rpath) := w in
      if decide (node_index = SENTINEL) then mret None
      else
        n ← gets (λ t, av_get_node t node_index);
        left ← gets (λ t, av_get_field t node_index Left);
        right ← gets (λ t, av_get_field t node_index Right);
        rr ←
          (if decide (left ≠ SENTINEL ∧ right ≠ SENTINEL) then
             w ← gets (λ t, av_leftmost_walk (av_fuel t) t right SENTINEL []);
             let '(leftmost, leftmost_parent, inner) := w in
             (if decide (leftmost_parent ≠ SENTINEL) then
                r ← gets (λ t, av_get_field t leftmost Right);
                av_set_field leftmost_parent Left r
              else mret ());;
             av_set_field leftmost Left left;;
             (if decide (right ≠ leftmost) then av_set_field leftmost Right right else mret ());;
             match rpath with
             | [] => mfail Panic
             | (pb, _) :: rpath =>
                 (match pb with
                  | Some (parent, branch) => av_set_field parent branch leftmost
                  | None => mret ()
                  end);;
                 let rpath := (pb, leftmost) :: rpath in
                 let rpath := if decide (right ≠ leftmost)
                              then (Some (leftmost, Right), right) :: rpath else rpath in
                 mret (leftmost, tail inner ++ rpath)
             end
           else
             let child := if decide (left = SENTINEL ∧ right = SENTINEL) then SENTINEL
                          else if decide (left ≠ SENTINEL) then left else right in
             match rpath with
             | [] => mfail Panic
             | (pb, _) :: rpath =>
                 match pb with
                 | Some (parent, branch) =>
                     av_set_field parent branch child;;
                     mret (child, if decide (child ≠ SENTINEL)
                                  then (Some (parent, branch), child) :: rpath else rpath)
                 | None => mret (child, rpath)
                 end
             end);
        let '(replacement, rpath) := rr in
        t ← mget;
        (if decide (node_index = as_u32 (av_root t)) then modify (set_aroot replacement) else mret ());;
        av_delete node_index;;
        av_rebalance rpath;;
        mret (Some n.2).

  (** avl_tree.rs:541-560 [get_addr]: the loop is that of WalkModel *)
  Definition av_get_addr t (k : K) : res N :=
    bst_get_addr av_cmp (av_fuel t) (av_al t) (as_u32 (av_root t)) k.
  (** avl_tree.rs:129-148 [get] *)
  Fixpoint av_get_loop (fuel : nat) t (k : K) (reference_node : N) : res (option V) :=
    match fuel with
    | O => Err OutOfFuel
    | S fuel =>
        ref ← av_get_node t reference_node;
        match av_cmp k ref.1 with
        | Lt => target ← av_get_field t reference_node Left;
                if decide (target = SENTINEL) then Val None else av_get_loop fuel t k target
        | Gt => target ← av_get_field t reference_node Right;
                if decide (target = SENTINEL) then Val None else av_get_loop fuel t k target
        | Eq => n ← av_get_node t reference_node; Val (Some n.2)
        end
    end.
  Definition av_get t (k : K) : res (option V) :=
    if decide (as_u32 (av_root t) = SENTINEL) then Val None else av_get_loop (av_fuel t) t k (as_u32 (av_root t)).
  (** avl_tree.rs:125-127 [contains] *)
  Definition av_contains t (k : K) : res bool :=
    o ← av_get t k; Val (match o with Some _ => true | None => false end).
  (** avl_tree.rs:150-169 [get_mut]; [f] is the caller's update through the reference *)
  Fixpoint av_get_mut_loop (fuel : nat) (k : K) (f : V → V) (reference_node : N) : M (avlt K V) (option V) :=
    match fuel with
    | O => mfail OutOfFuel
    | S fuel =>
        ref ← gets (λ t, av_get_node t reference_node);
        match av_cmp k ref.1 with
        | Lt => target ← gets (λ t, av_get_field t reference_node Left);
                if decide (target = SENTINEL) then mret None else av_get_mut_loop fuel k f target
        | Gt => target ← gets (λ t, av_get_field t reference_node Right);
                if decide (target = SENTINEL) then mret None else av_get_mut_loop fuel k f target
        | Eq => n ← gets (λ t, av_get_node t reference_node);
                av_set_node_value reference_node (f n.2);;
                mret (Some n.2)
        end
    end.
  Definition av_get_mut (k : K) (f : V → V) : M (avlt K V) (option V) :=
    t ← mget;
    if decide (as_u32 (av_root t) = SENTINEL) then mret None
    else av_get_mut_loop (av_fuel t) k f (as_u32 (av_root t)).

  (** avl_tree.rs:562-582 [find_min_index], [find_max_index] (= 198-204 [get_min_index], [get_max_index]) *)
  Definition av_find_min_index t : res N :=
    if decide (as_u32 (av_root t) = SENTINEL) then Val SENTINEL
    else na_find_dir (av_fuel t) (av_al t) Left (as_u32 (av_root t)).
  Definition av_find_max_index t : res N :=
    if decide (as_u32 (av_root t) = SENTINEL) then Val SENTINEL
    else na_find_dir (av_fuel t) (av_al t) Right (as_u32 (av_root t)).
  (** avl_tree.rs:584-600 [find_min], [find_max] *)
  Definition av_find_min t : res (option V) :=
    i ← av_find_min_index t;
    if decide (i = SENTINEL) then Val None else n ← av_get_node t i; Val (Some n.2).
  Definition av_find_max t : res (option V) :=
    i ← av_find_max_index t;
    if decide (i = SENTINEL) then Val None else n ← av_get_node t i; Val (Some n.2).
  (** avl_tree.rs:206-224 [get_min], [get_max] *)
  Definition av_get_min t : res (option (K * V)) :=
    i ← av_find_min_index t;
    if decide (i = SENTINEL) then Val None else n ← av_get_node t i; Val (Some n).
  Definition av_get_max t : res (option (K * V)) :=
    i ← av_find_max_index t;
    if decide (i = SENTINEL) then Val None else n ← av_get_node t i; Val (Some n).

  (** avl_tree.rs:834-847 [Index], [IndexMut] *)
  Definition av_index t (k : K) : res V :=
    o ← av_get t k; match o with Some v => Val v | None => Err Panic end.
  Definition av_index_mut (k : K) (f : V → V) : M (avlt K V) V :=
    o ← av_get_mut k f; match o with Some v => mret v | None => mfail Panic end.

  (** avl_tree.rs:602-627 and the iterators: [WalkModel] on the tree's allocator *)
  Definition av_iter t : titer := ti_new (as_u32 (av_root t)).
  Definition av_iter_next t (it : titer) : res (option (K * V) * titer) := ti_next (av_al t) it.
  Definition av_iter_next_back t (it : titer) : res (option (K * V) * titer) := ti_next_back (av_al t) it.
  Definition av_on_iter {A} (m : M (alloc (K * V) * titer) A) : M (avlt K V * titer) A :=
    zoom (λ st, (av_al st.1, st.2)) (λ at_ st, (set_aal at_.1 st.1, at_.2)) m.
  Definition av_iter_mut_next (f : V → V) : M (avlt K V * titer) (option (N * (K * V))) :=
    av_on_iter (ti_mut_next f).
  Definition av_iter_mut_next_back (f : V → V) : M (avlt K V * titer) (option (N * (K * V))) :=
    av_on_iter (ti_mut_next_back f).
End AVL.
