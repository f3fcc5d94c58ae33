(** * The AVL tree of the textbooks, on drawings

    Adelson-Velsky and Landis' insertion and deletion as recursive functions on drawings (DrawSpec.v): no addresses, no height registers, no explicit path. *)
From Verif Require Export DrawSpec.

Section rotations.
  Context {A : Type}.
  (** the single rotations of the tree with the subtrees [l] and [r] below [x] *)
  Definition rotated_right (l : drawing A) (x : A) (r : drawing A) : drawing A :=
    match l with Fork a y b => Fork a y (Fork b x r) | Empty => Fork l x r end.
  Definition rotated_left (l : drawing A) (x : A) (r : drawing A) : drawing A :=
    match r with Fork a y b => Fork (Fork l x a) y b | Empty => Fork l x r end.
  (** one subtree may be two higher than the other: a single rotation, or a double one if its inner half is the higher one *)
  Definition rebalanced (l : drawing A) (x : A) (r : drawing A) : drawing A :=
    if decide (tall r + 1 < tall l)%nat then
      match l with
      | Fork a y b => if decide (tall a < tall b)%nat then rotated_right (rotated_left a y b) x r else rotated_right l x r
      | Empty => Fork l x r
      end
    else if decide (tall l + 1 < tall r)%nat then
      match r with
      | Fork a y b => if decide (tall b < tall a)%nat then rotated_left l x (rotated_right a y b) else rotated_left l x r
      | Empty => Fork l x r
      end
    else Fork l x r.

  (** the first pair of the tree with the subtrees [l] and [r] below [x], and the rest *)
  Fixpoint without_first (l : drawing A) (x : A) (r : drawing A) : A * drawing A :=
    match l with
    | Empty => (x, r)
    | Fork a y b => let '(first, rest) := without_first a y b in (first, rebalanced rest x r)
    end.
  (** one tree of two, all pairs of [l] before those of [r]: the first pair of [r] becomes the root *)
  Definition joined (l r : drawing A) : drawing A :=
    match l, r with
    | Empty, _ => r
    | _, Empty => l
    | _, Fork a y b => let '(first, rest) := without_first a y b in rebalanced l first rest
    end.

  (** the pairs of [l], from left to right, at the places of [b] *)
  Fixpoint relabelled (b : drawing A) (l : list A) : drawing A :=
    match b with
    | Empty => Empty
    | Fork x z y => Fork (relabelled x l) (default z (l !! length (inorder x))) (relabelled y (drop (S (length (inorder x))) l))
    end.
End rotations.

Section book.
  Context {K V : Type} (cmp : K → K → comparison).
  Notation drawing := (drawing (K * V)).
  Fixpoint book_insert (k : K) (v : V) (b : drawing) : drawing :=
    match b with
    | Empty => Fork Empty (k, v) Empty
    | Fork l x r =>
        match cmp k x.1 with
        | Lt => rebalanced (book_insert k v l) x r
        | Gt => rebalanced l x (book_insert k v r)
        | Eq => Fork l (x.1, v) r
        end
    end.
  Fixpoint book_remove (k : K) (b : drawing) : drawing :=
    match b with
    | Empty => Empty
    | Fork l x r =>
        match cmp k x.1 with
        | Lt => rebalanced (book_remove k l) x r
        | Gt => rebalanced l x (book_remove k r)
        | Eq => joined l r
        end
    end.
  (** one call on a tree of capacity [cap]; what changes values only (get_mut, iter_mut, …) leaves every pair at its place *)
  Definition book_step (cap : N) (o : om_op K V) (b : drawing) : drawing :=
    match o with
    | MInsert k v =>
        match om_find cmp k (inorder b) with
        | Some _ => book_insert k v b
        | None => if decide (lengthN (inorder b) < cap) then book_insert k v b else b
        end
    | MRemove k => book_remove k b
    | _ => relabelled b (om_spec cmp cap o (inorder b)).2
    end.
  Definition is_insert (o : om_op K V) : bool := match o with MInsert _ _ => true | _ => false end.
  (** a history of calls from the empty tree *)
  Definition book_tree (cap : N) (ops : list (om_op K V)) : drawing := fold_left (λ b o, book_step cap o b) ops Empty.
End book.
