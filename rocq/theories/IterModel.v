(** * The iterators with the room on their stacks and the rounds of their loops limited

    Each definition below is the definition of the same name in WalkModel.v, CritModel.v, HashModel.v, RBModel.v or PrintModel.v
    ([tim_]/[cim_]/[htim_]/[rbm_] instead of [ti_]/[ci_]/[ht_]/[rb_])
    with three limits: [room], the number of entries a stack has place for; [c], the number of times the loop of one call may go round; and the
    number of times the loops of all calls of [next] (of all calls of [next_back]) made on the iterator may go round, which is kept beside the iterator: every execution of the loop's body
    takes one. A [push] without place, or a round when none is left, ends the call with [OutOfFuel]. That such a copy answers the same as the iterator means
    that the iterator stays within the limits. *)
From Verif Require Export RBModel AVLModel CritModel HashModel PrintModel Spec.

(** what is left: rounds of the loop of [next], rounds of the loop of [next_back] *)
Notation meter := (nat * nat)%type.

Section Tree.
  Context `{Profile} {K V : Type} (room : nat).
  Notation al := (alloc (K * V)).
  Implicit Types a : al.

  (** The [while] loop of [next]: red_black_tree.rs:806-822 (= 880-906), avl_tree.rs:684-700 (= 758-784) *)
  Fixpoint tim_fwd (c rds : nat) a (it : titer) : res (option N * (titer * nat)) :=
    let '(TIter fs fp fn rs rp rn tm) := it in
    if tm then Val (None, (it, rds))
    else if decide (fp = SENTINEL) then
      match fs with
      | [] => Val (None, (it, rds))
      | x :: fs' =>
          match c, rds with
          | S _, S rds =>
              if decide (Some x = rn) then Val (None, (TIter fs' fp fn rs rp rn true, rds))
              else
                p ← na_get_register a x Right;
                Val (Some x, (TIter fs' p (Some x) rs rp rn tm, rds))
          | _, _ => Err OutOfFuel
          end
      end
    else
      match c, rds with
      | S c, S rds =>
          if decide (length fs < room)%nat then
            p ← na_get_register a fp Left;
            tim_fwd c rds a (TIter (fp :: fs) p fn rs rp rn tm)
          else Err OutOfFuel
      | _, _ => Err OutOfFuel
      end.
  (** The [while] loop of [next_back]: red_black_tree.rs:834-850 (= 918-944), avl_tree.rs:712-728 (= 796-822) *)
  Fixpoint tim_rev (c rds : nat) a (it : titer) : res (option N * (titer * nat)) :=
    let '(TIter fs fp fn rs rp rn tm) := it in
    if tm then Val (None, (it, rds))
    else if decide (rp = SENTINEL) then
      match rs with
      | [] => Val (None, (it, rds))
      | x :: rs' =>
          match c, rds with
          | S _, S rds =>
              if decide (Some x = fn) then Val (None, (TIter fs fp fn rs' rp rn true, rds))
              else
                p ← na_get_register a x Left;
                Val (Some x, (TIter fs fp fn rs' p (Some x) tm, rds))
          | _, _ => Err OutOfFuel
          end
      end
    else
      match c, rds with
      | S c, S rds =>
          if decide (length rs < room)%nat then
            p ← na_get_register a rp Right;
            tim_rev c rds a (TIter fs fp fn (rp :: rs) p rn tm)
          else Err OutOfFuel
      | _, _ => Err OutOfFuel
      end.

  (** the rounds one call may take: as many as fit on the stack, and one more *)
  Definition tim_call a : nat := Nat.min (S room) (ti_fuel a).

  (** [next] / [next_back] of the shared iterators (red_black_tree.rs:805-851, avl_tree.rs:683-729) *)
  Definition tim_next a (st : titer * meter) : res (option (K * V) * (titer * meter)) :=
    r ← tim_fwd (tim_call a) st.2.1 a st.1;
    let st' := (r.2.1, (r.2.2, st.2.2)) in
    match r.1 with
    | None => Val (None, st')
    | Some x => n ← na_get a x; Val (Some (val n), st')
    end.
  Definition tim_next_back a (st : titer * meter) : res (option (K * V) * (titer * meter)) :=
    r ← tim_rev (tim_call a) st.2.2 a st.1;
    let st' := (r.2.1, (st.2.1, r.2.2)) in
    match r.1 with
    | None => Val (None, st')
    | Some x => n ← na_get a x; Val (Some (val n), st')
    end.

  (** [next] / [next_back] of the mutable iterators (red_black_tree.rs:879-945, avl_tree.rs:757-823) *)
  Definition tim_mut_next (f : V → V) : M (al * (titer * meter)) (option (N * (K * V))) :=
    st ← mget;
    r ← lift (tim_fwd (tim_call st.1) st.2.2.1 st.1 st.2.1);
    modify (λ st, (st.1, (r.2.1, (r.2.2, st.2.2.2))));;
    match r.1 with
    | None => mret None
    | Some x =>
        n ← zoom fst (λ a st, (a, st.2)) (na_raw_update x (λ n, (n.1, f n.2)));
        mret (Some (x, n))
    end.
  Definition tim_mut_next_back (f : V → V) : M (al * (titer * meter)) (option (N * (K * V))) :=
    st ← mget;
    r ← lift (tim_rev (tim_call st.1) st.2.2.2 st.1 st.2.1);
    modify (λ st, (st.1, (r.2.1, (st.2.2.1, r.2.2))));;
    match r.1 with
    | None => mret None
    | Some x =>
        n ← zoom fst (λ a st, (a, st.2)) (na_raw_update x (λ n, (n.1, f n.2)));
        mret (Some (x, n))
    end.

  (** An iterator of a RedBlackTree driven by a script, as [rb_iterate] and [rb_iterate_mut] (RBApi.v), with the rounds [m] *)
  Definition rbm_iterate (m : meter) (t : rbt K V) (script : list fb) : res (list (option (K * V))) :=
    drive (tim_next (rb_al t)) (tim_next_back (rb_al t)) script (rb_iter t, m).
  Definition rbm_on_iter {A} (x : M (al * (titer * meter)) A) : M (rbt K V * (titer * meter)) A :=
    zoom (λ st, (rb_al st.1, st.2)) (λ at_ st, (set_ral at_.1 st.1, at_.2)) x.
  Definition rbm_iterate_mut (m : meter) (script : list (fb * (V → V))) : M (rbt K V) (list (option (N * (K * V)))) :=
    λ t, match drive_mut (λ f, rbm_on_iter (tim_mut_next f)) (λ f, rbm_on_iter (tim_mut_next_back f)) script (t, (rb_iter t, m)) with
         | Ret x (t, _) => Ret x t | Fail e (t, _) => Fail e t end.
  (** The same for an AVLTree, as [av_iterate] and [av_iterate_mut] (AVLApi.v) *)
  Definition avm_iterate (m : meter) (t : avlt K V) (script : list fb) : res (list (option (K * V))) :=
    drive (tim_next (av_al t)) (tim_next_back (av_al t)) script (av_iter t, m).
  Definition avm_on_iter {A} (x : M (al * (titer * meter)) A) : M (avlt K V * (titer * meter)) A :=
    zoom (λ st, (av_al st.1, st.2)) (λ at_ st, (set_aal at_.1 st.1, at_.2)) x.
  Definition avm_iterate_mut (m : meter) (script : list (fb * (V → V))) : M (avlt K V) (list (option (N * (K * V)))) :=
    λ t, match drive_mut (λ f, avm_on_iter (tim_mut_next f)) (λ f, avm_on_iter (tim_mut_next_back f)) script (t, (av_iter t, m)) with
         | Ret x (t, _) => Ret x t | Fail e (t, _) => Fail e t end.
End Tree.

Section Crit.
  Context `{Profile} {V : Type} (room : nat).
  Implicit Types t : critbit V.

  (** The [while] loop of [next], critbit.rs:612-634 (= 696-728): one [pop] and, at an inner node, two [push]es *)
  Fixpoint cim_fwd (c rds : nat) t (it : citer) : res (option (N * N) * (citer * nat)) :=
    let '(CIter fs fn rs rn tm) := it in
    if tm then Val (None, (it, rds))
    else
      match fs with
      | [] => Val (None, (it, rds))
      | n :: fs =>
          match c, rds with
          | S c, S rds =>
              inner ← cb_is_inner_node t n;
              if negb inner then
                i ← cb_get_leaf_index t n;
                if decide (Some i = rn) then Val (None, (CIter fs fn rs rn true, rds))
                else Val (Some (n, i), (CIter fs (Some i) rs rn tm, rds))
              else if decide (S (length fs) < room)%nat then
                r ← cb_get_right t n;
                l ← cb_get_left t n;
                cim_fwd c rds t (CIter (l :: r :: fs) fn rs rn tm)
              else Err OutOfFuel
          | _, _ => Err OutOfFuel
          end
      end.
  (** The [while] loop of [next_back], critbit.rs:646-668 (= 740-772) *)
  Fixpoint cim_rev (c rds : nat) t (it : citer) : res (option (N * N) * (citer * nat)) :=
    let '(CIter fs fn rs rn tm) := it in
    if tm then Val (None, (it, rds))
    else
      match rs with
      | [] => Val (None, (it, rds))
      | n :: rs =>
          match c, rds with
          | S c, S rds =>
              inner ← cb_is_inner_node t n;
              if negb inner then
                i ← cb_get_leaf_index t n;
                if decide (Some i = fn) then Val (None, (CIter fs fn rs rn true, rds))
                else Val (Some (n, i), (CIter fs fn rs (Some i) tm, rds))
              else if decide (S (length rs) < room)%nat then
                l ← cb_get_left t n;
                r ← cb_get_right t n;
                cim_rev c rds t (CIter fs fn (r :: l :: rs) rn tm)
              else Err OutOfFuel
          | _, _ => Err OutOfFuel
          end
      end.
  Definition cim_call t : nat := Nat.min room (cb_fuel t).
  (** critbit.rs:611-635 [CritbitIterator::next], 645-669 [next_back] *)
  Definition cim_next t (st : citer * meter) : res (option (N * V) * (citer * meter)) :=
    r ← cim_fwd (cim_call t) st.2.1 t st.1;
    let st' := (r.2.1, (r.2.2, st.2.2)) in
    match r.1 with
    | None => Val (None, st')
    | Some (n, i) => v ← cb_get_leaf t i; k ← cb_get_key t n; Val (Some (k, v), st')
    end.
  Definition cim_next_back t (st : citer * meter) : res (option (N * V) * (citer * meter)) :=
    r ← cim_rev (cim_call t) st.2.2 t st.1;
    let st' := (r.2.1, (st.2.1, r.2.2)) in
    match r.1 with
    | None => Val (None, st')
    | Some (n, i) => v ← cb_get_leaf t i; k ← cb_get_key t n; Val (Some (k, v), st')
    end.
  (** critbit.rs:695-729 [CritbitIteratorMut::next], 739-773 [next_back] *)
  Definition cim_mut_next (f : V → V) : M (critbit V * (citer * meter)) (option (N * (N * V))) :=
    st ← mget;
    r ← lift (cim_fwd (cim_call st.1) st.2.2.1 st.1 st.2.1);
    modify (λ st, (st.1, (r.2.1, (r.2.2, st.2.2.2))));;
    match r.1 with
    | None => mret None
    | Some (n, i) =>
        k ← gets (λ st, cb_raw_key st.1 n);
        v ← zoom fst (λ t st, (t, st.2)) (cb_onl (na_raw_update i f));
        mret (Some (i, (k, v)))
    end.
  Definition cim_mut_next_back (f : V → V) : M (critbit V * (citer * meter)) (option (N * (N * V))) :=
    st ← mget;
    r ← lift (cim_rev (cim_call st.1) st.2.2.2 st.1 st.2.1);
    modify (λ st, (st.1, (r.2.1, (st.2.2.1, r.2.2))));;
    match r.1 with
    | None => mret None
    | Some (n, i) =>
        k ← gets (λ st, cb_raw_key st.1 n);
        v ← zoom fst (λ t st, (t, st.2)) (cb_onl (na_raw_update i f));
        mret (Some (i, (k, v)))
    end.
  (** as [cb_iterate] and [cb_iterate_mut] (CritApi.v) *)
  Definition cbm_iterate (m : meter) t (script : list fb) : res (list (option (N * V))) :=
    drive (cim_next t) (cim_next_back t) script (cb_iter t, m).
  Definition cbm_iterate_mut (m : meter) (script : list (fb * (V → V))) : M (critbit V) (list (option (N * (N * V)))) :=
    λ t, match drive_mut cim_mut_next cim_mut_next_back script (t, (cb_iter t, m)) with
         | Ret x (t, _) => Ret x t | Fail e (t, _) => Fail e t end.
End Crit.

Section Hash.
  Context `{Profile} {K V : Type}.
  Implicit Types h : htable K V.

  (** The inner loop hash_table.rs:410-417 (= 464-471); no stack here, and [next_back] does nothing: one number counts the rounds of all calls *)
  Fixpoint htim_skip (rds : nat) h (it : ht_iter) : res (option N * (ht_iter * nat)) :=
    if decide (hti_node it = SENTINEL) then
      match rds with
      | O => Err OutOfFuel
      | S rds =>
          let b := hti_bucket it + 1 in
          if decide (b = lengthN (buckets h)) then Val (None, (HtIter b (hti_node it), rds))
          else x ← ht_bucket h b; htim_skip rds h (HtIter b x)
      end
    else Val (Some (hti_node it), (it, rds)).
  (** hash_table.rs:408-424 [HashTableIterator::next], 435-437 [next_back] *)
  Definition htim_next h (st : ht_iter * nat) : res (option (K * V) * (ht_iter * nat)) :=
    if decide (hti_bucket st.1 < lengthN (buckets h)) then
      r ← htim_skip st.2 h st.1;
      let '(o, (it, rds)) := r in
      match o with
      | None => Val (None, (it, rds))
      | Some ptr =>
          n ← ht_get_node h ptr;
          nx ← ht_get_next h ptr;
          Val (Some n, (HtIter (hti_bucket it) nx, rds))
      end
    else Val (None, st).
  Definition htim_next_back h (st : ht_iter * nat) : res (option (K * V) * (ht_iter * nat)) := Val (None, st).
  (** hash_table.rs:462-483 [HashTableIteratorMut::next], 494-496 [next_back] *)
  Definition htim_mut_next (f : V → V) : M (htable K V * (ht_iter * nat)) (option (N * (K * V))) :=
    st ← mget;
    let '(h, (it, rds)) := st in
    if decide (hti_bucket it < lengthN (buckets h)) then
      r ← lift (htim_skip rds h it);
      let '(o, (it, rds)) := r in
      match o with
      | None => modify (λ st, (st.1, (it, rds)));; mret None
      | Some ptr =>
          nx ← lift (ht_get_next h ptr);
          modify (λ st, (st.1, (HtIter (hti_bucket it) nx, rds)));;
          n ← zoom fst (λ h st, (h, st.2)) (ht_on (na_raw_update ptr (λ n, (n.1, f n.2))));
          mret (Some (ptr, n))
      end
    else mret None.
  Definition htim_mut_next_back (f : V → V) : M (htable K V * (ht_iter * nat)) (option (N * (K * V))) := mret None.
  (** as [ht_iterate] and [ht_iterate_mut] (HashApi.v) *)
  Definition htm_iterate (m : nat) h (script : list fb) : res (list (option (K * V))) :=
    it ← ht_mk_iter h; drive (htim_next h) (htim_next_back h) script (it, m).
  Definition htm_iterate_mut (m : nat) (script : list (fb * (V → V))) : M (htable K V) (list (option (N * (K * V)))) :=
    λ h, match ht_mk_iter h with
         | Err e => Fail e h
         | Val it =>
             match drive_mut htim_mut_next htim_mut_next_back script (h, (it, m)) with
             | Ret x (h, _) => Ret x h | Fail e (h, _) => Fail e h end
         end.
End Hash.

(** The two functions of the RedBlackTree that walk over all nodes with a stack of their own *)
Section Loops.
  Context `{Profile} {K V : Type} (room : nat) (show : K → list N).
  Implicit Types t : rbt K V.

  (** red_black_tree.rs:286-307 the loop of [is_valid_red_black_tree] *)
  Fixpoint rbm_valid_loop (rds : nat) t (stack : list (N * N)) (counts : list N) : res (option (list N)) :=
    match stack, rds with
    | [], _ => Val (Some counts)
    | _, O => Err OutOfFuel
    | (i, count) :: stack, S rds =>
        b ← rb_is_black t i;
        count ← u32_add count (if (b : bool) then 1 else 0);
        leaf ← rb_is_leaf t i;
        if (leaf : bool) then rbm_valid_loop rds t stack (count :: counts)
        else
          l ← rb_get_left t i;
          r ← rb_get_right t i;
          let child (c : N) (stack : list (N * N)) : res (option (list (N * N))) :=
            if decide (c = SENTINEL) then Val (Some stack)
            else
              ri ← rb_is_red t i;
              rc ← (if (ri : bool) then rb_is_red t c else Val false);
              if (rc : bool) then Val None
              else if decide (length stack < room)%nat then Val (Some ((c, count) :: stack))
              else Err OutOfFuel in
          s ← child l stack;
          match s with
          | None => Val None
          | Some stack =>
              s ← child r stack;
              match s with
              | None => Val None
              | Some stack => rbm_valid_loop rds t stack counts
              end
          end
    end.
  (** red_black_tree.rs:273-314 [is_valid_red_black_tree] *)
  Definition rbm_is_valid (rds : nat) t : res bool :=
    if decide (rb_len t = 0) then Val true
    else
      rr ← rb_is_red t (rb_root t);
      if (rr : bool) then Val false
      else
        o ← rbm_valid_loop (Nat.min rds (rb_fuel t)) t [(rb_root t, 0)] [];
        match o with
        | None => Val false
        | Some counts =>
            match reverse counts with
            | [] => Val true
            | c0 :: _ => Val (forallb (λ x, bool_decide (x = c0)) (reverse counts))
            end
        end.
  (** red_black_tree.rs:236-262 the loop of [pretty_print]: one [pop], two [push]es *)
  Fixpoint rbm_print_loop (rds : nat) t (stack : list (N * list N * list N)) (s : list N) : res (list N) :=
    match stack, rds with
    | [], _ => Val s
    | _, O => Err OutOfFuel
    | (node, padding, pointer) :: stack, S rds =>
        if decide (node = SENTINEL) then rbm_print_loop rds t stack s
        else
          kv ← rb_get_node t node;
          red ← rb_is_red t node;
          let s := s ++ padding ++ pointer ++ (if (red : bool) then pp_red ++ show kv.1 ++ pp_reset else show kv.1) ++ [10] in
          let padding := padding ++ pp_bar in
          r ← rb_get_right t node;
          let left_pointer := if decide (r ≠ SENTINEL) then pp_tee else pp_corner in
          l ← rb_get_left t node;
          if decide (S (length stack) < room)%nat then
            rbm_print_loop rds t ((l, padding, left_pointer) :: (r, padding, pp_corner) :: stack) s
          else Err OutOfFuel
    end.
  (** red_black_tree.rs:229-264 [pretty_print] *)
  Definition rbm_pretty_print (rds : nat) t : res (option (list N)) :=
    if decide (rb_len t = 0) then Val None
    else
      s ← rbm_print_loop (Nat.min rds (2 * rb_fuel t - 1)) t [(rb_root t, [], [])] [];
      Val (Some (s ++ [10])).
End Loops.
