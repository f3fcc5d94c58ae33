(** * Model of src/hash_table.rs *)
From Verif Require Export AllocModel.

(** hash_table.rs:45-55 [struct HashTable<K, V, NUM_BUCKETS, MAX_SIZE>]. A [HashNode] (12-20) is the pair (key, value);
    NUM_BUCKETS is the length of [buckets]. *)
Record htable (K V : Type) := HT { buckets : list N; ht_al : alloc (K * V) }.
Global Arguments HT {K V} buckets ht_al.
Global Arguments buckets {K V} h.
Global Arguments ht_al {K V} h.

(** hash_table.rs:83-97 [default], 222-224 [new], with [assert!(NUM_BUCKETS % 2 == 0)] (214-216; [None] = panic) *)
Definition ht_new {K V} (nb ms : nat) (d : K * V) : option (htable K V) :=
  if decide (Nat.modulo nb 2 = 0%nat)
  then Some (HT (replicate nb SENTINEL) (Alloc 0 1 1 (replicate ms (node_default 4 d))))
  else None.
(** A HashTable viewed in a zeroed buffer (hash_table.rs:57-64) *)
Definition ht_zeroed {K V} (nb ms : nat) (z : K * V) : htable K V :=
  HT (replicate nb 0) (na_zeroed ms 4 z).

Section Hash.
  Context `{Profile} {K V : Type}.
  (** [K: PartialEq] : [node.key == *key] *)
  Context (keq : K → K → bool).
  (** [K: Hash] : [let mut hasher = DefaultHasher::new(); key.hash(&mut hasher); hasher.finish()] *)
  Context (hash : K → N).
  Implicit Types h : htable K V.

  Definition set_buckets (x : list N) h := HT x (ht_al h).
  Definition set_hal (x : alloc (K * V)) h := HT (buckets h) x.
  Definition ht_on {A} (m : M (alloc (K * V)) A) : M (htable K V) A := zoom ht_al set_hal m.

  (** hash_table.rs:218-220 [initialize] *)
  Definition ht_initialize : M (htable K V) () := ht_on na_initialize.
  (** hash_table.rs:226-228 [get_next] *)
  Definition ht_get_next h (i : N) : res N := na_get_register (ht_al h) i Right.
  (** hash_table.rs:230-232 [get_prev] *)
  Definition ht_get_prev h (i : N) : res N := na_get_register (ht_al h) i Left.
  (** hash_table.rs:234-236 [get_node] *)
  Definition ht_get_node h (i : N) : res (K * V) := n ← na_get (ht_al h) i; Val (val n).
  (** hash_table.rs:238-240 [get_node_mut] with the caller's assignment [.value = v] *)
  Definition ht_set_node_value (i : N) (v : V) : M (htable K V) () :=
    ht_on (na_get_mut i (λ n, node_set_value ((val n).1, v) n)).

  (** hash_table.rs:171-181 [size], [len], [capacity] *)
  Definition ht_len h : N := size (ht_al h).
  Definition ht_capacity h : N := MAX_SIZE (ht_al h).

  (** [hasher.finish() as usize % NUM_BUCKETS] (hash_table.rs:121 and elsewhere): panics if NUM_BUCKETS = 0 *)
  Definition ht_bucket_index h (k : K) : res N :=
    if decide (lengthN (buckets h) = 0) then Err Panic else Val (hash k mod lengthN (buckets h)).
  (** [self.buckets[bucket_index]] *)
  Definition ht_bucket h (b : N) : res N :=
    match lookupN (buckets h) b with Some x => Val x | None => Err Panic end.
  (** [self.buckets[bucket_index] = x] *)
  Definition ht_set_bucket (b x : N) : M (htable K V) () :=
    gets (λ h, ht_bucket h b);; modify (λ h, set_buckets (insertN (buckets h) b x) h).

  Definition ht_fuel h : nat := S (length (nodes (ht_al h))).

  (** hash_table.rs:118-132 [get]; the [while] loop (123-131) *)
  Fixpoint ht_get_loop (fuel : nat) h (k : K) (curr_node : N) : res (option V) :=
    match fuel with
    | O => Err OutOfFuel
    | S fuel =>
        if decide (curr_node = SENTINEL) then Val None
        else
          node ← ht_get_node h curr_node;
          if keq node.1 k then Val (Some node.2)
          else curr_node ← ht_get_next h curr_node; ht_get_loop fuel h k curr_node
    end.
  Definition ht_get h (k : K) : res (option V) :=
    bucket_index ← ht_bucket_index h k;
    curr_node ← ht_bucket h bucket_index;
    ht_get_loop (ht_fuel h) h k curr_node.

  (** hash_table.rs:114-116 trait [contains] : [self.get(key).is_some()] *)
  Definition ht_contains_trait h (k : K) : res bool :=
    o ← ht_get h k; Val (match o with Some _ => true | None => false end).

  (** hash_table.rs:304-318 inherent [contains] *)
  Fixpoint ht_contains_loop (fuel : nat) h (k : K) (curr_node : N) : res bool :=
    match fuel with
    | O => Err OutOfFuel
    | S fuel =>
        if decide (curr_node = SENTINEL) then Val false
        else
          node ← ht_get_node h curr_node;
          if keq node.1 k then Val true
          else curr_node ← ht_get_next h curr_node; ht_contains_loop fuel h k curr_node
    end.
  Definition ht_contains h (k : K) : res bool :=
    bucket_index ← ht_bucket_index h k;
    curr_node ← ht_bucket h bucket_index;
    ht_contains_loop (ht_fuel h) h k curr_node.

  (** hash_table.rs:320-334 [get_addr] *)
  Fixpoint ht_get_addr_loop (fuel : nat) h (k : K) (curr_node : N) : res N :=
    match fuel with
    | O => Err OutOfFuel
    | S fuel =>
        if decide (curr_node = SENTINEL) then Val SENTINEL
        else
          node ← ht_get_node h curr_node;
          if keq node.1 k then Val curr_node
          else curr_node ← ht_get_next h curr_node; ht_get_addr_loop fuel h k curr_node
    end.
  Definition ht_get_addr h (k : K) : res N :=
    bucket_index ← ht_bucket_index h k;
    curr_node ← ht_bucket h bucket_index;
    ht_get_addr_loop (ht_fuel h) h k curr_node.

  (** hash_table.rs:134-169 [get_mut]; [f] is the caller's update of the referenced value, the result the value found *)
  Fixpoint ht_get_mut_loop (fuel : nat) (k : K) (f : V → V) (bucket_index head curr_node : N) : M (htable K V) (option V) :=
    match fuel with
    | O => mfail OutOfFuel
    | S fuel =>
        if decide (curr_node = SENTINEL) then mret None
        else
          node ← gets (λ h, ht_get_node h curr_node);
          if keq node.1 k then
            prev ← gets (λ h, ht_get_prev h curr_node);
            next ← gets (λ h, ht_get_next h curr_node);
            (if decide (curr_node ≠ head) then
               ht_on (na_clear_register curr_node Left);;
               ht_on (na_connect prev next Right Left);;
               ht_on (na_connect curr_node head Right Left)
             else mret ());;
            ht_set_bucket bucket_index curr_node;;
            n ← gets (λ h, ht_get_node h curr_node);
            ht_set_node_value curr_node (f n.2);;
            mret (Some n.2)
          else
            curr_node ← gets (λ h, ht_get_next h curr_node);
            ht_get_mut_loop fuel k f bucket_index head curr_node
    end.
  Definition ht_get_mut (k : K) (f : V → V) : M (htable K V) (option V) :=
    bucket_index ← gets (λ h, ht_bucket_index h k);
    head ← gets (λ h, ht_bucket h bucket_index);
    h ← mget;
    ht_get_mut_loop (ht_fuel h) k f bucket_index head head.

  (** hash_table.rs:242-271 [_insert] (= trait [insert], 106-108): what comes after the loop (257-270) and the loop (248-256) *)
  Definition ht_insert_new_node (k : K) (v : V) (bucket_index head : N) : M (htable K V) (option N) :=
    h ← mget;
    if decide (ht_capacity h ≤ ht_len h) then mret None
    else
      node_index ← ht_on (na_add_node (k, v));
      ht_set_bucket bucket_index node_index;;
      (if decide (head ≠ SENTINEL) then ht_on (na_connect node_index head Right Left) else mret ());;
      mret (Some node_index).
  Fixpoint ht_insert_loop (fuel : nat) (k : K) (v : V) (bucket_index head curr_node : N) : M (htable K V) (option N) :=
    match fuel with
    | O => mfail OutOfFuel
    | S fuel =>
        if decide (curr_node = SENTINEL) then ht_insert_new_node k v bucket_index head
        else
          node ← gets (λ h, ht_get_node h curr_node);
          if keq node.1 k then ht_set_node_value curr_node v;; mret (Some curr_node)
          else
            curr_node ← gets (λ h, ht_get_next h curr_node);
            ht_insert_loop fuel k v bucket_index head curr_node
    end.
  Definition ht_insert (k : K) (v : V) : M (htable K V) (option N) :=
    bucket_index ← gets (λ h, ht_bucket_index h k);
    head ← gets (λ h, ht_bucket h bucket_index);
    h ← mget;
    ht_insert_loop (ht_fuel h) k v bucket_index head head.

  (** hash_table.rs:273-302 [_remove] (= trait [remove], 110-112) *)
  Fixpoint ht_remove_loop (fuel : nat) (k : K) (bucket_index head curr_node : N) : M (htable K V) (option V) :=
    match fuel with
    | O => mfail OutOfFuel
    | S fuel =>
        if decide (curr_node = SENTINEL) then mret None
        else
          node ← gets (λ h, ht_get_node h curr_node);
          if keq node.1 k then
            prev ← gets (λ h, ht_get_prev h curr_node);
            next ← gets (λ h, ht_get_next h curr_node);
            ht_on (na_clear_register curr_node Left);;
            ht_on (na_clear_register curr_node Right);;
            ht_on (na_remove_node curr_node);;
            (if decide (head = curr_node) then
               massert (bool_decide (prev = SENTINEL));;
               ht_set_bucket bucket_index next
             else mret ());;
            ht_on (na_connect prev next Right Left);;
            mret (Some node.2)
          else
            curr_node ← gets (λ h, ht_get_next h curr_node);
            ht_remove_loop fuel k bucket_index head curr_node
    end.
  Definition ht_remove (k : K) : M (htable K V) (option V) :=
    bucket_index ← gets (λ h, ht_bucket_index h k);
    head ← gets (λ h, ht_bucket h bucket_index);
    h ← mget;
    ht_remove_loop (ht_fuel h) k bucket_index head head.

  (** hash_table.rs:508-510 [Index], 520-522 [IndexMut] *)
  Definition ht_index h (k : K) : res V :=
    o ← ht_get h k; match o with Some v => Val v | None => Err Panic end.
  Definition ht_index_mut (k : K) (f : V → V) : M (htable K V) V :=
    o ← ht_get_mut k f; match o with Some v => mret v | None => mfail Panic end.

  (** hash_table.rs:386-396 [HashTableIterator], 440-450 [HashTableIteratorMut], without the reference to the table *)
  Record ht_iter := HtIter { hti_bucket : N; hti_node : N }.
  (** hash_table.rs:336-342 [_iter], 344-351 [_iter_mut]: [self.buckets[0]] *)
  Definition ht_mk_iter h : res ht_iter := x ← ht_bucket h 0; Val (HtIter 0 x).

  (** The inner loop hash_table.rs:410-417 (= 464-471): skip empty buckets; [None] when the buckets are exhausted.
      [usize] addition: the bucket counter stays below NUM_BUCKETS, no overflow is possible. *)
  Fixpoint ht_skip (fuel : nat) h (it : ht_iter) : res (option N * ht_iter) :=
    match fuel with
    | O => Err OutOfFuel
    | S fuel =>
        if decide (hti_node it = SENTINEL) then
          let b := hti_bucket it + 1 in
          if decide (b = lengthN (buckets h)) then Val (None, HtIter b (hti_node it))
          else x ← ht_bucket h b; ht_skip fuel h (HtIter b x)
        else Val (Some (hti_node it), it)
    end.

  (** hash_table.rs:408-424 [HashTableIterator::next] *)
  Definition ht_iter_next h (it : ht_iter) : res (option (K * V) * ht_iter) :=
    if decide (hti_bucket it < lengthN (buckets h)) then
      r ← ht_skip (S (length (buckets h))) h it;
      let '(o, it) := r in
      match o with
      | None => Val (None, it)
      | Some ptr =>
          n ← ht_get_node h ptr;
          nx ← ht_get_next h ptr;
          Val (Some n, HtIter (hti_bucket it) nx)
      end
    else Val (None, it).

  (** hash_table.rs:435-437 [HashTableIterator::next_back] and 494-496 [HashTableIteratorMut::next_back]: always [None] *)
  Definition ht_iter_next_back h (it : ht_iter) : res (option (K * V) * ht_iter) := Val (None, it).

  (** hash_table.rs:462-483 [HashTableIteratorMut::next]. Result: index behind the reference, key, value found *)
  Definition ht_iter_mut_next (f : V → V) : M (htable K V * ht_iter) (option (N * (K * V))) :=
    st ← mget;
    let '(h, it) := st in
    if decide (hti_bucket it < lengthN (buckets h)) then
      r ← lift (ht_skip (S (length (buckets h))) h it);
      let '(o, it) := r in
      match o with
      | None => modify (λ st, (st.1, it));; mret None
      | Some ptr =>
          nx ← lift (ht_get_next h ptr);
          modify (λ st, (st.1, HtIter (hti_bucket it) nx));;
          n ← zoom fst (λ h st, (h, st.2)) (ht_on (na_raw_update ptr (λ n, (n.1, f n.2))));
          mret (Some (ptr, n))
      end
    else mret None.
  Definition ht_iter_mut_next_back (f : V → V) : M (htable K V * ht_iter) (option (N * (K * V))) :=
    mret None.
End Hash.
