(** * The byte format of the structures, written out

    What a reader in another language (an indexer, a client) relies on: integers are little-endian, the fields follow each other without
    gaps in the order of the struct definitions. [enc], [enck], [encv]: the encodings of the type parameters. *)
From Verif Require Export BytesSpec.
Local Open Scope nat_scope.

(** [n] bytes from offset [off] on *)
Definition bytes_at (off n : nat) (b : bytes) : bytes := take n (drop off b).
Notation le32 := (le_enc 4).
Notation le64 := (le_enc 8).
Notation le128 := (le_enc 16).

(** node_allocator.rs:73-80: the registers, then the value *)
Definition wire_node {T} (enc : T → bytes) (n : node T) : bytes := concat (le32 <$> regs n) ++ enc (val n).
(** node_allocator.rs:133-154: size, bump_index, free_list_head, the nodes *)
Definition wire_alloc {T} (enc : T → bytes) (a : alloc T) : bytes :=
  le64 (size a) ++ le32 (bump_index a) ++ le32 (free_list_head a) ++ concat (wire_node enc <$> nodes a).
(** hash_table.rs:12-20, red_black_tree.rs:33-41, avl_tree.rs:31-39: key, value *)
Definition wire_pair {K V} (enck : K → bytes) (encv : V → bytes) (x : K * V) : bytes := enck x.1 ++ encv x.2.
(** deque.rs:11-18: sequence_number, head, tail, allocator *)
Definition wire_dq {T} (enc : T → bytes) (d : deque T) : bytes :=
  le64 (dq_seqno d) ++ le32 (dq_head d) ++ le32 (dq_tail d) ++ wire_alloc enc (dq_al d).
(** hash_table.rs:45-55: buckets, allocator *)
Definition wire_ht {K V} (enck : K → bytes) (encv : V → bytes) (h : htable K V) : bytes :=
  concat (le32 <$> buckets h) ++ wire_alloc (wire_pair enck encv) (ht_al h).
(** red_black_tree.rs:66-76: root, three words of padding, allocator *)
Definition wire_rb {K V} (enck : K → bytes) (encv : V → bytes) (t : rbt K V) : bytes :=
  le32 (rb_root t) ++ zeros 12 ++ wire_alloc (wire_pair enck encv) (rb_al t).
(** avl_tree.rs:64-73: root, allocator *)
Definition wire_av {K V} (enck : K → bytes) (encv : V → bytes) (t : avlt K V) : bytes :=
  le64 (av_root t) ++ wire_alloc (wire_pair enck encv) (av_al t).
(** critbit.rs:9-15: key, prefix_len, padding *)
Definition wire_cnode (c : cnode) : bytes := le128 (cn_key c) ++ le64 (cn_prefix_len c) ++ zeros 8.
(** critbit.rs:30-46: padding, root, padding, node_allocator, leaves *)
Definition wire_cb {V} (enc : V → bytes) (t : critbit V) : bytes :=
  zeros 8 ++ le32 (cb_root t) ++ zeros 4 ++ wire_alloc wire_cnode (cb_nodes t) ++ wire_alloc enc (cb_leaves t).
(** No gap between key and value, none after the value, and a multiple of 8 bytes per pair *)
Definition tight_pair {K V} (ck : codec K) (cv : codec V) : Prop :=
  size_of ck mod align_of cv = 0 ∧ (size_of ck + size_of cv) mod align_of ck = 0 ∧ (size_of ck + size_of cv) mod 8 = 0.
