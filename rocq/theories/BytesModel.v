(** * Model of the memory layout: repr(C) structs, little-endian bytes, ZeroCopy and FromSlice

    Models the byte side of the crate: the [#[repr(C)]] structs, node_allocator.rs:59-69 [ZeroCopy], the six [FromSlice]/[initialize]
    implementations and the layout assertions. Sizes, alignments, offsets and addresses are [nat]. Trusted here: the repr(C) algorithm of
    the Rust reference (fields in order, each at the next multiple of its alignment, size rounded up to the largest alignment), a
    little-endian target, and [bytemuck::try_from_bytes(_mut)] 1.13 (error unless the length is [size_of] and the address is a multiple
    of [align_of], otherwise a reference to those bytes). Padding bytes are modelled as 0 when a structure is written; nothing reads them. *)
From Coq Require Export Strings.Byte.
From Verif Require Export DequeModel HashModel RBModel AVLModel CritModel.
Local Open Scope nat_scope.

Notation bytes := (list byte).
(** Size and alignment of a type *)
Record layout := Lay { l_size : nat; l_align : nat }.
(** The smallest multiple of [a] that is at least [x] *)
Definition round_up (x a : nat) : nat := (x + (a - 1)) / a * a.
(** repr(C): where the fields end if they start at offset [off] *)
Fixpoint struct_end (off : nat) (ls : list layout) : nat :=
  match ls with [] => off | l :: ls => struct_end (round_up off (l_align l) + l_size l) ls end.
Definition struct_align (ls : list layout) : nat := foldr (λ l a, Nat.max (l_align l) a) 1 ls.
Definition struct_lay (ls : list layout) : layout :=
  Lay (round_up (struct_end 0 ls) (struct_align ls)) (struct_align ls).
Definition array_lay (n : nat) (l : layout) : layout := Lay (n * l_size l) (l_align l).

(** ** Codecs: how a value is laid out in bytes *)
Record codec (A : Type) := Codec { c_lay : layout; c_wf : A → Prop; c_enc : A → bytes; c_dec : bytes → A }.
Global Arguments Codec {A}.
Global Arguments c_lay {A}.
Global Arguments c_wf {A}.
Global Arguments c_enc {A}.
Global Arguments c_dec {A}.
(** A sequence of fields; encoding and decoding start at an offset within the struct *)
Record fields (A : Type) := Fields { f_lays : list layout; f_wf : A → Prop; f_enc : nat → A → bytes; f_dec : nat → bytes → A }.
Global Arguments Fields {A}.
Global Arguments f_lays {A}.
Global Arguments f_wf {A}.
Global Arguments f_enc {A}.
Global Arguments f_dec {A}.

Definition zeros (n : nat) : bytes := replicate n x00.
Definition f_one {A} (c : codec A) : fields A :=
  let pad off := round_up off (l_align (c_lay c)) - off in
  Fields [c_lay c] (c_wf c) (λ off a, zeros (pad off) ++ c_enc c a)
    (λ off b, c_dec c (take (l_size (c_lay c)) (drop (pad off) b))).
Definition f_two {A B} (f : fields A) (g : fields B) : fields (A * B) :=
  Fields (f_lays f ++ f_lays g) (λ x, f_wf f x.1 ∧ f_wf g x.2)
    (λ off x, f_enc f off x.1 ++ f_enc g (struct_end off (f_lays f)) x.2)
    (λ off b, (f_dec f off b, f_dec g (struct_end off (f_lays f)) (drop (struct_end off (f_lays f) - off) b))).
(** The struct with these fields; [mk] and [un] convert between the tuple of fields and the model's record *)
Definition c_struct {A B} (mk : A → B) (un : B → A) (f : fields A) : codec B :=
  let e := struct_end 0 (f_lays f) in
  let l := struct_lay (f_lays f) in
  Codec l (λ b, f_wf f (un b)) (λ b, f_enc f 0 (un b) ++ zeros (l_size l - e)) (λ bs, mk (f_dec f 0 bs)).
Fixpoint dec_array {A} (c : codec A) (n : nat) (b : bytes) : list A :=
  match n with
  | O => []
  | S n => c_dec c (take (l_size (c_lay c)) b) :: dec_array c n (drop (l_size (c_lay c)) b)
  end.
Definition c_array {A} (n : nat) (c : codec A) : codec (list A) :=
  Codec (array_lay n (c_lay c)) (λ l, length l = n ∧ Forall (c_wf c) l) (λ l, concat (c_enc c <$> l)) (dec_array c n).

(** Little-endian unsigned integers of [n] bytes *)
Definition byte_of (x : N) : byte := default x00 (Byte.of_N x).
Fixpoint le_enc (n : nat) (x : N) : bytes :=
  match n with O => [] | S n => byte_of (x mod 256) :: le_enc n (x / 256) end.
Fixpoint le_dec (b : bytes) : N := match b with [] => 0 | x :: b => Byte.to_N x + 256 * le_dec b end%N.
Definition c_uint (n align : nat) : codec N := Codec (Lay n align) (λ x, x < 256 ^ N.of_nat n)%N (le_enc n) le_dec.
Definition c_u32 : codec N := c_uint 4 4.
Definition c_u64 : codec N := c_uint 8 8.
(** [align_of::<u128>()] is 8 or 16, depending on compiler version and target *)
Definition c_u128 (a128 : nat) : codec N := c_uint 16 a128.
(** Padding fields: always 0 in the model (they are never written) *)
Definition c_pad (c : codec N) : codec () := Codec (c_lay c) (λ _, True) (λ _, c_enc c 0%N) (λ _, ()).

(** ** The structs *)
(** node_allocator.rs:73-80 [struct Node] *)
Definition c_node {T} (nr : nat) (ct : codec T) : codec (node T) :=
  c_struct (λ x, Node x.1 x.2) (λ n, (regs n, val n)) (f_two (f_one (c_array nr c_u32)) (f_one ct)).
(** node_allocator.rs:133-154 [struct NodeAllocator] *)
Definition c_alloc {T} (ms nr : nat) (ct : codec T) : codec (alloc T) :=
  c_struct (λ x, Alloc x.1.1.1 x.1.1.2 x.1.2 x.2) (λ a, (size a, bump_index a, free_list_head a, nodes a))
    (f_two (f_two (f_two (f_one c_u64) (f_one c_u32)) (f_one c_u32)) (f_one (c_array ms (c_node nr ct)))).
(** deque.rs:11-18 [struct Deque] *)
Definition c_deque {T} (ms : nat) (ct : codec T) : codec (deque T) :=
  c_struct (λ x, Deque x.1.1.1 x.1.1.2 x.1.2 x.2) (λ d, (dq_seqno d, dq_head d, dq_tail d, dq_al d))
    (f_two (f_two (f_two (f_one c_u64) (f_one c_u32)) (f_one c_u32)) (f_one (c_alloc ms 2 ct))).
(** hash_table.rs:12-20 [struct HashNode], red_black_tree.rs:33-41 [struct RBNode], avl_tree.rs:31-39 [struct AVLNode] *)
Definition c_pair {K V} (ck : codec K) (cv : codec V) : codec (K * V) :=
  c_struct id id (f_two (f_one ck) (f_one cv)).
(** hash_table.rs:45-55 [struct HashTable] *)
Definition c_hash {K V} (nb ms : nat) (ck : codec K) (cv : codec V) : codec (htable K V) :=
  c_struct (λ x, HT x.1 x.2) (λ h, (buckets h, ht_al h))
    (f_two (f_one (c_array nb c_u32)) (f_one (c_alloc ms 4 (c_pair ck cv)))).
(** red_black_tree.rs:66-76 [struct RedBlackTree] with [_padding: [u32; 3]] *)
Definition c_rb {K V} (ms : nat) (ck : codec K) (cv : codec V) : codec (rbt K V) :=
  c_struct (λ x, RBT x.1.1 x.2) (λ t, (rb_root t, replicate 3 (), rb_al t))
    (f_two (f_two (f_one c_u32) (f_one (c_array 3 (c_pad c_u32)))) (f_one (c_alloc ms 4 (c_pair ck cv)))).
(** avl_tree.rs:64-73 [struct AVLTree] *)
Definition c_avl {K V} (ms : nat) (ck : codec K) (cv : codec V) : codec (avlt K V) :=
  c_struct (λ x, AVLT x.1 x.2) (λ t, (av_root t, av_al t)) (f_two (f_one c_u64) (f_one (c_alloc ms 4 (c_pair ck cv)))).
(** critbit.rs:9-15 [struct CritbitNode] *)
Definition c_cnode (a128 : nat) : codec cnode :=
  c_struct (λ x, CNode x.1.1 x.1.2) (λ c, (cn_key c, cn_prefix_len c, ()))
    (f_two (f_two (f_one (c_u128 a128)) (f_one c_u64)) (f_one (c_pad c_u64))).
(** critbit.rs:30-46 [struct Critbit] *)
Definition c_crit {V} (a128 nn ms : nat) (cv : codec V) : codec (critbit V) :=
  c_struct (λ x, Crit x.1.1.1.2 x.1.2 x.2) (λ t, ((), cb_root t, (), cb_nodes t, cb_leaves t))
    (f_two (f_two (f_two (f_two (f_one (c_pad c_u64)) (f_one c_u32)) (f_one (c_pad c_u32)))
      (f_one (c_alloc nn 4 (c_cnode a128)))) (f_one (c_alloc ms 4 cv))).

(** ** ZeroCopy *)
(** node_allocator.rs:65-68 [load_bytes] (and, with the same outcome, 60-63 [load_mut_bytes]) on the slice [data] at address [addr]:
    [&data[..size]] panics if the slice is too short; [try_from_bytes(..).ok()] is [None] for a wrong alignment *)
Definition load {A} (c : codec A) (addr : nat) (data : bytes) : res (option A) :=
  if decide (length data < l_size (c_lay c)) then Err Panic
  else if decide (addr mod l_align (c_lay c) = 0) then Val (Some (c_dec c (take (l_size (c_lay c)) data)))
  else Val None.
(** [let s = S::load_mut_bytes(data).unwrap(); s.m()] : a call on the structure living in the buffer; the bytes behind it stay *)
Definition on_bytes {A B} (c : codec A) (addr : nat) (m : M A B) : M bytes B := λ data,
  match load c addr data with
  | Err e => Fail e data
  | Val None => Fail Panic data
  | Val (Some s) =>
      let put s := c_enc c s ++ drop (l_size (c_lay c)) data in
      match m s with Ret r s => Ret r (put s) | Fail e s => Fail e (put s) end
  end.

(** node_allocator.rs:208-240 [assert_proper_alignemnt] for [NodeAllocator<T, _, nr>] at address [self_ptr]; [lt] is the layout of [T] *)
Definition na_proper (nr : nat) (lt : layout) (self_ptr : nat) : bool :=
  let node := struct_lay [array_lay nr (Lay 4 4); lt] in
  let self_align := struct_align [Lay 8 8; Lay 4 4; Lay 4 4; node] in
  let reg_size := 4 * nr in
  let node_ptr := self_ptr + round_up 16 (l_align node) in
  let t_index := node_ptr + reg_size in
  bool_decide (self_ptr mod self_align = 0) &&
  bool_decide (l_size lt mod l_align lt = 0) &&
  bool_decide (l_size lt = 0 ∨ self_align ≤ l_size lt) &&
  bool_decide (node_ptr = self_ptr + 16) &&
  bool_decide (t_index mod l_align lt = 0) &&
  bool_decide ((t_index + l_size lt + reg_size) mod l_align lt = 0).
(** red_black_tree.rs:266-271 [assert_proper_alignment] *)
Definition rb_proper (lk lv : layout) : bool :=
  let p := struct_lay [lk; lv] in
  bool_decide (l_size lv mod l_align lk = 0) && bool_decide (l_size p mod l_align p = 0) && bool_decide (l_size p mod 8 = 0).

Section bytes.
  Context `{Profile}.
  (** offsets of the allocators within the containers *)
  Definition off_after (ls : list layout) (l : layout) : nat := round_up (struct_end 0 ls) (l_align l).
  Definition dq_al_off {T} (ms : nat) (ct : codec T) : nat := off_after [Lay 8 8; Lay 4 4; Lay 4 4] (c_lay (c_alloc ms 2 ct)).
  Definition ht_al_off {K V} (nb ms : nat) (ck : codec K) (cv : codec V) : nat :=
    off_after [array_lay nb (Lay 4 4)] (c_lay (c_alloc ms 4 (c_pair ck cv))).
  Definition rb_al_off {K V} (ms : nat) (ck : codec K) (cv : codec V) : nat :=
    off_after [Lay 4 4; array_lay 3 (Lay 4 4)] (c_lay (c_alloc ms 4 (c_pair ck cv))).
  Definition av_al_off {K V} (ms : nat) (ck : codec K) (cv : codec V) : nat :=
    off_after [Lay 8 8] (c_lay (c_alloc ms 4 (c_pair ck cv))).
  Definition cb_nodes_off (a128 nn : nat) : nat :=
    off_after [Lay 8 8; Lay 4 4; Lay 4 4] (c_lay (c_alloc nn 4 (c_cnode a128))).
  Definition cb_leaves_off {V} (a128 nn ms : nat) (cv : codec V) : nat :=
    off_after [Lay 8 8; Lay 4 4; Lay 4 4; c_lay (c_alloc nn 4 (c_cnode a128))] (c_lay (c_alloc ms 4 cv)).

  (** deque.rs:37-41 [new_from_slice] with 62-64 and node_allocator.rs:242-251 [initialize] including its alignment assertions *)
  Definition dq_new_from_slice {T} (ms : nat) (ct : codec T) (addr : nat) : M bytes () :=
    on_bytes (c_deque ms ct) addr (massert (na_proper 2 (c_lay ct) (addr + dq_al_off ms ct));; dq_initialize).
  (** hash_table.rs:199-204 *)
  Definition ht_new_from_slice {K V} (nb ms : nat) (ck : codec K) (cv : codec V) (addr : nat) : M bytes () :=
    massert (bool_decide (nb mod 2 = 0));;
    on_bytes (c_hash nb ms ck cv) addr
      (massert (na_proper 4 (c_lay (c_pair ck cv)) (addr + ht_al_off nb ms ck cv));; ht_initialize).
  (** red_black_tree.rs:123-128 *)
  Definition rb_new_from_slice {K V} (ms : nat) (ck : codec K) (cv : codec V) (addr : nat) : M bytes () :=
    massert (rb_proper (c_lay ck) (c_lay cv));;
    on_bytes (c_rb ms ck cv) addr
      (massert (na_proper 4 (c_lay (c_pair ck cv)) (addr + rb_al_off ms ck cv));; rb_initialize).
  (** avl_tree.rs:104-108 *)
  Definition av_new_from_slice {K V} (ms : nat) (ck : codec K) (cv : codec V) (addr : nat) : M bytes () :=
    on_bytes (c_avl ms ck cv) addr
      (massert (na_proper 4 (c_lay (c_pair ck cv)) (addr + av_al_off ms ck cv));; av_initialize).
  (** critbit.rs:81-86, 216-219: the two allocators are initialised one after the other *)
  Definition cb_new_from_slice {V} (a128 nn ms : nat) (cv : codec V) (addr : nat) : M bytes () :=
    massert (bool_decide (2 * ms ≤ nn));;
    on_bytes (c_crit a128 nn ms cv) addr
      (massert (na_proper 4 (c_lay (c_cnode a128)) (addr + cb_nodes_off a128 nn));; cb_onn na_initialize;;
       massert (na_proper 4 (c_lay cv) (addr + cb_leaves_off a128 nn ms cv));; cb_onl na_initialize).
End bytes.
