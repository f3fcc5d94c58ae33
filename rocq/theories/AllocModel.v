(** * Model of src/node_allocator.rs *)
From Verif Require Export Prelude.

(** node_allocator.rs:71 [pub const SENTINEL: u32 = 0] *)
Definition SENTINEL : N := 0.

(** node_allocator.rs:11-16 [enum TreeField]; node_allocator.rs:22-25 [enum NodeField] (Left = 0, Right = 1) *)
Definition Left : N := 0.
Definition Right : N := 1.
Definition Parent : N := 2.
Definition FValue : N := 3.

(** node_allocator.rs:73-80 [struct Node<T, NUM_REGISTERS>]. The array of registers is a list whose length is NUM_REGISTERS. *)
Record node (T : Type) := Node { regs : list N; val : T }.
Global Arguments Node {T} regs val.
Global Arguments regs {T} n.
Global Arguments val {T} n.

(** node_allocator.rs:133-153 [struct NodeAllocator<T, MAX_SIZE, NUM_REGISTERS>]. MAX_SIZE is the length of [nodes]. *)
Record alloc (T : Type) := Alloc { size : N; bump_index : N; free_list_head : N; nodes : list (node T) }.
Global Arguments Alloc {T} size bump_index free_list_head nodes.
Global Arguments size {T} a.
Global Arguments bump_index {T} a.
Global Arguments free_list_head {T} a.
Global Arguments nodes {T} a.

(** The const generic MAX_SIZE. *)
Definition MAX_SIZE {T} (a : alloc T) : N := lengthN (nodes a).

Definition set_size {T} (x : N) (a : alloc T) := Alloc x (bump_index a) (free_list_head a) (nodes a).
Definition set_bump {T} (x : N) (a : alloc T) := Alloc (size a) x (free_list_head a) (nodes a).
Definition set_fhead {T} (x : N) (a : alloc T) := Alloc (size a) (bump_index a) x (nodes a).
Definition set_nodes {T} (x : list (node T)) (a : alloc T) :=
  Alloc (size a) (bump_index a) (free_list_head a) x.

Section Node.
  Context {T : Type}.
  (** node_allocator.rs:98-100 [get_free_list_register] : [self.registers[0]] *)
  Definition node_get_free_list_register (n : node T) : res N :=
    match regs n !! 0%nat with Some v => Val v | None => Err Panic end.
  (** node_allocator.rs:103-105 [get_register] : [self.registers[r]] *)
  Definition node_get_register (r : N) (n : node T) : res N :=
    match lookupN (regs n) r with Some v => Val v | None => Err Panic end.
  (** node_allocator.rs:108-110 [set_free_list_register] *)
  Definition node_set_free_list_register (v : N) (n : node T) : res (node T) :=
    match regs n !! 0%nat with
    | Some _ => Val (Node (<[0%nat := v]> (regs n)) (val n)) | None => Err Panic end.
  (** node_allocator.rs:113-115 [set_register] *)
  Definition node_set_register (r v : N) (n : node T) : res (node T) :=
    match lookupN (regs n) r with
    | Some _ => Val (Node (insertN (regs n) r v) (val n)) | None => Err Panic end.
  (** node_allocator.rs:118-120 [set_value] *)
  Definition node_set_value (v : T) (n : node T) : res (node T) := Val (Node (regs n) v).
End Node.

(** node_allocator.rs:82-92 [Default for Node] (the [assert!(NUM_REGISTERS >= 1)] is the one of
    [NodeAllocator::default], modelled there) *)
Definition node_default {T} (nr : nat) (d : T) : node T := Node (replicate nr SENTINEL) d.

(** node_allocator.rs:178-205 [Default for NodeAllocator] / [new]; [ms] is MAX_SIZE, [nr] NUM_REGISTERS, [d] T::default().
    Simplification: [assert_proper_alignemnt] (207-240) checks addresses and sizes of the Rust layout only; not modelled here (see
    [BytesModel] for the layout). [None] stands for the panic of [assert!(NUM_REGISTERS >= 1)]. *)
Definition na_default {T} (ms nr : nat) (d : T) : option (alloc T) :=
  match nr with O => None | _ => Some (Alloc 0 1 1 (replicate ms (node_default nr d))) end.

(** An allocator viewed in a zeroed buffer ([Zeroable], node_allocator.rs:155-161); [z] is the all-zero value of T. *)
Definition na_zeroed {T} (ms nr : nat) (z : T) : alloc T :=
  Alloc 0 0 0 (replicate ms (Node (replicate nr 0) z)).

Section Alloc.
  Context `{Profile} {T : Type}.
  Implicit Types a : alloc T.

  (** node_allocator.rs:242-251 [initialize] (its alignment assertion is in BytesModel.v [na_proper]; NUM_REGISTERS >= 1 holds for all uses) *)
  Definition na_initialize : M (alloc T) () :=
    a ← mget;
    if decide (size a = 0 ∧ bump_index a = 0 ∧ free_list_head a = 0)
    then modify (set_bump 1);; modify (set_fhead 1)
    else mfail Panic.

  (** node_allocator.rs:254-256 [get] : [&self.nodes[(i - 1) as usize]] *)
  Definition na_get a (i : N) : res (node T) :=
    j ← u32_sub i 1;
    match lookupN (nodes a) j with Some n => Val n | None => Err Panic end.

  (** node_allocator.rs:259-261 [get_mut], together with the update [f] the caller performs on the node it returns *)
  Definition na_get_mut (i : N) (f : node T → res (node T)) : M (alloc T) () :=
    j ← lift (u32_sub i 1);
    n ← gets (λ a, match lookupN (nodes a) j with Some n => Val n | None => Err Panic end);
    n' ← lift (f n);
    modify (λ a, set_nodes (insertN (nodes a) j n') a).

  (** node_allocator.rs:265-280 [add_node] *)
  Definition na_add_node (v : T) : M (alloc T) N :=
    a ← mget;
    let i := free_list_head a in
    (if decide (free_list_head a = bump_index a) then
       if decide (bump_index a = as_u32 (MAX_SIZE a + 1)) then mfail Panic
       else
         b ← lift (u32_add (bump_index a) 1);
         modify (set_bump b);;
         modify (set_fhead b)
     else
       r ← gets (λ a, n ← na_get a i; node_get_free_list_register n);
       modify (set_fhead r);;
       na_get_mut i (node_set_free_list_register SENTINEL));;
    na_get_mut i (node_set_value v);;
    a ← mget;
    s ← lift (u64_add (size a) 1);
    modify (set_size s);;
    mret i.

  (** node_allocator.rs:284-293 [remove_node] *)
  Definition na_remove_node (i : N) : M (alloc T) (option T) :=
    if decide (i = SENTINEL) then mret None
    else
      a ← mget;
      let h := free_list_head a in
      na_get_mut i (node_set_free_list_register h);;
      modify (set_fhead i);;
      a ← mget;
      s ← lift (u64_sub (size a) 1);
      modify (set_size s);;
      n ← gets (λ a, na_get a i);
      mret (Some (val n)).

  (** node_allocator.rs:308-312 [clear_register] *)
  Definition na_clear_register (i r : N) : M (alloc T) () :=
    if decide (i = SENTINEL) then mret () else na_get_mut i (node_set_register r SENTINEL).

  (** node_allocator.rs:296-305 [disconnect] *)
  Definition na_disconnect (i j r_i r_j : N) : M (alloc T) () :=
    (if decide (i = SENTINEL) then mret () else na_clear_register i r_i);;
    (if decide (j = SENTINEL) then mret () else na_clear_register j r_j).

  (** node_allocator.rs:315-322 [connect] *)
  Definition na_connect (i j r_i r_j : N) : M (alloc T) () :=
    (if decide (i = SENTINEL) then mret () else na_get_mut i (node_set_register r_i j));;
    (if decide (j = SENTINEL) then mret () else na_get_mut j (node_set_register r_j i)).

  (** node_allocator.rs:325-329 [set_register] *)
  Definition na_set_register (i value r_i : N) : M (alloc T) () :=
    if decide (i = SENTINEL) then mret () else na_get_mut i (node_set_register r_i value).

  (** node_allocator.rs:332-338 [get_register] *)
  Definition na_get_register a (i r_i : N) : res N :=
    if decide (i = SENTINEL) then Val SENTINEL
    else n ← na_get a i; node_get_register r_i n.
End Alloc.

(** [allocator.nodes.as_mut_ptr().add((ptr - 1) as usize).get_value_mut()] followed by the caller's update [f] of
    the referenced value (unsafe blocks of all mutable iterators, e.g. deque.rs:262-270). Returns the value seen by the caller before
    its update. A raw pointer outside the array is [UB]. *)
Definition na_raw_update `{Profile} {T} (ptr : N) (f : T → T) : M (alloc T) T :=
  j ← lift (u32_sub ptr 1);
  n ← gets (λ a, match lookupN (nodes a) j with Some n => Val n | None => Err UB end);
  modify (λ a, set_nodes (insertN (nodes a) j (Node (regs n) (f (val n)))) a);;
  mret (val n).
