(** * What the theorems about bytes assume of types and layouts *)
From Verif Require Export BytesModel.
Local Open Scope nat_scope.

Notation size_of c := (l_size (c_lay c)).
Notation align_of c := (l_align (c_lay c)).

(** A lawful codec: values occupy [size_of] bytes, and decoding undoes encoding *)
Record codec_ok {A} (c : codec A) : Prop := {
  co_align : 0 < align_of c;
  co_len a : c_wf c a → length (c_enc c a) = size_of c;
  co_dec a : c_wf c a → c_dec c (c_enc c a) = a }.
(** An element type (the type parameters T, K, V): lawful, and every value of the type has an encoding *)
Definition elt_ok {A} (c : codec A) : Prop := codec_ok c ∧ ∀ x, c_wf c x.
(** The value whose bytes are all zero *)
Definition c_zero {A} (c : codec A) : A := c_dec c (zeros (size_of c)).

(** What Rust guarantees about every type: the alignment is a power of two and divides the size *)
Definition lay_ok (l : layout) : Prop := (∃ k, l_align l = 2 ^ k) ∧ l_size l mod l_align l = 0.
(** The condition on the element type that the assertions of the allocator amount to (C49) *)
Definition alloc_fits (nr : nat) (l : layout) : Prop :=
  (l_size l = 0 ∨ Nat.max 8 (l_align l) ≤ l_size l) ∧ l_align l ≤ 16 ∧ (4 * nr) mod l_align l = 0.
(** What RedBlackTree asserts of its key and value types *)
Definition rb_fits (lk lv : layout) : Prop :=
  l_size lv mod l_align lk = 0 ∧ l_size (struct_lay [lk; lv]) mod 8 = 0.

(** A call [step o] on the structure that a slice at address [addr] holds, obtained by [load_mut_bytes(slice).unwrap()] *)
Definition reloaded {A O B} (c : codec A) (step : O → M A B) (ao : nat * O) : M bytes B := on_bytes c ao.1 (step ao.2).
(** The three header words that [NodeAllocator::initialize] looks at are zero *)
Definition virgin {T} (a : alloc T) : Prop := (size a = 0 ∧ bump_index a = 0 ∧ free_list_head a = 0)%N.
(** The structure that the slice [data] holds *)
Definition held {A} (c : codec A) (data : bytes) : A := c_dec c (take (size_of c) data).
