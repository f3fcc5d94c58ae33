(** * C43: when exactly [new_from_slice] succeeds

    For arbitrary contents of the slice, not only zeros: it succeeds iff the layout assertions hold for the type parameters, the slice is
    long enough and aligned, and the three words [size], [bump_index] and [free_list_head] of every allocator in it are zero ([virgin],
    BytesSpec.v). Nothing else is looked at, in particular not the head, tail, root, bucket and node fields. *)
From Verif Require Import NewProof.
From Verif Require Import BytesProps.
Local Open Scope nat_scope.

Section props.
  Context `{Profile} {T K V : Type} (ct : codec T) (ck : codec K) (cv : codec V).
  Context (Lt : lay_ok (c_lay ct)) (Lk : lay_ok (c_lay ck)) (Lv : lay_ok (c_lay cv)) (ms addr : nat) (data : bytes).

  Theorem C43_dq_exact :
    (∃ data', dq_new_from_slice ms ct addr data = Ret () data') ↔
      size_of (c_deque ms ct) ≤ length data ∧ addr mod align_of (c_deque ms ct) = 0 ∧
      alloc_fits 2 (c_lay ct) ∧ virgin (dq_al (held (c_deque ms ct) data)).
  Proof. by apply dq_nfs_exact. Qed.
  Theorem C43_ht_exact nb :
    (∃ data', ht_new_from_slice nb ms ck cv addr data = Ret () data') ↔
      nb mod 2 = 0 ∧ size_of (c_hash nb ms ck cv) ≤ length data ∧ addr mod align_of (c_hash nb ms ck cv) = 0 ∧
      alloc_fits 4 (c_lay (c_pair ck cv)) ∧ virgin (ht_al (held (c_hash nb ms ck cv) data)).
  Proof. by apply ht_nfs_exact. Qed.
  Theorem C43_rb_exact :
    (∃ data', rb_new_from_slice ms ck cv addr data = Ret () data') ↔
      rb_fits (c_lay ck) (c_lay cv) ∧ size_of (c_rb ms ck cv) ≤ length data ∧ addr mod align_of (c_rb ms ck cv) = 0 ∧
      alloc_fits 4 (c_lay (c_pair ck cv)) ∧ virgin (rb_al (held (c_rb ms ck cv) data)).
  Proof. by apply rb_nfs_exact. Qed.
  Theorem C43_av_exact :
    (∃ data', av_new_from_slice ms ck cv addr data = Ret () data') ↔
      size_of (c_avl ms ck cv) ≤ length data ∧ addr mod align_of (c_avl ms ck cv) = 0 ∧
      alloc_fits 4 (c_lay (c_pair ck cv)) ∧ virgin (av_al (held (c_avl ms ck cv) data)).
  Proof. by apply av_nfs_exact. Qed.
  (** [a128] is the alignment of u128: 16, or 8 with older compilers *)
  Theorem C43_cb_exact a128 nn :
    a128 = 8 ∨ a128 = 16 →
    (∃ data', cb_new_from_slice a128 nn ms cv addr data = Ret () data') ↔
      2 * ms ≤ nn ∧ size_of (c_crit a128 nn ms cv) ≤ length data ∧ addr mod align_of (c_crit a128 nn ms cv) = 0 ∧
      alloc_fits 4 (c_lay cv) ∧
      virgin (cb_nodes (held (c_crit a128 nn ms cv) data)) ∧ virgin (cb_leaves (held (c_crit a128 nn ms cv) data)).
  Proof. by apply cb_nfs_exact. Qed.
End props.
Print Assumptions C43_dq_exact.
Print Assumptions C43_ht_exact.
Print Assumptions C43_rb_exact.
Print Assumptions C43_av_exact.
Print Assumptions C43_cb_exact.

(** A slice that is not all zeros (head = tail = 7, and a node byte) is accepted; one with bump_index = 1 is not; nor are a hash table
    with an odd number of buckets and a critbit tree with too few inner nodes. Deque::<u64, 2>: sequence number at 0, head at 8, tail at
    12, allocator (size, bump_index, free_list_head) at 16, 24, 28. *)
Example ex_C43_exact `{Profile} :
  (∃ data', dq_new_from_slice 2 c_u64 8 (zeros 8 ++ [x07; x00; x00; x00; x07] ++ zeros 40 ++ [x09] ++ zeros 20) = Ret () data') ∧
  dq_new_from_slice 2 c_u64 8 (zeros 24 ++ [x01] ++ zeros 50) = Fail Panic (zeros 24 ++ [x01] ++ zeros 50) ∧
  ht_new_from_slice 3 2 c_u64 c_u64 8 (zeros 200) = Fail Panic (zeros 200) ∧
  cb_new_from_slice 16 3 2 c_u64 16 (zeros 400) = Fail Panic (zeros 400).
Proof. destruct H as [[]]; vm_compute; (split; [by eexists|done]). Qed.
