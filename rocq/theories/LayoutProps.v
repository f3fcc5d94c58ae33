(** * C68: the byte format

    What a program in another language, or one that walks the tree without this crate, relies on when it reads a buffer: LayoutSpec.v
    writes the bytes of each structure out field by field. The conditions on the types say that they leave no gaps (C50); [lay_ok] holds of every
    Rust type, [elt_ok] says that every value has an encoding, of the size of the type. *)
From Verif Require Import Spec RBMain AVLMain CritMain HashMain RBProps AVLProps.
From Verif Require Import BytesMain LayoutSpec LayoutProof LayoutMain OffsetProof.
From Verif Require Import BytesProps SlotSpec SlotProof SlotDeque.
Local Open Scope nat_scope.

(** ** Integers: byte number [i] is digit number [i] in base 256 *)
Theorem C68_le_bytes n x i : i < n → ∃ b, bytes_at i 1 (le_enc n x) = [b] ∧ Byte.to_N b = ((x / 256 ^ N.of_nat i) mod 256)%N.
Proof. exact (le_digit n x i). Qed.

(** ** The structures, byte for byte *)
Section wire.
  Context {T K V : Type} (ct : codec T) (ck : codec K) (cv : codec V) (ms : nat).
  Context (Lt : lay_ok (c_lay ct)) (Lk : lay_ok (c_lay ck)) (Lv : lay_ok (c_lay cv)).
  Theorem C68_alloc_wire nr a :
    alloc_fits nr (c_lay ct) → (4 * nr + size_of ct) mod 8 = 0 → c_enc (c_alloc ms nr ct) a = wire_alloc (c_enc ct) a.
  Proof. intros Hf H8. exact (alloc_wire ct Lt nr Hf H8 ms a). Qed.
  Theorem C68_dq_wire d :
    alloc_fits 2 (c_lay ct) → size_of ct mod 8 = 0 → c_enc (c_deque ms ct) d = wire_dq (c_enc ct) d.
  Proof. exact (dq_wire ct ms Lt d). Qed.
  Theorem C68_ht_wire nb h :
    alloc_fits 4 (c_lay (c_pair ck cv)) → tight_pair ck cv → (4 * nb) mod Nat.max 8 (Nat.max (align_of ck) (align_of cv)) = 0 →
    c_enc (c_hash nb ms ck cv) h = wire_ht (c_enc ck) (c_enc cv) h.
  Proof. intros Hf Ht. exact (ht_wire ck cv ms Lk Lv Hf Ht nb h). Qed.
  Theorem C68_rb_wire t :
    alloc_fits 4 (c_lay (c_pair ck cv)) → tight_pair ck cv → c_enc (c_rb ms ck cv) t = wire_rb (c_enc ck) (c_enc cv) t.
  Proof. intros Hf Ht. exact (rb_wire ck cv ms Lk Lv Hf Ht t). Qed.
  Theorem C68_av_wire t :
    alloc_fits 4 (c_lay (c_pair ck cv)) → tight_pair ck cv → align_of ck ≤ 8 → align_of cv ≤ 8 →
    c_enc (c_avl ms ck cv) t = wire_av (c_enc ck) (c_enc cv) t.
  Proof. intros Hf Ht. exact (av_wire ck cv ms Lk Lv Hf Ht t). Qed.
  Theorem C68_cb_wire a128 nn t :
    a128 = 8 ∨ a128 = 16 → alloc_fits 4 (c_lay cv) → size_of cv mod 8 = 0 → (ms * size_of cv) mod a128 = 0 →
    c_enc (c_crit a128 nn ms cv) t = wire_cb (c_enc cv) t.
  Proof. intros Ha. exact (cb_wire cv Lv a128 Ha nn ms t). Qed.
End wire.
Print Assumptions C68_le_bytes.
Print Assumptions C68_alloc_wire.
Print Assumptions C68_dq_wire.
Print Assumptions C68_ht_wire.
Print Assumptions C68_rb_wire.
Print Assumptions C68_av_wire.
Print Assumptions C68_cb_wire.

(** ** Where the allocators are, also when there are gaps: at the offsets from which [new_from_slice] computes the addresses that the
    alignment assertions of [initialize] look at *)
Section offsets.
  Context {T K V : Type} (ct : codec T) (ck : codec K) (cv : codec V) (ms : nat) (Ht : codec_ok ct) (Hk : codec_ok ck) (Hv : codec_ok cv).
  Theorem C68_dq_offset d : c_wf (c_deque ms ct) d →
    bytes_at (dq_al_off ms ct) (size_of (c_alloc ms 2 ct)) (c_enc (c_deque ms ct) d) = c_enc (c_alloc ms 2 ct) (dq_al d).
  Proof using Ht. exact (dq_at ct ms Ht d). Qed.
  Theorem C68_ht_offset nb h : c_wf (c_hash nb ms ck cv) h →
    bytes_at (ht_al_off nb ms ck cv) (size_of (c_alloc ms 4 (c_pair ck cv))) (c_enc (c_hash nb ms ck cv) h) = c_enc (c_alloc ms 4 (c_pair ck cv)) (ht_al h).
  Proof using Hk Hv. exact (ht_at ck cv ms Hk Hv nb h). Qed.
  Theorem C68_rb_offset t : c_wf (c_rb ms ck cv) t →
    bytes_at (rb_al_off ms ck cv) (size_of (c_alloc ms 4 (c_pair ck cv))) (c_enc (c_rb ms ck cv) t) = c_enc (c_alloc ms 4 (c_pair ck cv)) (rb_al t).
  Proof using Hk Hv. exact (rb_at ck cv ms Hk Hv t). Qed.
  Theorem C68_av_offset t : c_wf (c_avl ms ck cv) t →
    bytes_at (av_al_off ms ck cv) (size_of (c_alloc ms 4 (c_pair ck cv))) (c_enc (c_avl ms ck cv) t) = c_enc (c_alloc ms 4 (c_pair ck cv)) (av_al t).
  Proof using Hk Hv. exact (av_at ck cv ms Hk Hv t). Qed.
  Theorem C68_cb_offsets a128 nn t : 0 < a128 → c_wf (c_crit a128 nn ms cv) t →
    bytes_at (cb_nodes_off a128 nn) (size_of (c_alloc nn 4 (c_cnode a128))) (c_enc (c_crit a128 nn ms cv) t) = c_enc (c_alloc nn 4 (c_cnode a128)) (cb_nodes t) ∧
    bytes_at (cb_leaves_off a128 nn ms cv) (size_of (c_alloc ms 4 cv)) (c_enc (c_crit a128 nn ms cv) t) = c_enc (c_alloc ms 4 cv) (cb_leaves t).
  Proof using Hv. intros Ha Hw. split; [exact (cb_nodes_at cv ms Hv a128 nn t Ha Hw)|exact (cb_leaves_at cv ms Hv a128 nn t Ha Hw)]. Qed.
End offsets.
Print Assumptions C68_dq_offset.
Print Assumptions C68_ht_offset.
Print Assumptions C68_rb_offset.
Print Assumptions C68_av_offset.
Print Assumptions C68_cb_offsets.
(** a value type of alignment 16 in an AVL tree: the allocator lies at 16 though the root ends at 8 *)
Example ex_C68_offset :
  let t := AVLT 1 (Alloc 0 1 1 [Node [0; 0; 0; 7] (3, 5)])%N in
  av_al_off 1 (c_u128 16) (c_u128 16) = 16 ∧ c_wf (c_avl 1 (c_u128 16) (c_u128 16)) t ∧ bytes_at 16 64 (c_enc (c_avl 1 (c_u128 16) (c_u128 16)) t) = c_enc (c_alloc 1 4 (c_pair (c_u128 16) (c_u128 16))) (av_al t).
Proof.
  assert (codec_ok (c_u128 16)) as Hc by (apply c_uint_ok; lia).
  cbv zeta. split; [done|]. assert (c_wf (c_avl 1 (c_u128 16) (c_u128 16)) (AVLT 1 (Alloc 0 1 1 [Node [0; 0; 0; 7] (3, 5)])%N)) as Hw.
  { repeat split; repeat constructor. }
  split; [exact Hw|]. exact (C68_av_offset (c_u128 16) (c_u128 16) 1 Hc Hc _ Hw).
Qed.

(** ** Where the entries are: [buf] holds the structure after any calls [o] (followed by any bytes [rest]). An entry of the map lies at a
    fixed offset computed from the slot that [get_addr] (and, when it was inserted, [insert]) answers, and a register likewise. *)
Section entries.
  Context `{Profile} {K V : Type} (ck : codec K) (cv : codec V) (Hk : elt_ok ck) (Hv : elt_ok cv).
  Context (Lk : lay_ok (c_lay ck)) (Lv : lay_ok (c_lay cv)) (Hf : alloc_fits 4 (c_lay (c_pair ck cv))) (Ht : tight_pair ck cv).
  Context (ms : nat) (H0 : 0 < ms) (Hw : (N.of_nat ms + 1 < W32)%N) (d : K * V) (rest : bytes).
  Notation stride := (16 + (size_of ck + size_of cv)).

  Theorem C68_rb_entries cmp o l :
    OrdLaws cmp → rb_holds cmp ms d o l →
    let t := rb_after cmp ms d o in let buf := c_enc (c_rb ms ck cv) t ++ rest in
    ∀ kv, kv ∈ l → ∃ i, rb_get_addr cmp t kv.1 = Val i ∧ (1 ≤ i ≤ N.of_nat ms)%N ∧
      let off := 16 + 16 + (N.to_nat i - 1) * stride in
      bytes_at (off + 16) (size_of ck) buf = c_enc ck kv.1 ∧ bytes_at (off + 16 + size_of ck) (size_of cv) buf = c_enc cv kv.2.
  Proof. intros HO Hl t buf kv. exact (rb_entry ck cv Hk Hv Lk Lv Hf Ht ms Hw cmp d o rest l kv HO H0 Hl). Qed.
  Theorem C68_rb_registers cmp o i r x :
    let t := rb_after cmp ms d o in let buf := c_enc (c_rb ms ck cv) t ++ rest in
    i ≠ 0%N → na_get_register (rb_al t) i r = Val x → bytes_at (16 + 16 + (N.to_nat i - 1) * stride + 4 * N.to_nat r) 4 buf = le32 x.
  Proof. exact (rb_register ck cv Hk Hv Lk Lv Hf Ht ms Hw cmp d o rest i r x). Qed.

  Theorem C68_av_entries pcmp o :
    OrdLaws (po_cmp pcmp) → align_of ck ≤ 8 → align_of cv ≤ 8 →
    let t := av_after pcmp ms d o in let buf := c_enc (c_avl ms ck cv) t ++ rest in
    ∀ kv, kv ∈ av_contents pcmp ms o → ∃ i, av_get_addr pcmp t kv.1 = Val i ∧ (1 ≤ i ≤ N.of_nat ms)%N ∧
      let off := 8 + 16 + (N.to_nat i - 1) * stride in
      bytes_at (off + 16) (size_of ck) buf = c_enc ck kv.1 ∧ bytes_at (off + 16 + size_of ck) (size_of cv) buf = c_enc cv kv.2.
  Proof. intros HO Ak Av t buf kv. exact (av_entry ck cv Hk Hv Lk Lv Hf Ht ms Hw Ak Av pcmp d o rest kv HO H0). Qed.
  Theorem C68_av_registers pcmp o i r x :
    align_of ck ≤ 8 → align_of cv ≤ 8 →
    let t := av_after pcmp ms d o in let buf := c_enc (c_avl ms ck cv) t ++ rest in
    i ≠ 0%N → na_get_register (av_al t) i r = Val x → bytes_at (8 + 16 + (N.to_nat i - 1) * stride + 4 * N.to_nat r) 4 buf = le32 x.
  Proof. intros Ak Av. exact (av_register ck cv Hk Hv Lk Lv Hf Ht ms Hw Ak Av pcmp d o rest i r x). Qed.

  Theorem C68_ht_entries keq hash nb h0 o l :
    HashLaws keq hash → 0 < nb → (4 * nb) mod Nat.max 8 (Nat.max (align_of ck) (align_of cv)) = 0 →
    ht_new nb ms d = Some h0 → ht_holds keq hash ms h0 o l →
    let t := ht_after keq hash h0 o in let buf := c_enc (c_hash nb ms ck cv) t ++ rest in
    ∀ kv, kv ∈ l → ∃ i, ht_get_addr keq hash t kv.1 = Val i ∧ (1 ≤ i ≤ N.of_nat ms)%N ∧
      let off := 4 * nb + 16 + (N.to_nat i - 1) * stride in
      bytes_at (off + 16) (size_of ck) buf = c_enc ck kv.1 ∧ bytes_at (off + 16 + size_of ck) (size_of cv) buf = c_enc cv kv.2.
  Proof. intros HL Hnb Hal Hnew Hl t buf kv. exact (ht_entry ck cv Hk Hv Lk Lv Hf Ht ms Hw nb Hnb Hal keq hash d h0 Hnew o rest l kv HL Hl). Qed.
  Theorem C68_ht_registers keq hash nb h0 o :
    0 < nb → (4 * nb) mod Nat.max 8 (Nat.max (align_of ck) (align_of cv)) = 0 → ht_new nb ms d = Some h0 →
    let t := ht_after keq hash h0 o in let buf := c_enc (c_hash nb ms ck cv) t ++ rest in
    (∀ b i, buckets t !! b = Some i → bytes_at (4 * b) 4 buf = le32 i) ∧
    ∀ i r x, i ≠ 0%N → na_get_register (ht_al t) i r = Val x → bytes_at (4 * nb + 16 + (N.to_nat i - 1) * stride + 4 * N.to_nat r) 4 buf = le32 x.
  Proof.
    intros Hnb Hal Hnew t buf. split; [exact (ht_bucket_word ck cv Hk Hv Lk Lv Hf Ht ms Hw nb Hnb Hal keq hash d h0 Hnew o rest)|].
    exact (ht_register ck cv Hk Hv Lk Lv Hf Ht ms Hw nb Hnb Hal keq hash d h0 Hnew o rest).
  Qed.

  (** the deque; [ds_used m]: the values from front to back with their slots (C61) *)
  Theorem C68_dq_entries (v0 : V) o :
    alloc_fits 2 (c_lay cv) → size_of cv mod 8 = 0 → (overflow_checks = true → (lengthN o < W64)%N) →
    let m := dslots_after (N.of_nat ms) o in let q := (history dq_step o (dq_new ms v0)).2 in let buf := c_enc (c_deque ms cv) q ++ rest in
    (ds_used m).*2 = (spec_history (dq_spec (N.of_nat ms)) o ([], 0%N)).2.1 ∧
    ∀ i v, (i, v) ∈ ds_used m → (1 ≤ i ≤ N.of_nat ms)%N ∧
      bytes_at (16 + 16 + (N.to_nat i - 1) * (8 + size_of cv) + 8) (size_of cv) buf = c_enc cv v.
  Proof.
    intros Hf2 H8 Ho m q buf. split; [apply dslots_values|]. intros i v. exact (dq_entry cv Hv Lv Hf2 H8 ms Hw v0 o rest i v Ho).
  Qed.
  Theorem C68_dq_registers (v0 : V) o i r x :
    alloc_fits 2 (c_lay cv) → size_of cv mod 8 = 0 →
    let q := (history dq_step o (dq_new ms v0)).2 in let buf := c_enc (c_deque ms cv) q ++ rest in
    i ≠ 0%N → na_get_register (dq_al q) i r = Val x → bytes_at (16 + 16 + (N.to_nat i - 1) * (8 + size_of cv) + 4 * N.to_nat r) 4 buf = le32 x.
  Proof. intros Hf2 H8. exact (dq_register cv Hv Lv Hf2 H8 ms Hw v0 o rest i r x). Qed.

  (** Critbit: the node that [get_addr] answers holds the key, and the slot of the value in its fourth register *)
  Theorem C68_cb_entries a128 nn (z : V) t0 o :
    alloc_fits 4 (c_lay cv) → size_of cv mod 8 = 0 → a128 = 8 ∨ a128 = 16 → (ms * size_of cv) mod a128 = 0 →
    (N.of_nat nn + 1 < W32)%N → cb_new nn ms z = Some t0 → Forall u128_op o →
    let t := (history cb_step o t0).2 in let buf := c_enc (c_crit a128 nn ms cv) t ++ rest in
    ∀ kv, kv ∈ cb_contents ms o → ∃ j i, cb_get_addr t kv.1 = Val j ∧ (1 ≤ j ≤ N.of_nat nn)%N ∧ (1 ≤ i ≤ N.of_nat ms)%N ∧
      let node := 16 + 16 + (N.to_nat j - 1) * 48 in let leaf := 16 + (16 + nn * 48) + 16 + (N.to_nat i - 1) * (16 + size_of cv) in
      bytes_at (node + 16) 16 buf = le128 kv.1 ∧ bytes_at (node + 12) 4 buf = le32 i ∧
      bytes_at (leaf + 16) (size_of cv) buf = c_enc cv kv.2.
  Proof.
    intros Hf4 H8 Ha Hm Hn Hnew Hu t buf kv Hkv.
    destruct (LayoutMain.cb_entry cv Hv Lv Hf4 H8 a128 Ha nn ms Hm Hn H0 z t0 Hnew o Hu rest kv Hkv) as (j & i & H1 & H2 & H3 & H4 & H5 & H6).
    exists j, i. split; [done|]. split; [done|]. split; [done|]. cbv zeta. split; [done|]. split; [done|]. rewrite <- H6. f_equal. lia.
  Qed.
End entries.
Print Assumptions C68_rb_entries.
Print Assumptions C68_rb_registers.
Print Assumptions C68_av_entries.
Print Assumptions C68_av_registers.
Print Assumptions C68_ht_entries.
Print Assumptions C68_ht_registers.
Print Assumptions C68_dq_entries.
Print Assumptions C68_dq_registers.
Print Assumptions C68_cb_entries.

(** Concrete cases, with [u64] keys and values: the layout conditions hold *)
Local Instance ex_profile : Profile := {| overflow_checks := true |}.
Definition u64_pc (a b : u64) : option comparison := Some (N.compare (u64_v a) (u64_v b)).
Definition kv64 (k v : N) : u64 * u64 := (to_u64 k, to_u64 v).
Definition ex_o : list (om_op u64 u64) := [MInsert (to_u64 5) (to_u64 258); MInsert (to_u64 2) (to_u64 20); MInsert (to_u64 9) (to_u64 90); MRemove (to_u64 2); MInsert (to_u64 7) (to_u64 70)].
Example ex_C68_hyps :
  elt_ok c_u64t ∧ lay_ok (c_lay c_u64t) ∧ alloc_fits 2 (c_lay c_u64t) ∧ alloc_fits 4 (c_lay c_u64t) ∧ alloc_fits 4 (c_lay (c_pair c_u64t c_u64t)) ∧
  tight_pair c_u64t c_u64t ∧ size_of c_u64t mod 8 = 0 ∧ (4 * 2) mod Nat.max 8 (Nat.max (align_of c_u64t) (align_of c_u64t)) = 0 ∧
  (4 * size_of c_u64t) mod 16 = 0 ∧ OrdLaws (po_cmp u64_pc).
Proof.
  destruct ex_u64 as (H1 & H2 & H3 & H4). destruct ex_fits as (_ & H5 & H6 & _). split_and!; try done.
  assert (∀ a b, po_cmp u64_pc a b = N.compare (u64_v a) (u64_v b)) as E by (intros a b; unfold po_cmp, u64_pc; by destruct (_ ?= _)%N).
  split; [intros a b|intros a b c|intros a b c]; rewrite !E; [apply (cmp_sym _ N_laws)|apply (cmp_trans _ N_laws)|apply (cmp_eq _ N_laws)].
Qed.
(** key 7 in slot 2 of a red-black tree: bytes 80..88 and 88..96 of the buffer; the value 258 of key 5 is 2 + 256 * 1 *)
Example ex_C68_rb :
  let t := rb_after (po_cmp u64_pc) 4 (kv64 0 0) (map Some ex_o) in let buf := c_enc (c_rb 4 c_u64t c_u64t) t ++ [x07] in
  rb_holds (po_cmp u64_pc) 4 (kv64 0 0) (map Some ex_o) [kv64 5 258; kv64 7 70; kv64 9 90] ∧
  rb_get_addr (po_cmp u64_pc) t (to_u64 7) = Val 2%N ∧ bytes_at 80 8 buf = [x07; x00; x00; x00; x00; x00; x00; x00] ∧
  bytes_at 88 8 buf = [x46; x00; x00; x00; x00; x00; x00; x00] ∧ bytes_at 56 8 buf = [x02; x01; x00; x00; x00; x00; x00; x00] ∧
  length buf = 161 ∧ na_get_register (rb_al t) 2 1 = Val 3%N ∧ bytes_at 68 4 buf = [x03; x00; x00; x00].
Proof.
  cbv zeta. split; [|by vm_compute].
  apply om_run_ops. by vm_compute.
Qed.
Example ex_C68_av :
  let t := av_after u64_pc 4 (kv64 0 0) ex_o in let buf := c_enc (c_avl 4 c_u64t c_u64t) t in
  kv64 7 70 ∈ av_contents u64_pc 4 ex_o ∧ av_get_addr u64_pc t (to_u64 7) = Val 2%N ∧ bytes_at 72 8 buf = le64 7 ∧ bytes_at 80 8 buf = le64 70 ∧
  na_get_register (av_al t) 2 1 = Val 3%N ∧ bytes_at 60 4 buf = le32 3.
Proof. cbv zeta. split; [|by vm_compute]. replace (av_contents u64_pc 4 ex_o) with [kv64 5 258; kv64 7 70; kv64 9 90] by (by vm_compute). set_solver. Qed.
Example ex_C68_dq :
  let o := [DPushBack (to_u64 3); DPushFront (to_u64 258); DPopBack; DPushBack (to_u64 9)] in let q := (history dq_step o (dq_new 3 (to_u64 0))).2 in
  ds_used (dslots_after 3 o) = [(2%N, to_u64 258); (1%N, to_u64 9)] ∧ bytes_at 56 8 (c_enc (c_deque 3 c_u64t) q) = le64 258 ∧
  bytes_at 40 8 (c_enc (c_deque 3 c_u64t) q) = le64 9 ∧ bytes_at 8 4 (c_enc (c_deque 3 c_u64t) q) = le32 2.
Proof. by vm_compute. Qed.
Example ex_C68_ht :
  ∃ h0 : htable u64 u64, ht_new 2 4 (kv64 0 0) = Some h0 ∧
  let keq := (λ a b : u64, N.eqb (u64_v a) (u64_v b)) in
  let t := ht_after keq u64_v h0 [HInsert (to_u64 5) (to_u64 50); HInsert (to_u64 4) (to_u64 40)] in
  ht_get_addr keq u64_v t (to_u64 4) = Val 2%N ∧ buckets t = [2; 1]%N ∧ bytes_at 72 8 (c_enc (c_hash 2 4 c_u64t c_u64t) t) = le64 4 ∧
  bytes_at 80 8 (c_enc (c_hash 2 4 c_u64t c_u64t) t) = le64 40.
Proof. eexists. split; [done|]. by vm_compute. Qed.
Example ex_C68_cb :
  ∃ t0 : critbit u64, cb_new 4 2 (to_u64 0) = Some t0 ∧
  let o := [MInsert 300%N (to_u64 7); MInsert 5%N (to_u64 50)] in let t := (history cb_step o t0).2 in let buf := c_enc (c_crit 16 4 2 c_u64t) t in
  Forall u128_op o ∧ (2 * size_of c_u64t) mod 16 = 0 ∧ cb_get_addr t 300 = Val 3%N ∧ bytes_at 144 16 buf = le128 300 ∧ bytes_at 140 4 buf = le32 1 ∧
  bytes_at 256 8 buf = le64 7.
Proof. eexists. split; [done|]. cbv zeta. split; [by repeat constructor|]. by vm_compute. Qed.
