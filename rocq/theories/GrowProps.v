(** * C67: a structure moved to a larger capacity

    A structure of a type with a larger MAX_SIZE that has the same fields and, behind the old nodes, nodes whose registers are zero
    ([blank]; their values may be anything) behaves as the old one would with the larger capacity: nothing that can be read changes, all
    later answers are those of the specification, addresses stay. Programs are lists of segments: calls, then a growing ([grown]); see
    GrowSpec.v. In bytes: the buffer of the old structure followed by zeros is the buffer of the larger one, so an account may be
    reallocated and then loaded as the larger type ([regrown], GrowBytesSpec.v). *)
From Verif Require Import DequeProps RBMain AVLMain HashMain CritMain BytesMain InitProps BytesProps.
From Verif Require Import GrowSpec GrowMain GrowBytesSpec GrowBytes.

Section deque.
  Context `{Profile} {T : Type} (ms : nat) (v : T).
  Notation segs := (list (list (dq_op T) * list (node T))).
  (** All answers of all segments are those of a sequence of the capacity of the time; the contents, their addresses and the sequence number are as the specification says; growing once more changes nothing that can be read *)
  Theorem C67_dq_grow (sg : segs) :
    N.of_nat ms + added lengthN sg + 1 < W32 → (overflow_checks = true → total_calls sg < W64) → Forall (λ s, Forall (blank 2) s.2) sg →
    let '(rss, d) := grown dq_step dq_grow sg (dq_new ms v) in
    ∃ l n es, grown_run lengthN dq_run (N.of_nat ms) sg ([], 0) rss (l, n) ∧ es.*2 = l ∧ NoDup es.*1 ∧
      dq_len d = lengthN l ∧ dq_seqno d = n mod W64 ∧ (∀ i x, (i, x) ∈ es → dq_get_node d i = Val x) ∧
      (∀ script, dq_iterate script d = Val (de_spec script es)) ∧
      (∀ ex, Forall (blank 2) ex → N.of_nat ms + added lengthN sg + lengthN ex + 1 < W32 →
        (∀ script, dq_iterate script (dq_grow ex d) = Val (de_spec script es)) ∧ ∀ i x, (i, x) ∈ es → dq_get_node (dq_grow ex d) i = Val x).
  Proof. exact (dq_grow_fact ms v sg). Qed.
End deque.
Section rb.
  Context `{Profile} {K V : Type} (cmp : K → K → comparison) (HO : OrdLaws cmp) (ms : nat) (d : K * V) (H0 : (0 < ms)%nat).
  Notation segs := (list (list (option (om_op K V)) * list (node (K * V)))).
  (** All answers are those of an ordered map of the capacity of the time; the tree stays a red-black tree of logarithmic depth *)
  Theorem C67_rb_grow (sg : segs) :
    N.of_nat ms + added lengthN sg + 1 < W32 → Forall (λ s, Forall (blank 4) s.2) sg →
    let '(rss, t) := grown (rb_step cmp) rb_grow sg (rb_new ms d) in
    ∃ l, grown_run lengthN (om_run cmp) (N.of_nat ms) sg [] rss l ∧ ascending cmp l ∧
      rb_len t = lengthN l ∧ rb_capacity t = N.of_nat ms + added lengthN sg ∧ (∀ script, rb_iterate t script = Val (de_spec script l)) ∧
      rb_is_valid t = Val true ∧ (∀ p, rb_path t (rb_root t) p → 2 ^ lengthN p ≤ (rb_len t + 1) ^ 2) ∧
      ∀ ex, Forall (blank 4) ex → N.of_nat ms + added lengthN sg + lengthN ex + 1 < W32 → same_reads (rb_api cmp) t (rb_grow ex t).
  Proof. exact (rb_grow_fact cmp HO ms d H0 sg). Qed.
  (** The address of a key stays the same until the key is removed, whatever calls and growings come between *)
  Theorem C67_rb_addresses (sg sg' : segs) k i :
    let t := (grown (rb_step cmp) rb_grow sg (rb_new ms d)).2 in let g' := grown (rb_step cmp) rb_grow sg' t in
    N.of_nat ms + added lengthN sg + added lengthN sg' + 1 < W32 → Forall (λ s, Forall (blank 4) s.2) sg → Forall (λ s, Forall (blank 4) s.2) sg' →
    rb_get_addr cmp t k = Val i → i ≠ SENTINEL → Forall2 (λ s rs, never_removed cmp k s.1 rs) sg' g'.1 → rb_get_addr cmp g'.2 k = Val i.
  Proof. exact (rb_grow_addr_fact cmp HO ms d H0 sg sg' k i). Qed.
End rb.
Section av.
  Context `{Profile} {K V : Type} (pcmp : K → K → option comparison) (HO : OrdLaws (po_cmp pcmp)) (ms : nat) (d : K * V) (H0 : (0 < ms)%nat).
  Notation cmp := (po_cmp pcmp).
  Notation segs := (list (list (om_op K V) * list (node (K * V)))).
  (** The same for AVLTree; the tree stays balanced *)
  Theorem C67_av_grow (sg : segs) :
    N.of_nat ms + added lengthN sg + 1 < W32 → Forall (λ s, Forall (blank 4) s.2) sg →
    let '(rss, t) := grown (av_step pcmp) av_grow sg (av_new ms d) in
    ∃ l, grown_run lengthN (om_seg cmp) (N.of_nat ms) sg [] rss l ∧ ascending cmp l ∧
      av_len t = lengthN l ∧ av_capacity t = N.of_nat ms + added lengthN sg ∧ (∀ script, av_iterate t script = Val (de_spec script l)) ∧
      (∃ h, av_sub t (as_u32 (av_root t)) h) ∧ (∀ p, av_path t (as_u32 (av_root t)) p → 2 ^ lengthN p ≤ (av_len t + 1) ^ 2) ∧
      ∀ ex, Forall (blank 4) ex → N.of_nat ms + added lengthN sg + lengthN ex + 1 < W32 → same_reads (av_api pcmp) t (av_grow ex t).
  Proof. exact (av_grow_fact pcmp HO ms d H0 sg). Qed.
  (** The address of a key stays the same until the key is removed *)
  Theorem C67_av_addresses (sg sg' : segs) k i :
    let t := (grown (av_step pcmp) av_grow sg (av_new ms d)).2 in let g' := grown (av_step pcmp) av_grow sg' t in
    N.of_nat ms + added lengthN sg + added lengthN sg' + 1 < W32 → Forall (λ s, Forall (blank 4) s.2) sg → Forall (λ s, Forall (blank 4) s.2) sg' →
    av_get_addr pcmp t k = Val i → i ≠ SENTINEL → not_removed cmp k sg' → av_get_addr pcmp g'.2 k = Val i.
  Proof. exact (av_grow_addr_fact pcmp HO ms d H0 sg sg' k i). Qed.
End av.
Section hash.
  Context `{Profile} {K V : Type} (keq : K → K → bool) (hash : K → N) (HL : HashLaws keq hash) (nb ms : nat) (d : K * V).
  Context (h0 : htable K V) (Hnew : ht_new nb ms d = Some h0) (Hnb : (0 < nb)%nat).
  Notation step := (ht_step keq hash).
  Notation segs := (list (list (hm_op K V) * list (node (K * V)))).
  (** The same for HashTable (NUM_BUCKETS stays) *)
  Theorem C67_ht_grow (sg : segs) :
    N.of_nat ms + added lengthN sg + 1 < W32 → Forall (λ s, Forall (blank 4) s.2) sg →
    let '(rss, h) := grown step ht_grow sg h0 in
    ∃ l, grown_run lengthN (hm_run keq) (N.of_nat ms) sg [] rss l ∧ distinct_keys keq l ∧
      ht_len h = lengthN l ∧ ht_capacity h = N.of_nat ms + added lengthN sg ∧ (∃ l', l' ≡ₚ l ∧ ∀ script, ht_iterate h script = Val (fw_spec script l')) ∧
      (∀ k, ht_get keq hash h k = Val (hm_get keq k l)) ∧
      ∀ ex, Forall (blank 4) ex → N.of_nat ms + added lengthN sg + lengthN ex + 1 < W32 →
        (∀ k, ht_get keq hash (ht_grow ex h) k = ht_get keq hash h k ∧ ht_get_addr keq hash (ht_grow ex h) k = ht_get_addr keq hash h k) ∧
        ∀ script, ht_iterate (ht_grow ex h) script = ht_iterate h script.
  Proof. exact (ht_grow_fact keq hash HL nb ms d h0 Hnew Hnb sg). Qed.
  (** The address of a key stays the same until the key is removed *)
  Theorem C67_ht_addresses (sg sg' : segs) k i :
    let h := (grown step ht_grow sg h0).2 in let g' := grown step ht_grow sg' h in
    N.of_nat ms + added lengthN sg + added lengthN sg' + 1 < W32 → Forall (λ s, Forall (blank 4) s.2) sg → Forall (λ s, Forall (blank 4) s.2) sg' →
    ht_get_addr keq hash h k = Val i → i ≠ SENTINEL → (∀ s k', s ∈ sg' → HRemove k' ∈ s.1 → keq k k' = false) → ht_get_addr keq hash g'.2 k = Val i.
  Proof. exact (ht_grow_addr_fact keq hash HL nb ms d h0 Hnew Hnb sg sg' k i). Qed.
End hash.
Section crit.
  Context `{Profile} {V : Type} (nn ms : nat) (d : V) (t0 : critbit V) (H0 : (0 < ms)%nat) (Hnew : cb_new nn ms d = Some t0).
  Notation segs := (list (list (om_op N V) * (list (node cnode) * list (node V)))).
  (** The same for Critbit, whose two arrays may both grow as long as there are two nodes for every leaf *)
  Theorem C67_cb_grow (sg : segs) :
    N.of_nat nn + added more_nodes sg + 1 < W32 → Forall (λ s, Forall u128_op s.1 ∧ cb_growth s.2) sg → cb_room (N.of_nat nn) (N.of_nat ms) sg →
    let '(rss, t) := grown cb_step cb_grow' sg t0 in
    ∃ l, grown_run more_leaves cb_seg (N.of_nat ms) sg [] rss l ∧ ascending N.compare l ∧
      cb_len t = lengthN l ∧ cb_capacity t = N.of_nat ms + added more_leaves sg ∧ (∀ script, cb_iterate t script = Val (de_spec script l)) ∧
      (∀ k, k < W128 → cb_get t k = Val (om_get N.compare k l)) ∧
      ∀ ex, cb_growth ex → N.of_nat nn + added more_nodes sg + more_nodes ex + 1 < W32 →
        2 * (N.of_nat ms + added more_leaves sg + more_leaves ex) ≤ N.of_nat nn + added more_nodes sg + more_nodes ex → cb_reads t (cb_grow' ex t).
  Proof. exact (cb_grow_fact nn ms d t0 H0 Hnew sg). Qed.
  (** The slot of the value of a key in the leaf pool stays the same until the key is removed (node addresses may change, C37) *)
  Theorem C67_cb_slots (sg sg' : segs) k j :
    let t := (grown cb_step cb_grow' sg t0).2 in let g' := grown cb_step cb_grow' sg' t in
    N.of_nat nn + added more_nodes sg + added more_nodes sg' + 1 < W32 →
    Forall (λ s, Forall u128_op s.1 ∧ cb_growth s.2) sg → Forall (λ s, Forall u128_op s.1 ∧ cb_growth s.2) sg' →
    cb_room (N.of_nat nn) (N.of_nat ms) sg → cb_room (N.of_nat nn + added more_nodes sg) (N.of_nat ms + added more_leaves sg) sg' →
    k < W128 → cb_contains t k = Val true → cb_value_slot t k = Val j → (∀ s, s ∈ sg' → MRemove k ∉ s.1) → cb_value_slot g'.2 k = Val j.
  Proof. exact (cb_grow_slot_fact nn ms d t0 H0 Hnew sg sg' k j). Qed.
End crit.

(** ** In bytes *)
Section bytes.
  Local Open Scope nat_scope.
  Context `{Profile} {T K V : Type} (ct : codec T) (ck : codec K) (cv : codec V).
  Context (Ht : elt_ok ct) (Hk : elt_ok ck) (Hv : elt_ok cv) (Zt : zero_ok ct) (Zk : zero_ok ck) (Zv : zero_ok cv) (ms : nat).
  (** A buffer that is made longer with zeros and then loaded as the larger type: the answers and the buffer are those of the structure grown in place *)
  Theorem C67_dq_realloc segs d :
    (N.of_nat (final_size ms segs) + 1 < W32)%N → all_aligned (λ m, c_deque m ct) segs →
    regrown (λ m, c_deque m ct) dq_step ms segs (c_enc (c_deque ms ct) (dq_new ms d)) =
      ((grown dq_step dq_grow (in_place 2 (c_zero ct) segs) (dq_new ms d)).1,
       c_enc (c_deque (final_size ms segs) ct) (grown dq_step dq_grow (in_place 2 (c_zero ct) segs) (dq_new ms d)).2).
  Proof. exact (dq_regrown ct Ht Zt ms segs d). Qed.
  (** HashTable *)
  Theorem C67_ht_realloc keq hash nb segs d h0 :
    ht_new nb ms d = Some h0 → (N.of_nat (final_size ms segs) + 1 < W32)%N → all_aligned (λ m, c_hash nb m ck cv) segs →
    regrown (λ m, c_hash nb m ck cv) (ht_step keq hash) ms segs (c_enc (c_hash nb ms ck cv) h0) =
      ((grown (ht_step keq hash) ht_grow (in_place 4 (c_zero ck, c_zero cv) segs) h0).1,
       c_enc (c_hash nb (final_size ms segs) ck cv) (grown (ht_step keq hash) ht_grow (in_place 4 (c_zero ck, c_zero cv) segs) h0).2).
  Proof. exact (ht_regrown ck cv Hk Hv Zk Zv ms keq hash nb segs d h0). Qed.
  (** RedBlackTree *)
  Theorem C67_rb_realloc cmp segs d :
    (N.of_nat (final_size ms segs) + 1 < W32)%N → all_aligned (λ m, c_rb m ck cv) segs →
    regrown (λ m, c_rb m ck cv) (rb_step cmp) ms segs (c_enc (c_rb ms ck cv) (rb_new ms d)) =
      ((grown (rb_step cmp) rb_grow (in_place 4 (c_zero ck, c_zero cv) segs) (rb_new ms d)).1,
       c_enc (c_rb (final_size ms segs) ck cv) (grown (rb_step cmp) rb_grow (in_place 4 (c_zero ck, c_zero cv) segs) (rb_new ms d)).2).
  Proof. exact (rb_regrown ck cv Hk Hv Zk Zv ms cmp segs d). Qed.
  (** AVLTree *)
  Theorem C67_av_realloc pcmp segs d :
    (N.of_nat (final_size ms segs) + 1 < W32)%N → all_aligned (λ m, c_avl m ck cv) segs →
    regrown (λ m, c_avl m ck cv) (av_step pcmp) ms segs (c_enc (c_avl ms ck cv) (av_new ms d)) =
      ((grown (av_step pcmp) av_grow (in_place 4 (c_zero ck, c_zero cv) segs) (av_new ms d)).1,
       c_enc (c_avl (final_size ms segs) ck cv) (grown (av_step pcmp) av_grow (in_place 4 (c_zero ck, c_zero cv) segs) (av_new ms d)).2).
  Proof. exact (av_regrown ck cv Hk Hv Zk Zv ms pcmp segs d). Qed.
  (** Critbit: the leaves lie last, so this works for MAX_SIZE; NUM_NODES must stay (see C67_cb_num_nodes_refuted) *)
  Theorem C67_cb_realloc a128 nn segs d t0 :
    0 < a128 → (N.of_nat nn + 1 < W32)%N → cb_new nn ms d = Some t0 → Forall (λ s, Forall u128_op s.1.*2) segs →
    (N.of_nat (final_size ms segs) + 1 < W32)%N → all_aligned (λ m, c_crit a128 nn m cv) segs →
    regrown (λ m, c_crit a128 nn m cv) cb_step ms segs (c_enc (c_crit a128 nn ms cv) t0) =
      ((grown cb_step (cb_grow []) (in_place 4 (c_zero cv) segs) t0).1,
       c_enc (c_crit a128 nn (final_size ms segs) cv) (grown cb_step (cb_grow []) (in_place 4 (c_zero cv) segs) t0).2).
  Proof. exact (cb_regrown cv Hv Zv ms a128 nn segs d t0). Qed.
End bytes.
Print Assumptions C67_dq_grow.
Print Assumptions C67_rb_grow.
Print Assumptions C67_rb_addresses.
Print Assumptions C67_av_grow.
Print Assumptions C67_av_addresses.
Print Assumptions C67_ht_grow.
Print Assumptions C67_ht_addresses.
Print Assumptions C67_cb_grow.
Print Assumptions C67_cb_slots.
Print Assumptions C67_dq_realloc.
Print Assumptions C67_ht_realloc.
Print Assumptions C67_rb_realloc.
Print Assumptions C67_av_realloc.
Print Assumptions C67_cb_realloc.

(** ** Examples *)
Local Instance ex_profile : Profile := {| overflow_checks := true |}.
Definition ex_node (v : N) : node N := Node [0; 0] v.
Definition ex_kv (k v : N) : node (N * N) := Node [0; 0; 0; 0] (k, v).

(** A deque of capacity 1 that is full, grows by two nodes (whose values are not zero) and is filled again *)
Definition ex_dq_segs : list (list (dq_op N) * list (node N)) :=
  [([DPushBack 5; DPushBack 6], [ex_node 9; ex_node 8]); ([DPushBack 6; DPushFront 4; DPushBack 7; DIter [Fwd; Fwd; Bwd]], [])].
Example ex_C67_dq :
  N.of_nat 1 + added lengthN ex_dq_segs + 1 < W32 ∧ total_calls ex_dq_segs < W64 ∧ Forall (λ s, Forall (blank 2) s.2) ex_dq_segs ∧
  (grown dq_step dq_grow ex_dq_segs (dq_new 1 0)).1 =
    [[Val DUnit; Err Panic]; [Val DUnit; Val DUnit; Err Panic; Val (DList [Some 4; Some 5; Some 6])]].
Proof. split; [done|]. split; [done|]. split; [by repeat constructor|]. by vm_compute. Qed.

Definition ex_om_segs : list (list (om_op N N) * list (node (N * N))) :=
  [([MInsert 3 30; MInsert 1 10; MInsert 2 20], [ex_kv 7 7]); ([MInsert 2 20; MCapacity; MInsert 9 90; MGet 3], [ex_kv 0 0]); ([MInsert 9 90; MRemove 3; MIter [Fwd; Fwd; Fwd; Fwd]], [])].
Definition some_segs (sg : list (list (om_op N N) * list (node (N * N)))) : list (list (option (om_op N N)) * list (node (N * N))) :=
  map (λ s, (map Some s.1, s.2)) sg.
Definition ex_om_answers : list (list (res (om_out N N))) :=
  [[Val (MBool true); Val (MBool true); Val (MBool false)]; [Val (MBool true); Val (MNum 3); Val (MBool false); Val (MVal (Some 30))];
   [Val (MBool true); Val (MVal (Some 30)); Val (MList [Some (1, 10); Some (2, 20); Some (9, 90); None])]].
Example ex_C67_rb :
  N.of_nat 2 + added lengthN (some_segs ex_om_segs) + 1 < W32 ∧ Forall (λ s, Forall (blank 4) s.2) (some_segs ex_om_segs) ∧
  (grown (rb_step N.compare) rb_grow (some_segs ex_om_segs) (rb_new 2 (0, 0))).1 = ex_om_answers.
Proof. split; [done|]. split; [by repeat constructor|]. by vm_compute. Qed.
(** ... and the address of 1 is the same before and after the second growing *)
Example ex_C67_rb_addresses :
  let t := (grown (rb_step N.compare) rb_grow (some_segs (take 1 ex_om_segs)) (rb_new 2 (0, 0))).2 in
  let g := grown (rb_step N.compare) rb_grow (some_segs (drop 1 ex_om_segs)) t in
  rb_get_addr N.compare t 1 = Val 2 ∧ Forall2 (λ s rs, never_removed N.compare 1 s.1 rs) (some_segs (drop 1 ex_om_segs)) g.1 ∧ rb_get_addr N.compare g.2 1 = Val 2.
Proof.
  intros t g. split; [by vm_compute|]. split; [|by vm_compute].
  assert (g.1 = drop 1 ex_om_answers) as -> by (by vm_compute). unfold ex_om_segs, ex_om_answers, some_segs. cbn [drop map fst snd].
  repeat apply Forall2_cons_2; [..|apply Forall2_nil_2]; cbn [fst]; (split; [intros k' Hin|intros kv Hin; cbn [zip zip_with] in Hin]);
    repeat (apply elem_of_cons in Hin as [Hin|Hin]; [first [done|injection Hin as ->; done]|]); by apply elem_of_nil in Hin.
Qed.
Example ex_C67_av :
  let p := λ a b, Some (N.compare a b) in
  N.of_nat 2 + added lengthN ex_om_segs + 1 < W32 ∧ Forall (λ s, Forall (blank 4) s.2) ex_om_segs ∧
  (grown (av_step p) av_grow ex_om_segs (av_new 2 (0, 0))).1 = ex_om_answers ∧ not_removed (po_cmp p) 1 (drop 1 ex_om_segs).
Proof.
  split; [done|]. split; [by repeat constructor|]. split; [by vm_compute|].
  intros s k' Hs Hr. unfold ex_om_segs in Hs. cbn [drop] in Hs.
  repeat (apply elem_of_cons in Hs as [->|Hs]; [cbn [fst] in Hr; repeat (apply elem_of_cons in Hr as [Hr|Hr]; [first [done|injection Hr as ->; done]|]); by apply elem_of_nil in Hr|]). by apply elem_of_nil in Hs.
Qed.
Example ex_C67_ht :
  let segs := [([HInsert 3 30; HInsert 1 10; HInsert 2 20], [ex_kv 7 7]); ([HInsert 2 20; HCapacity; HGet 3; HRemove 1; HIter 3%nat], [])] in
  N.of_nat 2 + added lengthN segs + 1 < W32 ∧ Forall (λ s, Forall (blank 4) s.2) segs ∧
  ∃ h0, ht_new 2 2 (0, 0) = Some h0 ∧
  (grown (ht_step N.eqb id) ht_grow segs h0).1 =
    [[Val (HBool true); Val (HBool true); Val (HBool false)]; [Val (HBool true); Val (HNum 3); Val (HVal (Some 30)); Val (HVal (Some 10)); Val (HList [Some (2, 20); Some (3, 30); None])]].
Proof. split; [done|]. split; [by repeat constructor|]. eexists. split; [done|]. by vm_compute. Qed.
Example ex_C67_cb :
  let segs := [([MInsert 3 30; MInsert 1 10], ([Node [0; 0; 0; 0] (CNode 5 5); Node [0; 0; 0; 0] (CNode 0 0)], [Node [0; 0; 0; 0] 7]));
               ([MInsert 1 10; MCapacity; MIter [Fwd; Fwd; Fwd]], ([], []))] in
  N.of_nat 2 + added more_nodes segs + 1 < W32 ∧ Forall (λ s, Forall u128_op s.1 ∧ cb_growth s.2) segs ∧ cb_room (N.of_nat 2) (N.of_nat 1) segs ∧
  ∃ t0 : critbit N, cb_new 2 1 0 = Some t0 ∧
  (grown cb_step cb_grow' segs t0).1 =
    [[Val (MBool true); Val (MBool false)]; [Val (MBool true); Val (MNum 2); Val (MList [Some (1, 10); Some (3, 30); None])]].
Proof. split; [done|]. split; [by repeat constructor|]. split; [by repeat constructor|]. eexists. split; [done|]. by vm_compute. Qed.

(** Bytes: a deque of u64 of capacity 1 in a buffer of 48 bytes that becomes one of 64 *)
Example ex_C67_bytes :
  let segs := [([(8, DPushBack (to_u64 5)); (16, DPushBack (to_u64 6))], 1); ([(8, DPushBack (to_u64 6)); (8, DLen)], 0)]%nat in
  (N.of_nat (final_size 1 segs) + 1 < W32)%N ∧ zero_ok c_u64t ∧ all_aligned (λ m, c_deque m c_u64t) segs ∧
  size_of (c_deque 1 c_u64t) = 48%nat ∧ size_of (c_deque 2 c_u64t) = 64%nat ∧
  (regrown (λ m, c_deque m c_u64t) dq_step 1 segs (c_enc (c_deque 1 c_u64t) (dq_new 1 (to_u64 0)))).1 =
    [[Val DUnit; Err Panic]; [Val DUnit; Val (DNum 2)]].
Proof.
  split; [done|]. split; [by vm_compute|]. split; [by repeat constructor|]. split; [done|]. split; [done|]. by vm_compute.
Qed.

(** ** Where it ends *)
(** The new nodes must have zero registers: with anything else in them (a buffer that was longer before, say) an emptied deque still shows an element *)
Theorem C67_dq_dirty_refuted : ∃ (P : Profile) (ex : list (node N)),
  let ops := [DPushBack 6; DPopFront; DPopFront; DFront] in
  (history dq_step ops (dq_grow ex (dq_after 1 0 [DPushBack 5]))).1 ≠ (spec_history (dq_spec 2) ops ([5], 1)).1 ∧ lengthN ex = 1.
Proof. exists ex_profile, [Node [0; 1] 0]. split; [by vm_compute|done]. Qed.
Print Assumptions C67_dq_dirty_refuted.
(** The node array of a Critbit does not lie last: a buffer that is made longer and then loaded with larger NUM_NODES does not hold the map *)
Theorem C67_cb_num_nodes_refuted : ∃ (P : Profile) t0 t1,
  let t := (history cb_step [MInsert 3 (to_u64 30)] t0).2 in
  cb_new 2 1 (to_u64 0) = Some t0 ∧ cb_get t 3 = Val (Some (to_u64 30)) ∧
  load (c_crit 16 4 1 c_u64t) 16 (realloc (size_of (c_crit 16 4 1 c_u64t)) (c_enc (c_crit 16 2 1 c_u64t) t)) = Val (Some t1) ∧
  cb_get t1 3 ≠ Val (Some (to_u64 30)).
Proof. exists ex_profile. eexists _, _. split; [done|]. split; [by vm_compute|]. split; [by vm_compute|]. by vm_compute. Qed.
Print Assumptions C67_cb_num_nodes_refuted.
