(** * C86: a detour leaves no trace *)
From Verif Require Import Spec RBMain AVLMain CritMain HashMain SlotRB UndoOrd UndoCrit UndoHash UndoDeque.

(** In each theorem the history [o1 ++ x ++ o2] is compared with [o1 ++ o2]: the answers to [o1] and to [o2] are the same ([put_in] puts the
    answers to [x] between them), every key has the same slot at the end, and the next new key will get the same slot. [o1] and [o2] are any
    calls of the trait (including [insert] and [remove]), so this holds after every prefix of [o2]. *)

(** A key that is not there is inserted and removed again; if the map is full the insertion is refused and the removal finds nothing *)
Theorem C86_rb_insert_remove `{Profile} {K V : Type} (cmp : K → K → comparison) (ms : nat) (d : K * V) (o1 o2 : list (om_op K V)) k v :
  OrdLaws cmp → (0 < ms)%nat → N.of_nat ms + 1 < W32 →
  let run o := history (rb_step cmp) (map Some o) (rb_new ms d) in
  rb_get cmp (run o1).2 k = Val None →
  let xs := if decide (rb_len (run o1).2 < N.of_nat ms) then [Val (MBool true); Val (MVal (Some v))] else [Val (MBool false); Val (MVal None)] in
  let r := run (o1 ++ o2) in let r' := run (o1 ++ [MInsert k v; MRemove k] ++ o2) in
  no_trace (length o1) xs (λ _, True) (rb_get_addr cmp) r r' ∧ free_list_head (rb_al r'.2) = free_list_head (rb_al r.2).
Proof. intros HO H0 Hw. exact (rb_undo_fact cmp ms d HO H0 Hw o1 o2 k v). Qed.
(** A pair that is there is removed and put back *)
Theorem C86_rb_remove_insert `{Profile} {K V : Type} (cmp : K → K → comparison) (ms : nat) (d : K * V) (o1 o2 : list (om_op K V)) k v i :
  OrdLaws cmp → (0 < ms)%nat → N.of_nat ms + 1 < W32 →
  let run o := history (rb_step cmp) (map Some o) (rb_new ms d) in
  rb_get_addr cmp (run o1).2 k = Val i → i ≠ SENTINEL → rb_get_node (run o1).2 i = Val (k, v) →
  let r := run (o1 ++ o2) in let r' := run (o1 ++ [MRemove k; MInsert k v] ++ o2) in
  no_trace (length o1) [Val (MVal (Some v)); Val (MBool true)] (λ _, True) (rb_get_addr cmp) r r' ∧
  free_list_head (rb_al r'.2) = free_list_head (rb_al r.2).
Proof. intros HO H0 Hw. exact (rb_redo_fact cmp ms d HO H0 Hw o1 o2 k v i). Qed.
Print Assumptions C86_rb_insert_remove.
Print Assumptions C86_rb_remove_insert.

Theorem C86_av_insert_remove `{Profile} {K V : Type} (pcmp : K → K → option comparison) (ms : nat) (d : K * V) (o1 o2 : list (om_op K V)) k v :
  OrdLaws (po_cmp pcmp) → (0 < ms)%nat → N.of_nat ms + 1 < W32 →
  let run o := history (av_step pcmp) o (av_new ms d) in
  av_get pcmp (run o1).2 k = Val None →
  let xs := if decide (av_len (run o1).2 < N.of_nat ms) then [Val (MBool true); Val (MVal (Some v))] else [Val (MBool false); Val (MVal None)] in
  let r := run (o1 ++ o2) in let r' := run (o1 ++ [MInsert k v; MRemove k] ++ o2) in
  no_trace (length o1) xs (λ _, True) (av_get_addr pcmp) r r' ∧ free_list_head (av_al r'.2) = free_list_head (av_al r.2).
Proof. intros HO H0 Hw. exact (av_undo_fact pcmp ms d HO H0 Hw o1 o2 k v). Qed.
Theorem C86_av_remove_insert `{Profile} {K V : Type} (pcmp : K → K → option comparison) (ms : nat) (d : K * V) (o1 o2 : list (om_op K V)) k v i :
  OrdLaws (po_cmp pcmp) → (0 < ms)%nat → N.of_nat ms + 1 < W32 →
  let run o := history (av_step pcmp) o (av_new ms d) in
  av_get_addr pcmp (run o1).2 k = Val i → i ≠ SENTINEL → av_get_node (run o1).2 i = Val (k, v) →
  let r := run (o1 ++ o2) in let r' := run (o1 ++ [MRemove k; MInsert k v] ++ o2) in
  no_trace (length o1) [Val (MVal (Some v)); Val (MBool true)] (λ _, True) (av_get_addr pcmp) r r' ∧
  free_list_head (av_al r'.2) = free_list_head (av_al r.2).
Proof. intros HO H0 Hw. exact (av_redo_fact pcmp ms d HO H0 Hw o1 o2 k v i). Qed.
Print Assumptions C86_av_insert_remove.
Print Assumptions C86_av_remove_insert.

(** For Critbit the slots are those of the values (those of the nodes do change, see below), for the keys that are there at the end *)
Theorem C86_cb_insert_remove `{Profile} {V : Type} (nn ms : nat) (d : V) (t0 : critbit V) (o1 o2 : list (om_op N V)) k v :
  (0 < ms)%nat → N.of_nat nn + 1 < W32 → cb_new nn ms d = Some t0 → Forall u128_op o1 → Forall u128_op o2 → k < W128 →
  let run o := history cb_step o t0 in
  cb_get (run o1).2 k = Val None →
  let xs := if decide (cb_len (run o1).2 < N.of_nat ms) then [Val (MBool true); Val (MVal (Some v))] else [Val (MBool false); Val (MVal None)] in
  let r := run (o1 ++ o2) in let r' := run (o1 ++ [MInsert k v; MRemove k] ++ o2) in
  no_trace (length o1) xs (λ k, k < W128 ∧ cb_contains r.2 k = Val true) cb_value_slot r r' ∧
  free_list_head (cb_leaves r'.2) = free_list_head (cb_leaves r.2).
Proof. intros H0 Hw Hnew. exact (cb_undo_fact nn ms d t0 H0 Hw Hnew o1 o2 k v). Qed.
Theorem C86_cb_remove_insert `{Profile} {V : Type} (nn ms : nat) (d : V) (t0 : critbit V) (o1 o2 : list (om_op N V)) k v :
  (0 < ms)%nat → N.of_nat nn + 1 < W32 → cb_new nn ms d = Some t0 → Forall u128_op o1 → Forall u128_op o2 → k < W128 →
  let run o := history cb_step o t0 in
  cb_get (run o1).2 k = Val (Some v) →
  let r := run (o1 ++ o2) in let r' := run (o1 ++ [MRemove k; MInsert k v] ++ o2) in
  no_trace (length o1) [Val (MVal (Some v)); Val (MBool true)] (λ k, k < W128 ∧ cb_contains r.2 k = Val true) cb_value_slot r r' ∧
  free_list_head (cb_leaves r'.2) = free_list_head (cb_leaves r.2).
Proof. intros H0 Hw Hnew. exact (cb_redo_fact nn ms d t0 H0 Hw Hnew o1 o2 k v). Qed.
Print Assumptions C86_cb_insert_remove.
Print Assumptions C86_cb_remove_insert.

(** For the hash table the order of iteration is the same too *)
Theorem C86_ht_insert_remove `{Profile} {K V : Type} (keq : K → K → bool) (hash : K → N) (nb ms : nat) (d : K * V) (h0 : htable K V)
    (o1 o2 : list (hm_op K V)) k v :
  HashLaws keq hash → ht_new nb ms d = Some h0 → (0 < nb)%nat → N.of_nat ms + 1 < W32 →
  let run o := history (ht_step keq hash) o h0 in
  ht_get keq hash (run o1).2 k = Val None →
  let xs := if decide (ht_len (run o1).2 < N.of_nat ms) then [Val (HBool true); Val (HVal (Some v))] else [Val (HBool false); Val (HVal None)] in
  let r := run (o1 ++ o2) in let r' := run (o1 ++ [HInsert k v; HRemove k] ++ o2) in
  no_trace (length o1) xs (λ _, True) (ht_get_addr keq hash) r r' ∧ free_list_head (ht_al r'.2) = free_list_head (ht_al r.2) ∧
  (∀ sc, ht_iterate r'.2 sc = ht_iterate r.2 sc).
Proof. intros HL Hnew Hnb Hw. exact (ht_undo_fact keq hash HL nb ms d h0 Hnew Hnb Hw o1 o2 k v). Qed.
Print Assumptions C86_ht_insert_remove.

(** The deque: a value pushed and popped at one end, or popped and pushed. An iterator gives the slots along with the values. *)
Theorem C86_dq_push_pop `{Profile} {T : Type} (ms : nat) (v0 : T) (o1 o2 : list (dq_op T)) v x :
  N.of_nat ms + 1 < W32 → (overflow_checks = true → lengthN o1 + lengthN o2 + 2 < W64) →
  let run o := history dq_step o (dq_new ms v0) in
  dq_len (run o1).2 < N.of_nat ms → x = [DPushFront v; DPopFront] ∨ x = [DPushBack v; DPopBack] →
  let r := run (o1 ++ o2) in let r' := run (o1 ++ x ++ o2) in
  no_trace (length o1) [Val DUnit; Val (DVal (Some v))] (λ _, True) (λ d sc, dq_iterate sc d) r r' ∧
  dq_head r'.2 = dq_head r.2 ∧ dq_tail r'.2 = dq_tail r.2 ∧ free_list_head (dq_al r'.2) = free_list_head (dq_al r.2) ∧ dq_len r'.2 = dq_len r.2.
Proof. intros Hw Hf run Hl Hx. exact (dq_undo_fact ms v0 Hw o1 o2 v x _ Hf Hl Hx eq_refl). Qed.
Theorem C86_dq_pop_push `{Profile} {T : Type} (ms : nat) (v0 : T) (o1 o2 : list (dq_op T)) v x :
  N.of_nat ms + 1 < W32 → (overflow_checks = true → lengthN o1 + lengthN o2 + 2 < W64) →
  let run o := history dq_step o (dq_new ms v0) in
  dq_front (run o1).2 = Val (Some v) ∧ x = [DPopFront; DPushFront v] ∨ dq_back (run o1).2 = Val (Some v) ∧ x = [DPopBack; DPushBack v] →
  let r := run (o1 ++ o2) in let r' := run (o1 ++ x ++ o2) in
  no_trace (length o1) [Val (DVal (Some v)); Val DUnit] (λ _, True) (λ d sc, dq_iterate sc d) r r' ∧
  dq_head r'.2 = dq_head r.2 ∧ dq_tail r'.2 = dq_tail r.2 ∧ free_list_head (dq_al r'.2) = free_list_head (dq_al r.2) ∧ dq_len r'.2 = dq_len r.2.
Proof. intros Hw Hf run Hx. exact (dq_redo_fact ms v0 Hw o1 o2 v x Hf Hx). Qed.
Print Assumptions C86_dq_push_pop.
Print Assumptions C86_dq_pop_push.

(** ** What does change *)
Local Instance ex_profile : Profile := {| overflow_checks := true |}.
Definition ex_o1 : list (om_op N N) := [MInsert 10 1; MInsert 20 2].
Definition ex_x : list (om_op N N) := [MInsert 25 3; MRemove 25].
(** The trees are left in another shape: the pair [remove_root] takes from the red-black tree is another one, and so is the root of the AVL tree *)
Theorem C86_rb_remove_root_refuted : ∃ (o1 x : list (om_op N N)) k v,
  let run o := history (rb_step N.compare) o (rb_new 4 (0, 0)) in
  x = [MInsert k v; MRemove k] ∧ rb_get N.compare (run (map Some o1)).2 k = Val None ∧
  last (run (map Some o1 ++ [None])).1 = Some (Val (MPair (Some (10, 1)))) ∧
  last (run (map Some o1 ++ map Some x ++ [None])).1 = Some (Val (MPair (Some (20, 2)))).
Proof. exists ex_o1, ex_x, 25, 3. by vm_compute. Qed.
Theorem C86_av_root_refuted : ∃ (o1 x : list (om_op N N)) k v,
  let pcmp := λ a b, Some (N.compare a b) in let run o := history (av_step pcmp) o (av_new 4 (0, 0)) in
  x = [MInsert k v; MRemove k] ∧ av_get pcmp (run o1).2 k = Val None ∧
  av_get_node (run o1).2 (av_root (run o1).2) = Val (10, 1) ∧ av_get_node (run (o1 ++ x)).2 (av_root (run (o1 ++ x)).2) = Val (20, 2).
Proof. exists ex_o1, ex_x, 25, 3. by vm_compute. Qed.
(** The address [insert] and [get_addr] speak of in Critbit is that of a node, and the free nodes come back in another order *)
Theorem C86_cb_addr_refuted : ∃ (t0 : critbit N) (o1 x o2 : list (om_op N N)) k v k',
  let run o := history cb_step o t0 in
  cb_new 20 8 0 = Some t0 ∧ x = [MInsert k v; MRemove k] ∧ cb_get (run o1).2 k = Val None ∧
  cb_get_addr (run (o1 ++ o2)).2 k' = Val 5 ∧ cb_get_addr (run (o1 ++ x ++ o2)).2 k' = Val 4.
Proof.
  eexists. exists [MInsert 4 4; MInsert 2 2], [MInsert 3 3; MRemove 3], [MInsert 5 5], 3, 3, 4. cbv zeta. split; [vm_compute; reflexivity|]. by vm_compute.
Qed.
(** A pair of the hash table removed and put back comes first in its chain *)
Theorem C86_ht_remove_insert_refuted : ∃ (h0 : htable N N) (o1 x : list (hm_op N N)) k v,
  let run o := history (ht_step N.eqb id) o h0 in
  ht_new 2 4 (0, 0) = Some h0 ∧ x = [HRemove k; HInsert k v] ∧ ht_get N.eqb id (run o1).2 k = Val (Some v) ∧
  ht_iterate (run o1).2 [Fwd; Fwd] = Val [Some (4, 40); Some (2, 20)] ∧
  ht_iterate (run (o1 ++ x)).2 [Fwd; Fwd] = Val [Some (2, 20); Some (4, 40)].
Proof.
  eexists. exists [HInsert 2 20; HInsert 4 40], [HRemove 2; HInsert 2 20], 2, 20. cbv zeta. split; [vm_compute; reflexivity|]. by vm_compute.
Qed.
(** The sequence number of the deque counts the detour; and on a full deque the push panics, so that the pop takes another value *)
Theorem C86_dq_seqno_refuted : ∃ (o1 x : list (dq_op N)),
  let run o := (history dq_step o (dq_new 2 0)).2 in
  x = [DPushBack 7; DPopBack] ∧ dq_seqno (run o1) = 1 ∧ dq_seqno (run (o1 ++ x)) = 3.
Proof. exists [DPushBack 5], [DPushBack 7; DPopBack]. by vm_compute. Qed.
Theorem C86_dq_full_refuted : ∃ (o1 x : list (dq_op N)),
  let run o := (history dq_step o (dq_new 2 0)).2 in
  x = [DPushBack 7; DPopBack] ∧ dq_len (run o1) = 2 ∧ dq_len (run (o1 ++ x)) = 1.
Proof. exists [DPushBack 5; DPushBack 6], [DPushBack 7; DPopBack]. by vm_compute. Qed.
Print Assumptions C86_rb_remove_root_refuted.
Print Assumptions C86_av_root_refuted.
Print Assumptions C86_cb_addr_refuted.
Print Assumptions C86_ht_remove_insert_refuted.
Print Assumptions C86_dq_seqno_refuted.
Print Assumptions C86_dq_full_refuted.

(** Concrete cases: the hypotheses hold and the calls of [o2] are not all lookups *)
Definition ex_o2 : list (om_op N N) := [MRemove 10; MInsert 30 5; MInsert 15 6; MLen; MIter [Fwd; Bwd; Fwd]].
Example ex_C86_rb :
  let run o := history (rb_step N.compare) (map Some o) (rb_new 4 (0, 0)) in
  rb_get N.compare (run ex_o1).2 25 = Val None ∧
  (run (ex_o1 ++ ex_x ++ ex_o2)).1 =
    [Val (MBool true); Val (MBool true); Val (MBool true); Val (MVal (Some 3)); Val (MVal (Some 1)); Val (MBool true); Val (MBool true);
     Val (MNum 3); Val (MList [Some (15, 6); Some (30, 5); Some (20, 2)])] ∧
  map (rb_get_addr N.compare (run (ex_o1 ++ ex_x ++ ex_o2)).2) [15; 20; 30] = [Val 3; Val 2; Val 1] ∧
  map (rb_get_addr N.compare (run (ex_o1 ++ ex_o2)).2) [15; 20; 30] = [Val 3; Val 2; Val 1].
Proof. by vm_compute. Qed.
Example ex_C86_av :
  let pcmp := λ a b, Some (N.compare a b) in let run o := history (av_step pcmp) o (av_new 4 (0, 0)) in
  av_get pcmp (run ex_o1).2 25 = Val None ∧ av_get_addr pcmp (run ex_o1).2 20 = Val 2 ∧ av_get_node (run ex_o1).2 2 = Val (20, 2) ∧
  map (av_get_addr pcmp (run (ex_o1 ++ [MRemove 20; MInsert 20 2] ++ ex_o2)).2) [15; 20; 30] = [Val 3; Val 2; Val 1].
Proof. by vm_compute. Qed.
Example ex_C86_cb :
  ∃ t, let run o := history cb_step o t in
  cb_new 20 8 0 = Some t ∧ Forall u128_op (ex_o1 ++ ex_o2) ∧ cb_get (run ex_o1).2 25 = Val None ∧ cb_get (run ex_o1).2 20 = Val (Some 2) ∧
  cb_contains (run (ex_o1 ++ ex_o2)).2 30 = Val true ∧ map (cb_value_slot (run (ex_o1 ++ ex_x ++ ex_o2)).2) [15; 20; 30] = [Val 3; Val 2; Val 1].
Proof. eexists. cbv zeta. split; [vm_compute; reflexivity|]. split; [repeat constructor|]. by vm_compute. Qed.
Example ex_C86_ht :
  ∃ h, let run o := history (ht_step N.eqb id) o h in
  let o1 := [HInsert 2 20; HInsert 4 40] in let o2 := [HRemove 2; HInsert 8 80] in
  ht_new 2 4 (0, 0) = Some h ∧ ht_get N.eqb id (run o1).2 6 = Val None ∧
  ht_iterate (run (o1 ++ [HInsert 6 60; HRemove 6] ++ o2)).2 [Fwd; Fwd] = Val [Some (8, 80); Some (4, 40)] ∧
  map (ht_get_addr N.eqb id (run (o1 ++ [HInsert 6 60; HRemove 6] ++ o2)).2) [8; 4] = [Val 1; Val 2].
Proof. eexists. cbv zeta. split; [vm_compute; reflexivity|]. by vm_compute. Qed.
Example ex_C86_dq :
  let run o := history dq_step o (dq_new 4 0) in let o1 := [DPushBack 5; DPushBack 6] in let o2 := [DPopFront; DPushFront 9; DPushBack 8] in
  dq_len (run o1).2 = 2 ∧ dq_front (run o1).2 = Val (Some 5) ∧
  dq_iterate [Fwd; Fwd; Fwd] (run (o1 ++ [DPushFront 7; DPopFront] ++ o2)).2 = Val [Some (1, 9); Some (2, 6); Some (3, 8)] ∧
  dq_iterate [Fwd; Fwd; Fwd] (run (o1 ++ o2)).2 = Val [Some (1, 9); Some (2, 6); Some (3, 8)].
Proof. by vm_compute. Qed.
