(** * C61: which slot holds what, and what is left in the slots not in use *)
From Verif Require Import Spec RBMain AVLMain CritMain HashMain RBProps AVLProps SlotProof SlotRB SlotAVL SlotHash SlotCrit SlotDeque.

(** In each theorem [ls] is the contents after the first call, the second, ... of the history [o]; there is such a list (for the map with
    an order on its keys only one). The machine of SlotSpec.v run on [ls] gives the slot of every key, the pair left in each free slot, the
    order in which the free slots will be used again, and the lowest slot never used, which is 1 + the most entries there have been. *)
Theorem C61_rb_slots `{Profile} {K V : Type} (cmp : K → K → comparison) (ms : nat) (d : K * V) (o : list (option (om_op K V))) :
  OrdLaws cmp → (0 < ms)%nat → N.of_nat ms + 1 < W32 →
  (∃ ls, trace (rb_holds cmp ms d) o ls) ∧
  ∀ ls, trace (rb_holds cmp ms d) o ls →
    let m := slots_after (cmp_same cmp) ls in let t := rb_after cmp ms d o in
    (∀ k, rb_get_addr cmp t k = Val (slot_of (cmp_same cmp) k m)) ∧
    (∀ kv, kv ∈ List.last ls [] → rb_get_node t (slot_of (cmp_same cmp) kv.1 m) = Val kv) ∧
    unused (rb_al t) 4 d (sl_left m) (sl_next m) ∧ sl_next m = 1 + peak ls.
Proof.
  intros HO H0 Hw. split; [apply trace_exists; intros o'; destruct (rb_reach cmp HO ms d o' H0 Hw) as (U & l & Hl & _); by exists l|].
  exact (rb_follow cmp HO ms d H0 Hw o).
Qed.
Print Assumptions C61_rb_slots.

Theorem C61_av_slots `{Profile} {K V : Type} (pcmp : K → K → option comparison) (ms : nat) (d : K * V) (o : list (om_op K V)) :
  OrdLaws (po_cmp pcmp) → (0 < ms)%nat → N.of_nat ms + 1 < W32 →
  (∃ ls, trace (λ o l, l = av_contents pcmp ms o) o ls) ∧
  ∀ ls, trace (λ o l, l = av_contents pcmp ms o) o ls →
    let m := slots_after (cmp_same (po_cmp pcmp)) ls in let t := av_after pcmp ms d o in
    (∀ k, av_get_addr pcmp t k = Val (slot_of (cmp_same (po_cmp pcmp)) k m)) ∧
    (∀ kv, kv ∈ List.last ls [] → av_get_node t (slot_of (cmp_same (po_cmp pcmp)) kv.1 m) = Val kv) ∧
    unused (av_al t) 4 d (sl_left m) (sl_next m) ∧ sl_next m = 1 + peak ls.
Proof. intros HO H0 Hw. split; [apply trace_exists; eauto|]. exact (av_follow pcmp HO ms d H0 Hw o). Qed.
Print Assumptions C61_av_slots.

Theorem C61_ht_slots `{Profile} {K V : Type} (keq : K → K → bool) (hash : K → N) (nb ms : nat) (d : K * V) (h0 : htable K V) (o : list (hm_op K V)) :
  HashLaws keq hash → ht_new nb ms d = Some h0 → (0 < nb)%nat → N.of_nat ms + 1 < W32 →
  (∃ ls, trace (ht_holds keq hash ms h0) o ls) ∧
  ∀ ls, trace (ht_holds keq hash ms h0) o ls →
    let m := slots_after keq ls in let t := ht_after keq hash h0 o in
    (∀ k, ht_get_addr keq hash t k = Val (slot_of keq k m)) ∧
    (∀ kv, kv ∈ List.last ls [] → ht_get_node t (slot_of keq kv.1 m) = Val kv) ∧
    unused (ht_al t) 4 d (sl_left m) (sl_next m) ∧ sl_next m = 1 + peak ls.
Proof.
  intros HL Hnew Hnb Hw.
  split; [apply trace_exists; intros o'; destruct (ht_is_map_fact keq hash HL nb ms d h0 Hnew Hnb Hw o') as (l & Hl & _); by exists l|].
  exact (ht_follow keq hash HL nb ms d h0 Hnew Hnb Hw o).
Qed.
Print Assumptions C61_ht_slots.

(** For Critbit the slots are those of the array of values; [cb_value_slot]: the slot its leaf of the key points to *)
Theorem C61_cb_slots `{Profile} {V : Type} (nn ms : nat) (d : V) (t0 : critbit V) (o : list (om_op N V)) :
  (0 < ms)%nat → N.of_nat nn + 1 < W32 → cb_new nn ms d = Some t0 → Forall u128_op o →
  (∃ ls, trace (λ o l, l = cb_contents ms o) o ls) ∧
  ∀ ls, trace (λ o l, l = cb_contents ms o) o ls →
    let m := slots_after N.eqb ls in let t := (history cb_step o t0).2 in
    (∀ kv, kv ∈ List.last ls [] →
       cb_value_slot t kv.1 = Val (slot_of N.eqb kv.1 m) ∧ cb_get_leaf t (slot_of N.eqb kv.1 m) = Val kv.2) ∧
    unused (cb_leaves t) 4 d (map (λ e, (e.1, e.2.2)) (sl_left m)) (sl_next m) ∧ sl_next m = 1 + peak ls.
Proof.
  intros H0 Hw Hnew Hu. split; [apply trace_exists; eauto|]. intros ls. exact (cb_follow nn ms d t0 H0 Hw Hnew o ls Hu).
Qed.
Print Assumptions C61_cb_slots.

(** The deque: the slots linked in the order of the sequence, and the same about those not in use *)
Theorem C61_dq_slots `{Profile} {T : Type} (ms : nat) (v0 : T) (o : list (dq_op T)) :
  N.of_nat ms + 1 < W32 → (overflow_checks = true → lengthN o < W64) →
  let cap := N.of_nat ms in let m := dslots_after cap o in let d := (history dq_step o (dq_new ms v0)).2 in
  (ds_used m).*2 = (spec_history (dq_spec cap) o ([], 0)).2.1 ∧
  dq_head d = top_of SENTINEL (ds_used m) ∧ dq_tail d = top_of SENTINEL (reverse (ds_used m)) ∧
  (∀ pre i v post, ds_used m = pre ++ (i, v) :: post →
     na_get (dq_al d) i = Val (Node [top_of SENTINEL (reverse pre); top_of SENTINEL post] v)) ∧
  unused (dq_al d) 2 v0 (ds_left m) (ds_next m) ∧
  ∀ ls, trace (λ o l, l = (spec_history (dq_spec cap) o ([], 0)).2.1) o ls → ds_next m = 1 + peak ls.
Proof.
  intros Hw Hf cap m d. destruct (dq_follow ms v0 Hw o Hf) as (H1 & H2 & H3 & H4).
  split_and!; [apply dslots_values|done..|]. intros ls Htr. by apply (dslots_next cap o ls).
Qed.
(** ... and for a value taken out of the middle by its slot *)
Theorem C61_dq_remove_slot `{Profile} {T : Type} (ms : nat) (v0 : T) (o : list (dq_op T)) pre i v post :
  N.of_nat ms + 1 < W32 → (overflow_checks = true → lengthN o + 1 < W64) →
  let m := dslots_after (N.of_nat ms) o in let d := (call (dq_remove i) (history dq_step o (dq_new ms v0)).2).2 in
  ds_used m = pre ++ (i, v) :: post →
  dq_head d = top_of SENTINEL (pre ++ post) ∧ dq_tail d = top_of SENTINEL (reverse (pre ++ post)) ∧
  unused (dq_al d) 2 v0 ((i, v) :: ds_left m) (ds_next m).
Proof. intros Hw Hf m d Hu. exact (dq_remove_follow ms v0 Hw o pre i v post Hf Hu). Qed.
Print Assumptions C61_dq_slots.
Print Assumptions C61_dq_remove_slot.

(** So the two balanced trees give every key the same slot, whatever the calls *)
Theorem C61_rb_av_same_slots `{Profile} {K V : Type} (pcmp : K → K → option comparison) (ms : nat) (d : K * V) (o : list (om_op K V)) :
  OrdLaws (po_cmp pcmp) → (0 < ms)%nat → N.of_nat ms + 1 < W32 →
  ∀ k, rb_get_addr (po_cmp pcmp) (rb_after (po_cmp pcmp) ms d (map Some o)) k = av_get_addr pcmp (av_after pcmp ms d o) k.
Proof.
  intros HO H0 Hw k. destruct (trace_exists (λ o l, l = av_contents pcmp ms o) ltac:(eauto) o) as (ls & Htr).
  destruct (av_follow pcmp HO ms d H0 Hw o ls Htr) as (-> & _).
  refine (proj1 (rb_follow _ HO ms d H0 Hw (map Some o) ls _) k). destruct Htr as [Hl Ht]. split; [by rewrite map_length|].
  intros n l Hn. rewrite (Ht n l Hn), firstn_map.
  destruct (rb_reach _ HO ms d (map Some (take (S n) o)) H0 Hw) as (U & l' & Hl' & _). unfold rb_holds in *. apply om_run_ops in Hl'.
  apply om_run_ops. rewrite Hl'. unfold av_contents. by rewrite Hl'.
Qed.
Print Assumptions C61_rb_av_same_slots.

(** Concrete case: 3 entries, one taken away, another put in its slot; the slots given back hold the old pairs *)
Local Instance ex_profile : Profile := {| overflow_checks := true |}.
Definition ex_o : list (om_op N N) := [MInsert 5 50; MInsert 2 20; MInsert 9 90; MRemove 2; MInsert 7 70; MRemove 9; MRemove 5].
Definition ex_ls : list (list (N * N)) :=
  [[(5, 50)]; [(2, 20); (5, 50)]; [(2, 20); (5, 50); (9, 90)]; [(5, 50); (9, 90)]; [(5, 50); (7, 70); (9, 90)]; [(5, 50); (7, 70)]; [(7, 70)]].
Example ex_C61 :
  trace (λ o l, l = av_contents (λ a b, Some (N.compare a b)) 4 o) ex_o ex_ls ∧
  slots_after N.eqb ex_ls = Slots [(7, 2)] [(1, (5, 50)); (3, (9, 90))] 4 ∧
  let t := av_after (λ a b, Some (N.compare a b)) 4 (0, 0) ex_o in
  av_get_addr (λ a b, Some (N.compare a b)) t 7 = Val 2 ∧ na_get (av_al t) 1 = Val (Node [3; 0; 0; 0] (5, 50)) ∧
  na_get (av_al t) 3 = Val (Node [4; 0; 0; 0] (9, 90)) ∧ na_get (av_al t) 4 = Val (Node [0; 0; 0; 0] (0, 0)).
Proof.
  split; [|by vm_compute]. split; [done|]. intros n l Hn. do 7 (destruct n as [|n]; [simpl in Hn; simplify_eq; by vm_compute|]). done.
Qed.
Example ex_C61_dq :
  let o := [DPushBack 1; DPushFront 2; DPushBack 3; DPopFront; DPushFront 4] in
  dslots_after 4 o = DSlots [(2, 4); (1, 1); (3, 3)] [] 4 ∧ let d := (history dq_step o (dq_new 4 0)).2 in dq_head d = 2 ∧ dq_tail d = 3.
Proof. by vm_compute. Qed.
