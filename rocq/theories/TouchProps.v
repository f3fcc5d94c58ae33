(** * C75: how much of the memory an operation writes

    [few n a a'] (TouchSpec.v): at most [n] slots of the node array of [a'] hold other registers or another value than in [a]. [after m s] is the state
    after the call [m], whether it returned or panicked. *)
From Verif Require Import Spec RBMain HashMain AVLMain CritMain RBProps HashProps AVLProps DequeProps FuzzProof CostModel CostProps.
From Verif Require Import BytesMain BytesProps LayoutSpec LayoutProps TouchSpec TouchProof TouchRB TouchAv TouchHt TouchCb TouchBytes.

Section dq.
  Context `{Profile} {T : Type}.
  (** Deque, in any state: [push_back] writes the first free slot and the slot of the last element, [push_front] the first free slot and that of the first *)
  Theorem C75_dq_push (d : deque T) v : lengthN (nodes (dq_al d)) < W32 →
    same_but [free_list_head (dq_al d); dq_tail d] (dq_al d) (dq_al (after (dq_push_back v) d)) ∧
    same_but [free_list_head (dq_al d); dq_head d] (dq_al d) (dq_al (after (dq_push_front v) d)).
  Proof. intros Hl. split; [exact (dq_push_slots false v d Hl)|exact (dq_push_slots true v d Hl)]. Qed.
  (** [remove], also as [pop_front] and [pop_back]: the slot itself and its two neighbours *)
  Theorem C75_dq_remove (d : deque T) i l r : lengthN (nodes (dq_al d)) < W32 → dq_get_prev d i = Val l → dq_get_next d i = Val r →
    let touched m := same_but [i; l; r] (dq_al d) (dq_al (after m d)) in
    touched (dq_remove i) ∧ (i = dq_head d → touched dq_pop_front) ∧ (i = dq_tail d → touched dq_pop_back).
  Proof.
    intros Hl Hp Hn touched. pose proof (dq_remove_slots i l r d Hl Hp Hn) as H1. split; [exact H1|]. split; intros ->; unfold touched.
    - unfold dq_pop_front. rewrite after_bind. unfold mget at 1. destruct (decide _); [done|exact H1].
    - unfold dq_pop_back. rewrite after_bind. unfold mget at 1. destruct (decide _); [done|exact H1].
  Qed.
End dq.
Print Assumptions C75_dq_push.
Print Assumptions C75_dq_remove.

(** HashTable, in any state: at most 2 slots for [insert], 3 for [remove], 4 for [get_mut] (which moves the entry to the front of its chain), and no bucket
    but that of the key *)
Theorem C75_ht `{Profile} {K V : Type} (keq : K → K → bool) (hash : K → N) (h : htable K V) k :
  let bucket := hash k mod lengthN (buckets h) in
  let same_buckets h' := length (buckets h') = length (buckets h) ∧ ∀ j, N.of_nat j ≠ bucket → buckets h' !! j = buckets h !! j in
  (∀ v, let h' := after (ht_insert keq hash k v) h in few 2 (ht_al h) (ht_al h') ∧ same_buckets h') ∧
  (let h' := after (ht_remove keq hash k) h in few 3 (ht_al h) (ht_al h') ∧ same_buckets h') ∧
  (∀ f, let h' := after (ht_get_mut keq hash k f) h in few 4 (ht_al h) (ht_al h') ∧ same_buckets h').
Proof.
  cbv zeta. split_and!.
  - intros v. split; [apply tp_few, tp_ht_insert|apply bk_insert].
  - apply tp_few, tp_ht_remove.
  - apply bk_remove.
  - apply bk_remove.
  - intros f. split; [apply tp_few, tp_ht_get_mut|apply bk_get_mut].
Qed.
Print Assumptions C75_ht.

(** Critbit, in any state: at most 5 nodes for [insert], 6 for [remove], none for [get_mut]; at most one leaf each *)
Theorem C75_cb `{Profile} {V : Type} (t : critbit V) k :
  let touched n t' := few n (cb_nodes t) (cb_nodes t') ∧ few 1 (cb_leaves t) (cb_leaves t') in
  (∀ v, touched 5%nat (after (cb_insert k v) t)) ∧ touched 6%nat (after (cb_remove k) t) ∧ (∀ f, touched 0%nat (after (cb_get_mut k f) t)).
Proof.
  cbv zeta. split_and!.
  - intros v. split; [apply tp_few, tpn_insert|apply tp_few, tpl_insert].
  - apply tp_few, tpn_remove.
  - apply tp_few, tpl_remove.
  - intros f. split; [apply tp_few, tpn_get_mut|apply tp_few, tpl_get_mut].
Qed.
Print Assumptions C75_cb.

Section rb.
  Context `{Profile} {K V : Type} (cmp : K → K → comparison) (HO : OrdLaws cmp) (ms : nat) (d : K * V).
  Context (H0 : (0 < ms)%nat) (Hw : N.of_nat ms + 1 < W32).
  (** RedBlackTree, with (len + 1)² < 2ⁿ: at most 9n + 3 slots for [insert], 15n + 8 for [remove] and [remove_root], whatever the capacity *)
  Theorem C75_rb (o : list (option (om_op K V))) n :
    let t := rb_after cmp ms d o in
    (rb_len t + 1) ^ 2 < 2 ^ N.of_nat n →
    (∀ k v, few (9 * n + 3) (rb_al t) (rb_al (after (rb_insert cmp k v) t))) ∧
    (∀ k, few (15 * n + 8) (rb_al t) (rb_al (after (rb_remove cmp k) t))) ∧
    few (15 * n + 8) (rb_al t) (rb_al (after rb_remove_root t)) ∧
    (∀ k f, few 1 (rb_al t) (rb_al (after (rb_get_mut cmp k f) t))).
  Proof using HO H0 Hw.
    intros t Hn. destruct (C58_rb_rounds cmp HO ms d H0 Hw o n Hn) as (Hi & Hr & Hroot & _). fold t in Hi, Hr, Hroot.
    split_and!.
    - intros k v. unfold after. rewrite <- Hi. apply tp_few, tp_rbn_insert.
    - intros k. unfold after. rewrite <- Hr. apply tp_few, tp_rbn_remove.
    - unfold after. rewrite <- Hroot. apply tp_few, tp_rbn_remove_root.
    - intros k f. apply tp_few, tp_rb_get_mut.
  Qed.
End rb.
Print Assumptions C75_rb.

Section av.
  Context `{Profile} {K V : Type} (pcmp : K → K → option comparison) (HO : OrdLaws (po_cmp pcmp)) (ms : nat) (d : K * V).
  Context (H0 : (0 < ms)%nat) (Hw : N.of_nat ms + 1 < W32).
  (** AVLTree, with (len + 1)² < 2ⁿ: at most 5n + 2 slots for [insert], 5n + 4 for [remove] *)
  Theorem C75_av (o : list (om_op K V)) n :
    let t := av_after pcmp ms d o in
    (av_len t + 1) ^ 2 < 2 ^ N.of_nat n →
    (∀ k v, few (5 * n + 2) (av_al t) (av_al (after (av_insert pcmp k v) t))) ∧
    (∀ k, few (5 * n + 4) (av_al t) (av_al (after (av_remove pcmp k) t))) ∧
    (∀ k f, few 1 (av_al t) (av_al (after (av_get_mut pcmp k f) t))).
  Proof using HO H0 Hw.
    intros t Hn. destruct (C58_av_rounds pcmp ms d o n HO H0 Hw Hn) as (Hi & Hr & _). fold t in Hi, Hr.
    split_and!.
    - intros k v. unfold after. rewrite <- Hi. apply tp_few, tp_avn_insert.
    - intros k. unfold after. rewrite <- Hr. apply tp_few, tp_avn_remove.
    - intros k f. apply tp_few, tp_av_get_mut.
  Qed.
End av.
Print Assumptions C75_av.

(** The same in bytes of the buffer the tree lives in, for keys and values laid out without gaps: a head of 32 (24) bytes and the slots *)
Section bytes.
  Context `{Profile} {K V : Type} (ck : codec K) (cv : codec V) (Hk : elt_ok ck) (Hv : elt_ok cv).
  Context (Lk : lay_ok (c_lay ck)) (Lv : lay_ok (c_lay cv)) (Hf : alloc_fits 4 (c_lay (c_pair ck cv))) (Ht : tight_pair ck cv).
  Context (ms : nat) (H0 : (0 < ms)%nat) (Hw : N.of_nat ms + 1 < W32) (d : K * V).
  Theorem C75_rb_bytes cmp (o : list (option (om_op K V))) n : OrdLaws cmp →
    let t := rb_after cmp ms d o in let buf := c_enc (c_rb ms ck cv) in let entry := (16 + (size_of ck + size_of cv))%nat in
    (rb_len t + 1) ^ 2 < 2 ^ N.of_nat n →
    (∀ k v, few_bytes (32 + (9 * n + 3) * entry) (buf t) (buf (after (rb_insert cmp k v) t))) ∧
    (∀ k, few_bytes (32 + (15 * n + 8) * entry) (buf t) (buf (after (rb_remove cmp k) t))).
  Proof using All.
    intros HO t buf entry Hn. destruct (C75_rb cmp HO ms d H0 Hw o n Hn) as (Hi & Hr & _).
    assert (∀ k v, after (rb_insert cmp k v) t = rb_after cmp ms d (o ++ [Some (MInsert k v)])) as E1.
    { intros k v. unfold rb_after. rewrite history_snoc'. unfold after, call. cbn. unfold mbind, M_bind. change ((history _ o _).2) with t.
      by destruct (rb_insert cmp k v t). }
    assert (∀ k, after (rb_remove cmp k) t = rb_after cmp ms d (o ++ [Some (MRemove k)])) as E2.
    { intros k. unfold rb_after. rewrite history_snoc'. unfold after, call. cbn. unfold mbind, M_bind. change ((history _ o _).2) with t.
      by destruct (rb_remove cmp k t). }
    split.
    - intros k v. specialize (Hi k v). unfold buf, entry, t in *. rewrite E1 in *. by apply (rb_bytes ck cv Hk Hv Lk Lv Hf Ht ms Hw d).
    - intros k. specialize (Hr k). unfold buf, entry, t in *. rewrite E2 in *. by apply (rb_bytes ck cv Hk Hv Lk Lv Hf Ht ms Hw d).
  Qed.
  Theorem C75_av_bytes pcmp (o : list (om_op K V)) n : OrdLaws (po_cmp pcmp) → (align_of ck ≤ 8)%nat → (align_of cv ≤ 8)%nat →
    let t := av_after pcmp ms d o in let buf := c_enc (c_avl ms ck cv) in let entry := (16 + (size_of ck + size_of cv))%nat in
    (av_len t + 1) ^ 2 < 2 ^ N.of_nat n →
    (∀ k v, few_bytes (24 + (5 * n + 2) * entry) (buf t) (buf (after (av_insert pcmp k v) t))) ∧
    (∀ k, few_bytes (24 + (5 * n + 4) * entry) (buf t) (buf (after (av_remove pcmp k) t))).
  Proof using All.
    intros HO Ak Av t buf entry Hn. destruct (C75_av pcmp HO ms d H0 Hw o n Hn) as (Hi & Hr & _).
    assert (∀ k v, after (av_insert pcmp k v) t = av_after pcmp ms d (o ++ [MInsert k v])) as E1.
    { intros k v. unfold av_after. rewrite history_snoc'. change ((history _ o _).2) with t. unfold after, call, av_step. cbn. unfold mbind, M_bind.
      by destruct (av_insert pcmp k v t). }
    assert (∀ k, after (av_remove pcmp k) t = av_after pcmp ms d (o ++ [MRemove k])) as E2.
    { intros k. unfold av_after. rewrite history_snoc'. change ((history _ o _).2) with t. unfold after, call, av_step. cbn. unfold mbind, M_bind.
      by destruct (av_remove pcmp k t). }
    split.
    - intros k v. specialize (Hi k v). unfold buf, entry, t in *. rewrite E1 in *. by apply (av_bytes ck cv Hk Hv Lk Lv Hf Ht ms Hw d).
    - intros k. specialize (Hr k). unfold buf, entry, t in *. rewrite E2 in *. by apply (av_bytes ck cv Hk Hv Lk Lv Hf Ht ms Hw d).
  Qed.
End bytes.
Print Assumptions C75_rb_bytes.
Print Assumptions C75_av_bytes.

(** ** Cases: the slots that really change *)
Local Instance ex_profile : Profile := {| overflow_checks := true |}.
Definition changed {T} (eqb : T → T → bool) (a a' : alloc T) : list N :=
  let same (n n' : node T) := forallb (λ x, x.1 =? x.2) (zip (regs n) (regs n')) && eqb (val n) (val n') in
  (λ x, N.of_nat x.1 + 1) <$> filter (λ x, negb (same x.2.1 x.2.2)) (zip (seq 0 (length (nodes a))) (zip (nodes a) (nodes a'))).
Definition kv_eqb (x y : N * N) : bool := (x.1 =? y.1) && (x.2 =? y.2).
Example ex_C75_dq :
  let d := dq_after 8 0 [DPushBack 1; DPushBack 2; DPushBack 3; DPushBack 4; DPushBack 5] in
  (free_list_head (dq_al d), dq_head d, dq_tail d) = (6, 1, 5) ∧
  changed N.eqb (dq_al d) (dq_al (after (dq_push_back 7) d)) = [5; 6] ∧ changed N.eqb (dq_al d) (dq_al (after (dq_push_front 7) d)) = [1; 6] ∧
  (dq_get_prev d 3, dq_get_next d 3) = (Val 2, Val 4) ∧ changed N.eqb (dq_al d) (dq_al (after (dq_remove 3) d)) = [2; 3; 4].
Proof. by vm_compute. Qed.
(** two buckets, the keys 2, 4, 6, 8 in one chain (slots 1 to 4, the last inserted first): moving 4 to the front changes all four *)
Example ex_C75_ht :
  match ht_new 2 8 (0, 0) with
  | Some h0 =>
      let h := ht_after N.eqb (λ k, k) h0 ((λ k, HInsert k (10 * k)) <$> [2; 4; 6; 8; 1; 3]) in let slots m := changed kv_eqb (ht_al h) (ht_al (after m h)) in
      buckets h = [4; 6] ∧ slots (ht_insert N.eqb (λ k, k) 10 0) = [4; 7] ∧ slots (ht_insert N.eqb (λ k, k) 4 0) = [2] ∧
      slots (ht_remove N.eqb (λ k, k) 4) = [1; 2; 3] ∧ slots (ht_get_mut N.eqb (λ k, k) 4 (λ _, 7)) = [1; 2; 3; 4] ∧
      buckets (after (ht_get_mut N.eqb (λ k, k) 4 (λ _, 7)) h) = [2; 6]
  | None => False
  end.
Proof. by vm_compute. Qed.
Example ex_C75_cb :
  let cn_eqb (x y : cnode) := (cn_key x =? cn_key y) && (cn_prefix_len x =? cn_prefix_len y) in
  match cb_new 20 10 0 with
  | Some t0 =>
      let t := (history cb_step ((λ k, MInsert k (10 * k)) <$> [1; 2; 4; 8; 5; 6; 12]) t0).2 in
      let slots t' := (changed cn_eqb (cb_nodes t) (cb_nodes t'), changed N.eqb (cb_leaves t) (cb_leaves t')) in
      slots (after (cb_insert 7 30) t) = ([10; 14; 15], [8]) ∧ slots (after (cb_remove 6) t) = ([4; 8; 9; 10; 11], [6]) ∧
      slots (after (cb_get_mut 6 (λ _, 30)) t) = ([], [6])
  | None => False
  end.
Proof. by vm_compute. Qed.
(** 29 entries, 30² < 2¹⁰: at most 93 of the slots, and ten do change *)
Definition ex_29 : list N := [1; 2; 3; 4; 5; 6; 7; 8; 9; 10; 11; 12; 13; 14; 15; 16; 17; 18; 19; 20; 21; 22; 23; 24; 25; 26; 27; 28; 29].
Example ex_C75_rb :
  let t := rb_after N.compare 40 (0, 0) ((λ k, Some (MInsert k (10 * k))) <$> ex_29) in let slots m := changed kv_eqb (rb_al t) (rb_al (after m t)) in
  OrdLaws N.compare ∧ (rb_len t + 1) ^ 2 < 2 ^ N.of_nat 10 ∧ slots (rb_insert N.compare 30 0) = [12; 16; 20; 22; 24; 26; 27; 28; 29; 30] ∧
  slots (rb_remove N.compare 4) = [1; 2; 3; 4; 6; 8; 12; 16; 20] ∧ slots (rb_get_mut N.compare 5 (λ _, 7)) = [5].
Proof. cbv zeta. split_and!; [apply N_laws|by vm_compute..]. Qed.
Example ex_C75_av :
  let pcmp a b := Some (N.compare a b) in
  let t := av_after pcmp 40 (0, 0) ((λ k, MInsert k (10 * k)) <$> ex_29) in let slots m := changed kv_eqb (av_al t) (av_al (after m t)) in
  (av_len t + 1) ^ 2 < 2 ^ N.of_nat 10 ∧ slots (av_insert pcmp 30 0) = [24; 26; 28; 29; 30] ∧
  slots (av_remove pcmp 8) = [8; 9; 10; 16] ∧ slots (av_get_mut pcmp 8 (λ _, 5)) = [8].
Proof. by vm_compute. Qed.
(** u64 keys and values meet the layout conditions of C75_rb_bytes. Next to 29 entries an insertion changes at most 3008 bytes of the 32800 of a tree with
    1024 slots, or of those of any larger tree *)
Example ex_C75_bytes : lay_ok (c_lay c_u64t) ∧ alloc_fits 4 (c_lay (c_pair c_u64t c_u64t)) ∧ tight_pair c_u64t c_u64t ∧
  N.of_nat (size_of (c_rb 1024 c_u64t c_u64t)) = 32800 ∧ N.of_nat (32 + (9 * 10 + 3) * (16 + (size_of c_u64t + size_of c_u64t))) = 3008.
Proof. destruct ex_C68_hyps as (_ & ? & _ & _ & ? & ? & _). split_and!; [done..|by vm_compute|by vm_compute]. Qed.
