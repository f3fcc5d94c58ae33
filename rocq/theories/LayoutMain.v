(** * The byte format: where the entries lie *)
From Verif Require Import Spec RBMain AVLMain CritMain HashMain RBProps AVLProps SlotProof SlotRB SlotAVL SlotHash SlotCrit SlotDeque.
From Verif Require Import BytesMain LayoutSpec LayoutProof.
Local Open Scope nat_scope.

Lemma trace_ending {O A} (holds : list O → list A → Prop) o l :
  (∀ o, ∃ l, holds o l) → holds o l → (holds [] l → l = []) → ∃ ls, trace holds o ls ∧ List.last ls [] = l.
Proof.
  intros Hh Hl Hn. destruct (decide (o = [])) as [->|Ho]; [exists []; split; [done|by rewrite Hn]|].
  destruct (exists_last Ho) as (o' & x & ->). destruct (trace_exists holds Hh o') as (ls & Hlen & Ht).
  exists (ls ++ [l]). split; [|apply last_last]. split; [rewrite !app_length; simpl; lia|].
  intros n l' Hl'. apply lookup_app_Some in Hl' as [Hl'|[Hn' Hl']].
  - pose proof (lookup_lt_Some _ _ _ Hl') as Hlt. rewrite take_app_le by lia. by apply Ht.
  - apply list_lookup_singleton_Some in Hl' as [Hz <-]. rewrite take_ge by (rewrite app_length; simpl; lia). done.
Qed.
Lemma at_pair {K V} (ck : codec K) (cv : codec V) off (kv : K * V) b :
  elt_ok ck → elt_ok cv → at_off off (wire_pair (c_enc ck) (c_enc cv) kv) b →
  bytes_at off (size_of ck) b = c_enc ck kv.1 ∧ bytes_at (off + size_of ck) (size_of cv) b = c_enc cv kv.2.
Proof.
  intros [Hk Hk'] [Hv Hv'] Hat. split.
  - apply at_off_bytes; [|by apply co_len]. rewrite <- (Nat.add_0_r off). eapply at_off_trans; [|exact Hat]. by exists [], (c_enc cv kv.2).
  - apply at_off_bytes; [|by apply co_len]. eapply at_off_trans; [|exact Hat]. rewrite <- (co_len _ Hk kv.1) by done. apply at_off_end.
Qed.
Lemma at_reg off l r x b : at_off off (concat (le32 <$> l)) b → l !! r = Some x → bytes_at (off + 4 * r) 4 b = le32 x.
Proof.
  intros Hat Hr. apply at_off_bytes; [|apply le_enc_length]. eapply at_off_trans; [|exact Hat]. rewrite Nat.mul_comm.
  apply (at_off_concat (le_enc 4) 4); [|done]. apply Forall_forall. intros y _. apply le_enc_length.
Qed.
(** ** Slots of an allocator lying at offset [h] of a buffer *)
Section slot.
  Context `{Profile} {T : Type} (ct : codec T) (Hc : codec_ok ct) (ms nr : nat) (Hw : (N.of_nat ms + 1 < W32)%N).
  Context (enc : T → bytes) (He : ∀ x, enc x = c_enc ct x) (h : nat) (a : alloc T) (buf : bytes).
  Context (Hwf : c_wf (c_alloc ms nr ct) a) (Hat : at_off h (wire_alloc enc a) buf).
  Lemma slot_in i n : na_get a i = Val n → (1 ≤ i ≤ N.of_nat ms)%N.
  Proof using Hw Hwf.
    intros Hg. destruct Hwf as [_ [Hl Hn]]. cbn [fst snd f_one f_wf] in Hl, Hn. apply na_get_lookup in Hg as [H1 Hg]; [|unfold lengthN; by rewrite Hl].
    apply lookup_lt_Some in Hg. lia.
  Qed.
  Lemma slot_value i n : na_get a i = Val n → at_off (h + (16 + (N.to_nat i - 1) * (4 * nr + size_of ct) + 4 * nr)) (enc (val n)) buf.
  Proof using Hc Hw He Hwf Hat.
    intros Hg. destruct (alloc_slot ct Hc ms nr Hw enc a i n He Hwf Hg) as (H1 & _). eapply at_off_trans; [exact H1|exact Hat].
  Qed.
  Lemma slot_register i r x : i ≠ SENTINEL → na_get_register a i r = Val x →
    bytes_at (h + 16 + (N.to_nat i - 1) * (4 * nr + size_of ct) + 4 * N.to_nat r) 4 buf = le32 x.
  Proof using Hc Hw He Hwf Hat.
    intros Hi. unfold na_get_register. rewrite decide_False by done. destruct (na_get a i) as [n|] eqn:Hg; [|done]. cbn [mbind res_bind].
    unfold node_get_register. destruct (lookupN (regs n) r) eqn:Er; [|done]. intros [= ->].
    destruct (alloc_slot ct Hc ms nr Hw enc a i n He Hwf Hg) as (_ & H2 & _). unfold lookupN in Er. destruct (decide _) in Er; [|done].
    rewrite <- (Nat.add_assoc h). eapply at_reg; [|exact Er]. eapply at_off_trans; [exact H2|exact Hat].
  Qed.
End slot.
Section maps.
  Context `{Profile} {K V : Type} (ck : codec K) (cv : codec V) (Hk : elt_ok ck) (Hv : elt_ok cv).
  Context (Lk : lay_ok (c_lay ck)) (Lv : lay_ok (c_lay cv)) (Hf : alloc_fits 4 (c_lay (c_pair ck cv))) (Ht : tight_pair ck cv).
  Context (ms : nat) (Hw : (N.of_nat ms + 1 < W32)%N).
  Notation entry_size := (16 + (size_of ck + size_of cv)).
  Notation enc := (wire_pair (c_enc ck) (c_enc cv)).
  (** bytes of the entry in slot [i] of an allocator at offset [h] *)
  Definition entry_at (h : nat) (i : N) (kv : K * V) (buf : bytes) : Prop :=
    let off := h + 16 + (N.to_nat i - 1) * entry_size + 16 in
    bytes_at off (size_of ck) buf = c_enc ck kv.1 ∧ bytes_at (off + size_of ck) (size_of cv) buf = c_enc cv kv.2.
  Lemma map_entry h a buf i n : c_wf (c_alloc ms 4 (c_pair ck cv)) a → at_off h (wire_alloc enc a) buf → na_get a i = Val n → entry_at h i (val n) buf.
  Proof using Hk Hv Lk Lv Ht Hw.
    intros Hwf Hat Hg. pose proof (slot_value (c_pair ck cv) (c_pair_ok _ _ (proj1 Hk) (proj1 Hv)) ms 4 Hw enc (λ x, eq_sym (pair_wire ck cv Lk Lv Ht x)) h a buf Hwf Hat i n Hg) as H1.
    rewrite (pair_sz ck cv Lk Lv Ht) in H1. apply at_pair in H1; [|done..]. unfold entry_at.
    replace (h + 16 + (N.to_nat i - 1) * entry_size + 16) with (h + (16 + (N.to_nat i - 1) * (4 * 4 + (size_of ck + size_of cv)) + 4 * 4)) by lia. done.
  Qed.
  Lemma map_register h a buf i r x : c_wf (c_alloc ms 4 (c_pair ck cv)) a → at_off h (wire_alloc enc a) buf → i ≠ SENTINEL →
    na_get_register a i r = Val x → bytes_at (h + 16 + (N.to_nat i - 1) * entry_size + 4 * N.to_nat r) 4 buf = le32 x.
  Proof using Hk Hv Lk Lv Ht Hw.
    intros Hwf Hat Hi Hg.
    pose proof (slot_register (c_pair ck cv) (c_pair_ok _ _ (proj1 Hk) (proj1 Hv)) ms 4 Hw enc (λ x, eq_sym (pair_wire ck cv Lk Lv Ht x)) h a buf Hwf Hat i r x Hi Hg) as H1.
    by rewrite (pair_sz ck cv Lk Lv Ht) in H1.
  Qed.
  Lemma get_val {A} (a : alloc A) i x : (n ← na_get a i; Val (val n)) = Val x → ∃ n, na_get a i = Val n ∧ val n = x.
  Proof. destruct (na_get a i) as [n|]; [|done]. intros [= <-]. by exists n. Qed.

  Section rb.
    Context (cmp : K → K → comparison) (d : K * V) (o : list (option (om_op K V))) (rest : bytes).
    Notation t := (rb_after cmp ms d o).
    Notation buf := (c_enc (c_rb ms ck cv) t ++ rest).
    Lemma rb_at : c_wf (c_alloc ms 4 (c_pair ck cv)) (rb_al t) ∧ at_off 16 (wire_alloc enc (rb_al t)) buf.
    Proof using All.
      split.
      - pose proof (tr_wf ck cv ms t Hk Hv Hw (tr_history cmp ms Hw d o)) as [_ Hwf]. exact Hwf.
      - apply at_off_rest. rewrite (rb_wire ck cv ms Lk Lv Hf Ht). unfold wire_rb. exists (le32 (rb_root t) ++ zeros 12), [].
        rewrite app_nil_r, <- app_assoc. done.
    Qed.
    Lemma rb_entry l kv : OrdLaws cmp → 0 < ms → rb_holds cmp ms d o l → kv ∈ l →
      ∃ i, rb_get_addr cmp t kv.1 = Val i ∧ (1 ≤ i ≤ N.of_nat ms)%N ∧ entry_at 16 i kv buf.
    Proof using All.
      intros HO H0 Hl Hkv. destruct (trace_ending (rb_holds cmp ms d) o l) as (ls & Htr & Hlast).
      { intros o'. destruct (rb_reach cmp HO ms d o' H0 Hw) as (U & l' & Hl' & _). by exists l'. }
      { done. }
      { intros Hn. by inversion Hn. }
      destruct (rb_follow cmp HO ms d H0 Hw o ls Htr) as (H1 & H2 & _). rewrite <- Hlast in Hkv. specialize (H2 kv Hkv).
      apply get_val in H2 as (n & Hg & <-). destruct rb_at as [Hwf Hat]. eexists. split; [apply H1|]. split; [by eapply slot_in|by eapply map_entry].
    Qed.
    Lemma rb_register i r x : i ≠ SENTINEL → na_get_register (rb_al t) i r = Val x → bytes_at (32 + (N.to_nat i - 1) * entry_size + 4 * N.to_nat r) 4 buf = le32 x.
    Proof using All. destruct rb_at as [Hwf Hat]. by apply (map_register 16 (rb_al t)). Qed.
  End rb.
  Section av.
    Context (Ak : align_of ck ≤ 8) (Av : align_of cv ≤ 8).
    Context (pcmp : K → K → option comparison) (d : K * V) (o : list (om_op K V)) (rest : bytes).
    Notation t := (av_after pcmp ms d o).
    Notation buf := (c_enc (c_avl ms ck cv) t ++ rest).
    Lemma av_at : c_wf (c_alloc ms 4 (c_pair ck cv)) (av_al t) ∧ at_off 8 (wire_alloc enc (av_al t)) buf.
    Proof using All.
      split.
      - pose proof (tv_wf ck cv ms t Hk Hv Hw (tv_history pcmp ms Hw d o)) as [_ Hwf]. exact Hwf.
      - apply at_off_rest. rewrite (av_wire ck cv ms Lk Lv Hf Ht) by done. apply (at_off_end (le64 (av_root t))).
    Qed.
    Lemma av_entry kv : OrdLaws (po_cmp pcmp) → 0 < ms → kv ∈ av_contents pcmp ms o →
      ∃ i, av_get_addr pcmp t kv.1 = Val i ∧ (1 ≤ i ≤ N.of_nat ms)%N ∧ entry_at 8 i kv buf.
    Proof using All.
      intros HO H0 Hkv. destruct (trace_ending (λ o l, l = av_contents pcmp ms o) o _ ltac:(eauto) eq_refl) as (ls & Htr & Hlast); [done|].
      destruct (av_follow pcmp HO ms d H0 Hw o ls Htr) as (H1 & H2 & _). rewrite <- Hlast in Hkv. specialize (H2 kv Hkv).
      apply get_val in H2 as (n & Hg & <-). destruct av_at as [Hwf Hat]. eexists. split; [apply H1|]. split; [by eapply slot_in|by eapply map_entry].
    Qed.
    Lemma av_register i r x : i ≠ SENTINEL → na_get_register (av_al t) i r = Val x → bytes_at (24 + (N.to_nat i - 1) * entry_size + 4 * N.to_nat r) 4 buf = le32 x.
    Proof using All. destruct av_at as [Hwf Hat]. by apply (map_register 8 (av_al t)). Qed.
  End av.
  Section ht.
    Context (nb : nat) (Hnb : 0 < nb) (Hal : (4 * nb) mod Nat.max 8 (Nat.max (align_of ck) (align_of cv)) = 0).
    Context (keq : K → K → bool) (hash : K → N) (d : K * V) (h0 : htable K V) (Hnew : ht_new nb ms d = Some h0).
    Context (o : list (hm_op K V)) (rest : bytes).
    Notation t := (ht_after keq hash h0 o).
    Notation buf := (c_enc (c_hash nb ms ck cv) t ++ rest).
    Lemma ht_at : c_wf (c_alloc ms 4 (c_pair ck cv)) (ht_al t) ∧ at_off (4 * nb) (wire_alloc enc (ht_al t)) buf ∧ length (buckets t) = nb.
    Proof using All.
      pose proof (th_history keq hash nb ms Hw d h0 o Hnew) as Hth. split_and!; [|..|by apply (th_len _ _ _ Hth)].
      - pose proof (th_wf ck cv nb ms t Hk Hv Hw Hth) as [_ Hwf]. exact Hwf.
      - apply at_off_rest. rewrite (ht_wire ck cv ms Lk Lv Hf Ht) by done. unfold wire_ht.
        replace (4 * nb) with (length (concat (le32 <$> buckets t))); [apply at_off_end|]. rewrite concat_le4_length. f_equal. apply (th_len _ _ _ Hth).
    Qed.
    Lemma ht_entry l kv : HashLaws keq hash → ht_holds keq hash ms h0 o l → kv ∈ l →
      ∃ i, ht_get_addr keq hash t kv.1 = Val i ∧ (1 ≤ i ≤ N.of_nat ms)%N ∧ entry_at (4 * nb) i kv buf.
    Proof using All.
      intros HL Hl Hkv. destruct (trace_ending (ht_holds keq hash ms h0) o l) as (ls & Htr & Hlast).
      { intros o'. destruct (ht_is_map_fact keq hash HL nb ms d h0 Hnew Hnb Hw o') as (l' & Hl' & _). by exists l'. }
      { done. }
      { intros Hn. by inversion Hn. }
      destruct (ht_follow keq hash HL nb ms d h0 Hnew Hnb Hw o ls Htr) as (H1 & H2 & _). rewrite <- Hlast in Hkv. specialize (H2 kv Hkv).
      apply get_val in H2 as (n & Hg & <-). destruct ht_at as (Hwf & Hat & _). eexists. split; [apply H1|]. split; [by eapply slot_in|by eapply map_entry].
    Qed.
    Lemma ht_register i r x : i ≠ SENTINEL → na_get_register (ht_al t) i r = Val x → bytes_at (4 * nb + 16 + (N.to_nat i - 1) * entry_size + 4 * N.to_nat r) 4 buf = le32 x.
    Proof using All. destruct ht_at as (Hwf & Hat & _). by apply (map_register (4 * nb) (ht_al t)). Qed.
    Lemma ht_bucket_word b i : buckets t !! b = Some i → bytes_at (4 * b) 4 buf = le32 i.
    Proof using All.
      intros Hb. apply (at_reg 0 (buckets t)); [|done]. apply at_off_rest. rewrite (ht_wire ck cv ms Lk Lv Hf Ht) by done. by exists [], (wire_alloc enc (ht_al t)).
    Qed.
  End ht.
End maps.
Section deque.
  Context `{Profile} {T : Type} (ct : codec T) (Hc : elt_ok ct) (Lt : lay_ok (c_lay ct)) (Hf : alloc_fits 2 (c_lay ct)) (H8 : size_of ct mod 8 = 0).
  Context (ms : nat) (Hw : (N.of_nat ms + 1 < W32)%N) (v0 : T) (o : list (dq_op T)) (rest : bytes).
  Notation d := (history dq_step o (dq_new ms v0)).2.
  Notation buf := (c_enc (c_deque ms ct) d ++ rest).
  Lemma dq_at : c_wf (c_alloc ms 2 ct) (dq_al d) ∧ at_off 16 (wire_alloc (c_enc ct) (dq_al d)) buf.
  Proof using All.
    split.
    - pose proof (td_wf ct ms d Hc Hw (td_history ms Hw v0 o)) as [_ Hwf]. exact Hwf.
    - apply at_off_rest. rewrite (dq_wire ct ms Lt) by done. unfold wire_dq. exists (le64 (dq_seqno d) ++ le32 (dq_head d) ++ le32 (dq_tail d)), [].
      rewrite app_nil_r, <- !app_assoc. split; [done|]. rewrite !app_length, !le_enc_length. done.
  Qed.
  Lemma dq_entry i v : (overflow_checks = true → (lengthN o < W64)%N) → (i, v) ∈ ds_used (dslots_after (N.of_nat ms) o) →
    (1 ≤ i ≤ N.of_nat ms)%N ∧ bytes_at (32 + (N.to_nat i - 1) * (8 + size_of ct) + 8) (size_of ct) buf = c_enc ct v.
  Proof using All.
    intros Ho Hiv. destruct (dq_follow ms v0 Hw o Ho) as (_ & _ & H3 & _). apply elem_of_list_split in Hiv as (pre & post & Hu).
    specialize (H3 pre i v post Hu). destruct dq_at as [Hwf Hat]. split; [by eapply (slot_in ct ms 2 Hw)|].
    pose proof (slot_value ct (proj1 Hc) ms 2 Hw (c_enc ct) (λ x, eq_refl) 16 (dq_al d) buf Hwf Hat i _ H3) as H4.
    apply at_off_bytes; [|apply co_len; [apply Hc|apply Hc]].
    replace (32 + (N.to_nat i - 1) * (8 + size_of ct) + 8) with (16 + (16 + (N.to_nat i - 1) * (4 * 2 + size_of ct) + 4 * 2)) by lia. exact H4.
  Qed.
  Lemma dq_register i r x : i ≠ SENTINEL → na_get_register (dq_al d) i r = Val x →
    bytes_at (32 + (N.to_nat i - 1) * (8 + size_of ct) + 4 * N.to_nat r) 4 buf = le32 x.
  Proof using All.
    destruct dq_at as [Hwf Hat]. exact (slot_register ct (proj1 Hc) ms 2 Hw (c_enc ct) (λ x, eq_refl) 16 (dq_al d) buf Hwf Hat i r x).
  Qed.
End deque.
Lemma cb_walk_key `{Profile} {V} fuel (t : critbit V) k i j : cb_walk fuel t k i = Val j → j ≠ SENTINEL → ∃ n, na_get (cb_nodes t) j = Val n ∧ cn_key (val n) = k.
Proof.
  intros Hwk Hj. revert i Hwk. induction fuel as [|fuel IH]; intros i; [done|]. cbn [cb_walk]. unfold cb_get_node at 1.
  destruct (na_get (cb_nodes t) i) as [n|] eqn:Hg; [|done]. cbn [mbind res_bind]. destruct (cb_is_inner_node t i) as [inner|]; [|done]. cbn [mbind res_bind].
  destruct (negb inner).
  - destruct (decide (cn_key (val n) = k)); intros [= <-]; [|done]. by exists n.
  - destruct (decide (cn_prefix_len (val n) ≤ leading_zeros128 (N.lxor (cn_key (val n)) k))%N); [|by intros [= <-]].
    destruct (cb_get_child t (cn_prefix_len (val n)) i k) as [c|]; [|done]. cbn [mbind res_bind]. apply IH.
Qed.
Section crit.
  Context `{Profile} {V : Type} (cv : codec V) (Hv : elt_ok cv) (Lv : lay_ok (c_lay cv)) (Hf : alloc_fits 4 (c_lay cv)) (H8 : size_of cv mod 8 = 0).
  Context (a128 : nat) (H128 : a128 = 8 ∨ a128 = 16) (nn ms : nat) (Hm : (ms * size_of cv) mod a128 = 0) (Hn : (N.of_nat nn + 1 < W32)%N).
  Context (H0 : 0 < ms) (z : V) (t0 : critbit V) (Hnew : cb_new nn ms z = Some t0) (o : list (om_op N V)) (Hu : Forall u128_op o) (rest : bytes).
  Notation t := (history cb_step o t0).2.
  Notation buf := (c_enc (c_crit a128 nn ms cv) t ++ rest).
  Lemma cn_ok : codec_ok (c_cnode a128).
  Proof using H128. clear -H128. apply c_cnode_ok. lia. Qed.
  Lemma cb_ms : (N.of_nat ms + 1 < W32)%N.
  Proof using Hnew Hn. clear -Hnew Hn. unfold cb_new in Hnew. destruct (decide _) in Hnew; [|done]. lia. Qed.
  Lemma cb_at : c_wf (c_alloc nn 4 (c_cnode a128)) (cb_nodes t) ∧ at_off 16 (wire_alloc wire_cnode (cb_nodes t)) buf ∧
    c_wf (c_alloc ms 4 cv) (cb_leaves t) ∧ at_off (32 + nn * 48) (wire_alloc (c_enc cv) (cb_leaves t)) buf.
  Proof using All.
    pose proof (tc_wf cv a128 nn ms t Hv Hn cb_ms (tc_history nn ms Hn cb_ms z t0 o Hnew Hu)) as [[_ Hwn] Hwl]. cbn [fst snd f_one f_wf] in Hwn, Hwl.
    destruct (cnode_lay_ok _ H128) as [Hc1 Hc2].
    split_and!; [exact Hwn| |exact Hwl|].
    - apply at_off_rest. rewrite (cb_wire cv Lv a128 H128) by done. unfold wire_cb. exists (zeros 8 ++ le32 (cb_root t) ++ zeros 4), (wire_alloc (c_enc cv) (cb_leaves t)).
      rewrite <- !app_assoc. split; [done|]. rewrite !app_length, !le_enc_length, !zeros_length. done.
    - apply at_off_rest. rewrite (cb_wire cv Lv a128 H128) by done. unfold wire_cb.
      exists (zeros 8 ++ le32 (cb_root t) ++ zeros 4 ++ wire_alloc wire_cnode (cb_nodes t)), [].
      rewrite app_nil_r, <- !app_assoc. split; [done|]. rewrite !app_length, !le_enc_length, !zeros_length.
      assert (length (wire_alloc wire_cnode (cb_nodes t)) = 16 + nn * 48) as ->; [|lia].
      assert (wire_alloc wire_cnode (cb_nodes t) = c_enc (c_alloc nn 4 (c_cnode a128)) (cb_nodes t)) as ->.
      { rewrite alloc_wire by (done || by rewrite cnode_sz). unfold wire_alloc. do 4 f_equal. apply list_fmap_ext. intros _ n _. unfold wire_node. f_equal. by rewrite (cnode_wire a128). }
      rewrite (co_len _ (c_alloc_ok _ cn_ok nn 4)) by done. rewrite alloc_size by (done || by rewrite cnode_sz). rewrite cnode_sz by done. lia.
  Qed.
  Lemma cb_entry kv : kv ∈ cb_contents ms o →
    ∃ j i, cb_get_addr t kv.1 = Val j ∧ (1 ≤ j ≤ N.of_nat nn)%N ∧ (1 ≤ i ≤ N.of_nat ms)%N ∧
      bytes_at (32 + (N.to_nat j - 1) * 48 + 16) 16 buf = le128 kv.1 ∧ bytes_at (32 + (N.to_nat j - 1) * 48 + 12) 4 buf = le32 i ∧
      bytes_at (48 + nn * 48 + (N.to_nat i - 1) * (16 + size_of cv) + 16) (size_of cv) buf = c_enc cv kv.2.
  Proof using All.
    intros Hkv. destruct (trace_ending (λ o l, l = cb_contents ms o) o _ ltac:(eauto) eq_refl) as (ls & Htr & Hlast); [done|].
    destruct (cb_follow nn ms z t0 H0 Hn Hnew o ls Hu Htr) as (H1 & _). rewrite <- Hlast in Hkv. destruct (H1 kv Hkv) as [H2 H3].
    set (i := slot_of N.eqb kv.1 (slots_after N.eqb ls)) in *.
    apply get_val in H3 as (nl & Hgl & Hvl). destruct cb_at as (Hwn & Han & Hwl & Hal).
    unfold cb_value_slot in H2. destruct (cb_get_addr t kv.1) as [j|] eqn:Ej; [|done]. cbn [mbind res_bind] in H2.
    pose proof (slot_in cv ms 4 cb_ms _ Hwl i nl Hgl) as Hi.
    assert (j ≠ SENTINEL) as Hj.
    { intros ->. unfold cb_get_leaf_index, na_get_register in H2. rewrite decide_True in H2 by done. injection H2 as H2. rewrite <- H2 in Hi. unfold SENTINEL in Hi. lia. }
    destruct (cb_walk_key _ _ _ _ _ Ej Hj) as (nd & Hgn & Hkn). exists j, i. split; [done|].
    split; [by eapply (slot_in (c_cnode a128) nn 4 Hn)|]. split; [done|]. split_and!.
    - pose proof (slot_value (c_cnode a128) cn_ok nn 4 Hn wire_cnode (λ x, eq_sym (cnode_wire a128 H128 x)) 16 (cb_nodes t) buf Hwn Han j nd Hgn) as H4.
      rewrite cnode_sz in H4 by done. apply at_off_bytes; [|apply le_enc_length].
      replace (32 + (N.to_nat j - 1) * 48 + 16) with (16 + (16 + (N.to_nat j - 1) * (4 * 4 + 32) + 4 * 4) + 0) by lia.
      eapply at_off_trans; [|exact H4]. unfold wire_cnode. rewrite Hkn. by exists [], (le64 (cn_prefix_len (val nd)) ++ zeros 8).
    - pose proof (slot_register (c_cnode a128) cn_ok nn 4 Hn wire_cnode (λ x, eq_sym (cnode_wire a128 H128 x)) 16 (cb_nodes t) buf Hwn Han j FValue i Hj H2) as H4.
      rewrite cnode_sz in H4 by done. exact H4.
    - pose proof (slot_value cv (proj1 Hv) ms 4 cb_ms (c_enc cv) (λ x, eq_refl) (32 + nn * 48) (cb_leaves t) buf Hwl Hal i nl Hgl) as H4.
      apply at_off_bytes; [|apply co_len; [apply Hv|apply Hv]]. rewrite Hvl in H4.
      replace (48 + nn * 48 + (N.to_nat i - 1) * (16 + size_of cv) + 16) with (32 + nn * 48 + (16 + (N.to_nat i - 1) * (4 * 4 + size_of cv) + 4 * 4)) by lia. exact H4.
  Qed.
End crit.
Lemma le_digit n x i : i < n → ∃ b, bytes_at i 1 (le_enc n x) = [b] ∧ Byte.to_N b = ((x / 256 ^ N.of_nat i) mod 256)%N.
Proof.
  revert x i. induction n as [|n IH]; intros x i Hi; [lia|]. destruct i as [|i].
  - exists (byte_of (x mod 256)). split; [done|]. rewrite byte_of_lt by (by apply N.mod_lt). by rewrite N.pow_0_r, N.div_1_r.
  - destruct (IH (x / 256)%N i) as (b & Hb & Hn); [lia|]. exists b. split; [exact Hb|]. rewrite Hn, N.div_div by (try apply N.pow_nonzero; done).
    do 2 f_equal. rewrite Nat2N.inj_succ, N.pow_succ_r'. done.
Qed.
