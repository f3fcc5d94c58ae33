(** * Proofs for CapProps.v *)
From Verif Require Export CapSpec Spec AllocModel.

Section cap.
  Context `{Profile} {T : Type}.
  Implicit Types a : alloc T.

  (** an allocator from which [k] nodes were taken and none given back *)
  Definition fresh_alloc (ms : nat) (nr : nat) (k : N) a : Prop :=
    size a = k ∧ bump_index a = (k + 1) mod W32 ∧ free_list_head a = (k + 1) mod W32 ∧ length (nodes a) = ms.

  Lemma room_le (ms : N) : room ms ≤ ms.
  Proof.
    unfold room. destruct (decide _) as [E|E]; [|pose proof (N.mod_le (ms + 1) 4294967296); lia].
    pose proof (N.div_mod (ms + 1) 4294967296). destruct ((ms + 1) / 4294967296) eqn:?; [lia|]. destruct overflow_checks; lia.
  Qed.

  Lemma add_fresh_alloc ms nr k a v : fresh_alloc ms nr k a → k < room (N.of_nat ms) →
    ∃ a', na_add_node v a = Ret (k + 1) a' ∧ fresh_alloc ms nr (k + 1) a'.
  Proof.
    intros (Hs & Hb & Hf & Hl) Hk. pose proof (room_le (N.of_nat ms)) as Hr.
    assert (k + 1 < W32 ∧ k < N.of_nat ms ∧ (N.of_nat ms + 1) mod W32 ≠ k + 1 ∧ (overflow_checks = true → k + 2 < W32)) as (Hk1 & Hk2 & Hk3 & Hk4).
    { clear Hs Hb Hf Hl. revert Hk Hr. unfold room, W32. pose proof (N.mod_lt (N.of_nat ms + 1) 4294967296 ltac:(done)) as Hm.
      destruct (decide ((N.of_nat ms + 1) mod 4294967296 = 0)) as [E|E].
      - rewrite E. destruct overflow_checks; intros ??; (split; [lia|]); (split; [lia|]); (split; [lia|]); [lia|done].
      - intros ??; (split; [lia|]); (split; [lia|]); (split; [lia|]); lia. }
    unfold na_add_node, mbind, M_bind. unfold mget at 1. rewrite Hf, Hb, decide_True by done.
    rewrite (N.mod_small (k + 1)) by done.
    rewrite decide_False by (unfold as_u32, MAX_SIZE, lengthN; rewrite Hl; congruence).
    assert (∃ b, u32_add (k + 1) 1 = Val b ∧ b = (k + 1 + 1) mod W32) as (b & Hub & Eb).
    { unfold u32_add, u_add. destruct (decide (k + 1 + 1 < W32)) as [Hlt|Hge].
      - eexists; split; [done|]. by rewrite N.mod_small.
      - destruct overflow_checks; [exfalso; specialize (Hk4 eq_refl); lia|]. by eexists. }
    unfold lift, gets. rewrite Hub. unfold modify at 1 2. cbn [set_bump set_fhead size bump_index free_list_head nodes].
    unfold na_get_mut, lift, gets, mbind, M_bind. unfold u32_sub, u_sub. rewrite decide_True by lia.
    replace (k + 1 - 1) with k by lia.
    destruct (lookup_lt_is_Some_2 (nodes a) (N.to_nat k)) as [n Hn]; [lia|].
    cbn [set_bump set_fhead size bump_index free_list_head nodes].
    rewrite (proj2 (lookupN_Some (nodes a) k n) Hn). unfold node_set_value, modify, mget.
    cbn [set_nodes set_bump set_fhead size bump_index free_list_head nodes].
    rewrite Hs. unfold u64_add, u_add. rewrite decide_True by (unfold W32, W64 in *; lia).
    unfold mret, M_ret. eexists. split; [done|]. unfold fresh_alloc. cbn [set_size set_nodes set_bump set_fhead size bump_index free_list_head nodes].
    unfold insertN. by rewrite insert_length.
  Qed.

  Lemma add_full ms nr a v : fresh_alloc ms nr (room (N.of_nat ms)) a → na_add_node v a = Fail Panic a.
  Proof.
    intros (Hs & Hb & Hf & Hl). unfold na_add_node, mbind, M_bind. unfold mget at 1. rewrite Hf, Hb, decide_True by done.
    unfold as_u32, MAX_SIZE, lengthN. rewrite Hl.
    destruct (decide _) as [E|E]; [done|].
    revert E. unfold room, W32. destruct (decide _) as [E|E].
    - rewrite E. destruct overflow_checks eqn:Eo.
      + intros _. unfold lift, gets, u32_add, u_add, W32. rewrite decide_False by (vm_compute; done). by rewrite Eo.
      + intros []. done.
    - intros []. clear -E. pose proof (N.mod_lt (N.of_nat ms + 1) 4294967296 ltac:(done)) as Hm.
      revert E Hm. generalize ((N.of_nat ms + 1) mod 4294967296). intros x Hx Hm. rewrite N.sub_add by lia. by apply N.mod_small.
  Qed.

  Lemma adds_fresh ms nr vs : ∀ k a, fresh_alloc ms nr k a → k + lengthN vs ≤ room (N.of_nat ms) →
    (history na_add_node vs a).1 = Val <$> from (k + 1) (length vs) ∧ fresh_alloc ms nr (k + lengthN vs) (history na_add_node vs a).2.
  Proof.
    induction vs as [|v vs IH]; intros k a Ha Hk.
    { unfold lengthN. simpl. rewrite N.add_0_r. done. }
    rewrite lengthN_cons in *. destruct (add_fresh_alloc ms nr k a v Ha) as (a' & E & Ha'); [lia|].
    destruct (IH (k + 1) a' Ha') as [I1 I2]; [lia|]. simpl. unfold call. rewrite E.
    destruct (history na_add_node vs a') as [rs a'']. simpl in *. rewrite I1.
    replace (k + (lengthN vs + 1)) with (k + 1 + lengthN vs) by lia. done.
  Qed.

  Lemma default_fresh ms nr (d : T) a : na_default ms nr d = Some a → fresh_alloc ms nr 0 a.
  Proof. destruct nr; [done|]. intros [= <-]. unfold fresh_alloc. simpl. by rewrite replicate_length. Qed.

  Lemma room_0 (ms : nat) : N.of_nat ms mod W32 = 0 → room (N.of_nat ms) = 0.
  Proof.
    intros E. unfold room. change 4294967296 with W32.
    rewrite N.add_mod, E by done. done.
  Qed.
  Lemma room_exact (ms : N) : room ms = ms ↔ ms + 1 < W32 ∨ ms + 1 = W32 ∧ overflow_checks = false.
  Proof.
    pose proof (N.div_mod (ms + 1) 4294967296 ltac:(done)) as Hd. pose proof (N.mod_lt (ms + 1) 4294967296 ltac:(done)) as Hl.
    unfold room, W32. split.
    - destruct (decide _) as [E|E]; [|intros; left; lia]. destruct overflow_checks; intros <-; [done|by right].
    - intros [Hlt|[Heq Ho]].
      + rewrite !N.mod_small by done. rewrite decide_False by lia. lia.
      + rewrite Ho. rewrite Heq. rewrite decide_True by done. lia.
  Qed.
End cap.

From Verif Require Import DequeModel HashModel RBModel AVLModel CritModel.
Section first.
  Context `{Profile}.
  Lemma first_add {T} (ms nr : nat) (d v : T) : N.of_nat ms mod W32 = 0 → 
    na_add_node v (Alloc 0 1 1 (replicate ms (node_default nr d))) = Fail Panic (Alloc 0 1 1 (replicate ms (node_default nr d))).
  Proof.
    intros E. eapply (add_full ms nr). rewrite room_0 by done. unfold fresh_alloc. simpl. by rewrite replicate_length.
  Qed.
  Lemma dq_first {T} (ms : nat) (d v : T) : N.of_nat ms mod W32 = 0 →
    dq_push_back v (dq_new ms d) = Fail Panic (dq_new ms d) ∧ dq_push_front v (dq_new ms d) = Fail Panic (dq_new ms d).
  Proof.
    intros E. unfold dq_push_back, dq_push_front, dq_on, zoom, mbind, M_bind, dq_new. cbn [dq_al].
    by rewrite first_add.
  Qed.
  Lemma rb_first {K V} cmp (ms : nat) (d : K * V) k v : N.of_nat ms mod W32 = 0 →
    rb_insert cmp k v (rb_new ms d) = Fail Panic (rb_new ms d).
  Proof.
    intros E. unfold rb_insert, rb_on, zoom, mbind, M_bind, mget, rb_new. cbn [rb_root rb_al]. rewrite decide_True by done. cbn [rb_al].
    by rewrite first_add.
  Qed.
  Lemma av_first {K V} pcmp (ms : nat) (d : K * V) k v : N.of_nat ms mod W32 = 0 →
    av_insert pcmp k v (av_new ms d) = Fail Panic (av_new ms d).
  Proof.
    intros E. unfold av_insert, av_on, zoom, mbind, M_bind, mget, av_new. cbn [av_root av_al]. rewrite decide_True by done. cbn [av_al].
    by rewrite first_add.
  Qed.
  Lemma cb_first {V} (nn ms : nat) (d : V) t k v : N.of_nat nn mod W32 = 0 → cb_new nn ms d = Some t →
    cb_insert k v t = Fail Panic t.
  Proof.
    intros E. unfold cb_new. destruct (decide _); [|done]. intros [= <-].
    unfold cb_insert, cb_add_leaf, cb_onn, zoom, mbind, M_bind, mget. cbn [cb_root cb_nodes]. rewrite decide_True by done. cbn [cb_nodes].
    by rewrite first_add.
  Qed.
  Lemma ht_first {K V} keq hash (nb ms : nat) (d : K * V) h k v : N.of_nat ms mod W32 = 0 → (0 < nb)%nat → (0 < ms)%nat →
    ht_new nb ms d = Some h → ht_insert keq hash k v h = Fail Panic h.
  Proof.
    intros E Hnb Hms. unfold ht_new. destruct (decide _); [|done]. intros [= <-].
    unfold ht_insert, mbind, M_bind, gets, mget. unfold ht_bucket_index, ht_bucket, ht_fuel. cbn [buckets ht_al nodes].
    assert (lengthN (replicate nb SENTINEL) = N.of_nat nb) as Hl by (unfold lengthN; by rewrite replicate_length).
    rewrite Hl, decide_False by lia. cbn [buckets].
    assert (lookupN (replicate nb SENTINEL) (hash k mod N.of_nat nb) = Some SENTINEL) as ->.
    { apply lookupN_Some, lookup_replicate. split; [done|]. pose proof (N.mod_lt (hash k) (N.of_nat nb)). lia. }
    cbn [ht_insert_loop ht_al nodes]. rewrite decide_True by done.
    unfold ht_insert_new_node, mbind, M_bind, mget. unfold ht_capacity, ht_len. cbn [ht_al size].
    rewrite decide_False by (unfold MAX_SIZE, lengthN; cbn [nodes]; rewrite replicate_length; lia).
    unfold ht_on, zoom. cbn [ht_al]. by rewrite first_add.
  Qed.
End first.
