(** * Bits of 128-bit keys *)
From Verif Require Export CritModel.

(** Bit number [p] of a u128, counted from the most significant one *)
Definition bit (k p : N) : bool := N.testbit k (127 - p).
(** [a] and [b] agree on the first [p] bits *)
Definition pre (p a b : N) : Prop := ∀ q, q < p → bit a q = bit b q.

Lemma W128_pow : W128 = 2 ^ 128.
Proof. done. Qed.

Lemma pre_refl p a : pre p a a. Proof. done. Qed.
Lemma pre_sym p a b : pre p a b → pre p b a.
Proof. intros Hp q Hq. symmetry. by apply Hp. Qed.
Lemma pre_trans p a b c : pre p a b → pre p b c → pre p a c.
Proof. intros H1 H2 q Hq. rewrite H1 by done. by apply H2. Qed.
Lemma pre_le p q a b : q ≤ p → pre p a b → pre q a b.
Proof. intros Hq Hp r Hr. apply Hp. lia. Qed.

Lemma size_le_iff x m : N.size x ≤ m ↔ x < 2 ^ m.
Proof.
  destruct (decide (x = 0)) as [->|Hx].
  { split; [intros _|intros _; simpl; lia]. pose proof (N.pow_nonzero 2 m). lia. }
  rewrite N.size_log2 by done. rewrite N.le_succ_l. symmetry. apply N.log2_lt_pow2. lia.
Qed.
Lemma bits_lt x m : x < 2 ^ m ↔ ∀ q, m ≤ q → N.testbit x q = false.
Proof.
  split.
  - intros Hx q Hq. destruct (decide (x = 0)) as [->|Hn]; [apply N.bits_0|].
    apply N.bits_above_log2. apply N.log2_lt_pow2; [lia|]. eapply N.lt_le_trans; [exact Hx|]. apply N.pow_le_mono_r; lia.
  - intros Hb. destruct (decide (x = 0)) as [->|Hn]; [pose proof (N.pow_nonzero 2 m); lia|].
    apply N.log2_lt_pow2; [lia|]. destruct (decide (N.log2 x < m)) as [|Hge]; [done|].
    pose proof (N.bit_log2 x Hn) as Hl. rewrite Hb in Hl; [done|lia].
Qed.
Lemma u128_bits a b : a < W128 → b < W128 → pre 128 a b → a = b.
Proof.
  rewrite W128_pow, !bits_lt. intros Ha Hb Hp. apply N.bits_inj. intros q.
  destruct (decide (q < 128)) as [Hq|]; [|rewrite Ha, Hb by lia; done].
  specialize (Hp (127 - q) ltac:(lia)). unfold bit in Hp.
  by replace (127 - (127 - q)) with q in Hp by lia.
Qed.

(** [leading_zeros] of a xor is the length of the common prefix *)
Lemma lz_ge a b p :
  a < W128 → b < W128 → p ≤ 128 → (p ≤ leading_zeros128 (N.lxor a b) ↔ pre p a b).
Proof.
  rewrite W128_pow, !bits_lt. intros Ha Hb Hp. unfold leading_zeros128.
  assert (p ≤ 128 - N.size (N.lxor a b) ↔ N.size (N.lxor a b) ≤ 128 - p) as Heq.
  { assert (N.size (N.lxor a b) ≤ 128); [|lia]. apply size_le_iff, bits_lt. intros q Hq.
    by rewrite N.lxor_spec, Ha, Hb. }
  rewrite Heq, size_le_iff, bits_lt. split.
  - intros Hx q Hq. specialize (Hx (127 - q) ltac:(lia)). rewrite N.lxor_spec in Hx.
    unfold bit. by destruct (N.testbit a _), (N.testbit b _).
  - intros Hx q Hq. rewrite N.lxor_spec. destruct (decide (q < 128)) as [Hlt|]; [|rewrite Ha, Hb by lia; done].
    specialize (Hx (127 - q) ltac:(lia)). unfold bit in Hx. replace (127 - (127 - q)) with q in Hx by lia.
    rewrite Hx. by destruct (N.testbit b q).
Qed.
Lemma lz_lt a b : a < W128 → b < W128 → a ≠ b → leading_zeros128 (N.lxor a b) < 128.
Proof.
  intros Ha Hb Hne. destruct (decide (128 ≤ leading_zeros128 (N.lxor a b))) as [Hl|]; [|lia].
  apply lz_ge in Hl; [|done..]. by apply u128_bits in Hl.
Qed.
Lemma lz_same a : leading_zeros128 (N.lxor a a) = 128.
Proof. by rewrite N.lxor_nilpotent. Qed.
Lemma lz_diff a b :
  a < W128 → b < W128 → a ≠ b →
  let s := leading_zeros128 (N.lxor a b) in pre s a b ∧ bit a s = negb (bit b s).
Proof.
  intros Ha Hb Hne s. pose proof (lz_lt a b Ha Hb Hne) as Hlt. fold s in Hlt.
  assert (pre s a b) as Hs by (apply lz_ge; [done..|lia|done]). split; [done|].
  destruct (decide (bit a s = bit b s)) as [He|He]; [|by destruct (bit a s), (bit b s)].
  assert (s + 1 ≤ leading_zeros128 (N.lxor a b)); [|fold s in H; lia].
  apply lz_ge; [done..|lia|]. intros q Hq. destruct (decide (q = s)) as [->|]; [done|]. apply Hs. lia.
Qed.

(** the critical-bit mask *)
Lemma crit_mask_ok `{Profile} s : s < 128 → crit_bit_mask s = Val (2 ^ (127 - s)).
Proof.
  intros Hs. unfold crit_bit_mask. rewrite decide_True by done. f_equal.
  rewrite N.shiftl_1_l, N.shiftr_div_pow2.
  replace (2 ^ 127) with (2 ^ (127 - s) * 2 ^ s); [apply N.div_mul, N.pow_nonzero; lia|].
  rewrite <- N.pow_add_r. f_equal. lia.
Qed.
Lemma land_mask k m : bool_decide (N.land k (2 ^ m) ≠ 0) = N.testbit k m.
Proof.
  destruct (N.testbit k m) eqn:E; [apply bool_decide_eq_true|apply bool_decide_eq_false].
  - intros Hz. assert (N.testbit (N.land k (2 ^ m)) m = false) as Hb by (rewrite Hz; apply N.bits_0).
    by rewrite N.land_spec, E, N.pow2_bits_true in Hb.
  - intros Hn. apply Hn. apply N.bits_inj_0. intros q. rewrite N.land_spec.
    destruct (decide (q = m)) as [->|]; [by rewrite E|]. rewrite N.pow2_bits_false by lia. apply andb_false_r.
Qed.
Lemma land_mask_bit k s : bool_decide (N.land k (2 ^ (127 - s)) ≠ 0) = bit k s.
Proof. apply land_mask. Qed.

(** the order *)
Lemma pre_lt p a b : p < 128 → a < W128 → b < W128 → pre p a b → bit a p = false → bit b p = true → a < b.
Proof.
  rewrite W128_pow, !bits_lt. intros Hp Ha Hb Hpre H0 H1. unfold bit in H0, H1. set (m := 127 - p) in *.
  assert (N.shiftr a (m + 1) = N.shiftr b (m + 1)) as He.
  { apply N.bits_inj. intros q. rewrite !N.shiftr_spec by lia.
    destruct (decide (q + (m + 1) < 128)) as [Hlt|]; [|by rewrite Ha, Hb by lia].
    specialize (Hpre (127 - (q + (m + 1))) ltac:(unfold m; lia)). unfold bit in Hpre.
    by replace (127 - (127 - (q + (m + 1)))) with (q + (m + 1)) in Hpre by lia. }
  rewrite !N.shiftr_div_pow2 in He.
  assert (2 ^ m ≠ 0) as Hz by (apply N.pow_nonzero; lia).
  rewrite N.pow_add_r, <- !N.div_div in He by done. change (2 ^ 1) with 2 in He.
  rewrite N.testbit_eqb in H0, H1. apply N.eqb_neq in H0. apply N.eqb_eq in H1.
  pose proof (N.mod_lt (a / 2 ^ m) 2 ltac:(lia)).
  pose proof (N.div_mod (a / 2 ^ m) 2 ltac:(lia)) as Ea. pose proof (N.div_mod (b / 2 ^ m) 2 ltac:(lia)) as Eb.
  rewrite He in Ea. assert (a / 2 ^ m < b / 2 ^ m) as Hlt by lia.
  destruct (decide (a < b)) as [|Hge]; [done|]. exfalso.
  assert (b / 2 ^ m ≤ a / 2 ^ m) by (apply N.div_le_mono; [done|lia]). lia.
Qed.
