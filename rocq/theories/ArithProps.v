(** * C78: the machine arithmetic of the models is that of Rust

    The specifications below say what the Rust reference says about fixed-width integers: an operation whose exact result fits gives that result; otherwise it panics if overflow checks are on, and without them the
    result is the representative of the exact result modulo 2^bits; [as] between integers keeps the low bits; [leading_zeros] counts zero bits from the top; the amount of a shift is
    taken modulo the width when checks are off. They are stated on integers and single bits, not through the definitions of the models. *)
From Verif Require Import AVLModel CritModel BytesModel.
From Coq Require Import ZArith.
Local Open Scope Z_scope.

(** [r] represents the exact result [z] of an operation on integers from [lo] to [hi - 1], which are as many as [hi - lo] *)
Definition rust_int `{Profile} (lo hi z : Z) (r : res Z) : Prop :=
  (lo ≤ z < hi → r = Val z) ∧
  (¬ lo ≤ z < hi → overflow_checks = true → r = Err Panic) ∧
  (¬ lo ≤ z < hi → overflow_checks = false → ∃ v k, r = Val v ∧ lo ≤ v < hi ∧ v = z + k * (hi - lo)).
Definition as_Z (r : res N) : res Z := match r with Val x => Val (Z.of_N x) | Err e => Err e end.

Section arith.
  Context `{Profile}.
  Local Lemma u_add_fact w a b : (a < w)%N → (b < w)%N → rust_int 0 (Z.of_N w) (Z.of_N a + Z.of_N b) (as_Z (u_add w a b)).
  Proof.
    intros Ha Hb. unfold u_add. destruct (decide (a + b < w)%N) as [Hl|Hl]; cbn [as_Z].
    - split_and!; [intros _; f_equal; lia|intros; lia|intros; lia].
    - split_and!; [intros; lia|by intros _ ->|]. intros _ ->. cbn [as_Z]. eexists _, (-1). split; [done|].
      assert (Hm : ((a + b) mod w = a + b - w)%N). { symmetry. apply (N.mod_unique _ _ 1); lia. }
      rewrite Hm. lia.
  Qed.
  Local Lemma u_sub_fact w a b : (a < w)%N → (b < w)%N → rust_int 0 (Z.of_N w) (Z.of_N a - Z.of_N b) (as_Z (u_sub w a b)).
  Proof.
    intros Ha Hb. unfold u_sub. destruct (decide (b ≤ a)%N) as [Hl|Hl]; cbn [as_Z].
    - split_and!; [intros _; f_equal; lia|intros; lia|intros; lia].
    - split_and!; [intros; lia|by intros _ ->|]. intros _ ->. cbn [as_Z]. eexists _, 1. split; [done|].
      assert (Hm : ((a + w - b) mod w = a + w - b)%N) by (apply N.mod_small; lia). rewrite Hm. lia.
  Qed.
  (** [a + b] and [a - b] on [u32] and [u64] *)
  Theorem C78_u32 a b : (a < 2 ^ 32)%N → (b < 2 ^ 32)%N →
    rust_int 0 (2 ^ 32) (Z.of_N a + Z.of_N b) (as_Z (u32_add a b)) ∧ rust_int 0 (2 ^ 32) (Z.of_N a - Z.of_N b) (as_Z (u32_sub a b)).
  Proof. intros Ha Hb. split; [exact (u_add_fact W32 a b Ha Hb)|exact (u_sub_fact W32 a b Ha Hb)]. Qed.
  Theorem C78_u64 a b : (a < 2 ^ 64)%N → (b < 2 ^ 64)%N →
    rust_int 0 (2 ^ 64) (Z.of_N a + Z.of_N b) (as_Z (u64_add a b)) ∧ rust_int 0 (2 ^ 64) (Z.of_N a - Z.of_N b) (as_Z (u64_sub a b)).
  Proof. intros Ha Hb. split; [exact (u_add_fact W64 a b Ha Hb)|exact (u_sub_fact W64 a b Ha Hb)]. Qed.
  (** [i32] arithmetic of [balance_factor] *)
  Theorem C78_i32 z : rust_int (- 2 ^ 31) (2 ^ 31) z (i32_chk z).
  Proof.
    unfold i32_chk. destruct (decide (-2147483648 ≤ z < 2147483648)) as [Hl|Hl].
    - split_and!; [done|intros Hn; lia|intros Hn; lia].
    - split_and!; [intros; lia|by intros _ ->|]. intros _ ->. eexists _, (- ((z + 2147483648) / 4294967296)). split; [done|].
      pose proof (Z.mod_pos_bound (z + 2147483648) 4294967296 ltac:(lia)). pose proof (Z.div_mod (z + 2147483648) 4294967296 ltac:(lia)). lia.
  Qed.
  (** [x as u32]: the low 32 bits *)
  Theorem C78_as_u32 x i : N.testbit (as_u32 x) i = (N.testbit x i && bool_decide (i < 32)%N)%bool.
  Proof.
    unfold as_u32. change W32 with (2 ^ 32)%N. destruct (decide (i < 32)%N) as [Hi|Hi].
    - rewrite N.mod_pow2_bits_low by done. rewrite bool_decide_true by done. by rewrite andb_true_r.
    - rewrite N.mod_pow2_bits_high by lia. rewrite bool_decide_false by done. by rewrite andb_false_r.
  Qed.
  (** [x as i32] for a [u32]: the same 32 bits *)
  Theorem C78_as_i32 x i : (x < 2 ^ 32)%N → - 2 ^ 31 ≤ as_i32 x < 2 ^ 31 ∧ ((i < 32)%N → Z.testbit (as_i32 x) (Z.of_N i) = N.testbit x i).
  Proof.
    intros Hx. change (2 ^ 32)%N with 4294967296%N in Hx. unfold as_i32, W32. destruct (decide (x < 2147483648)%N) as [Hs|Hs].
    - split; [lia|]. intros _. apply Z.testbit_of_N.
    - split; [lia|]. intros Hi. rewrite <- (Z.testbit_of_N x i).
      rewrite <- (Z.mod_pow2_bits_low (Z.of_N x) 32) by lia. rewrite <- (Z.mod_pow2_bits_low (Z.of_N x - _) 32) by lia. f_equal.
      change (2 ^ 32) with 4294967296. change (Z.of_N 4294967296) with 4294967296. symmetry. apply (Z.mod_unique _ _ (-1)); [left; apply Z.mod_pos_bound; lia|].
      rewrite (Z.mod_small (Z.of_N x)) by lia. lia.
  Qed.
  (** [x.leading_zeros()] for a [u128]: the bits above are 0, the next one is 1 *)
  Theorem C78_leading_zeros x : (x < 2 ^ 128)%N →
    (leading_zeros128 x ≤ 128)%N ∧
    (∀ i, (i < leading_zeros128 x)%N → N.testbit x (127 - i) = false) ∧
    ((leading_zeros128 x < 128)%N → N.testbit x (127 - leading_zeros128 x) = true).
  Proof.
    intros Hx. unfold leading_zeros128. destruct (decide (x = 0)%N) as [-> |Hne].
    { cbn [N.size]. split_and!; [lia| |lia]. intros i _. apply N.bits_0. }
    pose proof (N.size_log2 x Hne) as Hs. assert (Hlog : (N.log2 x < 128)%N) by (apply N.log2_lt_pow2; lia). split_and!; [lia| |].
    - intros i Hi. apply N.bits_above_log2. lia.
    - intros _. replace (127 - (128 - N.size x))%N with (N.log2 x) by lia. by apply N.bit_log2.
  Qed.
  (** [(1u128 << 127) >> s] for a [u64] amount [s] *)
  Theorem C78_crit_bit_mask s :
    ((s < 128)%N → ∃ m, crit_bit_mask s = Val m ∧ ∀ i, N.testbit m i = bool_decide (i + s = 127)%N) ∧
    ((128 ≤ s)%N → overflow_checks = true → crit_bit_mask s = Err Panic) ∧
    ((128 ≤ s)%N → overflow_checks = false → ∃ m, crit_bit_mask s = Val m ∧ ∀ i, N.testbit m i = bool_decide (i + s mod 128 = 127)%N).
  Proof.
    assert (Hb : ∀ s i, (s < 128)%N → N.testbit (N.shiftr (N.shiftl 1 127) s) i = bool_decide (i + s = 127)%N).
    { intros s' i Hs. rewrite N.shiftr_spec by lia. destruct (decide (i + s' < 127)%N).
      - rewrite N.shiftl_spec_low by done. rewrite bool_decide_false by lia. done.
      - rewrite N.shiftl_spec_high by lia. destruct (decide (i + s' = 127)%N) as [Hi|Hi].
        + rewrite bool_decide_true by done. by replace (i + s' - 127)%N with 0%N by lia.
        + rewrite bool_decide_false by done. apply N.bits_above_log2. cbn. lia. }
    unfold crit_bit_mask. split_and!.
    - intros Hs. rewrite decide_True by done. eexists. split; [done|]. intros i. by apply Hb.
    - intros Hs ->. by rewrite decide_False by lia.
    - intros Hs ->. rewrite decide_False by lia. eexists. split; [done|]. intros i. apply Hb. by apply N.mod_lt.
  Qed.
End arith.
(** Padding up to an alignment: the least multiple that is not smaller *)
Theorem C78_round_up x a : (0 < a)%nat →
  (∃ k, round_up x a = k * a)%nat ∧ (x ≤ round_up x a)%nat ∧ (∀ k, x ≤ k * a → round_up x a ≤ k * a)%nat.
Proof.
  intros Ha. unfold round_up. pose proof (Nat.div_mod (x + (a - 1)) a ltac:(lia)) as Hd. pose proof (Nat.mod_upper_bound (x + (a - 1)) a ltac:(lia)) as Hm.
  set (q := ((x + (a - 1)) / a)%nat) in *. set (r := ((x + (a - 1)) mod a)%nat) in *. split_and!; [by exists q|nia|]. intros k Hk. destruct (decide (q ≤ k)%nat); [nia|]. nia.
Qed.
Print Assumptions C78_u32.
Print Assumptions C78_u64.
Print Assumptions C78_i32.
Print Assumptions C78_as_u32.
Print Assumptions C78_as_i32.
Print Assumptions C78_leading_zeros.
Print Assumptions C78_crit_bit_mask.
Print Assumptions C78_round_up.

(** ** Examples: each case occurs *)
Local Open Scope N_scope.
Example C78_ex_checked : let P := {| overflow_checks := true |} in
  u32_add 4294967295 1 = Err Panic ∧ u32_sub 0 1 = Err Panic ∧ u64_add 18446744073709551615 1 = Err Panic ∧ i32_chk 2147483648 = Err Panic ∧ crit_bit_mask 128 = Err Panic.
Proof. by vm_compute. Qed.
Example C78_ex_wrapping : let P := {| overflow_checks := false |} in
  u32_add 4294967295 3 = Val 2 ∧ u32_sub 0 1 = Val 4294967295 ∧ i32_chk 2147483648 = Val (-2147483648)%Z ∧ i32_chk (-2147483649) = Val 2147483647%Z ∧ crit_bit_mask 129 = crit_bit_mask 1.
Proof. by vm_compute. Qed.
Example C78_ex_casts : as_u32 4294967298 = 2 ∧ as_i32 4294967295 = (-1)%Z ∧ as_i32 7 = 7%Z ∧ leading_zeros128 0 = 128 ∧ leading_zeros128 1 = 127 ∧ round_up 9 8 = 16%nat.
Proof. by vm_compute. Qed.
