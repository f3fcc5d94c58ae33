(** * One structure used by several programs (C80) *)
From Verif Require Import ChangeSpec HashApi RBApi AVLApi.
From Verif Require MapProof ChangeHash ChangeRB ChangeAVL.

(** C80. Every call comes with the [==] and hash function, or the comparison, of the program that makes it; nothing is assumed of these
    functions, nor that any two of them agree. The hash table answers as the table of chains of OrderSpec.v does when each call uses its own
    functions, and iteration shows the chains one after the other. *)
Theorem C80_ht_calls `{Profile} {K V} (nb ms : nat) (d : K * V) (h0 : htable K V) (cs : list (hcall K V)) :
  ht_new nb ms d = Some h0 → (0 < nb)%nat → N.of_nat ms + 1 < W32 →
  (history (λ c, ht_step (hc_eq c) (hc_hash c) (hc_op c)) cs h0).1 = (spec_history (hcall_spec (N.of_nat ms)) cs (replicate nb [])).1.
Proof. intros Hn Hnb Hw. exact (proj1 (ChangeHash.hcalls_fact nb ms d h0 Hn Hnb Hw cs)). Qed.
Theorem C80_ht_iter `{Profile} {K V} (nb ms : nat) (d : K * V) (h0 : htable K V) (cs : list (hcall K V)) :
  ht_new nb ms d = Some h0 → (0 < nb)%nat → N.of_nat ms + 1 < W32 →
  ∀ sc, ht_iterate (history (λ c, ht_step (hc_eq c) (hc_hash c) (hc_op c)) cs h0).2 sc =
    Val (fw_spec sc (concat (spec_history (hcall_spec (N.of_nat ms)) cs (replicate nb [])).2)).
Proof. intros Hn Hnb Hw. exact (proj2 (ChangeHash.hcalls_fact nb ms d h0 Hn Hnb Hw cs)). Qed.

(** The trees answer as search trees do; [T] is the tree that can be read from the structure through its root and its child registers *)
Theorem C80_rb_calls `{Profile} {K V} (ms : nat) (d : K * V) (cs : list ((K → K → comparison) * option (om_op K V))) :
  (0 < ms)%nat → N.of_nat ms + 1 < W32 →
  let '(rs, t) := history (λ c, rb_step c.1 c.2) cs (rb_new ms d) in
  ∃ T, bt_at (rb_get_node t) (rb_get_left t) (rb_get_right t) (rb_root t) T ∧ bt_runs (N.of_nat ms) cs BL rs T.
Proof. intros H0 Hw. exact (ChangeRB.rcalls_fact ms d H0 Hw cs). Qed.
Theorem C80_av_calls `{Profile} {K V} (ms : nat) (d : K * V) (cs : list ((K → K → option comparison) * om_op K V)) :
  (0 < ms)%nat → N.of_nat ms + 1 < W32 →
  let '(rs, t) := history (λ c, av_step c.1 c.2) cs (av_new ms d) in
  ∃ T, bt_at (av_get_node t) (λ i, av_get_field t i Left) (λ i, av_get_field t i Right) (as_u32 (av_root t)) T ∧
    bt_runs (N.of_nat ms) ((λ c, (po_cmp c.1, Some c.2)) <$> cs) BL rs T.
Proof. intros H0 Hw. exact (ChangeAVL.acalls_fact ms d H0 Hw cs). Qed.

(** Their shape stays that of a red-black and of an AVL tree *)
Theorem C80_rb_shape `{Profile} {K V} (ms : nat) (d : K * V) (cs : list ((K → K → comparison) * option (om_op K V))) :
  (0 < ms)%nat → N.of_nat ms + 1 < W32 →
  let t := (history (λ c, rb_step c.1 c.2) cs (rb_new ms d)).2 in
  rb_get_color t (rb_root t) = Val Black ∧ (∃ n, rb_sub t (rb_root t) n) ∧ rb_is_valid t = Val true ∧
  ∀ p, rb_path t (rb_root t) p → 2 ^ lengthN p ≤ (rb_len t + 1) ^ 2.
Proof. intros H0 Hw. exact (ChangeRB.rcalls_shape ms d H0 Hw cs). Qed.
Theorem C80_av_shape `{Profile} {K V} (ms : nat) (d : K * V) (cs : list ((K → K → option comparison) * om_op K V)) :
  (0 < ms)%nat → N.of_nat ms + 1 < W32 →
  let t := (history (λ c, av_step c.1 c.2) cs (av_new ms d)).2 in
  (∃ h, av_sub t (as_u32 (av_root t)) h) ∧
  ∀ p, av_path t (as_u32 (av_root t)) p → fib (length p + 2) ≤ av_len t + 1.
Proof. intros H0 Hw. exact (ChangeAVL.acalls_shape ms d H0 Hw cs). Qed.

(** Only the indexing operators can fail, and they panic *)
Definition panics_by_index {K V} (o : option (om_op K V)) (a : res (om_out K V)) : Prop :=
  ∀ e, a = Err e → e = Panic ∧ ∃ k, o = Some (MIndex k) ∨ ∃ f, o = Some (MIndexMut k f).
Theorem C80_rb_safe `{Profile} {K V} (ms : nat) (d : K * V) (cs : list ((K → K → comparison) * option (om_op K V))) :
  (0 < ms)%nat → N.of_nat ms + 1 < W32 →
  Forall2 panics_by_index cs.*2 (history (λ c, rb_step c.1 c.2) cs (rb_new ms d)).1.
Proof.
  intros H0 Hw. destruct (ChangeRB.rcalls_ops ms d H0 Hw cs) as (U & _ & Hr). by apply ChangeTree.bt_runs_err in Hr.
Qed.
Theorem C80_av_safe `{Profile} {K V} (ms : nat) (d : K * V) (cs : list ((K → K → option comparison) * om_op K V)) :
  (0 < ms)%nat → N.of_nat ms + 1 < W32 →
  Forall2 panics_by_index (Some <$> cs.*2) (history (λ c, av_step c.1 c.2) cs (av_new ms d)).1.
Proof.
  intros H0 Hw. destruct (ChangeAVL.acalls_ops ms d H0 Hw cs) as (U & _ & Hr). apply ChangeTree.bt_runs_err in Hr.
  rewrite <- !list_fmap_compose in *. exact Hr.
Qed.

(** A table filled with one hash function and opened with another: exactly the keys whose bucket is the same are found, with the values they
    had; [insert] of any other key adds a pair beside the one that may be there already, each program seeing its own; [remove] of it does
    nothing, and the first program's pairs stay. *)
Theorem C80_ht_reopened `{Profile} {K V} (keq : K → K → bool) (hash hash2 : K → N) (nb ms : nat) (d : K * V) (h0 : htable K V)
    (ops : list (hm_op K V)) (k : K) :
  HashLaws keq hash → ht_new nb ms d = Some h0 → (0 < nb)%nat → N.of_nat ms + 1 < W32 →
  let h := (history (ht_step keq hash) ops h0).2 in
  ht_get keq hash2 h k = if decide (hash2 k mod N.of_nat nb = hash k mod N.of_nat nb) then ht_get keq hash h k else Val None.
Proof. intros HL Hn Hnb Hw. exact (ChangeHash.reopened_get keq hash hash2 HL nb ms d h0 Hn Hnb Hw ops k). Qed.
Theorem C80_ht_reopened_insert `{Profile} {K V} (keq : K → K → bool) (hash hash2 : K → N) (nb ms : nat) (d : K * V) (h0 : htable K V)
    (ops : list (hm_op K V)) (k : K) (v : V) :
  HashLaws keq hash → ht_new nb ms d = Some h0 → (0 < nb)%nat → N.of_nat ms + 1 < W32 →
  let h := (history (ht_step keq hash) ops h0).2 in
  hash2 k mod N.of_nat nb ≠ hash k mod N.of_nat nb → ht_len h < N.of_nat ms →
  let '(r, h') := call (ht_insert keq hash2 k v) h in
  (∃ i, r = Val (Some i)) ∧ ht_len h' = ht_len h + 1 ∧ ht_get keq hash h' k = ht_get keq hash h k ∧ ht_get keq hash2 h' k = Val (Some v).
Proof. intros HL Hn Hnb Hw. exact (ChangeHash.reopened_insert keq hash hash2 HL nb ms d h0 Hn Hnb Hw ops k v). Qed.
Theorem C80_ht_reopened_remove `{Profile} {K V} (keq : K → K → bool) (hash hash2 : K → N) (nb ms : nat) (d : K * V) (h0 : htable K V)
    (ops : list (hm_op K V)) (k : K) :
  HashLaws keq hash → ht_new nb ms d = Some h0 → (0 < nb)%nat → N.of_nat ms + 1 < W32 →
  let h := (history (ht_step keq hash) ops h0).2 in
  hash2 k mod N.of_nat nb ≠ hash k mod N.of_nat nb →
  let '(r, h') := call (ht_remove keq hash2 k) h in r = Val None ∧ ∀ k', ht_get keq hash h' k' = ht_get keq hash h k'.
Proof. intros HL Hn Hnb Hw. exact (ChangeHash.reopened_remove keq hash hash2 HL nb ms d h0 Hn Hnb Hw ops k). Qed.

(** A tree filled under a total order and read under the reverse order: only the key at the root is found *)
Theorem C80_rb_reversed `{Profile} {K V} (cmp : K → K → comparison) (ms : nat) (d : K * V) (ops : list (option (om_op K V))) (k : K) (v : V) :
  OrdLaws cmp → (0 < ms)%nat → N.of_nat ms + 1 < W32 →
  let t := (history (rb_step cmp) ops (rb_new ms d)).2 in
  rb_get (λ a b, cmp b a) t k = Val (Some v) ↔
  rb_root t ≠ 0 ∧ ∃ k0, rb_get_node t (rb_root t) = Val (k0, v) ∧ cmp k k0 = Eq.
Proof. intros HO H0 Hw. exact (ChangeRB.rb_reversed_fact cmp HO ms d H0 Hw ops k v). Qed.
Theorem C80_av_reversed `{Profile} {K V} (pcmp : K → K → option comparison) (ms : nat) (d : K * V) (ops : list (om_op K V)) (k : K) (v : V) :
  OrdLaws (po_cmp pcmp) → (0 < ms)%nat → N.of_nat ms + 1 < W32 →
  let t := (history (av_step pcmp) ops (av_new ms d)).2 in
  av_get (λ a b, pcmp b a) t k = Val (Some v) ↔
  as_u32 (av_root t) ≠ 0 ∧ ∃ k0, av_get_node t (as_u32 (av_root t)) = Val (k0, v) ∧ po_cmp pcmp k k0 = Eq.
Proof. intros HO H0 Hw. exact (ChangeAVL.av_reversed_fact pcmp HO ms d H0 Hw ops k v). Qed.

(** Refuted: a table filled by one program still holds each key at most once when the next program inserts into it, though both programs'
    functions are lawful and they have the same [==]. *)
Local Instance ex_profile : Profile := {| overflow_checks := true |}.
Theorem C80_ht_distinct_refuted : ∃ (hash hash2 : N → N) (ops ops2 : list (hm_op N N)) (h0 : htable N N),
  HashLaws N.eqb hash ∧ HashLaws N.eqb hash2 ∧ ht_new 2 4 (0, 0) = Some h0 ∧
  let h := (history (ht_step N.eqb hash2) ops2 (history (ht_step N.eqb hash) ops h0).2).2 in
  ht_iterate h [Fwd; Fwd; Fwd] = Val [Some (6, 61); Some (6, 60); None].
Proof.
  exists N.succ, id, [HInsert 6 60], [HInsert 6 61]. eexists. split_and!.
  - split; [intros; apply N.eqb_refl|intros a b; rewrite N.eqb_sym; done|intros a b c; rewrite !N.eqb_eq; congruence|intros a b; rewrite N.eqb_eq; congruence].
  - split; [intros; apply N.eqb_refl|intros a b; rewrite N.eqb_sym; done|intros a b c; rewrite !N.eqb_eq; congruence|intros a b; rewrite N.eqb_eq; congruence].
  - reflexivity.
  - vm_compute. reflexivity.
Qed.
Print Assumptions C80_ht_calls.
Print Assumptions C80_ht_iter.
Print Assumptions C80_rb_calls.
Print Assumptions C80_av_calls.
Print Assumptions C80_rb_shape.
Print Assumptions C80_av_shape.
Print Assumptions C80_rb_safe.
Print Assumptions C80_av_safe.
Print Assumptions C80_ht_reopened.
Print Assumptions C80_ht_reopened_insert.
Print Assumptions C80_ht_reopened_remove.
Print Assumptions C80_rb_reversed.
Print Assumptions C80_av_reversed.
Print Assumptions C80_ht_distinct_refuted.

(** ** Two programs whose hashes are [k + 1] and [k], two buckets *)
Example ex_C80_two_programs :
  let A := HC (V := N) N.eqb N.succ in let B := HC (V := N) N.eqb id in
  let cs := [A (HInsert 6 60); B (HGet 6); B (HInsert 6 61); A (HGet 6); B (HGet 6); A HLen; A (HRemove 6); B (HGet 6); A (HGet 6);
             B (HRemove 6); B HLen] in
  option_map (λ h0, (history (λ c, ht_step (hc_eq c) (hc_hash c) (hc_op c)) cs h0).1) (ht_new 2 4 (0, 0)) =
    Some [Val (HBool true); Val (HVal None); Val (HBool true); Val (HVal (Some 60)); Val (HVal (Some 61)); Val (HNum 2);
          Val (HVal (Some 60)); Val (HVal (Some 61)); Val (HVal None); Val (HVal (Some 61)); Val (HNum 0)].
Proof. vm_compute. reflexivity. Qed.
(** A key whose bucket is another, in a table with room; and one whose bucket is the same (four buckets, [k] and [3k]) *)
Example ex_C80_reopened :
  let ops := [HInsert 1 10; HInsert 2 20] in
  match ht_new 4 4 (0, 0) with
  | None => False
  | Some h0 =>
      let h := (history (ht_step N.eqb id) ops h0).2 in
      ht_get N.eqb (N.mul 3) h 1 = Val None ∧ ht_get N.eqb (N.mul 3) h 2 = Val (Some 20) ∧ ht_len h < 4 ∧ (3 * 1) mod 4 ≠ 1 mod 4 ∧ (3 * 2) mod 4 = 2 mod 4
  end.
Proof. vm_compute. repeat split; discriminate. Qed.
(** A tree filled in ascending and read in descending order: of four keys only the root's is found; inserting another
    one again adds it *)
Example ex_C80_reversed :
  let up : N → N → comparison := N.compare in let down := λ a b : N, N.compare b a in
  let cs := (pair up <$> (Some <$> [MInsert 1 10; MInsert 2 20; MInsert 3 30; MInsert 4 40])) ++
            (pair down <$> (Some <$> [MGet 1; MGet 2; MGet 3; MGet 4; MInsert 4 41; MLen; MGet 4; MIter [Fwd; Fwd; Fwd; Fwd; Fwd]])) ++
            [(up, Some (MGet 4)); (down, None); (up, Some MLen)] in
  (history (λ c, rb_step c.1 c.2) cs (rb_new 8 (0, 0))).1 =
    [Val (MBool true); Val (MBool true); Val (MBool true); Val (MBool true); Val (MVal None); Val (MVal (Some 20)); Val (MVal None);
     Val (MVal None); Val (MBool true); Val (MNum 5); Val (MVal (Some 41));
     Val (MList [Some (4, 41); Some (1, 10); Some (2, 20); Some (3, 30); Some (4, 40)]);
     Val (MVal (Some 40)); Val (MPair (Some (2, 20))); Val (MNum 4)].
Proof. vm_compute. reflexivity. Qed.
Example ex_C80_reversed_av :
  let up : N → N → option comparison := λ a b, Some (N.compare a b) in let down := λ a b : N, Some (N.compare b a) in
  let cs := (pair up <$> [MInsert 1 10; MInsert 2 20; MInsert 3 30; MInsert 4 40]) ++
            (pair down <$> [MGet 1; MGet 2; MGet 3; MGet 4; MInsert 4 41; MLen; MGet 4; MIter [Fwd; Fwd; Fwd; Fwd; Fwd]]) ++
            [(up, MGet 4)] in
  (history (λ c, av_step c.1 c.2) cs (av_new 8 (0, 0))).1 =
    [Val (MBool true); Val (MBool true); Val (MBool true); Val (MBool true); Val (MVal None); Val (MVal (Some 20)); Val (MVal None);
     Val (MVal None); Val (MBool true); Val (MNum 5); Val (MVal (Some 41));
     Val (MList [Some (4, 41); Some (1, 10); Some (2, 20); Some (3, 30); Some (4, 40)]);
     Val (MVal (Some 40))].
Proof. vm_compute. reflexivity. Qed.
