(** * The trees with an arbitrary comparison of keys (C54) *)
From Verif Require Import RBApi AVLApi LooseSpec.
From Verif Require MapProof LooseSim LooseRB LooseAVL.

(** C54. [cmp], [pcmp] are arbitrary functions: no law of an order is assumed. [T] is the tree that can be read from the structure
    through its root and its child registers. *)
Theorem C54_rb_any_order `{Profile} {K V} (cmp : K → K → comparison) (ms : nat) (d : K * V) (ops : list (option (om_op K V))) :
  (0 < ms)%nat → N.of_nat ms + 1 < W32 →
  let '(rs, t) := history (rb_step cmp) ops (rb_new ms d) in
  ∃ T, bt_at (rb_get_node t) (rb_get_left t) (rb_get_right t) (rb_root t) T ∧ bt_run cmp (N.of_nat ms) ops BL rs T.
Proof. intros H0 Hw. by apply LooseRB.rb_any_fact. Qed.
Theorem C54_av_any_order `{Profile} {K V} (pcmp : K → K → option comparison) (ms : nat) (d : K * V) (ops : list (om_op K V)) :
  (0 < ms)%nat → N.of_nat ms + 1 < W32 →
  let '(rs, t) := history (av_step pcmp) ops (av_new ms d) in
  ∃ T, bt_at (av_get_node t) (λ i, av_get_field t i Left) (λ i, av_get_field t i Right) (as_u32 (av_root t)) T ∧
    bt_run (po_cmp pcmp) (N.of_nat ms) (Some <$> ops) BL rs T.
Proof. intros H0 Hw. by apply LooseAVL.av_any_fact. Qed.

(** The shape does not depend on the order being one *)
Theorem C54_rb_shape `{Profile} {K V} (cmp : K → K → comparison) (ms : nat) (d : K * V) (ops : list (option (om_op K V))) :
  (0 < ms)%nat → N.of_nat ms + 1 < W32 →
  let t := (history (rb_step cmp) ops (rb_new ms d)).2 in
  rb_get_color t (rb_root t) = Val Black ∧ (∃ n, rb_sub t (rb_root t) n) ∧ rb_is_valid t = Val true ∧
  ∀ p, rb_path t (rb_root t) p → 2 ^ lengthN p ≤ (rb_len t + 1) ^ 2.
Proof. intros H0 Hw. by apply LooseRB.rb_any_shape. Qed.
Theorem C54_av_shape `{Profile} {K V} (pcmp : K → K → option comparison) (ms : nat) (d : K * V) (ops : list (om_op K V)) :
  (0 < ms)%nat → N.of_nat ms + 1 < W32 →
  let t := (history (av_step pcmp) ops (av_new ms d)).2 in
  (∃ h, av_sub t (as_u32 (av_root t)) h) ∧
  ∀ p, av_path t (as_u32 (av_root t)) p → fib (length p + 2) ≤ av_len t + 1.
Proof. intros H0 Hw. by apply LooseAVL.av_any_shape. Qed.

(** Only the indexing operators can panic; no call leaves the allocator's array, runs for ever or is undefined behaviour *)
Definition only_index_panics {K V} (o : option (om_op K V)) (a : res (om_out K V)) : Prop :=
  ∀ e, a = Err e → e = Panic ∧ ∃ k, o = Some (MIndex k) ∨ ∃ f, o = Some (MIndexMut k f).
Theorem C54_rb_safe `{Profile} {K V} (cmp : K → K → comparison) (ms : nat) (d : K * V) (ops : list (option (om_op K V))) :
  (0 < ms)%nat → N.of_nat ms + 1 < W32 →
  Forall2 only_index_panics ops (history (rb_step cmp) ops (rb_new ms d)).1.
Proof.
  intros H0 Hw. destruct (LooseRB.rb_any_ops cmp ms d H0 Hw ops) as (U & _ & Hr). by apply LooseSim.bt_run_err in Hr.
Qed.
Theorem C54_av_safe `{Profile} {K V} (pcmp : K → K → option comparison) (ms : nat) (d : K * V) (ops : list (om_op K V)) :
  (0 < ms)%nat → N.of_nat ms + 1 < W32 →
  Forall2 only_index_panics (Some <$> ops) (history (av_step pcmp) ops (av_new ms d)).1.
Proof.
  intros H0 Hw. destruct (LooseAVL.av_any_ops pcmp ms d H0 Hw ops) as (U & _ & Hr). by apply LooseSim.bt_run_err in Hr.
Qed.

(** What a step can do to the pairs: nothing, except to values; add the inserted pair; take out one pair, which is the one answered *)
Theorem C54_pairs_kept {K V} (cmp : K → K → comparison) cap (o : option (om_op K V)) T a T' :
  bt_step cmp cap o T a T' →
  bt_keys T' = bt_keys T ∨
  (∃ k v i, o = Some (MInsert k v) ∧ a = Val (MBool true) ∧ bt_seq T' ≡ₚ (i, (k, v)) :: bt_seq T) ∨
  (∃ k i kv, o = Some (MRemove k) ∧ a = Val (MVal (Some kv.2)) ∧ cmp k kv.1 = Eq ∧ bt_seq T ≡ₚ (i, kv) :: bt_seq T') ∨
  (∃ i kv, o = None ∧ a = Val (MPair (Some kv)) ∧ bt_seq T ≡ₚ (i, kv) :: bt_seq T').
Proof. exact (LooseSim.bt_step_keeps cmp cap o T a T'). Qed.

(** When the comparison is a total order and the pairs stand in that order, the searches are those of the ordered map of [MapSpec] *)
Theorem C54_lawful {K V} (cmp : K → K → comparison) (k : K) (x : N * (K * V)) (T : bt K V) :
  OrdLaws cmp → ascending cmp (bt_seq T).*2 → x.2.1 = k →
  bt_get cmp k T = om_get cmp k (bt_seq T).*2 ∧
  (bt_find cmp k T = None → (bt_put cmp k x T).*2 = om_insert cmp k x.2.2 (bt_seq T).*2) ∧
  (bt_find cmp k T ≠ None → (bt_del cmp k T).*2 = om_remove cmp k (bt_seq T).*2) ∧
  ∀ f, (bt_seq (bt_upd cmp k f T)).*2 = om_alter cmp k f (bt_seq T).*2.
Proof. exact (LooseSim.bt_lawful cmp k x T). Qed.

Print Assumptions C54_rb_any_order.
Print Assumptions C54_av_any_order.
Print Assumptions C54_rb_shape.
Print Assumptions C54_av_shape.
Print Assumptions C54_rb_safe.
Print Assumptions C54_av_safe.
Print Assumptions C54_pairs_kept.
Print Assumptions C54_lawful.

(** A comparison that always says [Lt]: every insertion is a new pair at the front, nothing is ever found. *)
Local Instance ex_profile : Profile := {| overflow_checks := true |}.
Example ex_C54_always_less :
  let ops := (Some <$> [MInsert 7 1; MInsert 7 2; MInsert 5 3; MInsert 7 4; MInsert 9 5; MGet 7; MRemove 7; MLen; MIndex 5;
                        MIter [Fwd; Fwd; Fwd; Bwd]]) ++ [None; Some MLen] in
  (history (rb_step (λ _ _ : N, Lt)) ops (rb_new 4 (0, 0))).1 =
    [Val (MBool true); Val (MBool true); Val (MBool true); Val (MBool true); Val (MBool false); Val (MVal None); Val (MVal None);
     Val (MNum 4); Err Panic; Val (MList [Some (7, 4); Some (5, 3); Some (7, 2); Some (7, 1)]); Val (MPair (Some (7, 2))); Val (MNum 3)].
Proof. by vm_compute. Qed.
(** Keys with an incomparable element, as floats with NaN ([None]); the AVL tree takes "incomparable" for "equal": the pair changed
    by inserting NaN is whatever stands at the root, and with NaN at the root every search ends there. *)
Definition fcmp (x y : option N) : option comparison :=
  match x, y with Some a, Some b => Some (N.compare a b) | _, _ => None end.
Example ex_C54_nan :
  let ops := [MInsert (Some 3) 30; MInsert (Some 5) 50; MInsert (Some 8) 80; MInsert None 99; MGet (Some 5); MGet None; MRemove None;
              MLen; MGet (Some 5); MIter [Fwd; Fwd; Fwd]] in
  (history (av_step fcmp) ops (av_new 4 (None, 0))).1 =
    [Val (MBool true); Val (MBool true); Val (MBool true); Val (MBool true); Val (MVal (Some 99)); Val (MVal (Some 99));
     Val (MVal (Some 99)); Val (MNum 2); Val (MVal None); Val (MList [Some (Some 3, 30); Some (Some 8, 80); None])].
Proof. by vm_compute. Qed.
Example ex_C54_nan_first :
  let ops := [MInsert None 1; MInsert (Some 3) 30; MInsert (Some 5) 50; MLen; MGet (Some 7); MIter [Fwd; Fwd]] in
  (history (av_step fcmp) ops (av_new 4 (None, 0))).1 =
    [Val (MBool true); Val (MBool true); Val (MBool true); Val (MNum 1); Val (MVal (Some 50)); Val (MList [Some (None, 50); None])].
Proof. by vm_compute. Qed.
(** [bt_run] on the first four calls of that history: a tree with two nodes *)
Example ex_C54_step :
  let T := BN (BN BL 1 (7, 1) BL) 2 (7, 2) BL in
  bt_find (λ _ _, Lt) 7 T = None ∧ bt_put (λ _ _, Lt) 7 (3, (7, 3)) T = [(3, (7, 3)); (1, (7, 1)); (2, (7, 2))] ∧
  bt_step (λ _ _, Lt) 4 (Some (MInsert 7 3)) T (Val (MBool true)) (BN (BN BL 3 (7, 3) BL) 1 (7, 1) (BN BL 2 (7, 2) BL)).
Proof.
  split_and!; [done|done|]. eapply (bs_new _ _ _ _ 3); [done|done| |done|done|done]. simpl. rewrite !elem_of_cons, elem_of_nil.
  intros [|[|]]; done.
Qed.
Example ex_C54_lawful :
  let T := BN (BN BL 1 (3, 30) BL) 2 (5, 50) BL in
  OrdLaws N.compare ∧ ascending N.compare (bt_seq T).*2 ∧ bt_find N.compare 4 T = None ∧ bt_find N.compare 3 T ≠ None.
Proof. split_and!; [exact MapProof.N_laws| |done|done]. repeat constructor. Qed.
