(** * C79: what the unit tests inside src/ detect

    The tests of red_black_tree.rs are programs over any implementation of the methods they call (StructModel.v, UnitModel.v); the theorems say of any implementation, right or wrong,
    when it passes. For deque.rs they say when each assertion holds, for any contents of the memory of the deque. *)
From Verif Require Import MapProof UnitDetectSpec UnitDetectProof StructModel UnitModel UnitProof StructProof UnitDetectMain.

(** ** The five structural tests of red_black_tree.rs *)
Section structural.
  Context {S K V : Type} (tree : shape S K V) (z : V).
  Notation ins := (λ k, h_insert tree k z).
  Notation onL := (hangs (h_left tree) (h_parent tree)).
  Notation onR := (hangs (h_right tree) (h_parent tree)).
  Notation all_black := (all_say (h_black tree)).
  Notation all_red := (all_say (h_red tree)).
  Notation all_leaves := (all_say (h_leaf tree)).
  (** After the last insertion this test looks at the colours only *)
  Theorem C79_red_uncle k52 k61 k76 k85 k93 k100 s s' :
    test_red_uncle tree z k52 k61 k76 k85 k93 k100 s = Ret () s' ↔
    ∃ a0 a1 g u p l s1,
      filled ins (λ _, True) [k61; k52; k85; k76; k93] [a0; a1; g; u; p] s s1 ∧
      (onL s1 a0 a1 ∧ onR s1 a0 g ∧ onL s1 g u ∧ onR s1 g p) ∧ all_black s1 [a0; a1; g] ∧ all_red s1 [u; p] ∧
      filled ins (λ _, True) [k100] [l] s1 s' ∧
      all_black s' [a0; a1; u; p] ∧ all_red s' [g; l].
  Proof. apply red_uncle_iff. Qed.
  Theorem C79_right_right k52 k61 k85 k93 k100 s s' :
    test_right_right tree z k52 k61 k85 k93 k100 s = Ret () s' ↔
    ∃ a0 a1 g p l s1,
      filled ins (λ _, True) [k61; k52; k85; k93] [a0; a1; g; p] s s1 ∧
      (onL s1 a0 a1 ∧ onR s1 a0 g ∧ h_left tree s1 g = Val SENTINEL ∧ onR s1 g p) ∧ all_black s1 [a0; a1; g] ∧ all_red s1 [p] ∧
      filled ins (λ _, True) [k100] [l] s1 s' ∧
      (onL s' a0 a1 ∧ onR s' a0 p ∧ onL s' p g ∧ onR s' p l) ∧ all_black s' [a0; a1; p] ∧ all_red s' [g; l] ∧ all_leaves s' [l; g].
  Proof. apply right_right_iff. Qed.
  Theorem C79_right_left k52 k61 k85 k87 k93 s s' :
    test_right_left tree z k52 k61 k85 k87 k93 s = Ret () s' ↔
    ∃ a0 a1 g p l s1,
      filled ins (λ _, True) [k61; k52; k85; k93] [a0; a1; g; p] s s1 ∧
      (onL s1 a0 a1 ∧ onR s1 a0 g ∧ h_left tree s1 g = Val SENTINEL ∧ onR s1 g p) ∧ all_black s1 [a0; a1; g] ∧ all_red s1 [p] ∧
      filled ins (λ _, True) [k87] [l] s1 s' ∧
      (onL s' a0 a1 ∧ onR s' a0 l ∧ onL s' l g ∧ onR s' l p) ∧ all_black s' [a0; a1; l] ∧ all_red s' [g; p] ∧ all_leaves s' [p; g].
  Proof. apply right_left_iff. Qed.
  Theorem C79_left_left k25 k41 k52 k61 k85 s s' :
    test_left_left tree z k25 k41 k52 k61 k85 s = Ret () s' ↔
    ∃ a0 a1 g p l s1,
      filled ins (λ _, True) [k61; k85; k52; k41] [a0; a1; g; p] s s1 ∧
      (onR s1 a0 a1 ∧ onL s1 a0 g ∧ h_right tree s1 g = Val SENTINEL ∧ onL s1 g p) ∧ all_black s1 [a0; a1; g] ∧ all_red s1 [p] ∧
      filled ins (λ _, True) [k25] [l] s1 s' ∧
      (onR s' a0 a1 ∧ onL s' a0 p ∧ onR s' p g ∧ onL s' p l) ∧ all_black s' [a0; a1; p] ∧ all_red s' [g; l] ∧ all_leaves s' [l; g].
  Proof. apply left_left_iff. Qed.
  Theorem C79_left_right k41 k47 k52 k61 k85 s s' :
    test_left_right tree z k41 k47 k52 k61 k85 s = Ret () s' ↔
    ∃ a0 a1 g p l s1,
      filled ins (λ _, True) [k61; k85; k52; k41] [a0; a1; g; p] s s1 ∧
      (onR s1 a0 a1 ∧ onL s1 a0 g ∧ h_right tree s1 g = Val SENTINEL ∧ onL s1 g p) ∧ all_black s1 [a0; a1; g] ∧ all_red s1 [p] ∧
      filled ins (λ _, True) [k47] [l] s1 s' ∧
      (onR s' a0 a1 ∧ onL s' a0 l ∧ onR s' l g ∧ onL s' l p) ∧ all_black s' [a0; a1; l] ∧ all_red s' [g; p] ∧ all_leaves s' [p; g].
  Proof. apply left_right_iff. Qed.
End structural.
Print Assumptions C79_red_uncle.
Print Assumptions C79_right_right.
Print Assumptions C79_right_left.
Print Assumptions C79_left_left.
Print Assumptions C79_left_right.
(** [remove_root]: what the insertions answer is not looked at. The result [r] is then compared with [(k1, v5)]. *)
Theorem C79_remove_root {S K V} (insert : K → V → M S (option N)) (remove_root : M S (option (K * V))) k0 k1 k2 v4 v5 v0 s r s' :
  test_remove_root insert remove_root k0 k1 k2 v4 v5 v0 s = Ret r s' ↔
  ∃ s1 s2 s3 s4 o2 o3 o4, remove_root s = Ret None s1 ∧ insert k1 v5 s1 = Ret o2 s2 ∧ insert k2 v0 s2 = Ret o3 s3 ∧ insert k0 v4 s3 = Ret o4 s4 ∧
    remove_root s4 = Ret (Some r) s'.
Proof.
  unfold test_remove_root. split.
  - intros Hx. apply bind_iff in Hx as (o & s1 & H1 & Hx). apply bind_iff in Hx as ([] & s1' & Ha & Hx). apply massert_iff in Ha as [Ha ->]. destruct o; [done|].
    apply bind_iff in Hx as (o2 & s2 & H2 & Hx). apply bind_iff in Hx as (o3 & s3 & H3 & Hx). apply bind_iff in Hx as (o4 & s4 & H4 & Hx).
    apply bind_iff in Hx as (o5 & s5 & H5 & Hx). apply lift_unwrap_iff in Hx as [-> ->]. by exists s1, s2, s3, s4, o2, o3, o4.
  - intros (s1 & s2 & s3 & s4 & o2 & o3 & o4 & H1 & H2 & H3 & H4 & H5). apply bind_iff. exists None, s1. split; [done|]. apply bind_iff. exists (), s1. split; [done|].
    apply bind_iff. exists o2, s2. split; [done|]. apply bind_iff. exists o3, s3. split; [done|]. apply bind_iff. exists o4, s4. split; [done|].
    apply bind_iff. exists (Some r), s'. split; [done|]. by apply lift_unwrap_iff.
Qed.
Print Assumptions C79_remove_root.

(** "A tree that passes these five tests stores its values, and its insertions work" is false: the tree below stores [v0] in place of every value, and
    does nothing from the seventh insertion on *)
Definition first_six `{Profile} {K V} (cmp : K → K → comparison) (v0 : V) : shape (rbt K V * nat) K V := {|
  h_insert := λ k _ s, if decide (s.2 < 6)%nat
    then match rb_insert cmp k v0 s.1 with Ret o t => Ret o (t, Datatypes.S s.2) | Fail e t => Fail e (t, Datatypes.S s.2) end
    else Ret (Some 0) (s.1, Datatypes.S s.2);
  h_left := λ s, rb_get_left s.1; h_right := λ s, rb_get_right s.1; h_parent := λ s, rb_get_parent s.1;
  h_black := λ s, rb_is_black s.1; h_red := λ s, rb_is_red s.1; h_leaf := λ s, rb_is_leaf s.1 |}.
Section first_six.
  Context `{Profile} {K V : Type} (cmp : K → K → comparison) (v0 z : V).
  Local Lemma six_fills keys addrs t t' n : (n + length keys ≤ 6)%nat →
    filled (λ k, h_insert (rb_shape cmp) k v0) (λ _, True) keys addrs t t' →
    filled (λ k, h_insert (first_six cmp v0) k z) (λ _, True) keys addrs (t, n) (t', (n + length keys)%nat).
  Proof.
    revert addrs t n. induction keys as [|k keys IH]; intros [|a addrs] t n Hn; cbn [filled length]; try done; [intros ->; by rewrite Nat.add_0_r|].
    intros (t1 & Hi & _ & Hf). exists (t1, Datatypes.S n). cbn [length] in Hn. split; [|split; [done|]].
    - cbn [first_six h_insert fst snd]. rewrite decide_True by lia. cbn [rb_shape h_insert] in Hi. by rewrite Hi.
    - rewrite Nat.add_succ_r. apply (IH addrs t1 (Datatypes.S n)); [lia|done].
  Qed.
  Theorem C79_structural_refuted (d : K * V) : OrdLaws cmp →
    let s0 := (rb_new 1024 d, 0%nat) in
    let fewer := first_six cmp v0 in
    (∀ a b c d' e f, cmp a b = Lt → cmp b c = Lt → cmp c d' = Lt → cmp d' e = Lt → cmp e f = Lt → ∃ s, test_red_uncle fewer z a b c d' e f s0 = Ret () s) ∧
    (∀ a b c d' e, cmp a b = Lt → cmp b c = Lt → cmp c d' = Lt → cmp d' e = Lt →
      (∃ s, test_right_right fewer z a b c d' e s0 = Ret () s) ∧ (∃ s, test_right_left fewer z a b c d' e s0 = Ret () s) ∧
      (∃ s, test_left_left fewer z a b c d' e s0 = Ret () s) ∧ (∃ s, test_left_right fewer z a b c d' e s0 = Ret () s)) ∧
    (∀ k v v' s, h_insert fewer k v s = h_insert fewer k v' s) ∧
    (∀ k v t n, (6 ≤ n)%nat → h_insert fewer k v (t, n) = Ret (Some 0) (t, Datatypes.S n)).
  Proof.
    intros HO. cbv zeta. split_and!; [| |done|].
    - intros a b c d' e f H1 H2 H3 H4 H5. destruct (red_uncle_passes cmp HO d v0 a b c d' e f H1 H2 H3 H4 H5) as [t Ht].
      apply red_uncle_iff in Ht as (a0 & a1 & g & u & p & l & s1 & Hf & Ha & Hb & Hc & Hf' & Hd).
      exists (t, 6%nat). apply red_uncle_iff. exists a0, a1, g, u, p, l, (s1, 5%nat). split; [apply (six_fills [_; _; _; _; _] _ _ _ 0); [cbn; lia|done]|].
      split; [done|]. split; [done|]. split; [done|]. split; [apply (six_fills [_] _ _ _ 5); [cbn; lia|done]|done].
    - intros a b c d' e H1 H2 H3 H4. split_and!.
      + destruct (right_right_passes cmp HO d v0 a b c d' e H1 H2 H3 H4) as [t Ht].
        apply right_right_iff in Ht as (a0 & a1 & g & p & l & s1 & Hf & Ha & Hb & Hc & Hf' & Hd).
        exists (t, 5%nat). apply right_right_iff. exists a0, a1, g, p, l, (s1, 4%nat). split; [apply (six_fills [_; _; _; _] _ _ _ 0); [cbn; lia|done]|].
        split; [done|]. split; [done|]. split; [done|]. split; [apply (six_fills [_] _ _ _ 4); [cbn; lia|done]|done].
      + destruct (right_left_passes cmp HO d v0 a b c d' e H1 H2 H3 H4) as [t Ht].
        apply right_left_iff in Ht as (a0 & a1 & g & p & l & s1 & Hf & Ha & Hb & Hc & Hf' & Hd).
        exists (t, 5%nat). apply right_left_iff. exists a0, a1, g, p, l, (s1, 4%nat). split; [apply (six_fills [_; _; _; _] _ _ _ 0); [cbn; lia|done]|].
        split; [done|]. split; [done|]. split; [done|]. split; [apply (six_fills [_] _ _ _ 4); [cbn; lia|done]|done].
      + destruct (left_left_passes cmp HO d v0 a b c d' e H1 H2 H3 H4) as [t Ht].
        apply left_left_iff in Ht as (a0 & a1 & g & p & l & s1 & Hf & Ha & Hb & Hc & Hf' & Hd).
        exists (t, 5%nat). apply left_left_iff. exists a0, a1, g, p, l, (s1, 4%nat). split; [apply (six_fills [_; _; _; _] _ _ _ 0); [cbn; lia|done]|].
        split; [done|]. split; [done|]. split; [done|]. split; [apply (six_fills [_] _ _ _ 4); [cbn; lia|done]|done].
      + destruct (left_right_passes cmp HO d v0 a b c d' e H1 H2 H3 H4) as [t Ht].
        apply left_right_iff in Ht as (a0 & a1 & g & p & l & s1 & Hf & Ha & Hb & Hc & Hf' & Hd).
        exists (t, 5%nat). apply left_right_iff. exists a0, a1, g, p, l, (s1, 4%nat). split; [apply (six_fills [_; _; _; _] _ _ _ 0); [cbn; lia|done]|].
        split; [done|]. split; [done|]. split; [done|]. split; [apply (six_fills [_] _ _ _ 4); [cbn; lia|done]|done].
    - intros k v t n Hn. cbn [first_six h_insert fst snd]. by rewrite decide_False by lia.
  Qed.
End first_six.
Print Assumptions C79_structural_refuted.

(** ** The deletion tests of red_black_tree.rs *)
Section deletion.
  Context {S K V : Type} (tree : draining S K V) (z : V).
  Notation ins := (λ k, r_insert tree k z).
  Notation valid := (λ s, r_valid tree s = Val true).
  (** All that is looked at is whether [insert] and [remove] answer [Some], and what the tree under test says about its own validity *)
  Theorem C79_delete keys s s' :
    test_delete tree z keys s = Ret () s' ↔ ∃ addrs s1, filled ins valid keys addrs s s1 ∧ drained (r_remove tree) valid keys s1 s'.
  Proof. apply test_delete_iff. Qed.
  (** ... in one of them also whether [get_addr] answers what [insert] did *)
  Theorem C79_delete_1024 keys s s' :
    test_delete_1024 tree z keys s = Ret () s' ↔
    ∃ addrs s1, filled ins valid keys addrs s s1 ∧ Forall2 (λ k a, r_addr tree s1 k = Val a) keys addrs ∧ drained (r_remove tree) valid keys s1 s'.
  Proof. apply test_delete_1024_iff. Qed.
End deletion.
Print Assumptions C79_delete.
Print Assumptions C79_delete_1024.
(** ... and in one of them the tree filled first is not looked at at all; the tree of the indices 0, 1, 2, .. of the keys is *)
Theorem C79_delete_2048 {S S' K V} (tree : draining S K V) (index_tree : draining S' N V) (cmp : K → K → comparison) (z : V) keys s t s' t' : OrdLaws cmp →
  (∀ i j a b, keys !! i = Some a → keys !! j = Some b → cmp a b = Eq → i = j) →
  let valid := λ t, r_valid index_tree t = Val true in
  let indices := N.of_nat <$> seq 0 (length keys) in
  test_delete_2048 tree index_tree cmp z keys (s, t) = Ret () (s', t') ↔
  (∃ addrs, filled (λ k, r_insert tree k z) (λ _, True) keys addrs s s') ∧
  ∃ addrs t1, filled (λ k, r_insert index_tree k z) (λ _, True) indices addrs t t1 ∧ valid t1 ∧ drained (r_remove index_tree) valid indices t1 t'.
Proof. intros HO Hd. cbv zeta. by apply test_delete_2048_iff. Qed.
Print Assumptions C79_delete_2048.

(** "A tree that passes the deletion tests stores its keys" is false: with an [insert] that does nothing and answers 0 and a [remove] that does nothing and answers a value, and
    everything else as it is ([idle] in UnitDetectMain.v), they pass for every list of keys *)
Theorem C79_delete_refuted `{Profile} {K V : Type} (cmp : K → K → comparison) (z : V) ms (d : K * V) (d' : N * V) : OrdLaws cmp →
  (0 < ms)%nat → N.of_nat ms + 1 < W32 →
  let t := rb_new ms d in
  (∀ keys, test_delete (idle cmp z) z keys t = Ret () t) ∧
  (∀ keys, test_delete_1024 (idle cmp z) z keys t = Ret () t) ∧
  (∀ keys, test_delete_2048 (idle cmp z) (idle N.compare z) cmp z keys (t, rb_new ms d') = Ret () (t, rb_new ms d')).
Proof. intros HO H0 Hw. exact (idle_passes cmp HO z ms d d' H0 Hw). Qed.
Print Assumptions C79_delete_refuted.

(** ** [test_deque], for any contents [t_q st] of the deque's memory and any [VecDeque] [t_v st] *)
Section deque.
  Context `{Profile} {T : Type} `{EqDecision T} (r_n : N → N) (st st' : dtest (T:=T)).
  Notation q := (t_q st).
  Notation v := (t_v st).
  Notation n := (length v).
  (** What the iterator answers when asked from end [e] agrees with [v] up to where one of the two ends *)
  Notation agree e w := (∃ m l, (m ≤ length w%list)%nat ∧ dq_iterate (replicate (S m) e) q = Val l ∧
    take m (map (option_map snd) l) = map Some (take m w) ∧ (m = length w%list ∨ l !! m = Some None)).
  (** [b] elements from the front, the others from the back, and four times nothing *)
  Notation both_ends b := (map Some (take b v ++ rev (drop b v)) ++ [None; None; None; None]).
  Notation calls b := (replicate b Fwd ++ replicate (n - b) Bwd ++ [Fwd; Bwd; Fwd; Bwd]).
  Notation random_b := (N.to_nat (1 + r_n (t_draws st) mod (N.of_nat n - 2))).
  Theorem C79_dq_asserts :
    (* the comparison with zip *)
    (u_same st = Ret () st' ↔ st' = st ∧ agree Fwd v ∧ agree Bwd (rev v)) ∧
    (* the iterators from both ends *)
    (u_iter r_n n st = Ret () st' ↔
      (2 < n)%nat ∧ st' = DTest q (t_draws st + 1) v ∧ ∃ l, dq_iterate (calls random_b) q = Val l ∧ map (option_map snd) l = both_ends random_b) ∧
    (u_iter_mut r_n n st = Ret () st' ↔
      (2 < n)%nat ∧ t_draws st' = t_draws st + 1 ∧ t_v st' = v ∧
      ∃ l, dq_iterate_mut (map (λ e, (e, λ x, x)) (calls random_b)) q = Ret l (t_q st') ∧ map (option_map snd) l = both_ends random_b) ∧
    (* the pops and the end *)
    (u_pop_back st = Ret () st' ↔ ∃ q', dq_pop_back q = Ret (last v) q' ∧ st' = DTest q' (t_draws st) (take (n - 1) v)) ∧
    (u_pop_front st = Ret () st' ↔ ∃ q', dq_pop_front q = Ret (head v) q' ∧ st' = DTest q' (t_draws st) (tail v)) ∧
    (u_empty st = Ret () st' ↔ st' = st ∧ dq_is_empty q = true ∧ v = []).
  Proof. split_and!; [apply same_iff|apply iter_iff|apply iter_mut_iff|apply pop_back_iff|apply pop_front_iff|apply empty_iff]. Qed.
End deque.
Print Assumptions C79_dq_asserts.

(** ** Cases *)
Local Instance ex_profile : Profile := {| overflow_checks := true |}.
Definition passed {S} (o : outcome S ()) : bool := match o with Ret _ _ => true | Fail _ _ => false end.
(** The tests' own keys: the tree of the source passes, the one that works for six insertions only as well, one in which red and black are exchanged does not *)
Example ex_C79_structural :
  passed (test_red_uncle (rb_shape N.compare) 0 52 61 76 85 93 100 (rb_new 16 (0, 0))) = true ∧
  passed (test_red_uncle (first_six N.compare 7) 0 52 61 76 85 93 100 (rb_new 16 (0, 0), 0%nat)) = true ∧
  (let t := rb_shape N.compare in
   let swapped := {| h_insert := h_insert t; h_left := h_left t; h_right := h_right t; h_parent := h_parent t; h_black := h_red t; h_red := h_black t; h_leaf := h_leaf t |} in
   passed (test_red_uncle swapped 0 52 61 76 85 93 100 (rb_new 16 (0, 0))) = false).
Proof. by vm_compute. Qed.
Example ex_C79_remove_root :
  match test_remove_root (rb_insert N.compare) rb_remove_root 0 1 2 4 5 0 (rb_new 8 (0, 0)) with Ret r _ => r = (1, 5) | Fail _ _ => False end.
Proof. by vm_compute. Qed.
(** The deletion tests: keys twice in the list are noticed by the tree of the source, not by the tree that stores nothing *)
Example ex_C79_delete :
  passed (test_delete_1024 (rb_drain N.compare) 0 [30; 11; 52; 7] (rb_new 8 (0, 0))) = true ∧
  passed (test_delete_1024 (rb_drain N.compare) 0 [30; 11; 30] (rb_new 8 (0, 0))) = false ∧
  passed (test_delete_1024 (idle N.compare 0) 0 [30; 11; 30] (rb_new 8 (0, 0))) = true ∧
  passed (test_delete_2048 (rb_drain N.compare) (rb_drain N.compare) N.compare 0 [30; 11; 52] (rb_new 8 (0, 0), rb_new 8 (0, 0))) = true.
Proof. by vm_compute. Qed.
(** A deque with 1, 2, 3, 4: compared with the right and with a wrong VecDeque; an empty deque passes the comparison by zip with anything, but no other assertion *)
Example ex_C79_dq :
  let d := match (dq_push_back 1;; dq_push_back 2;; dq_push_back 3;; dq_push_back 4) (dq_new 8 0) with Ret _ d => d | Fail _ d => d end in
  passed (u_same (DTest d 5 [1; 2; 3; 4])) = true ∧ passed (u_iter id 4 (DTest d 5 [1; 2; 3; 4])) = true ∧
  passed (u_iter_mut id 4 (DTest d 5 [1; 2; 3; 4])) = true ∧ passed (u_pop_back (DTest d 5 [1; 2; 3; 4])) = true ∧
  passed (u_same (DTest d 5 [1; 2; 4; 3])) = false ∧ passed (u_iter id 4 (DTest d 5 [1; 2; 4; 3])) = false ∧
  passed (u_same (DTest (dq_new 8 0) 5 [1; 2; 4; 3])) = true ∧ passed (u_iter id 4 (DTest (dq_new 8 0) 5 [1; 2; 4; 3])) = false ∧
  passed (u_empty (DTest (dq_new 8 0) 5 [])) = true.
Proof. by vm_compute. Qed.
