(** * Balanced drawings: taking away a leaf, and which heights are possible *)
From Verif Require Import MapProof AVLMain DrawSpec.

Section pure.
  Context {K V : Type} (cmp : K → K → comparison) (HO : OrdLaws cmp).
  Notation drawing := (drawing (K * V)).
  Implicit Types b l r : drawing.

  Lemma asc_fork l x r : ascending cmp (inorder (Fork l x r)) →
    ascending cmp (inorder l) ∧ ascending cmp (inorder r) ∧ (∀ y, y ∈ inorder l → cmp y.1 x.1 = Lt) ∧ (∀ y, y ∈ inorder r → cmp x.1 y.1 = Lt).
  Proof using Type.
    clear HO. cbn [inorder]. unfold ascending. intros Hs. split_and!.
    - by eapply StronglySorted_app_inv_l.
    - apply StronglySorted_app_inv_r in Hs. by apply StronglySorted_inv in Hs as [Hs _].
    - intros y Hy. eapply (elem_of_StronglySorted_app _ _ _ _ _ Hs); [done|apply elem_of_list_here].
    - intros y Hy. apply StronglySorted_app_inv_r in Hs. apply StronglySorted_inv in Hs as [_ Hs].
      rewrite Forall_forall in Hs. by apply Hs.
  Qed.

  (** some leaf can be taken away such that what is left is balanced and hanging it up again gives the drawing *)
  Lemma take_leaf b : balanced b → b ≠ Empty → ascending cmp (inorder b) →
    ∃ b' k v A B, balanced b' ∧ hang cmp k v b' = b ∧ inorder b = A ++ (k, v) :: B ∧ inorder b' = A ++ B ∧
      (tall b' ≤ tall b ∧ tall b ≤ tall b' + 1)%nat.
  Proof using HO.
    induction b as [|l IHl x r IHr]; [done|]. intros (Bl & Br & H1 & H2) _ Hs. destruct (asc_fork _ _ _ Hs) as (Sl & Sr & Ll & Lr).
    destruct (decide (tall r ≤ tall l)%nat) as [Hle|Hlt].
    - destruct l as [|ll lx lr].
      + destruct r; [|cbn [tall] in Hle; lia]. exists Empty. destruct x as [k v]. by exists k, v, [], [].
      + destruct IHl as (b' & k & v & A & B & Hb & Hh & Hi & Hi' & Ht1 & Ht2); [done|done|done|]. set (l := Fork ll lx lr) in *.
        exists (Fork b' x r), k, v, A, (B ++ x :: inorder r). cbn [inorder balanced tall hang].
        assert (cmp k x.1 = Lt) as Hk. { apply (Ll (k, v)). rewrite Hi. set_solver. }
        split_and!; [done|done|lia|lia|by rewrite Hk, Hh|by rewrite Hi, <- app_assoc|by rewrite Hi', <- app_assoc|lia|lia].
    - destruct r as [|rl rx rr]; [cbn [tall] in Hlt; lia|].
      destruct IHr as (b' & k & v & A & B & Hb & Hh & Hi & Hi' & Ht1 & Ht2); [done|done|done|]. set (r := Fork rl rx rr) in *.
      exists (Fork l x b'), k, v, (inorder l ++ x :: A), B. cbn [inorder balanced tall hang].
      assert (cmp x.1 k = Lt) as Hk. { apply (Lr (k, v)). rewrite Hi. set_solver. }
      split_and!; [done|done|lia|lia| |by rewrite Hi, <- app_assoc|by rewrite Hi', <- app_assoc|lia|lia].
      rewrite (cmp_sym _ HO x.1 k). rewrite Hk. cbn. by rewrite Hh.
  Qed.
End pure.

(** ** Heights *)
Lemma balanced_fib {A} (b : drawing A) : balanced b → fib (tall b + 2) ≤ lengthN (inorder b) + 1.
Proof.
  induction b as [|l IHl x r IHr]; [done|]. intros (Hl & Hr & H1 & H2). specialize (IHl Hl). specialize (IHr Hr).
  cbn [inorder tall]. unfold lengthN in *. rewrite app_length. cbn [length].
  replace (S (Nat.max (tall l) (tall r)) + 2)%nat with (S (S (S (Nat.max (tall l) (tall r))))) by lia. rewrite fib_SS.
  destruct (Nat.max_spec (tall l) (tall r)) as [[? ->]|[? ->]].
  - pose proof (fib_mono (S (tall r)) (tall l + 2) ltac:(lia)). replace (S (S (tall r))) with (tall r + 2)%nat by lia. lia.
  - pose proof (fib_mono (S (tall l)) (tall r + 2) ltac:(lia)). replace (S (S (tall l))) with (tall l + 2)%nat by lia. lia.
Qed.
Lemma tall_pow {A} (b : drawing A) : lengthN (inorder b) + 1 ≤ 2 ^ N.of_nat (tall b).
Proof.
  induction b as [|l IHl x r IHr]; [done|]. cbn [inorder tall]. unfold lengthN in *. rewrite app_length. cbn [length].
  rewrite Nat2N.inj_succ, N.pow_succ_r'.
  assert (2 ^ N.of_nat (tall l) ≤ 2 ^ N.of_nat (Nat.max (tall l) (tall r))) by (apply N.pow_le_mono_r; lia).
  assert (2 ^ N.of_nat (tall r) ≤ 2 ^ N.of_nat (Nat.max (tall l) (tall r))) by (apply N.pow_le_mono_r; lia). lia.
Qed.
Lemma fib_pow h : (1 ≤ h)%nat → fib (h + 2) ≤ 2 ^ N.of_nat (h - 1) + 1 ∧ fib (h + 3) ≤ 2 ^ N.of_nat h + 1.
Proof.
  induction 1 as [|h Hh [IH1 IH2]]; [done|]. replace (S h + 2)%nat with (h + 3)%nat by lia. replace (S h - 1)%nat with h by lia. split; [done|].
  replace (S h + 3)%nat with (S (S (h + 2))) by lia. rewrite fib_SS. replace (S (h + 2)) with (h + 3)%nat by lia.
  destruct h as [|h]; [lia|]. replace (S h - 1)%nat with h in IH1 by lia. rewrite (Nat2N.inj_succ (S h)), N.pow_succ_r'.
  rewrite Nat2N.inj_succ, N.pow_succ_r' in *. assert (1 ≤ 2 ^ N.of_nat h) by (apply (N.pow_le_mono_r 2 0); lia). lia.
Qed.

(** every height between the two bounds occurs *)
Lemma heights_exist {A} h : ∀ ps : list A, fib (h + 2) ≤ lengthN ps + 1 → lengthN ps + 1 ≤ 2 ^ N.of_nat h →
  ∃ b : drawing A, balanced b ∧ inorder b = ps ∧ tall b = h.
Proof.
  induction h as [h IH] using lt_wf_ind. intros ps Hlo Hhi. destruct h as [|h].
  { exists Empty. split_and!; [done| |done]. unfold lengthN in Hhi. destruct ps; [done|]. cbn [length] in Hhi. cbn in Hhi. lia. }
  replace (S h + 2)%nat with (S (S (S h))) in Hlo by lia. rewrite fib_SS in Hlo. rewrite Nat2N.inj_succ, N.pow_succ_r' in Hhi.
  (* a + c = length + 1 *)
  assert (∀ a c ha hc, (ha ≤ h)%nat → (hc ≤ h)%nat → (ha ≤ hc + 1)%nat → (hc ≤ ha + 1)%nat → Nat.max ha hc = h →
    a + c = lengthN ps + 1 → fib (ha + 2) ≤ a → a ≤ 2 ^ N.of_nat ha → fib (hc + 2) ≤ c → c ≤ 2 ^ N.of_nat hc → 0 < a → 0 < c →
    ∃ b : drawing A, balanced b ∧ inorder b = ps ∧ tall b = S h) as Hgo.
  { intros a c ha hc ? ? ? ? Hm Hac Ha1 Ha2 Hc1 Hc2 Ha0 Hc0.
    destruct (drop (N.to_nat (a - 1)) ps) as [|x qs] eqn:Hd.
    { apply (f_equal length) in Hd. rewrite drop_length in Hd. cbn [length] in Hd. unfold lengthN in *. lia. }
    assert (ps = take (N.to_nat (a - 1)) ps ++ x :: qs) as Hps by (by rewrite <- Hd, take_drop).
    set (os := take (N.to_nat (a - 1)) ps) in *.
    assert (lengthN os + 1 = a) as Ho. { unfold os, lengthN. rewrite take_length. unfold lengthN in *. lia. }
    assert (lengthN qs + 1 = c) as Hq. { unfold lengthN in *. rewrite Hps, app_length in Hac. cbn [length] in Hac. lia. }
    destruct (IH ha ltac:(lia) os) as (l & Bl & Il & Tl); [lia|lia|].
    destruct (IH hc ltac:(lia) qs) as (r & Br & Ir & Tr); [lia|lia|].
    exists (Fork l x r). cbn [balanced inorder tall]. rewrite Il, Ir, Tl, Tr. split_and!; [done|done|lia|lia|done|lia]. }
  assert (1 ≤ fib (S h)) as Hf1 by (apply (fib_mono 1); lia). assert (1 ≤ fib (h + 2)) as Hf2 by (apply (fib_mono 1); lia).
  replace (S (S h)) with (h + 2)%nat in Hlo by lia.
  assert (fib (h + 2) ≤ 2 ^ N.of_nat h) as Hfp.
  { destruct h as [|h]; [done|]. destruct (fib_pow (S h) ltac:(lia)) as [Hp _]. replace (S h - 1)%nat with h in Hp by lia.
    rewrite Nat2N.inj_succ, N.pow_succ_r'. assert (1 ≤ 2 ^ N.of_nat h) by (apply (N.pow_le_mono_r 2 0); lia). lia. }
  destruct (decide (2 * fib (h + 2) ≤ lengthN ps + 1)) as [Hbig|Hsmall].
  - pose proof (N.max_spec (fib (h + 2)) (lengthN ps + 1 - 2 ^ N.of_nat h)) as Hmx. revert Hmx.
    generalize (N.max (fib (h + 2)) (lengthN ps + 1 - 2 ^ N.of_nat h)). intros a Hmx.
    apply (Hgo a (lengthN ps + 1 - a) h h); lia.
  - destruct h as [|h]; [change (fib (0 + 2)) with 1 in *; change (fib 1) with 1 in *; lia|]. destruct (fib_pow (S h) ltac:(lia)) as [Hp _]. replace (S h - 1)%nat with h in Hp by lia.
    replace (S (S h)) with (h + 2)%nat in Hlo, Hf1 by lia.
    apply (Hgo (fib (S h + 2)) (lengthN ps + 1 - fib (S h + 2)) (S h) h); lia.
Qed.
