(** * Facts about the number of rounds of the critbit tree's loops *)
From Verif Require Import CritMain CostProof.

Lemma cbind_ext {S A B} (m1 m2 : M S A) (f g : A → M S B) s :
  m1 s = m2 s → (∀ a s', m1 s = Ret a s' → f a s' = g a s') → (m1 ≫= f) s = (m2 ≫= g) s.
Proof. intros He Hf. unfold mbind, M_bind. rewrite He in *. destruct (m2 s) as [a s1|e s1]; [by apply Hf|done]. Qed.
Lemma cgets_inv {S A} (f : S → res A) s a s' : gets f s = Ret a s' → f s = Val a ∧ s' = s.
Proof. unfold gets. destruct (f s); [|done]. by intros [= -> ->]. Qed.

Section facts.
  Context `{Profile} {V : Type} (nn cap : N) (n : nat).
  Implicit Types t : critbit V.

  Lemma cget_along f F t k i x : cb_walk f t k i = Val x → (f ≤ F)%nat → cb_get_loop f t k i = cb_get_loop F t k i.
  Proof.
    revert F i. induction f as [|f IH]; intros F i Hw Hf; [done|]. destruct F as [|F]; [lia|]. simpl in Hw |- *.
    destruct (cb_get_node t i) as [nd|]; [|done]. simpl in *. destruct (cb_is_inner_node t i) as [[]|]; simpl in *; [|done|done].
    destruct (decide (cn_prefix_len nd ≤ _)); [|done]. destruct (cb_get_child _ _ _ _) as [c|]; simpl in *; [|done]. apply IH; [done|lia].
  Qed.
  Lemma cget_mut_along f F t k g i x :
    cb_walk f t k i = Val x → (f ≤ F)%nat → cb_get_mut_loop f k g i t = cb_get_mut_loop F k g i t.
  Proof.
    revert F i. induction f as [|f IH]; intros F i Hw Hf; [done|]. destruct F as [|F]; [lia|]. simpl in Hw |- *.
    apply cbind_ext; [done|]. intros nd s [Hnd ->]%cgets_inv. rewrite Hnd in Hw. simpl in Hw.
    apply cbind_ext; [done|]. intros inner s [Hin ->]%cgets_inv. rewrite Hin in Hw. simpl in Hw.
    destruct inner; simpl in *; [|done]. destruct (decide (cn_prefix_len nd ≤ _)); [|done].
    apply cbind_ext; [done|]. intros c s [Hc ->]%cgets_inv. rewrite Hc in Hw. simpl in Hw. apply IH; [done|lia].
  Qed.

  Lemma cb_rounds t E :
    cbok nn cap t E → 0 < cap → 2 * cap ≤ nn → MAX_SIZE (cb_nodes t) < W32 → (129 ≤ n)%nat →
    (∀ k v, k < W128 → cbn_insert n k v t = cb_insert k v t) ∧ (∀ k, k < W128 → cbn_remove n k t = cb_remove k t) ∧
    (∀ k, k < W128 → cbn_get_addr n t k = cb_get_addr t k) ∧ (∀ k, k < W128 → cbn_get n t k = cb_get t k) ∧
    (∀ k, k < W128 → cbn_contains n t k = cb_contains t k) ∧ (∀ k f, k < W128 → cbn_get_mut n k f t = cb_get_mut k f t) ∧
    cbn_get_min_index n t = cb_get_min_index t ∧ cbn_get_max_index n t = cb_get_max_index t ∧
    cbn_get_min n t = cb_get_min t ∧ cbn_get_max n t = cb_get_max t.
  Proof.
    intros Hok Hc0 Hnn HW Hn.
    enough ((∀ k v, k < W128 → cbn_insert n k v t = cb_insert k v t) ∧ (∀ k, k < W128 → cbn_remove n k t = cb_remove k t) ∧
      (∀ k, k < W128 → cbn_get_addr n t k = cb_get_addr t k) ∧ (∀ k, k < W128 → cbn_get n t k = cb_get t k) ∧
      (∀ k f, k < W128 → cbn_get_mut n k f t = cb_get_mut k f t) ∧
      cbn_get_min_index n t = cb_get_min_index t ∧ cbn_get_max_index n t = cb_get_max_index t) as (Hi & Hr & Ha & Hg & Hgm & Hmin & Hmax).
    { split_and!; try done.
      - intros k Hk. unfold cbn_contains, cb_contains. by rewrite Hg.
      - unfold cbn_get_min, cb_get_min. by rewrite Hmin.
      - unfold cbn_get_max, cb_get_max. by rewrite Hmax. }
    destruct n as [|n']; [lia|]. clear n.
    destruct Hok as [[[Hrt Hnd Hlv] ->]|(U & HR & Hw & ->)].
    - assert (cb_len t = 0) as Hlen by (unfold cb_len; by rewrite (CH_size _ _ _ _ Hlv)).
      assert (cb_is_empty t = true) as He. { unfold cb_is_empty. by apply bool_decide_eq_true. }
      split_and!.
      + intros k v _. unfold cbn_insert, cb_insert. apply cbind_ext; [done|]. intros t' s' [= <- <-].
        rewrite Hrt. by rewrite !decide_True by done.
      + intros k _. unfold cbn_remove, cb_remove. apply cbind_ext; [done|]. intros t' s' [= <- <-]. cbv zeta.
        by rewrite !(decide_True _ _ Hlen).
      + intros k _. unfold cbn_get_addr, cb_get_addr, cb_fuel. simpl. destruct (cb_get_node t (cb_root t)) as [nd|] eqn:En; [|done].
        exfalso. by apply (cb_node_nz _ _ _ HW) in En.
      + intros k _. unfold cbn_get, cb_get. by rewrite He.
      + intros k f _. unfold cbn_get_mut, cb_get_mut. apply cbind_ext; [done|]. intros t' s' [= <- <-]. by rewrite He.
      + unfold cbn_get_min_index, cb_get_min_index, cb_fuel. rewrite Hrt. done.
      + unfold cbn_get_max_index, cb_get_max_index, cb_fuel. rewrite Hrt. done.
    - pose proof (depth_le _ Hw) as Hd. pose proof (crep_fuel _ _ _ _ HR) as Hfu. pose proof (cheight_csize U) as Hcs.
      pose proof (cr_nodes _ _ _ _ HR) as (fr & Ho & _). pose proof (cr_leaves _ _ _ _ HR) as Hl.
      destruct (crep_nonempty _ _ _ _ HR) as (He & Hlen & Hrt).
      assert (∀ k, k < W128 → ∃ x, cb_walk (Nat.min (S n') (cb_fuel t)) t k (croot U) = Val x) as Hwk.
      { intros k Hk. eexists. eapply (walk_ok nn cap t [] U fr k); [done|done|done|done|lia]. }
      split_and!.
      + intros k v Hk. unfold cbn_insert, cb_insert. apply cbind_ext; [done|]. intros t' s' [= <- <-].
        rewrite !(decide_False _ _ Hrt). destruct (decide (cb_capacity t ≤ cb_len t)) as [|Hnf]; [done|].
        rewrite (cr_root _ _ _ _ HR). eapply (fle_wp _ _ _ (λ _ _, True)); [apply cb_insert_loop_fle; lia|].
        eapply (insert_loop_ok nn cap _ t [] U); try done; [lia|].
        destruct (crep_size _ _ _ _ HR) as [_ Hsz]. rewrite Hsz in Hnf.
        rewrite (cb_capacity_ok nn cap _ _ HR) in Hnf. apply N.nle_gt in Hnf. unfold lengthN, lcells in *. by rewrite map_length.
      + intros k Hk. unfold cbn_remove, cb_remove. apply cbind_ext; [done|]. intros t' s' [= <- <-]. cbv zeta.
        rewrite !(decide_False _ _ Hlen). rewrite (cr_root _ _ _ _ HR).
        apply cbind_ext; [done|]. intros inner s [Hin ->]%cgets_inv. destruct inner; [|done].
        apply cbind_ext; [done|]. intros nd s [Hnd ->]%cgets_inv. apply cbind_ext; [done|]. intros c s [Hch ->]%cgets_inv.
        apply cbind_ext; [|done]. unfold gets.
        replace (cb_remove_walk (Nat.min (S n') (cb_fuel t)) t k (croot U) c.1 c.2) with (cb_remove_walk (cb_fuel t) t k (croot U) c.1 c.2); [done|].
        destruct U as [i kk j v|i kk p l r].
        { rewrite (rd_inner _ _ _ _ Ho _ _ _ _ _ _ (CL_cell [] _ _ _ _)) in Hin. injection Hin as Hin%bool_decide_eq_true.
          exfalso. revert Hin. eapply CH_nz; [exact Hl|apply (lcell_in [])]. }
        pose proof Hw as (Hp & _ & _ & _ & Hwl & Hwr). simpl in Hd.
        rewrite (rd_node _ _ _ _ Ho _ _ _ _ _ _ (CI_cell [] _ _ _ _ _)) in Hnd. injection Hnd as <-. cbn [cn_prefix_len] in Hch.
        simpl in Hch. rewrite (rd_child _ _ _ _ Ho _ _ _ _ _ _ (CI_cell [] _ _ _ _ _) p k Hp) in Hch. injection Hch as <-. cbn [fst snd].
        symmetry. simpl in Hcs, Hfu. destruct (bit k p) eqn:Eb.
        * eapply rle_val; [apply cb_remove_walk_rle; lia|].
          apply (remove_walk_ok nn cap _ t [Fr true i kk p l] r fr k); [done|done|done|lia].
        * eapply rle_val; [apply cb_remove_walk_rle; lia|].
          apply (remove_walk_ok nn cap _ t [Fr false i kk p r] l fr k); [done|done|done|lia].
      + intros k Hk. unfold cbn_get_addr, cb_get_addr. rewrite (cr_root _ _ _ _ HR). destruct (Hwk k Hk) as [x Hx].
        eapply rle_val; [apply cb_walk_rle; lia|exact Hx].
      + intros k Hk. unfold cbn_get, cb_get. rewrite He, (cr_root _ _ _ _ HR). destruct (Hwk k Hk) as [x Hx].
        eapply cget_along; [exact Hx|lia].
      + intros k f Hk. unfold cbn_get_mut, cb_get_mut. apply cbind_ext; [done|]. intros t' s' [= <- <-].
        rewrite He, (cr_root _ _ _ _ HR). destruct (Hwk k Hk) as [x Hx]. eapply cget_mut_along; [exact Hx|lia].
      + unfold cbn_get_min_index, cb_get_min_index. rewrite (cr_root _ _ _ _ HR).
        rewrite !(find_min_ok nn _ t [] U fr Ho); [done|lia|lia].
      + unfold cbn_get_max_index, cb_get_max_index. rewrite (cr_root _ _ _ _ HR).
        rewrite !(find_max_ok nn _ t [] U fr Ho); [done|lia|lia].
  Qed.
End facts.

Lemma cb_reach_rounds `{Profile} {V : Type} (nn ms : nat) (d : V) (H0 : (0 < ms)%nat) (Hw : N.of_nat nn + 1 < W32) (t0 : critbit V)
    (Hnew : cb_new nn ms d = Some t0) (o : list (om_op N V)) n :
  Forall u128_op o → (129 ≤ n)%nat →
  let t := (history cb_step o t0).2 in
  (∀ k v, k < W128 → cbn_insert n k v t = cb_insert k v t) ∧ (∀ k, k < W128 → cbn_remove n k t = cb_remove k t) ∧
  (∀ k, k < W128 → cbn_get_addr n t k = cb_get_addr t k) ∧ (∀ k, k < W128 → cbn_get n t k = cb_get t k) ∧
  (∀ k, k < W128 → cbn_contains n t k = cb_contains t k) ∧ (∀ k f, k < W128 → cbn_get_mut n k f t = cb_get_mut k f t) ∧
  cbn_get_min_index n t = cb_get_min_index t ∧ cbn_get_max_index n t = cb_get_max_index t ∧
  cbn_get_min n t = cb_get_min t ∧ cbn_get_max n t = cb_get_max t.
Proof.
  intros Hu Hn t. destruct (new_ok nn ms d t0 H0 Hw Hnew) as (_ & Hnn & Hc). destruct (cb_reach nn ms d t0 H0 Hw Hnew o Hu) as [_ (E & HE & _)].
  subst t. eapply cb_rounds; [exact HE|done|done| |done].
  destruct HE as [[[_ (fr & Ho & _) _] _]|(U & [_ (fr & Ho & _) _] & _)]; rewrite (ok_cap _ _ _ _ _ Ho); lia.
Qed.
