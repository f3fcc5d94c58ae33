(** * From slots to bytes: proofs for C75 *)
From Verif Require Import Spec RBMain AVLMain TypedTree BytesProof BytesMain LayoutSpec LayoutProof TouchSpec.
Local Open Scope nat_scope.

(** a byte of a concatenation of pieces of [w] bytes depends on its piece only *)
Lemma concat_same {A} (f : A → bytes) w (l l' : list A) (S : list nat) :
  Forall (λ x, length (f x) = w) l → Forall (λ x, length (f x) = w) l' → length l' = length l → (∀ j, j ∉ S → l' !! j = l !! j) →
  ∀ p, (∀ j, j ∈ S → ¬ (j * w ≤ p < j * w + w)) → concat (f <$> l') !! p = concat (f <$> l) !! p.
Proof.
  revert l' S. induction l as [|x l IH]; intros [|x' l'] S Hl Hl' Hlen HS p Hp; try done.
  apply Forall_cons in Hl as [Hx Hl], Hl' as [Hx' Hl']. cbn [fmap list_fmap concat].
  destruct (decide (p < w)) as [Hlt|Hge].
  - rewrite !lookup_app_l by lia. destruct (decide (0 ∈ S)) as [H0|H0]; [exfalso; apply (Hp 0 H0); lia|].
    pose proof (HS 0 H0) as E. cbn in E. by injection E as ->.
  - rewrite !lookup_app_r by lia. rewrite Hx, Hx'. apply (IH l' (pred <$> filter (λ j, j ≠ 0) S)); [done..|cbn in Hlen; lia| |].
    + intros j Hj. apply (HS (Datatypes.S j)). intros Hin. apply Hj. apply elem_of_list_fmap. exists (Datatypes.S j). split; [done|].
      apply elem_of_list_filter. split; [lia|done].
    + intros j (j' & -> & [Hn Hin]%elem_of_list_filter)%elem_of_list_fmap. specialize (Hp j' Hin). destruct j'; [done|]. cbn [pred]. lia.
Qed.
Section slots.
  Context {T : Type} (ct : codec T) (Hc : codec_ok ct) (ms nr : nat) (enc : T → bytes) (He : ∀ x, enc x = c_enc ct x).
  Lemma wires a : c_wf (c_alloc ms nr ct) a → length (nodes a) = ms ∧ Forall (λ n, length (wire_node enc n) = 4 * nr + size_of ct) (nodes a).
  Proof using Hc He.
    intros [_ [Hl Hn]]. cbn [fst snd f_one f_wf] in Hl, Hn. split; [done|]. eapply Forall_impl; [exact Hn|]. intros [rs v] [[Hr _] Hv].
    cbn [fst snd f_one f_wf regs val] in Hr, Hv. unfold wire_node. cbn [regs val]. rewrite app_length, concat_le4_length, Hr, He, (co_len _ Hc) by done. lia.
  Qed.
  (** behind a head of [h] bytes *)
  Lemma few_wire h b b' m a a' : c_wf (c_alloc ms nr ct) a → c_wf (c_alloc ms nr ct) a' → length b = h → length b' = h → few m a a' →
    few_bytes (h + 16 + m * (4 * nr + size_of ct)) (b ++ wire_alloc enc a) (b' ++ wire_alloc enc a').
  Proof using Hc He.
    intros Ha Ha' Hb Hb' (S & HS & Hsl & Hs). set (w := 4 * nr + size_of ct).
    destruct (wires a Ha) as [Hl Hn], (wires a' Ha') as [Hl' Hn'].
    assert (∀ (l : list (node T)), Forall (λ n, length (wire_node enc n) = w) l → length (concat (wire_node enc <$> l)) = length l * w) as Hcl.
    { intros l. induction 1 as [|x l Hx _ IH]; [done|]. cbn [fmap list_fmap concat length]. rewrite app_length, Hx. change (list_fmap _ _ (wire_node enc) l) with (wire_node enc <$> l). rewrite IH. lia. }
    assert (∀ b (a : alloc T), b ++ wire_alloc enc a =
      (b ++ le64 (size a) ++ le32 (bump_index a) ++ le32 (free_list_head a)) ++ concat (wire_node enc <$> nodes a)) as -> by (intros; unfold wire_alloc; by rewrite <- !app_assoc).
    assert (∀ b (a : alloc T), b ++ wire_alloc enc a =
      (b ++ le64 (size a) ++ le32 (bump_index a) ++ le32 (free_list_head a)) ++ concat (wire_node enc <$> nodes a)) as -> by (intros; unfold wire_alloc; by rewrite <- !app_assoc).
    set (hd := b ++ _). set (hd' := b' ++ _).
    assert (length hd = h + 16) as Lh by (unfold hd; rewrite !app_length, !le_enc_length, Hb; lia).
    assert (length hd' = h + 16) as Lh' by (unfold hd'; rewrite !app_length, !le_enc_length, Hb'; lia).
    split; [rewrite !app_length, !Hcl, Lh, Lh', Hl, Hl' by done; done|].
    exists (seq 0 (h + 16) ++ concat ((λ i : N, seq (h + 16 + (N.to_nat i - 1) * w) w) <$> S)). split.
    - rewrite app_length, seq_length. enough (length (concat ((λ i : N, seq (h + 16 + (N.to_nat i - 1) * w) w) <$> S)) ≤ m * w) by lia.
      clear Hs. transitivity (length S * w); [|apply Nat.mul_le_mono_r; lia]. clear HS. induction S as [|i S IH]; [done|].
      cbn [fmap list_fmap concat length]. rewrite app_length, seq_length. apply Nat.add_le_mono_l. exact IH.
    - intros p [H1 H2]%not_elem_of_app. rewrite elem_of_seq in H1. rewrite !lookup_app_r by lia. rewrite Lh, Lh'.
      apply (concat_same (wire_node enc) w _ _ ((λ i, N.to_nat i - 1) <$> filter (λ i, i ≠ 0%N) S)); [done..|congruence| |].
      + intros j Hj. apply Hs. intros Hin. apply Hj. apply elem_of_list_fmap. exists (N.of_nat j + 1)%N. split; [lia|]. apply elem_of_list_filter. split; [lia|done].
      + intros j (i & -> & [Hn0 Hin]%elem_of_list_filter)%elem_of_list_fmap Hr. apply H2. apply elem_of_list_In, in_concat.
        exists (seq (h + 16 + (N.to_nat i - 1) * w) w). split; apply elem_of_list_In; [|apply elem_of_seq; lia]. apply elem_of_list_fmap. by exists i.
  Qed.
End slots.

Section maps.
  Context `{Profile} {K V : Type} (ck : codec K) (cv : codec V) (Hk : elt_ok ck) (Hv : elt_ok cv).
  Context (Lk : lay_ok (c_lay ck)) (Lv : lay_ok (c_lay cv)) (Hf : alloc_fits 4 (c_lay (c_pair ck cv))) (Ht : tight_pair ck cv).
  Context (ms : nat) (Hw : (N.of_nat ms + 1 < W32)%N) (d : K * V).
  Notation entry_size := (16 + (size_of ck + size_of cv)).
  Notation enc := (wire_pair (c_enc ck) (c_enc cv)).
  Lemma rb_bytes cmp o o' m : few m (rb_al (rb_after cmp ms d o)) (rb_al (rb_after cmp ms d o')) →
    few_bytes (32 + m * entry_size) (c_enc (c_rb ms ck cv) (rb_after cmp ms d o)) (c_enc (c_rb ms ck cv) (rb_after cmp ms d o')).
  Proof using Hk Hv Lk Lv Hf Ht Hw.
    intros Hm. pose proof (tr_wf ck cv ms _ Hk Hv Hw (tr_history cmp ms Hw d o)) as [_ Hwf].
    pose proof (tr_wf ck cv ms _ Hk Hv Hw (tr_history cmp ms Hw d o')) as [_ Hwf'].
    rewrite !(rb_wire ck cv ms Lk Lv Hf Ht). unfold wire_rb. rewrite !(app_assoc (le32 _)).
    pose proof (few_wire (c_pair ck cv) (c_pair_ok _ _ (proj1 Hk) (proj1 Hv)) ms 4 enc (λ x, eq_sym (pair_wire ck cv Lk Lv Ht x)) 16
      (le32 (rb_root (rb_after cmp ms d o)) ++ zeros 12) (le32 (rb_root (rb_after cmp ms d o')) ++ zeros 12) m _ _ Hwf Hwf') as H1.
    rewrite (pair_sz ck cv Lk Lv Ht) in H1. apply H1; [by rewrite app_length, le_enc_length..|done].
  Qed.
  Lemma av_bytes pcmp o o' m : align_of ck ≤ 8 → align_of cv ≤ 8 → few m (av_al (av_after pcmp ms d o)) (av_al (av_after pcmp ms d o')) →
    few_bytes (24 + m * entry_size) (c_enc (c_avl ms ck cv) (av_after pcmp ms d o)) (c_enc (c_avl ms ck cv) (av_after pcmp ms d o')).
  Proof using Hk Hv Lk Lv Hf Ht Hw.
    intros Ak Av Hm. pose proof (tv_wf ck cv ms _ Hk Hv Hw (tv_history pcmp ms Hw d o)) as [_ Hwf].
    pose proof (tv_wf ck cv ms _ Hk Hv Hw (tv_history pcmp ms Hw d o')) as [_ Hwf'].
    rewrite !(av_wire ck cv ms Lk Lv Hf Ht) by done. unfold wire_av.
    pose proof (few_wire (c_pair ck cv) (c_pair_ok _ _ (proj1 Hk) (proj1 Hv)) ms 4 enc (λ x, eq_sym (pair_wire ck cv Lk Lv Ht x)) 8
      (le64 (av_root (av_after pcmp ms d o))) (le64 (av_root (av_after pcmp ms d o'))) m _ _ Hwf Hwf') as H1.
    rewrite (pair_sz ck cv Lk Lv Ht) in H1. apply H1; [apply le_enc_length..|done].
  Qed.
End maps.
