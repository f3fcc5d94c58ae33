(** * More proofs for C79: the test with two trees, and a tree that stores nothing *)
From Verif Require Import MapProof UnitDetectSpec UnitDetectProof UnitModel UnitProof.

(** A tree whose [insert] and [remove] do nothing but answer *)
Definition idle `{Profile} {K V} (cmp : K → K → comparison) (z : V) : draining (rbt K V) K V :=
  {| r_insert := λ _ _ t, Ret (Some 0) t; r_remove := λ _ t, Ret (Some z) t; r_valid := rb_is_valid; r_addr := rb_get_addr cmp |}.

Section two.
  Context {S S' K V : Type} (tree : draining S K V) (index_tree : draining S' N V) (cmp : K → K → comparison) (HO : OrdLaws cmp) (z : V).
  Lemma distinct_indices keys : distinct cmp keys → u_indices cmp (u_index cmp 0 keys []) keys = Val (N.of_nat <$> seq 0 (length keys)).
  Proof using HO.
    intros Hd. destruct (indices_get cmp (u_index cmp 0 keys []) keys) as (l & Hl & Hf).
    { apply Forall_lookup. intros j k Hj. destruct (index_get cmp HO keys 0 [] k) as [(j' & k' & _ & _ & ->)|[Hne _]]; [done|].
      exfalso. apply (proj1 (Forall_lookup _ _) Hne j k Hj). by apply cmp_refl. }
    rewrite Hl. f_equal. apply list_eq. intros j. rewrite list_lookup_fmap. destruct (decide (j < length keys)%nat) as [Hj|Hj].
    - rewrite lookup_seq_lt by done. cbn. apply lookup_lt_is_Some in Hj as [k Hk]. destruct (Forall2_lookup_l _ _ _ _ _ Hf Hk) as (i & Hi & Hg). rewrite Hi. f_equal. cbv beta in Hg.
      destruct (index_get cmp HO keys 0 [] k) as [(j' & k' & Hj' & E & Hg')|[Hne _]].
      + assert (j = j') as <- by (exact (Hd _ _ _ _ Hk Hj' E)). rewrite Hg' in Hg. injection Hg. lia.
      + exfalso. apply (proj1 (Forall_lookup _ _) Hne j k Hk). by apply cmp_refl.
    - rewrite lookup_seq_ge by lia. cbn. apply lookup_ge_None. rewrite <- (Forall2_length _ _ _ Hf). lia.
  Qed.
  Lemma zoom1_iff {A} (m : M S A) s (t : S') a st : zoom fst (λ x st, (x, st.2)) m (s, t) = Ret a st ↔ ∃ s1, m s = Ret a s1 ∧ st = (s1, t).
  Proof. unfold zoom. cbn [fst snd]. destruct (m s) as [b s1|e s1]; split; [intros [= <- <-]; by exists s1|by intros (? & [= <- <-] & ->)|done|by intros (? & [=] & _)]. Qed.
  Lemma zoom2_iff {A} (m : M S' A) (s : S) t a st : zoom snd (λ x st, (st.1, x)) m (s, t) = Ret a st ↔ ∃ t1, m t = Ret a t1 ∧ st = (s, t1).
  Proof. unfold zoom. cbn [fst snd]. destruct (m t) as [b s1|e s1]; split; [intros [= <- <-]; by exists s1|by intros (? & [= <- <-] & ->)|done|by intros (? & [=] & _)]. Qed.
  Lemma test_delete_2048_iff keys s t s' t' : distinct cmp keys →
    test_delete_2048 tree index_tree cmp z keys (s, t) = Ret () (s', t') ↔
    (∃ addrs, filled (λ k, r_insert tree k z) (λ _, True) keys addrs s s') ∧
    ∃ addrs t1, filled (λ k, r_insert index_tree k z) (λ _, True) (N.of_nat <$> seq 0 (length keys)) addrs t t1 ∧ r_valid index_tree t1 = Val true ∧
      drained (r_remove index_tree) (λ t, r_valid index_tree t = Val true) (N.of_nat <$> seq 0 (length keys)) t1 t'.
  Proof using HO.
    intros Hd. unfold test_delete_2048. set (is := N.of_nat <$> seq 0 (length keys)). rewrite (distinct_indices keys Hd). fold is. split.
    - intros Hx. apply bind_iff in Hx as (l & st & Hf & Hx). apply zoom1_iff in Hf as (s1 & Hf & ->). apply u_fill_iff in Hf.
      apply bind_iff in Hx as (is' & st & [= <- <-] & Hx). apply zoom2_iff in Hx as (t1 & Hx & [= <- <-]).
      split; [by exists l|]. apply bind_iff in Hx as (l' & t2 & Hf' & Hx). apply u_fill_iff in Hf'.
      apply bind_iff in Hx as ([] & t3 & Hv & Hx). apply u_valid_iff in Hv as [Hv ->]. apply u_drain_iff in Hx. by exists l', t2.
    - intros [[l Hf] (l' & t1 & Hf' & Hv & Hdr)]. apply bind_iff. exists l, (s', t). split; [apply zoom1_iff; exists s'; split; [by apply u_fill_iff|done]|].
      apply bind_iff. exists is, (s', t). split; [done|]. apply zoom2_iff. exists t'. split; [|done]. apply bind_iff. exists l', t1. split; [by apply u_fill_iff|].
      apply bind_iff. exists (), t1. split; [by apply u_valid_iff|by apply u_drain_iff].
  Qed.
End two.

Section idle.
  Context `{Profile} {K V : Type} (cmp : K → K → comparison) (HO : OrdLaws cmp) (z : V).
  Lemma idle_filled (ok : rbt K V → Prop) t keys : ok t → filled (λ k, r_insert (idle cmp z) k z) ok keys (replicate (length keys) 0) t t.
  Proof. intros Hok. induction keys as [|k keys IH]; [done|]. cbn [length replicate filled]. exists t. done. Qed.
  Lemma idle_drained (ok : rbt K V → Prop) t keys : ok t → drained (r_remove (idle cmp z)) ok keys t t.
  Proof. intros Hok. induction keys as [|k keys IH]; [done|]. cbn [drained]. by exists z, t. Qed.
  Lemma new_addr ms (d : K * V) k : rb_get_addr cmp (rb_new ms d) k = Val 0.
  Proof. done. Qed.
  Lemma new_valid ms (d : K * V) : (0 < ms)%nat → N.of_nat ms + 1 < W32 → rb_is_valid (rb_new ms d) = Val true.
  Proof using HO. intros H0 Hw. exact (Tr_valid cmp HO ms d H0 Hw []). Qed.
End idle.
Lemma idle_passes `{Profile} {K V : Type} (cmp : K → K → comparison) (HO : OrdLaws cmp) (z : V) ms (d : K * V) (d' : N * V) :
  (0 < ms)%nat → N.of_nat ms + 1 < W32 →
  let t := rb_new ms d in
  (∀ keys, test_delete (idle cmp z) z keys t = Ret () t) ∧
  (∀ keys, test_delete_1024 (idle cmp z) z keys t = Ret () t) ∧
  (∀ keys, test_delete_2048 (idle cmp z) (idle N.compare z) cmp z keys (t, rb_new ms d') = Ret () (t, rb_new ms d')).
Proof.
  intros H0 Hw t. pose proof (new_valid cmp HO ms d H0 Hw) as Hv. pose proof (new_valid N.compare N_laws ms d' H0 Hw) as Hv'. split_and!; intros keys.
  - apply test_delete_iff. exists (replicate (length keys) 0), t. split; [by apply idle_filled|by apply idle_drained].
  - apply test_delete_1024_iff. exists (replicate (length keys) 0), t. split; [by apply idle_filled|]. split; [|by apply idle_drained].
    induction keys as [|k keys IH]; [constructor|]. constructor; [apply new_addr|done].
  - destruct (indices_ok cmp HO keys) as (is & Hi & _ & _).
    unfold test_delete_2048. apply bind_iff. exists (replicate (length keys) 0), (t, rb_new ms d'). split.
    { apply zoom1_iff. exists t. split; [|done]. apply u_fill_iff. by apply idle_filled. }
    rewrite Hi. apply bind_iff. exists is, (t, rb_new ms d'). split; [done|]. apply zoom2_iff. exists (rb_new ms d'). split; [|done].
    apply bind_iff. exists (replicate (length is) 0), (rb_new ms d'). split; [apply u_fill_iff; by apply idle_filled|].
    apply bind_iff. exists (), (rb_new ms d'). split; [by apply u_valid_iff|]. apply u_drain_iff. by apply idle_drained.
Qed.
