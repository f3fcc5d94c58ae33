(** * Facts about the number of rounds of the hash table's loops *)
From Verif Require Import HashMain TypedProof CostProof.

Lemma hbind_ext {S A B} (m1 m2 : M S A) (f g : A → M S B) s :
  m1 s = m2 s → (∀ a s', m1 s = Ret a s' → f a s' = g a s') → (m1 ≫= f) s = (m2 ≫= g) s.
Proof. intros He Hf. unfold mbind, M_bind. rewrite He in *. destruct (m2 s) as [a s1|e s1]; [by apply Hf|done]. Qed.
Lemma hgets_inv {S A} (f : S → res A) s a s' : gets f s = Ret a s' → f s = Val a ∧ s' = s.
Proof. unfold gets. destruct (f s); [|done]. by intros [= -> ->]. Qed.

Section facts.
  Context `{Profile} {K V : Type} (keq : K → K → bool) (hash : K → N) (cap : N) (n : nat).
  Implicit Types h : htable K V.

  Ltac along :=
    let f := fresh "f" in let IH := fresh "IH" in let F := fresh "F" in let c := fresh "c" in let Hw := fresh "Hw" in let Hf := fresh "Hf" in
    intros f; induction f as [|f IH]; intros F c x Hw Hf; [done|]; destruct F as [|F]; [lia|]; simpl in Hw |- *;
    destruct (decide (c = SENTINEL)); [done|].
  Lemma hget_along h k f F c x : ht_get_addr_loop keq f h k c = Val x → (f ≤ F)%nat → ht_get_loop keq f h k c = ht_get_loop keq F h k c.
  Proof.
    revert f F c x. along. destruct (ht_get_node h c) as [nd|]; [|done]. simpl in *. destruct (keq nd.1 k); [done|].
    destruct (ht_get_next h c) as [c'|]; [|done]. simpl in *. eapply IH; [done|lia].
  Qed.
  Lemma hcontains_along h k f F c x :
    ht_get_addr_loop keq f h k c = Val x → (f ≤ F)%nat → ht_contains_loop keq f h k c = ht_contains_loop keq F h k c.
  Proof.
    revert f F c x. along. destruct (ht_get_node h c) as [nd|]; [|done]. simpl in *. destruct (keq nd.1 k); [done|].
    destruct (ht_get_next h c) as [c'|]; [|done]. simpl in *. eapply IH; [done|lia].
  Qed.
  Lemma haddr_along h k f F c x :
    ht_get_addr_loop keq f h k c = Val x → (f ≤ F)%nat → ht_get_addr_loop keq f h k c = ht_get_addr_loop keq F h k c.
  Proof.
    revert f F c x. along. destruct (ht_get_node h c) as [nd|]; [|done]. simpl in *. destruct (keq nd.1 k); [done|].
    destruct (ht_get_next h c) as [c'|]; [|done]. simpl in *. eapply IH; [done|lia].
  Qed.
  Lemma hget_mut_along h k g b hd f F c x :
    ht_get_addr_loop keq f h k c = Val x → (f ≤ F)%nat → ht_get_mut_loop keq f k g b hd c h = ht_get_mut_loop keq F k g b hd c h.
  Proof.
    revert f F c x. along. apply hbind_ext; [done|]. intros nd s [Hnd ->]%hgets_inv. rewrite Hnd in Hw. simpl in Hw.
    destruct (keq nd.1 k); [done|]. apply hbind_ext; [done|]. intros c' s [Hc' ->]%hgets_inv. rewrite Hc' in Hw. eapply IH; [done|lia].
  Qed.
  Lemma hinsert_along h k v b hd f F c x :
    ht_get_addr_loop keq f h k c = Val x → (f ≤ F)%nat → ht_insert_loop keq f k v b hd c h = ht_insert_loop keq F k v b hd c h.
  Proof.
    revert f F c x. along. apply hbind_ext; [done|]. intros nd s [Hnd ->]%hgets_inv. rewrite Hnd in Hw. simpl in Hw.
    destruct (keq nd.1 k); [done|]. apply hbind_ext; [done|]. intros c' s [Hc' ->]%hgets_inv. rewrite Hc' in Hw. eapply IH; [done|lia].
  Qed.
  Lemma hremove_along h k b hd f F c x :
    ht_get_addr_loop keq f h k c = Val x → (f ≤ F)%nat → ht_remove_loop keq f k b hd c h = ht_remove_loop keq F k b hd c h.
  Proof.
    revert f F c x. along. apply hbind_ext; [done|]. intros nd s [Hnd ->]%hgets_inv. rewrite Hnd in Hw. simpl in Hw.
    destruct (keq nd.1 k); [done|]. apply hbind_ext; [done|]. intros c' s [Hc' ->]%hgets_inv. rewrite Hc' in Hw. eapply IH; [done|lia].
  Qed.

  Lemma first_hit k (es : list (N * (K * V))) : Forall (λ e, keq e.2.1 k = false) es ∨
    ∃ es3 i kv es4, es = es3 ++ (i, kv) :: es4 ∧ keq kv.1 k = true ∧ Forall (λ e, keq e.2.1 k = false) es3.
  Proof.
    induction es as [|[i kv] es [IH|(es3 & j & kv' & es4 & -> & H1 & H2)]]; [by left|..]; destruct (keq kv.1 k) eqn:Ek.
    - right. by exists [], i, kv, es.
    - left. by constructor.
    - right. by eexists [], i, kv, _.
    - right. exists ((i, kv) :: es3), j, kv', es4. split_and!; [done|done|by constructor].
  Qed.

  (** The keys whose chain is that of [k] *)
  Definition rivals (nb : N) (k : K) (l : list (K * V)) : list (K * V) := filter (λ kv, hash kv.1 mod nb = hash k mod nb) l.
  Lemma chain_rivals h bs k es : HOK keq hash cap h bs → bs !! bk hash bs k = Some es →
    (length es ≤ length (rivals (lengthN (buckets h)) k (concat bs).*2))%nat.
  Proof.
    intros Hok Hb. pose proof (ho_hash _ _ _ _ _ Hok _ _ Hb) as Hh. unfold lengthN at 1. rewrite (HOK_bk_len _ _ _ _ _ Hok). fold (lengthN bs).
    unfold rivals. rewrite (concat_focus0' _ _ _ Hb). rewrite fmap_app, filter_app, app_length.
    enough (filter (λ kv : K * V, hash kv.1 mod lengthN bs = hash k mod lengthN bs) es.*2 = es.*2) as -> by (rewrite fmap_length; lia).
    clear Hb. induction Hh as [|e es He _ IH]; [done|]. rewrite fmap_cons, filter_cons_True, IH; [done|]. rewrite He. unfold bk. lia.
  Qed.
  Lemma ht_rounds h E k :
    HI keq hash cap h E → (length (rivals (lengthN (buckets h)) k E.*2) < n)%nat →
    htn_get keq hash n h k = ht_get keq hash h k ∧ htn_contains keq hash n h k = ht_contains keq hash h k ∧
    htn_get_addr keq hash n h k = ht_get_addr keq hash h k ∧ (∀ f, htn_get_mut keq hash n k f h = ht_get_mut keq hash k f h) ∧
    (∀ v, htn_insert keq hash n k v h = ht_insert keq hash k v h) ∧ htn_remove keq hash n k h = ht_remove keq hash k h.
  Proof.
    intros (bs & Hok & Hp) Hn. destruct (bk_chain _ _ _ _ _ k Hok) as [es Hb].
    pose proof (chain_rivals _ _ _ _ Hok Hb) as Hle. pose proof (HOK_chain_len _ _ _ _ _ _ _ Hok Hb) as Hfu.
    assert (length (rivals (lengthN (buckets h)) k E.*2) = length (rivals (lengthN (buckets h)) k (concat bs).*2)) as He.
    { unfold rivals. by rewrite Hp. }
    pose proof (ht_bucket_index_ok _ _ _ _ _ k Hok) as Hbi. pose proof (ht_bucket_ok _ _ _ _ _ _ _ Hok Hb) as Hbk.
    assert (∃ x, ht_get_addr_loop keq (Nat.min n (ht_fuel h)) h k (fst0 0 es) = Val x) as [x Hx].
    { destruct (ht_get_addr_loop_ok keq hash cap h bs (bk hash bs k) k [] es (Nat.min n (ht_fuel h)) Hok Hb) as [H1 H2].
      { unfold ht_fuel. lia. }
      destruct (first_hit k es) as [Hf|(es3 & i & kv & es4 & H3 & H4 & H5)]; eauto. }
    assert (Nat.min n (ht_fuel h) ≤ ht_fuel h)%nat as Hm by lia.
    split_and!.
    - unfold htn_get, ht_get. rewrite Hbi. cbn [mbind res_bind]. rewrite Hbk. cbn [mbind res_bind]. by eapply hget_along.
    - unfold htn_contains, ht_contains. rewrite Hbi. cbn [mbind res_bind]. rewrite Hbk. cbn [mbind res_bind]. by eapply hcontains_along.
    - unfold htn_get_addr, ht_get_addr. rewrite Hbi. cbn [mbind res_bind]. rewrite Hbk. cbn [mbind res_bind]. by eapply haddr_along.
    - intros f. unfold htn_get_mut, ht_get_mut. apply hbind_ext; [done|]. intros b s [Hb' ->]%hgets_inv. rewrite Hbi in Hb'. injection Hb' as <-.
      apply hbind_ext; [done|]. intros hd s [Hb' ->]%hgets_inv. rewrite Hbk in Hb'. injection Hb' as <-.
      apply hbind_ext; [done|]. intros t' s' [= <- <-]. by eapply hget_mut_along.
    - intros f. unfold htn_insert, ht_insert. apply hbind_ext; [done|]. intros b s [Hb' ->]%hgets_inv. rewrite Hbi in Hb'. injection Hb' as <-.
      apply hbind_ext; [done|]. intros hd s [Hb' ->]%hgets_inv. rewrite Hbk in Hb'. injection Hb' as <-.
      apply hbind_ext; [done|]. intros t' s' [= <- <-]. by eapply hinsert_along.
    - unfold htn_remove, ht_remove. apply hbind_ext; [done|]. intros b s [Hb' ->]%hgets_inv. rewrite Hbi in Hb'. injection Hb' as <-.
      apply hbind_ext; [done|]. intros hd s [Hb' ->]%hgets_inv. rewrite Hbk in Hb'. injection Hb' as <-.
      apply hbind_ext; [done|]. intros t' s' [= <- <-]. by eapply hremove_along.
  Qed.
End facts.

Section reach.
  Context `{Profile} {K V : Type} (keq : K → K → bool) (hash : K → N) (HL : HashLaws keq hash) (nb ms : nat) (d : K * V).
  Context (h0 : htable K V) (Hnew : ht_new nb ms d = Some h0) (Hnb : (0 < nb)%nat) (Hw : N.of_nat ms + 1 < W32).
  Lemma ht_reach_rounds (o : list (hm_op K V)) l k n :
    let h := ht_after keq hash h0 o in
    ht_holds keq hash ms h0 o l → lengthN (filter (λ kv : K * V, hash kv.1 mod N.of_nat nb = hash k mod N.of_nat nb) l) < N.of_nat n →
    htn_get keq hash n h k = ht_get keq hash h k ∧ htn_contains keq hash n h k = ht_contains keq hash h k ∧
    htn_get_addr keq hash n h k = ht_get_addr keq hash h k ∧ (∀ f, htn_get_mut keq hash n k f h = ht_get_mut keq hash k f h) ∧
    (∀ v, htn_insert keq hash n k v h = ht_insert keq hash k v h) ∧ htn_remove keq hash n k h = ht_remove keq hash k h.
  Proof using HL Hnew Hnb Hw.
    intros h Hh Hn. destruct (ht_reach keq hash HL nb ms d h0 Hnew Hnb Hw o l Hh) as (E & Hi & <-).
    eapply ht_rounds; [exact Hi|]. unfold rivals. unfold lengthN in *. pose proof (th_history keq hash nb ms Hw d h0 o Hnew) as Ht.
    change (TH nb ms (ht_after keq hash h0 o)) in Ht. pose proof (th_len _ _ _ Ht) as Hb. subst h. rewrite Hb. lia.
  Qed.
End reach.
