(** * Lookups by way of the address found

    The lookups of HashTable, AVLTree and Critbit each have their own search loop. Here they are shown equal, on every state, to a search for
    the index followed by what is done at that index; the other proofs use this form. *)
From Verif Require Export HashModel AVLModel CritModel.

Lemma wp_ext {S A} (m m' : M S A) s Q : m s = m' s → wp m' s Q → wp m s Q.
Proof. unfold wp. by intros ->. Qed.

Section hash.
  Context `{Profile} {K V : Type} (keq : K → K → bool) (hash : K → N).
  Implicit Types h : htable K V.
  Notation ht_search := (ht_get_addr_loop keq).
  Definition ht_get_s h (k : K) : res (option V) :=
    b ← ht_bucket_index hash h k;
    c ← ht_bucket h b;
    i ← ht_search (ht_fuel h) h k c;
    if decide (i = SENTINEL) then Val None
    else n ← ht_get_node h i; Val (Some n.2).
  Definition ht_contains_s h (k : K) : res bool :=
    b ← ht_bucket_index hash h k;
    c ← ht_bucket h b;
    i ← ht_search (ht_fuel h) h k c;
    Val (if decide (i = SENTINEL) then false else true).
  Definition ht_get_mut_s (k : K) (f : V → V) : M (htable K V) (option V) :=
    b ← gets (λ h, ht_bucket_index hash h k);
    hd ← gets (λ h, ht_bucket h b);
    i ← gets (λ h, ht_search (ht_fuel h) h k hd);
    if decide (i = SENTINEL) then mret None
    else
      prev ← gets (λ h, ht_get_prev h i);
      next ← gets (λ h, ht_get_next h i);
      (if decide (i ≠ hd) then
         ht_on (na_clear_register i Left);;
         ht_on (na_connect prev next Right Left);;
         ht_on (na_connect i hd Right Left)
       else mret ());;
      ht_set_bucket b i;;
      n ← gets (λ h, ht_get_node h i);
      ht_set_node_value i (f n.2);;
      mret (Some n.2).
  Definition ht_insert_s (k : K) (v : V) : M (htable K V) (option N) :=
    b ← gets (λ h, ht_bucket_index hash h k);
    hd ← gets (λ h, ht_bucket h b);
    i ← gets (λ h, ht_search (ht_fuel h) h k hd);
    if decide (i ≠ SENTINEL) then
      ht_set_node_value i v;; mret (Some i)
    else
      ht_insert_new_node k v b hd.
  Definition ht_remove_s (k : K) : M (htable K V) (option V) :=
    b ← gets (λ h, ht_bucket_index hash h k);
    hd ← gets (λ h, ht_bucket h b);
    i ← gets (λ h, ht_search (ht_fuel h) h k hd);
    if decide (i = SENTINEL) then mret None
    else
      n ← gets (λ h, ht_get_node h i);
      prev ← gets (λ h, ht_get_prev h i);
      next ← gets (λ h, ht_get_next h i);
      ht_on (na_clear_register i Left);;
      ht_on (na_clear_register i Right);;
      ht_on (na_remove_node i);;
      (if decide (hd = i) then
         massert (bool_decide (prev = SENTINEL));;
         ht_set_bucket b next
       else mret ());;
      ht_on (na_connect prev next Right Left);;
      mret (Some n.2).

  Lemma ht_get_s_ok h k : ht_get keq hash h k = ht_get_s h k.
  Proof.
    unfold ht_get, ht_get_s. generalize (ht_fuel h). intros n.
    destruct (ht_bucket_index hash h k) as [b|]; [|done]. cbn. destruct (ht_bucket h b) as [c|]; [|done]. cbn.
    revert c. induction n as [|n IH]; intros c; cbn; [done|].
    destruct (decide (c = SENTINEL)) as [Hc|Hc]; [try done; by rewrite decide_True|].
    destruct (ht_get_node h c) as [nd|] eqn:En; [|done]. cbn.
    destruct (keq nd.1 k); cbn; [by rewrite decide_False, En|]. destruct (ht_get_next h c); cbn; [apply IH|done].
  Qed.
  Lemma ht_contains_s_ok h k : ht_contains keq hash h k = ht_contains_s h k.
  Proof.
    unfold ht_contains, ht_contains_s. generalize (ht_fuel h). intros n.
    destruct (ht_bucket_index hash h k) as [b|]; [|done]. cbn. destruct (ht_bucket h b) as [c|]; [|done]. cbn.
    revert c. induction n as [|n IH]; intros c; cbn; [done|].
    destruct (decide (c = SENTINEL)) as [Hc|Hc]; [try done; by rewrite decide_True|].
    destruct (ht_get_node h c) as [nd|] eqn:En; [|done]. cbn.
    destruct (keq nd.1 k); cbn; [by rewrite decide_False|]. destruct (ht_get_next h c); cbn; [apply IH|done].
  Qed.
  Lemma ht_get_mut_s_ok k f h : ht_get_mut keq hash k f h = ht_get_mut_s k f h.
  Proof.
    unfold ht_get_mut, ht_get_mut_s, mbind, M_bind, gets, mget. destruct (ht_bucket_index hash h k) as [b|]; [|done].
    destruct (ht_bucket h b) as [hd|]; [|done].
    generalize (ht_fuel h). intros n. generalize hd at 2 3. intros c. revert c. induction n as [|n IH]; intros c; cbn; [done|].
    destruct (decide (c = SENTINEL)) as [Hc|Hc]; [try done; by rewrite decide_True|].
    unfold mbind at 1, M_bind at 1, gets at 1. destruct (ht_get_node h c) as [nd|] eqn:En; [|done]. cbn.
    destruct (keq nd.1 k); [by rewrite decide_False|].
    unfold mbind at 1, M_bind at 1, gets at 1. destruct (ht_get_next h c); cbn; [|done]. apply IH.
  Qed.
  Lemma ht_insert_s_ok k v h : ht_insert keq hash k v h = ht_insert_s k v h.
  Proof.
    unfold ht_insert, ht_insert_s, mbind, M_bind, gets, mget. destruct (ht_bucket_index hash h k) as [b|]; [|done].
    destruct (ht_bucket h b) as [hd|]; [|done].
    generalize (ht_fuel h). intros n. generalize hd at 2 3. intros c. revert c. induction n as [|n IH]; intros c; cbn; [done|].
    destruct (decide (c = SENTINEL)) as [Hc|Hc]; [done|].
    unfold mbind at 1, M_bind at 1, gets at 1. destruct (ht_get_node h c) as [nd|] eqn:En; [|done]. cbn.
    destruct (keq nd.1 k); [try done; by rewrite decide_True|].
    unfold mbind at 1, M_bind at 1, gets at 1. destruct (ht_get_next h c); cbn; [|done]. apply IH.
  Qed.
  Lemma ht_remove_s_ok k h : ht_remove keq hash k h = ht_remove_s k h.
  Proof.
    unfold ht_remove, ht_remove_s, mbind, M_bind, gets, mget. destruct (ht_bucket_index hash h k) as [b|]; [|done].
    destruct (ht_bucket h b) as [hd|]; [|done].
    generalize (ht_fuel h). intros n. generalize hd at 2 3. intros c. revert c. induction n as [|n IH]; intros c; cbn; [done|].
    destruct (decide (c = SENTINEL)) as [Hc|Hc]; [try done; by rewrite decide_True|].
    unfold mbind at 1, M_bind at 1, gets at 1. destruct (ht_get_node h c) as [nd|] eqn:En; [|done]. cbn.
    destruct (keq nd.1 k); [rewrite decide_False by done; by rewrite En|].
    unfold mbind at 1, M_bind at 1, gets at 1. destruct (ht_get_next h c); cbn; [|done]. apply IH.
  Qed.
End hash.

Section avl.
  Context `{Profile} {K V : Type} (pcmp : K → K → option comparison).
  Implicit Types t : avlt K V.
  Definition av_get_s t (k : K) : res (option V) :=
    i ← av_get_addr pcmp t k;
    if decide (i = SENTINEL) then Val None else n ← av_get_node t i; Val (Some n.2).
  Definition av_get_mut_s (k : K) (f : V → V) : M (avlt K V) (option V) :=
    i ← gets (λ t, av_get_addr pcmp t k);
    if decide (i = SENTINEL) then mret None
    else
      n ← gets (λ t, av_get_node t i);
      av_set_node_value i (f n.2);;
      mret (Some n.2).
  Lemma av_get_s_ok t k : av_get pcmp t k = av_get_s t k.
  Proof.
    unfold av_get, av_get_s, av_get_addr, bst_get_addr.
    generalize (av_fuel t). intros n. destruct (decide (as_u32 (av_root t) = SENTINEL)) as [Hr|Hr]; cbn; [done|].
    revert Hr. generalize (as_u32 (av_root t)). intros i. revert i. induction n as [|n IH]; intros i Hi; cbn; [done|].
    assert (av_get_node t i = n ← na_get (av_al t) i; Val (val n)) as -> by done. unfold av_get_field.
    destruct (na_get (av_al t) i) as [nd|] eqn:En; cbn; [|done]. destruct (av_cmp pcmp k (val nd).1); cbn.
    - rewrite decide_False by done. unfold av_get_node. by rewrite En.
    - destruct (na_get_register _ _ _) as [c|]; [|done]. cbn. destruct (decide (c = SENTINEL)); [done|]. by apply IH.
    - destruct (na_get_register _ _ _) as [c|]; [|done]. cbn. destruct (decide (c = SENTINEL)); [done|]. by apply IH.
  Qed.
  Lemma av_get_mut_s_ok k f t : av_get_mut pcmp k f t = av_get_mut_s k f t.
  Proof.
    unfold av_get_mut, av_get_mut_s, av_get_addr, bst_get_addr, mbind, M_bind, mget, gets.
    generalize (av_fuel t). intros n. destruct (decide (as_u32 (av_root t) = SENTINEL)) as [Hr|Hr]; cbn; [done|].
    revert Hr. generalize (as_u32 (av_root t)). intros i. revert i. induction n as [|n IH]; intros i Hi; cbn; [done|].
    unfold mbind at 1, M_bind at 1, gets at 1. 
    assert (av_get_node t i = n ← na_get (av_al t) i; Val (val n)) as -> by done. unfold av_get_field.
    destruct (na_get (av_al t) i) as [nd|] eqn:En; cbn; [|done]. destruct (av_cmp pcmp k (val nd).1); cbn.
    - rewrite decide_False by done. unfold mbind, M_bind, gets, av_get_node. by rewrite En.
    - unfold mbind at 1, M_bind at 1, gets at 1. destruct (na_get_register _ _ _) as [c|]; [|done]. cbn.
      destruct (decide (c = SENTINEL)); [done|]. by apply IH.
    - unfold mbind at 1, M_bind at 1, gets at 1. destruct (na_get_register _ _ _) as [c|]; [|done]. cbn.
      destruct (decide (c = SENTINEL)); [done|]. by apply IH.
  Qed.
End avl.

Section crit.
  Context `{Profile} {V : Type}.
  Implicit Types t : critbit V.
  Definition cb_get_s t (k : N) : res (option V) :=
    if cb_is_empty t then Val None
    else
      i ← cb_walk (cb_fuel t) t k (cb_root t);
      if decide (i = SENTINEL) then Val None
      else leaf_index ← cb_get_leaf_index t i; v ← cb_get_leaf t leaf_index; Val (Some v).
  Definition cb_get_mut_s (k : N) (f : V → V) : M (critbit V) (option V) :=
    t ← mget;
    if cb_is_empty t then mret None
    else
      i ← gets (λ t, cb_walk (cb_fuel t) t k (cb_root t));
      if decide (i = SENTINEL) then mret None
      else
        leaf_index ← gets (λ t, cb_get_leaf_index t i);
        v ← gets (λ t, cb_get_leaf t leaf_index);
        cb_replace_leaf leaf_index (f v);;
        mret (Some v).
  (** Reading node SENTINEL panics, also when [i - 1] wraps around *)
  Lemma cb_node_nz t i n : MAX_SIZE (cb_nodes t) < W32 → cb_get_node t i = Val n → i ≠ SENTINEL.
  Proof.
    unfold cb_get_node, na_get, MAX_SIZE, lengthN, u32_sub, u_sub. intros Hw Hn ->. rewrite decide_False in Hn by (unfold SENTINEL; lia).
    destruct overflow_checks; [done|]. change ((SENTINEL + W32 - 1) mod W32) with (W32 - 1) in Hn. cbn -[lookupN W32] in Hn.
    unfold lookupN in Hn. rewrite decide_False in Hn; [done|]. unfold W32 in *. lia.
  Qed.
  Lemma cb_get_s_ok t k : MAX_SIZE (cb_nodes t) < W32 → cb_get t k = cb_get_s t k.
  Proof.
    intros Hw. unfold cb_get, cb_get_s. destruct (cb_is_empty t); [done|].
    generalize (cb_fuel t). intros n. generalize (cb_root t). intros i. revert i. induction n as [|n IH]; intros i; cbn; [done|].
    destruct (cb_get_node t i) as [nd|] eqn:En; [|done]. cbn. destruct (cb_is_inner_node t i) as [[]|]; cbn; [| |done].
    - destruct (decide (cn_prefix_len nd ≤ _)); [|done]. cbn. destruct (cb_get_child _ _ _ _); cbn; [apply IH|done].
    - destruct (decide (cn_key nd = k)); [|done]. rewrite decide_False by (by eapply cb_node_nz). done.
  Qed.
  Lemma cb_get_mut_s_ok k f t : MAX_SIZE (cb_nodes t) < W32 → cb_get_mut k f t = cb_get_mut_s k f t.
  Proof.
    intros Hw. unfold cb_get_mut, cb_get_mut_s, mbind, M_bind, mget, gets. destruct (cb_is_empty t); [done|].
    generalize (cb_fuel t). intros n. generalize (cb_root t). intros i. revert i. induction n as [|n IH]; intros i; cbn; [done|].
    unfold mbind at 1, M_bind at 1, gets at 1. destruct (cb_get_node t i) as [nd|] eqn:En; [|done]. cbn.
    unfold mbind at 1, M_bind at 1, gets at 1. destruct (cb_is_inner_node t i) as [[]|]; cbn; [| |done].
    - destruct (decide (cn_prefix_len nd ≤ _)); [|done]. cbn. unfold mbind at 1, M_bind at 1, gets at 1.
      destruct (cb_get_child _ _ _ _); cbn; [apply IH|done].
    - destruct (decide (cn_key nd = k)); [|done]. rewrite decide_False by (by eapply cb_node_nz). done.
  Qed.
End crit.
