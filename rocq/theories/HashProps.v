(** * Properties of HashTable: C13-C18 and its part of C26, C35, C40, C44, C48 *)
From Verif Require Import HashMain.

(** [keq] is the key type's [==], [hash k] the value the hasher computes for [k], any function that respects [==] ([HashLaws],
    HashSpec.v). [h0] is [HashTable::<K, V, nb, ms>::new()] ([d] is the default pair); [ht_after keq hash h0 o] the table after the calls
    [o]. [ht_holds keq hash ms h0 o l] says that the answers to the calls [o] are those of a map of capacity [ms] ([hm_run] in HashSpec.v)
    that now holds the pairs [l] (in some order). *)
Section props.
  Context `{Profile} {K V : Type} (keq : K → K → bool) (hash : K → N) (HL : HashLaws keq hash) (nb ms : nat) (d : K * V).
  Context (h0 : htable K V) (Hnew : ht_new nb ms d = Some h0) (Hnb : (0 < nb)%nat) (Hw : N.of_nat ms + 1 < W32).
  Notation ops := (list (hm_op K V)).
  Notation after := (ht_after keq hash h0).
  Notation holds := (ht_holds keq hash ms h0).
  Notation cap := (N.of_nat ms).
  Notation get := (ht_get keq hash).
  Notation addr := (ht_get_addr keq hash).

  (** C13: the answers to every history are those of a map; in particular no call panics (except [Index] on an absent key), is undefined
      or runs out of fuel. The contents are determined up to order. *)
  Theorem C13_ht_is_map (o : ops) : ∃ l, hm_run keq cap o [] (history (ht_step keq hash) o h0).1 l ∧ distinct_keys keq l ∧ lengthN l ≤ cap.
  Proof. exact (ht_is_map_fact keq hash HL nb ms d h0 Hnew Hnb Hw o). Qed.
  Theorem C13_ht_contents_unique (o : ops) l l' : holds o l → holds o l' → l ≡ₚ l'.
  Proof. exact (ht_contents_unique keq hash HL ms h0 o l l'). Qed.
  (** C14 *)
  Theorem C14_ht_insert_full_new (o : ops) l k v :
    holds o l → hm_find keq k l = None → ht_len (after o) = cap → ht_insert keq hash k v (after o) = Ret None (after o).
  Proof. exact (ht_full_fact keq hash HL nb ms d h0 Hnew Hnb Hw o l k v). Qed.
  Theorem C14_ht_insert_full_present (o : ops) l k v kv :
    holds o l → hm_find keq k l = Some kv → ht_len (after o) = cap →
    ∃ i h', ht_insert keq hash k v (after o) = Ret (Some i) h' ∧
      get h' k = Val (Some v) ∧ addr (after o) k = Val i ∧ (∀ k', addr h' k' = addr (after o) k') ∧
      (∀ k', keq k' k = false → get h' k' = get (after o) k') ∧ ht_len h' = cap.
  Proof.
    intros Hh Hf Hl. rewrite <- Hl. exact (ht_update_fact keq hash HL nb ms d h0 Hnew Hnb Hw o l k v kv Hh Hf).
  Qed.
  (** C15: [length l + m] calls of [next] give the pairs [l'], an ordering of the contents, then [m] times [None]; the same for
      [iter_mut], whatever the caller writes. *)
  Theorem C15_ht_iter (o : ops) l :
    holds o l → ∃ l', l' ≡ₚ l ∧
      (∀ m, ht_iterate (after o) (replicate (length l + m) Fwd) = Val (map Some l' ++ replicate m None)) ∧
      (∀ fs m, length fs = (length l + m)%nat → ∃ out h',
        ht_iterate_mut (map (λ f, (Fwd, f)) fs) (after o) = Ret out h' ∧ no_index out = map Some l' ++ replicate m None).
  Proof. exact (ht_iter_once_fact keq hash HL nb ms d h0 Hnew Hnb Hw o l). Qed.
  (** C17 *)
  Theorem C17_ht_get_mut (o : ops) l k f :
    holds o l →
    match hm_find keq k l with
    | Some kv => ∃ h', ht_get_mut keq hash k f (after o) = Ret (Some kv.2) h' ∧
        get h' k = Val (Some (f kv.2)) ∧ (∀ k', keq k' k = false → get h' k' = get (after o) k') ∧
        (∀ k', addr h' k' = addr (after o) k') ∧ ht_len h' = ht_len (after o)
    | None => ht_get_mut keq hash k f (after o) = Ret None (after o)
    end.
  Proof. exact (ht_get_mut_fact keq hash HL nb ms d h0 Hnew Hnb Hw o l k f). Qed.
  (** C18: [o'] is any further history in which [k] is not removed; [k0] is the key identity stored, [v'] its value by then. *)
  Theorem C18_ht_addresses (o o' : ops) k v i h1 :
    ht_insert keq hash k v (after o) = Ret (Some i) h1 →
    (∀ k', HRemove k' ∈ o' → keq k k' = false) →
    let h2 := (history (ht_step keq hash) o' h1).2 in
    ∃ k0 v', keq k0 k = true ∧ addr h2 k = Val i ∧ ht_get_node h2 i = Val (k0, v') ∧ get h2 k = Val (Some v') ∧ (o' = [] → v' = v).
  Proof. exact (ht_addresses_fact keq hash HL nb ms d h0 Hnew Hnb Hw o o' k v i h1). Qed.
  (** C26 for HashTable. [es]: the pairs with their slots, in iteration order. The session answers as [iter] would ([fw_spec]:
      [next_back] always says [None], see C16); no slot is yielded twice; [es'], the pairs with the caller's functions applied to the
      yielded ones, are what the table holds afterwards, in the same slots and order. *)
  Theorem C26_ht_iter_mut (o : ops) l script :
    holds o l →
    ∃ (es : list (N * (K * V))) h',
      es.*2 ≡ₚ l ∧ (∀ i kv, (i, kv) ∈ es → addr (after o) kv.1 = Val i) ∧
      (∀ script', ht_iterate (after o) script' = Val (fw_spec script' es.*2)) ∧
      let '(out, es') := fw_mut_spec (λ f e, (e.1, (e.2.1, f e.2.2))) script es in
      ht_iterate_mut script (after o) = Ret out h' ∧ NoDup (map fst (omap id out)) ∧
      es'.*1 = es.*1 ∧ es'.*2.*1 = es.*2.*1 ∧ ht_len h' = ht_len (after o) ∧
      (∀ i kv, (i, kv) ∈ es' → addr h' kv.1 = Val i ∧ ht_get_node h' i = Val kv ∧ get h' kv.1 = Val (Some kv.2)) ∧
      ∀ script', ht_iterate h' script' = Val (fw_spec script' es'.*2).
  Proof. exact (ht_iter_mut_fact keq hash HL nb ms d h0 Hnew Hnb Hw o l script). Qed.
  (** C35 for HashTable (whatever the length) *)
  Theorem C35_ht_update (o : ops) l k v kv :
    holds o l → hm_find keq k l = Some kv →
    ∃ i h', ht_insert keq hash k v (after o) = Ret (Some i) h' ∧
      get h' k = Val (Some v) ∧ addr (after o) k = Val i ∧ (∀ k', addr h' k' = addr (after o) k') ∧
      (∀ k', keq k' k = false → get h' k' = get (after o) k') ∧ ht_len h' = ht_len (after o).
  Proof. exact (ht_update_fact keq hash HL nb ms d h0 Hnew Hnb Hw o l k v kv). Qed.
  (** C40 for HashTable, any capacity including 0: nothing changes at all *)
  Theorem C40_ht_full (o : ops) l k v :
    holds o l → hm_find keq k l = None → ht_len (after o) = cap → ht_insert keq hash k v (after o) = Ret None (after o).
  Proof. exact (ht_full_fact keq hash HL nb ms d h0 Hnew Hnb Hw o l k v). Qed.
  (** C44 for HashTable *)
  Theorem C44_ht_index (o : ops) l k f :
    holds o l →
    match hm_find keq k l with
    | Some kv => get (after o) k = Val (Some kv.2) ∧ ht_index keq hash (after o) k = Val kv.2 ∧
        ∃ h', ht_index_mut keq hash k f (after o) = Ret kv.2 h' ∧ get h' k = Val (Some (f kv.2)) ∧
          (∀ k', keq k' k = false → get h' k' = get (after o) k') ∧ ht_len h' = ht_len (after o)
    | None => get (after o) k = Val None ∧ ht_index keq hash (after o) k = Err Panic ∧
        ht_index_mut keq hash k f (after o) = Fail Panic (after o)
    end.
  Proof. exact (ht_index_fact keq hash HL nb ms d h0 Hnew Hnb Hw o l k f). Qed.
  (** C48 for HashTable (the lookups are functions of the state, so they do not modify it) *)
  Theorem C48_ht_lookups (o : ops) l k :
    holds o l →
    ∃ i, addr (after o) k = Val i ∧ get (after o) k = Val (hm_get keq k l) ∧
      ht_contains_trait keq hash (after o) k = Val (is_found (hm_find keq k l)) ∧
      ht_contains keq hash (after o) k = Val (is_found (hm_find keq k l)) ∧
      match hm_find keq k l with
      | Some kv => i ≠ SENTINEL ∧ ht_get_node (after o) i = Val kv ∧ keq kv.1 k = true
      | None => i = SENTINEL
      end.
  Proof. exact (ht_lookups_fact keq hash HL nb ms d h0 Hnew Hnb Hw o l k). Qed.
  (** C16: what the code does instead (see [C16_ht_rev_refuted]): reverse iteration visits nothing, on every reachable table *)
  Theorem C16_ht_rev_empty (o : ops) n : ht_iterate (after o) (replicate n Bwd) = Val (replicate n None).
  Proof.
    destruct (C13_ht_is_map o) as (l & Hh & _). destruct (ht_iter_fact keq hash HL nb ms d h0 Hnew Hnb Hw o l Hh) as (l' & _ & Hi).
    rewrite Hi. f_equal. apply fw_spec_bwd.
  Qed.
End props.
Print Assumptions C13_ht_is_map.
Print Assumptions C13_ht_contents_unique.
Print Assumptions C14_ht_insert_full_new.
Print Assumptions C14_ht_insert_full_present.
Print Assumptions C15_ht_iter.
Print Assumptions C16_ht_rev_empty.
Print Assumptions C17_ht_get_mut.
Print Assumptions C18_ht_addresses.
Print Assumptions C26_ht_iter_mut.
Print Assumptions C35_ht_update.
Print Assumptions C40_ht_full.
Print Assumptions C44_ht_index.
Print Assumptions C48_ht_lookups.

(** A concrete hash function with collisions: 2 buckets, keys by parity; [N.eqb] as equality *)
Definition ex_hash (k : N) : N := k.
Lemma ex_laws : HashLaws N.eqb ex_hash.
Proof.
  split; [apply N.eqb_refl|apply N.eqb_sym| |].
  - intros a b c ->%N.eqb_eq ->%N.eqb_eq. apply N.eqb_refl.
  - by intros a b ->%N.eqb_eq.
Qed.
Local Instance ex_profile : Profile := {| overflow_checks := true |}.
Definition ex_h0 : htable N N := match ht_new 2 3 (0, 0) with Some h => h | None => HT [] (Alloc 0 0 0 []) end.

(** C16: the claim fails: a table holding two pairs, over which [iter().rev()] visits nothing (hash_table.rs:435-437) *)
Theorem C16_ht_rev_refuted :
  ∃ (P : Profile) (h0 : htable N N) (o : list (hm_op N N)) (l : list (N * N)),
    ht_new 2 3 (0, 0) = Some h0 ∧ ht_holds N.eqb ex_hash 3 h0 o l ∧ length l = 2%nat ∧
    ht_iterate (ht_after N.eqb ex_hash h0 o) [Bwd; Bwd] = Val [None; None] ∧ de_spec [Bwd; Bwd] l ≠ [None; None].
Proof.
  exists ex_profile, ex_h0, [HInsert 1 10; HInsert 2 20], [(2, 20); (1, 10)].
  split; [done|]. split; [|split; [done|]; split; [by vm_compute|done]].
  unfold ht_holds.
  assert ((history (ht_step N.eqb ex_hash) [HInsert 1 10; HInsert 2 20] ex_h0).1 = [Val (HBool true); Val (HBool true)]) as -> by by vm_compute.
  econstructor; [apply st_insert; [done|by vm_compute]|]. econstructor; [apply st_insert; [done|by vm_compute]|]. constructor.
Qed.
Print Assumptions C16_ht_rev_refuted.

(** NUM_BUCKETS = 0 is accepted by [new] (0 is even) but every operation panics (division by zero, index out of bounds); C13 is about
    NUM_BUCKETS > 0. *)
Example ex_no_buckets :
  match ht_new 0 3 (0, 0) with
  | Some h => ht_insert N.eqb ex_hash 1 1 h = Fail Panic h ∧ ht_get N.eqb ex_hash h 1 = Err Panic ∧ ht_mk_iter h = Err Panic
  | None => False
  end.
Proof. by vm_compute. Qed.

(** A concrete history meeting the hypotheses: collisions in bucket 1, insertion into a full table, update, a get_mut that moves a node
    to the front of its chain, removal from the middle, [Index] on an absent key, mutable iteration. *)
Definition ex_ht : list (hm_op N N) :=
  [HInsert 1 10; HInsert 3 30; HInsert 5 50; HInsert 7 70; HInsert 3 31; HGetMut 1 (λ v, v + 1); HRemove 5; HInsert 2 20;
   HIterMut [λ v, v + 100]; HIndex 6; HIter 5].
Definition ex_rs : list (res (hm_out N N)) :=
  [Val (HBool true); Val (HBool true); Val (HBool true); Val (HBool false); Val (HBool true); Val (HVal (Some 10)); Val (HVal (Some 50));
   Val (HBool true); Val (HList [Some (2, 20)]); Err Panic; Val (HList [Some (2, 120); Some (1, 11); Some (3, 31); None; None])].
Definition ex_l : list (N * N) := [(2, 120); (1, 11); (3, 31)].
Example ex_C13 :
  ht_new 2 3 (0, 0) = Some ex_h0 ∧ HashLaws N.eqb ex_hash ∧ (history (ht_step N.eqb ex_hash) ex_ht ex_h0).1 = ex_rs ∧
  ∃ l, l ≡ₚ ex_l ∧ ht_holds N.eqb ex_hash 3 ex_h0 ex_ht l.
Proof.
  split_and!; [done|exact ex_laws|by vm_compute|].
  exists [(2, 120); (3, 31); (1, 11)]. split; [unfold ex_l; solve_Permutation|]. unfold ht_holds.
  assert ((history (ht_step N.eqb ex_hash) ex_ht ex_h0).1 = ex_rs) as -> by by vm_compute.
  unfold ex_ht, ex_rs.
  econstructor; [apply st_insert; [done|by vm_compute]|].
  econstructor; [apply st_insert; [done|by vm_compute]|].
  econstructor; [apply st_insert; [done|by vm_compute]|].
  econstructor; [apply st_full; [done|by vm_compute]|].
  econstructor; [by eapply st_update|].
  econstructor; [exact (st_get_mut N.eqb 3 1 (λ v, v + 1) [(5, 50); (3, 31); (1, 10)])|].
  econstructor; [exact (st_remove N.eqb 3 5 [(5, 50); (3, 31); (1, 11)])|].
  econstructor; [apply st_insert; [done|by vm_compute]|]. cbn.
  econstructor; [eapply (st_iter_mut _ _ _ _ [(2, 20); (3, 31); (1, 11)]); [done|]; reflexivity|].
  econstructor; [exact (st_index N.eqb 3 6 [(2, 120); (3, 31); (1, 11)])|].
  econstructor; [apply (st_iter N.eqb 3 5 [(2, 120); (3, 31); (1, 11)] ex_l); unfold ex_l; solve_Permutation|].
  constructor.
Qed.
Example ex_C18 :
  match ht_insert N.eqb ex_hash 3 33 (ht_after N.eqb ex_hash ex_h0 ex_ht) with
  | Ret (Some i) h1 =>
      i = 2 ∧ let h2 := (history (ht_step N.eqb ex_hash) [HGetMut 3 (λ v, v + 1); HRemove 1; HInsert 9 90; HInsert 3 34] h1).2 in
      ht_get_addr N.eqb ex_hash h2 3 = Val 2 ∧ ht_get_node h2 2 = Val (3, 34) ∧ ht_get_addr N.eqb ex_hash h2 9 = Val 1
  | _ => False
  end.
Proof. by vm_compute. Qed.
Example ex_C14_C17 :
  let h := ht_after N.eqb ex_hash ex_h0 ex_ht in
  ht_len h = 3 ∧ ht_insert N.eqb ex_hash 8 80 h = Ret None h ∧ hm_find N.eqb 8 ex_l = None ∧ hm_find N.eqb 3 ex_l = Some (3, 31) ∧
  match ht_get_mut N.eqb ex_hash 3 (λ v, v * 2) h with
  | Ret o h' => o = Some 31 ∧ ht_get N.eqb ex_hash h' 3 = Val (Some 62) ∧ ht_get N.eqb ex_hash h' 1 = Val (Some 11) ∧
                buckets h ≠ buckets h'
  | _ => False
  end.
Proof. by vm_compute. Qed.
(** capacity 0 *)
Example ex_C40_0 :
  match ht_new 2 0 (0, 0) with
  | Some h => ht_insert N.eqb ex_hash 1 1 h = Ret None h
  | None => False
  end.
Proof. by vm_compute. Qed.
