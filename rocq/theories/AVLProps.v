(** * Properties of AVLTree: C27-C32 and its part of C26, C35, C40, C44, C47, C48 *)
From Verif Require Import AVLMain.

(** [pcmp] is the key type's [partial_cmp], [po_cmp pcmp] (MapSpec.v) the outcome of [<] / [>] / otherwise. The theorems are about key
    types on which that is a total order ([OrdLaws], MapSpec.v); for the others see C47.
    [av_after pcmp ms d o] is the tree after the calls [o] on [AVLTree::<K, V, ms>::new()] ([d] is the default pair);
    [av_contents pcmp ms o] the pairs, in key order, that the map of capacity [ms] ([om_spec] in MapSpec.v) holds after the same calls. *)
Definition av_contents {K V} (pcmp : K → K → option comparison) (ms : nat) (o : list (om_op K V)) : list (K * V) :=
  (spec_history (om_spec (po_cmp pcmp) (N.of_nat ms)) o []).2.
Section props.
  Context `{Profile} {K V : Type} (pcmp : K → K → option comparison) (HO : OrdLaws (po_cmp pcmp)) (ms : nat) (d : K * V).
  Context (H0 : (0 < ms)%nat) (Hw : N.of_nat ms + 1 < W32).
  Notation cmp := (po_cmp pcmp).
  Notation ops := (list (om_op K V)).
  Notation after := (av_after pcmp ms d).
  Notation contents := (av_contents pcmp ms).
  Notation cap := (N.of_nat ms).

  (** C27: every answer to every call of every history is that of the map; in particular no call panics (except [Index] on an absent
      key), is undefined or runs out of fuel. *)
  Theorem C27_av_is_map (o : ops) : (history (av_step pcmp) o (av_new ms d)).1 = (spec_history (om_spec cmp cap) o []).1.
  Proof. exact (av_is_map_fact pcmp HO ms d H0 Hw o). Qed.
  (** C28 *)
  Theorem C28_av_iter (o : ops) : ascending cmp (contents o) ∧ ∀ script, av_iterate (after o) script = Val (de_spec script (contents o)).
  Proof. exact (av_iter_fact pcmp HO ms d H0 Hw o). Qed.
  (** C29: [av_sub] (AVLApi.v) says: balanced at every node, exact height registers *)
  Theorem C29_av_balanced (o : ops) : ∃ h, av_sub (after o) (as_u32 (av_root (after o))) h.
  Proof. exact (av_balanced_fact pcmp HO ms d H0 Hw o). Qed.
  (** C30: a path of [p] nodes has [2^p <= (len+1)^2], that is [p <= 2*log2(len+1)]; and [fib (p+2) <= len+1] *)
  Theorem C30_av_depth (o : ops) p :
    av_path (after o) (as_u32 (av_root (after o))) p →
    2 ^ lengthN p ≤ (av_len (after o) + 1) ^ 2 ∧ fib (length p + 2) ≤ av_len (after o) + 1.
  Proof. exact (av_depth_fact pcmp HO ms d H0 Hw o p). Qed.
  (** C30: the height registers stay far below 2^31 (that no step overflows in between is C27, with [overflow_checks] either way) *)
  Theorem C30_av_heights (o : ops) p i :
    av_path (after o) (as_u32 (av_root (after o))) p → i ∈ p →
    ∃ h, av_get_field (after o) i Height = Val h ∧ 2 ^ (h + 1) ≤ (av_len (after o) + 1) ^ 2 ∧ h < 64.
  Proof. exact (av_height_fact pcmp HO ms d H0 Hw o p i). Qed.
  (** C30: the search loop ([bst_walk], bounded by fuel in the model) needs at most [n] iterations for any [n] with [2*log2(len+1) < n+1] *)
  Theorem C30_av_search_steps (o : ops) k n :
    (av_len (after o) + 1) ^ 2 < 2 ^ (N.of_nat n + 1) →
    bst_get_addr cmp n (av_al (after o)) (as_u32 (av_root (after o))) k = av_get_addr pcmp (after o) k.
  Proof. exact (av_search_steps_fact pcmp HO ms d H0 Hw o k n). Qed.
  (** C31 *)
  Theorem C31_av_min (o : ops) :
    match head (contents o) with
    | None => av_get_min (after o) = Val None ∧ av_find_min (after o) = Val None ∧ av_find_min_index (after o) = Val SENTINEL
    | Some kv => av_get_min (after o) = Val (Some kv) ∧ av_find_min (after o) = Val (Some kv.2) ∧
        (∀ kv', kv' ∈ contents o → kv' = kv ∨ cmp kv.1 kv'.1 = Lt) ∧
        ∃ i, av_find_min_index (after o) = Val i ∧ av_get_addr pcmp (after o) kv.1 = Val i ∧ av_get_node (after o) i = Val kv
    end.
  Proof. exact (av_min_fact pcmp HO ms d H0 Hw o). Qed.
  Theorem C31_av_max (o : ops) :
    match last (contents o) with
    | None => av_get_max (after o) = Val None ∧ av_find_max (after o) = Val None ∧ av_find_max_index (after o) = Val SENTINEL
    | Some kv => av_get_max (after o) = Val (Some kv) ∧ av_find_max (after o) = Val (Some kv.2) ∧
        (∀ kv', kv' ∈ contents o → kv' = kv ∨ cmp kv'.1 kv.1 = Lt) ∧
        ∃ i, av_find_max_index (after o) = Val i ∧ av_get_addr pcmp (after o) kv.1 = Val i ∧ av_get_node (after o) i = Val kv
    end.
  Proof. exact (av_max_fact pcmp HO ms d H0 Hw o). Qed.
  (** C32: [o'] is any further history in which [k] is not removed; [k0] is the key identity stored (equal to [k] up to [cmp]), [v'] its
      value by then. Right after the insert ([o' = []]) the value is [v]. *)
  Theorem C32_av_addresses (o o' : ops) k v i t1 :
    av_insert pcmp k v (after o) = Ret (Some i) t1 →
    (∀ k', MRemove k' ∈ o' → cmp k' k ≠ Eq) →
    let t2 := (history (av_step pcmp) o' t1).2 in
    ∃ k0 v', cmp k k0 = Eq ∧ av_get_addr pcmp t2 k = Val i ∧ av_get_node t2 i = Val (k0, v') ∧ av_get pcmp t2 k = Val (Some v') ∧
      (o' = [] → v' = v).
  Proof. exact (av_addresses_fact pcmp HO ms d H0 Hw o o' k v i t1). Qed.
  (** C26 for AVLTree. [es]: the pairs with their slots, in key order. The session answers as [iter] would; no slot is yielded
      twice; [es'], the pairs with the caller's functions applied to the yielded ones, are what the tree holds afterwards, in the same
      slots with the same registers (shape and heights). *)
  Theorem C26_av_iter_mut (o : ops) script :
    ∃ (es : list (N * (K * V))) t',
      es.*2 = contents o ∧ (∀ i kv, (i, kv) ∈ es → av_get_addr pcmp (after o) kv.1 = Val i) ∧
      let '(out, es') := de_mut_spec (λ f e, (e.1, (e.2.1, f e.2.2))) script es in
      av_iterate_mut script (after o) = Ret out t' ∧ NoDup (map fst (omap id out)) ∧
      es'.*1 = es.*1 ∧ es'.*2.*1 = es.*2.*1 ∧ av_root t' = av_root (after o) ∧ av_len t' = av_len (after o) ∧
      (∀ i kv, (i, kv) ∈ es' → av_get_addr pcmp t' kv.1 = Val i ∧ av_get_node t' i = Val kv ∧ av_get pcmp t' kv.1 = Val (Some kv.2)) ∧
      (∀ i n, i ∈ es.*1 → na_get (av_al (after o)) i = Val n → ∃ n', na_get (av_al t') i = Val n' ∧ regs n' = regs n) ∧
      ∀ script', av_iterate t' script' = Val (de_spec script' es'.*2).
  Proof. exact (av_iter_mut_fact pcmp HO ms d H0 Hw o script). Qed.
  (** C35 for AVLTree (whatever the length) *)
  Theorem C35_av_update (o : ops) k v v0 :
    om_get cmp k (contents o) = Some v0 →
    ∃ i t', av_insert pcmp k v (after o) = Ret (Some i) t' ∧
      av_get_addr pcmp (after o) k = Val i ∧ av_get_addr pcmp t' k = Val i ∧ av_get pcmp t' k = Val (Some v) ∧
      av_len t' = av_len (after o) ∧ ∀ script, av_iterate t' script = Val (de_spec script (om_insert cmp k v (contents o))).
  Proof. exact (av_update_fact pcmp HO ms d H0 Hw o k v v0). Qed.
  (** C40 for AVLTree, capacity > 0: nothing changes at all *)
  Theorem C40_av_full (o : ops) k v :
    om_get cmp k (contents o) = None → av_len (after o) = cap → av_insert pcmp k v (after o) = Ret None (after o).
  Proof. exact (av_full_fact pcmp HO ms d H0 Hw o k v). Qed.
  (** C44 for AVLTree *)
  Theorem C44_av_index (o : ops) k f :
    match om_get cmp k (contents o) with
    | Some v => av_get pcmp (after o) k = Val (Some v) ∧ av_index pcmp (after o) k = Val v ∧
                ∃ t', av_index_mut pcmp k f (after o) = Ret v t' ∧
                      ∀ script, av_iterate t' script = Val (de_spec script (om_alter cmp k f (contents o)))
    | None => av_get pcmp (after o) k = Val None ∧ av_index pcmp (after o) k = Err Panic ∧
              av_index_mut pcmp k f (after o) = Fail Panic (after o)
    end.
  Proof. exact (av_index_fact pcmp HO ms d H0 Hw o k f). Qed.
  (** C48 for AVLTree (the lookups are functions of the state, so they do not modify it) *)
  Theorem C48_av_lookups (o : ops) k :
    ∃ i, av_get_addr pcmp (after o) k = Val i ∧ av_get pcmp (after o) k = Val (om_get cmp k (contents o)) ∧
      av_contains pcmp (after o) k = Val (match om_get cmp k (contents o) with Some _ => true | None => false end) ∧
      match om_find cmp k (contents o) with
      | Some kv => i ≠ SENTINEL ∧ av_get_node (after o) i = Val kv ∧ cmp k kv.1 = Eq
      | None => i = SENTINEL
      end.
  Proof. exact (av_lookups_fact pcmp HO ms d H0 Hw o k). Qed.
End props.
Print Assumptions C27_av_is_map.
Print Assumptions C28_av_iter.
Print Assumptions C29_av_balanced.
Print Assumptions C30_av_depth.
Print Assumptions C30_av_heights.
Print Assumptions C30_av_search_steps.
Print Assumptions C31_av_min.
Print Assumptions C31_av_max.
Print Assumptions C32_av_addresses.
Print Assumptions C26_av_iter_mut.
Print Assumptions C35_av_update.
Print Assumptions C40_av_full.
Print Assumptions C44_av_index.
Print Assumptions C48_av_lookups.

(** C40, capacity 0: the claim fails, [insert] panics instead of returning [None] (avl_tree.rs:281-285: an empty tree does not look at
    its size). *)
Definition nat_pcmp (a b : N) : option comparison := Some (N.compare a b).
Theorem C40_av_capacity0_refuted :
  ∃ (P : Profile) (k v : N) t, av_insert nat_pcmp k v (av_new 0 (0, 0)) = Fail Panic t.
Proof. exists {| overflow_checks := true |}, 1, 2. eexists. by vm_compute. Qed.
Print Assumptions C40_av_capacity0_refuted.

(** C47: The contract of [PartialOrd] *)
Record POrdLaws {K} (pcmp : K → K → option comparison) : Prop := {
  pcmp_sym : ∀ a b, pcmp b a = CompOpp <$> pcmp a b;
  pcmp_trans : ∀ a b c r, pcmp a b = Some r → pcmp b c = Some r → pcmp a c = Some r;
  pcmp_eq : ∀ a b c, pcmp a b = Some Eq → pcmp a c = pcmp b c }.
(** Numbers with a NaN ([None]) that is not comparable to anything, itself included, like [f64] *)
Definition nan_pcmp (a b : option N) : option comparison :=
  match a, b with Some a, Some b => Some (N.compare a b) | _, _ => None end.
Lemma nan_laws : POrdLaws nan_pcmp.
Proof.
  split.
  - intros [a|] [b|]; simpl; try done. by rewrite N.compare_antisym.
  - intros [a|] [b|] [c|] r; simpl; try done. intros [= <-] [= Hr]. f_equal.
    destruct (N.compare_spec a b); destruct (N.compare_spec b c); try done; subst.
    + by apply N.compare_refl.
    + apply N.compare_lt_iff. lia.
    + apply N.compare_gt_iff. lia.
  - intros [a|] [b|] [c|]; simpl; try done. intros [= ->%N.compare_eq_iff]. done.
Qed.
(** The claim fails: a key incomparable to a stored key is taken for it. A lookup of the NaN finds the pair of key 1, [insert] of the
    NaN overwrites it, [remove] of the NaN removes it. *)
Theorem C47_av_incomparable_refuted :
  ∃ (P : Profile) (K : Type) (pcmp : K → K → option comparison) (k k' : K),
    POrdLaws pcmp ∧ pcmp k k' = None ∧ pcmp k k = Some Eq ∧ k ≠ k' ∧
    (history (av_step pcmp) [MInsert k 10; MGet k'; MInsert k' 11; MGet k; MRemove k'; MContains k] (av_new 4 (k, 0))).1 =
    [Val (MBool true); Val (MVal (Some 10)); Val (MBool true); Val (MVal (Some 11)); Val (MVal (Some 11)); Val (MBool false)].
Proof.
  exists {| overflow_checks := true |}, (option N), nan_pcmp, (Some 1), None.
  split; [exact nan_laws|]. split_and!; [done..|]. by vm_compute.
Qed.
Print Assumptions C47_av_incomparable_refuted.

(** A concrete history meeting the hypotheses: 6 insertions into capacity 5 (with rotations), an update, a removal of the root, [Index]
    on an absent key, mutable iteration from both ends. *)
Local Instance ex_profile : Profile := {| overflow_checks := true |}.
Definition ex_av : list (om_op N N) :=
  [MInsert 5 50; MInsert 3 30; MInsert 8 80; MInsert 9 90; MInsert 7 70; MInsert 1 10; MInsert 8 81; MRemove 5;
   MIterMut [(Bwd, λ v, v + 1); (Fwd, λ v, v + 2)]; MIndex 6; MIter [Fwd; Bwd; Fwd; Fwd; Bwd]].
Lemma nat_laws : OrdLaws (po_cmp nat_pcmp).
Proof.
  destruct N_laws as [H1 H2 H3]. assert (∀ a b, po_cmp nat_pcmp a b = N.compare a b) as He.
  { intros a b. unfold po_cmp, nat_pcmp. by destruct (a ?= b). }
  split; intros *; rewrite !He; eauto.
Qed.
Example ex_C27 :
  OrdLaws (po_cmp nat_pcmp) ∧
  (history (av_step nat_pcmp) ex_av (av_new 5 (0, 0))).1 =
    [Val (MBool true); Val (MBool true); Val (MBool true); Val (MBool true); Val (MBool true); Val (MBool false); Val (MBool true);
     Val (MVal (Some 50)); Val (MList [Some (9, 90); Some (3, 30)]); Err Panic;
     Val (MList [Some (3, 32); Some (9, 91); Some (7, 70); Some (8, 81); None])] ∧
  av_contents nat_pcmp 5 ex_av = [(3, 32); (7, 70); (8, 81); (9, 91)].
Proof. split; [exact nat_laws|]. by vm_compute. Qed.
Example ex_C29 :
  let t := av_after nat_pcmp 5 (0, 0) ex_av in
  as_u32 (av_root t) = 5 ∧ av_len t = 4 ∧ av_path t 5 [5; 3; 4] ∧ av_get_field t 5 Height = Val 2 ∧ fib (3 + 2) = 5.
Proof.
  split_and!; [by vm_compute|by vm_compute| |by vm_compute|by vm_compute].
  eapply av_path_right; [done|by vm_compute|]. eapply av_path_right; [done|by vm_compute|].
  eapply av_path_left; [done|by vm_compute|]. constructor.
Qed.
Definition ex_t1 : avlt N N :=
  match av_insert nat_pcmp 6 60 (av_after nat_pcmp 5 (0, 0) ex_av) with Ret _ t => t | Fail _ t => t end.
Example ex_C32 :
  av_insert nat_pcmp 6 60 (av_after nat_pcmp 5 (0, 0) ex_av) = Ret (Some 1) ex_t1 ∧
  let t2 := (history (av_step nat_pcmp) [MRemove 8; MRemove 7; MInsert 6 61; MInsert 4 44] ex_t1).2 in
  av_get_addr nat_pcmp t2 6 = Val 1 ∧ av_get_node t2 1 = Val (6, 61).
Proof. by vm_compute. Qed.
Example ex_C35_C40 :
  let t := av_after nat_pcmp 2 (0, 0) [MInsert 5 50; MInsert 3 30] in
  av_len t = 2 ∧ av_insert nat_pcmp 4 40 t = Ret None t ∧
  match av_insert nat_pcmp 3 31 t with
  | Ret o t' => o = Some 2 ∧ av_get nat_pcmp t' 3 = Val (Some 31)
  | _ => False
  end.
Proof. by vm_compute. Qed.
