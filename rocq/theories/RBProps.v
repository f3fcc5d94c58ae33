(** * Properties of RedBlackTree: C19-C25 and its part of C26, C35, C40, C44, C48 *)
From Verif Require Import RBMain.

(** [rb_after ms d ops] is the tree after the calls [ops] on [RedBlackTree::<K, V, ms>::new()] ([d] is the default pair), [rb_answers]
    the answers. An operation [None] is [remove_root]. [rb_holds ms d ops l]: the answers are those of the ordered map of capacity [ms]
    ([om_spec], [om_run] in MapSpec.v), which now holds the pairs [l] (in key order). *)
Section props.
  Context `{Profile} {K V : Type} (cmp : K → K → comparison) (HO : OrdLaws cmp) (ms : nat) (d : K * V).
  Context (H0 : (0 < ms)%nat) (Hw : N.of_nat ms + 1 < W32).
  Notation ops := (list (option (om_op K V))).
  Notation after := (rb_after cmp ms d).
  Notation answers := (rb_answers cmp ms d).
  Notation holds := (rb_holds cmp ms d).
  Notation cap := (N.of_nat ms).

  (** C19: every answer to every call of every history of trait calls is that of the map; in particular no call panics (except
      [Index] on an absent key), is undefined or runs out of fuel. *)
  Theorem C19_rb_is_map (o : list (om_op K V)) :
    (history (om_step (rb_api cmp)) o (rb_new ms d)).1 = (spec_history (om_spec cmp cap) o []).1.
  Proof. exact (rb_is_map_fact cmp HO ms d H0 Hw o). Qed.
  (** C19, C25: the same with [remove_root] calls anywhere. The map left, [l], is determined. *)
  Theorem C19_rb_runs (o : ops) : ∃ l, holds o l ∧ ∀ l', holds o l' → l = l'.
  Proof. exact (rb_runs_fact cmp HO ms d H0 Hw o). Qed.

  (** C20 *)
  Theorem C20_rb_iter (o : ops) l :
    holds o l → ascending cmp l ∧ ∀ script, rb_iterate (after o) script = Val (de_spec script l).
  Proof. exact (rb_iter_fact cmp HO ms d H0 Hw o l). Qed.

  (** C21 *)
  Theorem C21_rb_valid (o : ops) :
    rb_get_color (after o) (rb_root (after o)) = Val Black ∧ (∃ n, rb_sub (after o) (rb_root (after o)) n) ∧
    rb_is_valid (after o) = Val true.
  Proof. exact (rb_valid_fact cmp HO ms d H0 Hw o). Qed.

  (** C22: a path of [p] nodes has [2^p <= (len+1)^2], that is [p <= 2*log2(len+1)]; and the search loop ([bst_walk], bounded by
      fuel in the model) needs at most [n] iterations for any [n] with [2*log2(len+1) < n+1]. *)
  Theorem C22_rb_depth (o : ops) p :
    rb_path (after o) (rb_root (after o)) p → 2 ^ lengthN p ≤ (rb_len (after o) + 1) ^ 2.
  Proof. exact (rb_depth_fact cmp HO ms d H0 Hw o p). Qed.
  Theorem C22_rb_search_steps (o : ops) k n :
    (rb_len (after o) + 1) ^ 2 < 2 ^ (N.of_nat n + 1) →
    bst_get_addr cmp n (rb_al (after o)) (rb_root (after o)) k = rb_get_addr cmp (after o) k.
  Proof. exact (rb_search_steps_fact cmp HO ms d H0 Hw o k n). Qed.

  (** C23 *)
  Theorem C23_rb_min (o : ops) l :
    holds o l →
    match head l with
    | None => rb_get_min (after o) = Val None ∧ rb_get_min_index (after o) = Val SENTINEL
    | Some kv => rb_get_min (after o) = Val (Some kv) ∧ (∀ kv', kv' ∈ l → kv' = kv ∨ cmp kv.1 kv'.1 = Lt) ∧
        ∃ i, rb_get_min_index (after o) = Val i ∧ rb_get_addr cmp (after o) kv.1 = Val i ∧ rb_get_node (after o) i = Val kv
    end.
  Proof. exact (rb_min_fact cmp HO ms d H0 Hw o l). Qed.
  Theorem C23_rb_max (o : ops) l :
    holds o l →
    match last l with
    | None => rb_get_max (after o) = Val None ∧ rb_get_max_index (after o) = Val SENTINEL
    | Some kv => rb_get_max (after o) = Val (Some kv) ∧ (∀ kv', kv' ∈ l → kv' = kv ∨ cmp kv'.1 kv.1 = Lt) ∧
        ∃ i, rb_get_max_index (after o) = Val i ∧ rb_get_addr cmp (after o) kv.1 = Val i ∧ rb_get_node (after o) i = Val kv
    end.
  Proof. exact (rb_max_fact cmp HO ms d H0 Hw o l). Qed.

  (** C24: [o'] is any further history in which [k] is not removed; [k0] is the key identity stored (equal to [k] up to [cmp]), [v'] its
      value by then. Right after the insert ([o' = []]) the value is [v]. *)
  Theorem C24_rb_addresses (o o' : ops) k v i t1 :
    rb_insert cmp k v (after o) = Ret (Some i) t1 →
    never_removed cmp k o' (history (rb_step cmp) o' t1).1 →
    let t2 := (history (rb_step cmp) o' t1).2 in
    ∃ k0 v', cmp k k0 = Eq ∧ rb_get_addr cmp t2 k = Val i ∧ rb_get_node t2 i = Val (k0, v') ∧ rb_get cmp t2 k = Val (Some v') ∧
      (o' = [] → v' = v).
  Proof. exact (rb_addresses_fact cmp HO ms d H0 Hw o o' k v i t1). Qed.

  (** C25: [remove_root] in any reachable tree (that the results of whole histories stay those of a map, and the tree balanced, is
      C19_rb_runs and C21_rb_valid). *)
  Theorem C25_rb_remove_root (o : ops) l :
    holds o l →
    ∃ r t', rb_remove_root (after o) = Ret r t' ∧
      match r with
      | None => l = [] ∧ t' = after o
      | Some kv => kv ∈ l ∧ holds (o ++ [None]) (om_remove cmp kv.1 l) ∧ after (o ++ [None]) = t' ∧
                   rb_get cmp (after o) kv.1 = Val (Some kv.2) ∧ rb_get cmp t' kv.1 = Val None ∧ rb_len (after o) = rb_len t' + 1
      end.
  Proof. exact (rb_remove_root_fact cmp HO ms d H0 Hw o l). Qed.

  (** C26 for RedBlackTree. [es]: the pairs with their slots, in key order. The session answers as [iter] would; no slot is yielded
      twice; [es'], the pairs with the caller's functions applied to the yielded ones, are what the tree holds afterwards, in the same
      slots with the same registers (shape and colours). *)
  Theorem C26_rb_iter_mut (o : ops) l script :
    holds o l →
    ∃ (es : list (N * (K * V))) t',
      es.*2 = l ∧ (∀ i kv, (i, kv) ∈ es → rb_get_addr cmp (after o) kv.1 = Val i) ∧
      let '(out, es') := de_mut_spec (λ f e, (e.1, (e.2.1, f e.2.2))) script es in
      rb_iterate_mut script (after o) = Ret out t' ∧ NoDup (map fst (omap id out)) ∧
      es'.*1 = es.*1 ∧ es'.*2.*1 = es.*2.*1 ∧ rb_root t' = rb_root (after o) ∧ rb_len t' = rb_len (after o) ∧
      (∀ i kv, (i, kv) ∈ es' → rb_get_addr cmp t' kv.1 = Val i ∧ rb_get_node t' i = Val kv ∧ rb_get cmp t' kv.1 = Val (Some kv.2)) ∧
      (∀ i n, i ∈ es.*1 → na_get (rb_al (after o)) i = Val n → ∃ n', na_get (rb_al t') i = Val n' ∧ regs n' = regs n) ∧
      ∀ script', rb_iterate t' script' = Val (de_spec script' es'.*2).
  Proof. exact (rb_iter_mut_fact cmp HO ms d H0 Hw o l script). Qed.

  (** C35 for RedBlackTree (whatever the length). The new contents are those of the map insert. *)
  Theorem C35_rb_update (o : ops) l k v v0 :
    holds o l → om_get cmp k l = Some v0 →
    ∃ i t', rb_insert cmp k v (after o) = Ret (Some i) t' ∧
      rb_get_addr cmp (after o) k = Val i ∧ rb_get_addr cmp t' k = Val i ∧ rb_get cmp t' k = Val (Some v) ∧
      rb_len t' = rb_len (after o) ∧ ∀ script, rb_iterate t' script = Val (de_spec script (om_insert cmp k v l)).
  Proof. exact (rb_update_fact cmp HO ms d H0 Hw o l k v v0). Qed.
  (** C40 for RedBlackTree, capacity > 0: nothing changes at all *)
  Theorem C40_rb_full (o : ops) l k v :
    holds o l → om_get cmp k l = None → rb_len (after o) = cap → rb_insert cmp k v (after o) = Ret None (after o).
  Proof. exact (rb_full_fact cmp HO ms d H0 Hw o l k v). Qed.
  (** C44 for RedBlackTree *)
  Theorem C44_rb_index (o : ops) l k f :
    holds o l →
    match om_get cmp k l with
    | Some v => rb_get cmp (after o) k = Val (Some v) ∧ rb_index cmp (after o) k = Val v ∧
                ∃ t', rb_index_mut cmp k f (after o) = Ret v t' ∧ ∀ script, rb_iterate t' script = Val (de_spec script (om_alter cmp k f l))
    | None => rb_get cmp (after o) k = Val None ∧ rb_index cmp (after o) k = Err Panic ∧
              rb_index_mut cmp k f (after o) = Fail Panic (after o)
    end.
  Proof. exact (rb_index_fact cmp HO ms d H0 Hw o l k f). Qed.
  (** C48 for RedBlackTree (the lookups are functions of the state, so they do not modify it) *)
  Theorem C48_rb_lookups (o : ops) l k :
    holds o l →
    ∃ i, rb_get_addr cmp (after o) k = Val i ∧ rb_get cmp (after o) k = Val (om_get cmp k l) ∧
      rb_contains cmp (after o) k = Val (match om_get cmp k l with Some _ => true | None => false end) ∧
      match om_find cmp k l with
      | Some kv => i ≠ SENTINEL ∧ rb_get_node (after o) i = Val kv ∧ cmp k kv.1 = Eq
      | None => i = SENTINEL
      end.
  Proof. exact (rb_lookups_fact cmp HO ms d H0 Hw o l k). Qed.
End props.
Print Assumptions C19_rb_is_map.
Print Assumptions C19_rb_runs.
Print Assumptions C20_rb_iter.
Print Assumptions C21_rb_valid.
Print Assumptions C22_rb_depth.
Print Assumptions C22_rb_search_steps.
Print Assumptions C23_rb_min.
Print Assumptions C23_rb_max.
Print Assumptions C24_rb_addresses.
Print Assumptions C25_rb_remove_root.
Print Assumptions C26_rb_iter_mut.
Print Assumptions C35_rb_update.
Print Assumptions C40_rb_full.
Print Assumptions C44_rb_index.
Print Assumptions C48_rb_lookups.

(** C40, capacity 0: the claim fails, [insert] panics instead of returning [None] (the root is SENTINEL, so the size is not looked
    at: red_black_tree.rs insert). *)
Theorem C40_rb_capacity0_refuted :
  ∃ (P : Profile) (k v : N) t, rb_insert N.compare k v (rb_new 0 (0, 0)) = Fail Panic t.
Proof. exists {| overflow_checks := true |}, 1, 2. eexists. by vm_compute. Qed.
Print Assumptions C40_rb_capacity0_refuted.

(** C46: [is_valid_red_black_tree] accepts trees that are not red-black trees: it compares the numbers of black nodes only on paths to
    nodes without children. Here a black root has only one child, a black one. *)
Definition bad_tree : rbt N N :=
  RBT 1 (Alloc 2 3 3 [Node [0; 2; 0; 0] (5, 50); Node [0; 0; 1; 0] (7, 70)]).
Theorem C46_is_valid_refuted :
  ∃ (P : Profile) (t : rbt N N), rb_is_valid t = Val true ∧ ¬ ∃ n, rb_sub t (rb_root t) n.
Proof.
  exists {| overflow_checks := true |}, bad_tree. split; [by vm_compute|]. intros [n Hn].
  change (rb_root bad_tree) with 1 in Hn. inversion Hn as [|i l r n' Hc|i l r n' Hi Hc Hl Hr Sl Sr]; subst.
  - vm_compute in Hc. discriminate.
  - vm_compute in Hl, Hr. injection Hl as <-. injection Hr as <-.
    inversion Sl as [|i l r ? Hc'|i l r ? Hi']; subst; [|by vm_compute in Hc'|done].
    inversion Sr as [|i l r ? Hc'|]; subst. by vm_compute in Hc'.
Qed.
Print Assumptions C46_is_valid_refuted.

(** A concrete history meeting the hypotheses: 6 insertions into capacity 5 (with rotations), an update, removals, [remove_root],
    [Index] on an absent key, mutable iteration from both ends. *)
Local Instance ex_profile : Profile := {| overflow_checks := true |}.
Definition ex_rb : list (option (om_op N N)) :=
  Some <$> [MInsert 5 50; MInsert 3 30; MInsert 8 80; MInsert 9 90; MInsert 7 70; MInsert 1 10; MInsert 8 81; MRemove 3]
  ++ [MIterMut [(Bwd, λ v, v + 1); (Fwd, λ v, v + 2)]; MIndex 6; MIter [Fwd; Bwd; Fwd; Fwd; Bwd]]
.
Example ex_C19 :
  OrdLaws N.compare ∧
  rb_answers N.compare 5 (0, 0) (ex_rb ++ [None; Some MLen]) =
    [Val (MBool true); Val (MBool true); Val (MBool true); Val (MBool true); Val (MBool true); Val (MBool false); Val (MBool true);
     Val (MVal (Some 30)); Val (MList [Some (9, 90); Some (5, 50)]); Err Panic;
     Val (MList [Some (5, 52); Some (9, 91); Some (7, 70); Some (8, 81); None]); Val (MPair (Some (8, 81))); Val (MNum 3)] ∧
  rb_holds N.compare 5 (0, 0) ex_rb [(5, 52); (7, 70); (8, 81); (9, 91)].
Proof.
  split; [exact N_laws|]. split; [by vm_compute|]. unfold rb_holds.
  change ex_rb with (map Some (omap id ex_rb)). rewrite om_run_ops. by vm_compute.
Qed.
Example ex_C21 : (* shape: root 8 (slot 3), red child 5 .. *)
  let t := rb_after N.compare 5 (0, 0) ex_rb in
  rb_is_valid t = Val true ∧ rb_root t = 3 ∧ rb_len t = 4 ∧ rb_get_left t 3 = Val 1 ∧ rb_get_color t 5 = Val Red ∧
  rb_path t 3 [3; 1; 5].
Proof.
  split_and!; try by vm_compute. eapply rb_path_left; [done|by vm_compute|]. eapply rb_path_right; [done|by vm_compute|].
  eapply rb_path_left; [done|by vm_compute|]. constructor.
Qed.
Definition ex_t1 : rbt N N :=
  match rb_insert N.compare 6 60 (rb_after N.compare 5 (0, 0) ex_rb) with Ret _ t => t | Fail _ t => t end.
Definition ex_more : list (option (om_op N N)) := [Some (MRemove 5); None; Some (MInsert 6 61)].
Example ex_C24 :
  rb_insert N.compare 6 60 (rb_after N.compare 5 (0, 0) ex_rb) = Ret (Some 2) ex_t1 ∧
  (history (rb_step N.compare) ex_more ex_t1).1 = [Val (MVal (Some 52)); Val (MPair (Some (8, 81))); Val (MBool true)] ∧
  never_removed N.compare 6 ex_more (history (rb_step N.compare) ex_more ex_t1).1.
Proof.
  split; [by vm_compute|].
  assert ((history (rb_step N.compare) ex_more ex_t1).1 = [Val (MVal (Some 52)); Val (MPair (Some (8, 81))); Val (MBool true)]) as ->
    by by vm_compute.
  split; [done|]. split.
  - intros k' Hk'. unfold ex_more in Hk'. rewrite !elem_of_cons, elem_of_nil in Hk'. by destruct Hk' as [[= ->]|[|[|]]].
  - intros kv Hkv. simpl in Hkv. rewrite !elem_of_cons, elem_of_nil in Hkv. by destruct Hkv as [|[[= ->]|[|]]].
Qed.
Example ex_C25 :
  match rb_remove_root (rb_after N.compare 5 (0, 0) ex_rb) with
  | Ret o t' => o = Some (8, 81) ∧ rb_len t' = 3 ∧ rb_is_valid t' = Val true
  | _ => False
  end.
Proof. by vm_compute. Qed.
Example ex_C35_C40 :
  let t := rb_after N.compare 2 (0, 0) (Some <$> [MInsert 5 50; MInsert 3 30]) in
  rb_len t = 2 ∧ rb_insert N.compare 4 40 t = Ret None t ∧
  match rb_insert N.compare 3 31 t with
  | Ret o t' => o = Some 2 ∧ rb_get N.compare t' 3 = Val (Some 31)
  | _ => False
  end.
Proof. by vm_compute. Qed.
