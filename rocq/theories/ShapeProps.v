(** * C60: the shape of a Critbit tree is determined by its contents *)
From Verif Require Import Spec RBMain AVLMain CritMain RBProps AVLProps ShapeProof.

(** After any history the nodes of the tree form the radix tree of its contents ([radix_tree_of], ShapeSpec.v); an empty one has no root. *)
Theorem C60_cb_shape `{Profile} {V : Type} (nn ms : nat) (d : V) (t0 : critbit V) (o : list (om_op N V)) :
  (0 < ms)%nat → N.of_nat nn + 1 < W32 → cb_new nn ms d = Some t0 → Forall u128_op o → let t := (history cb_step o t0).2 in
  match cb_contents ms o with
  | [] => cb_root t = SENTINEL
  | l => ∃ T, radix_tree_of l = Some T ∧ cb_shape t (cb_root t) T
  end.
Proof. exact (cb_shape_fact nn ms d t0 o). Qed.
Print Assumptions C60_cb_shape.

(** Two trees, of any capacities, after any two histories that leave the same non-empty contents have the same shape, and no other *)
Theorem C60_cb_history_independent `{Profile} {V : Type} (nn1 ms1 nn2 ms2 : nat) (d1 d2 : V) (s1 s2 : critbit V) (o1 o2 : list (om_op N V)) :
  (0 < ms1)%nat → N.of_nat nn1 + 1 < W32 → cb_new nn1 ms1 d1 = Some s1 → Forall u128_op o1 →
  (0 < ms2)%nat → N.of_nat nn2 + 1 < W32 → cb_new nn2 ms2 d2 = Some s2 → Forall u128_op o2 →
  cb_contents ms1 o1 = cb_contents ms2 o2 → cb_contents ms1 o1 ≠ [] →
  let t1 := (history cb_step o1 s1).2 in let t2 := (history cb_step o2 s2).2 in
  ∃ T, (∀ T', cb_shape t1 (cb_root t1) T' ↔ T' = T) ∧ (∀ T', cb_shape t2 (cb_root t2) T' ↔ T' = T).
Proof. exact (cb_shape_indep nn1 ms1 nn2 ms2 d1 d2 s1 s2 o1 o2). Qed.
Print Assumptions C60_cb_history_independent.

Local Instance ex_profile : Profile := {| overflow_checks := true |}.
Definition ex_asc : list (om_op N N) := [MInsert 1 10; MInsert 2 20; MInsert 3 30; MInsert 4 40].
Definition ex_desc : list (om_op N N) := [MInsert 4 40; MInsert 3 30; MInsert 2 20; MInsert 1 10].

(** Not so for the balanced trees: the same entries inserted in another order have another root *)
Theorem C60_rb_shape_refuted : ∃ o1 o2 l,
  rb_holds N.compare 8 (0, 0) o1 l ∧ rb_holds N.compare 8 (0, 0) o2 l ∧
  let t1 := rb_after N.compare 8 (0, 0) o1 in let t2 := rb_after N.compare 8 (0, 0) o2 in
  rb_get_node t1 (rb_root t1) = Val (2, 20) ∧ rb_get_node t2 (rb_root t2) = Val (3, 30).
Proof.
  exists (Some <$> ex_asc), (Some <$> ex_desc), [(1, 10); (2, 20); (3, 30); (4, 40)].
  split_and!; [unfold rb_holds; rewrite om_run_ops; by vm_compute|unfold rb_holds; rewrite om_run_ops; by vm_compute|by vm_compute].
Qed.
Theorem C60_av_shape_refuted : ∃ o1 o2,
  av_contents (λ a b, Some (N.compare a b)) 8 o1 = av_contents (λ a b, Some (N.compare a b)) 8 o2 ∧
  let t1 := av_after (λ a b, Some (N.compare a b)) 8 (0, 0) o1 in let t2 := av_after (λ a b, Some (N.compare a b)) 8 (0, 0) o2 in
  av_get_node t1 (av_root t1) = Val (2, 20) ∧ av_get_node t2 (av_root t2) = Val (3, 30).
Proof. exists ex_asc, ex_desc. by vm_compute. Qed.
(** and the slots a Critbit tree uses, and the keys kept in its inner nodes, do depend on the history *)
Definition ex_s0 : critbit N := match cb_new 8 4 0 with Some t => t | None => cb_zeroed 8 4 0 end.
Theorem C60_cb_slots_refuted : ∃ o1 o2,
  cb_contents 4 o1 = cb_contents 4 o2 ∧ Forall u128_op o1 ∧ Forall u128_op o2 ∧
  let t1 := (history cb_step o1 ex_s0).2 in let t2 := (history cb_step o2 ex_s0).2 in
  cb_get_addr t1 1 = Val 3 ∧ cb_get_addr t2 1 = Val 6 ∧
  cb_get_node t1 (cb_root t1) = Val (CNode 4 125) ∧ cb_get_node t2 (cb_root t2) = Val (CNode 3 125).
Proof. exists ex_asc, ex_desc. split; [by vm_compute|]. do 2 (split; [repeat constructor|]). by vm_compute. Qed.
Print Assumptions C60_rb_shape_refuted.
Print Assumptions C60_av_shape_refuted.
Print Assumptions C60_cb_slots_refuted.

(** Concrete case *)
Example ex_C60 :
  cb_new 8 4 0 = Some ex_s0 ∧ cb_contents 4 ex_asc = cb_contents 4 (ex_desc ++ [MRemove 2; MInsert 2 20]) ∧
  radix_tree_of (cb_contents 4 ex_asc) =
    Some (TInner 125 (TInner 126 (TLeaf 1 10) (TInner 127 (TLeaf 2 20) (TLeaf 3 30))) (TLeaf 4 40)) ∧
  let t := (history cb_step (ex_desc ++ [MRemove 2; MInsert 2 20]) ex_s0).2 in
  cb_shape t (cb_root t) (TInner 125 (TInner 126 (TLeaf 1 10) (TInner 127 (TLeaf 2 20) (TLeaf 3 30))) (TLeaf 4 40)).
Proof.
  split_and!; [by vm_compute..|]. vm_compute.
  eapply (shape_inner _ _ _ _ (CNode _ 125)); [by vm_compute..| |eapply shape_leaf; by vm_compute].
  eapply (shape_inner _ _ _ _ (CNode _ 126)); [by vm_compute..|eapply shape_leaf; by vm_compute|].
  eapply (shape_inner _ _ _ _ (CNode _ 127)); [by vm_compute..|eapply shape_leaf; by vm_compute|eapply shape_leaf; by vm_compute].
Qed.
