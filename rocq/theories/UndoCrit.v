(** * Detours of the crit-bit tree (for C86) *)
From Verif Require Import ChangeHash SlotMap SlotCrit.
From Verif Require Export UndoSpec UndoMaps CritMain.

Section cb.
  Context `{Profile} {V : Type} (nn ms : nat) (d : V) (t0 : critbit V) (H0 : (0 < ms)%nat) (Hw : N.of_nat nn + 1 < W32)
    (Hnew : cb_new nn ms d = Some t0).
  Notation cap := (N.of_nat ms).
  Notation cmp := N.compare.
  Notation run o := (history cb_step o t0).
  Notation sp := (cb_spec cap).
  Notation fin l o := (spec_history sp o l).2.
  Notation there t := (λ k, k < W128 ∧ cb_contains t k = Val true).

  Lemma cb_hyps : (∀ k v (l : list (N * V)), om_find cmp k l = None → sp (MInsert k v) l = om_spec cmp cap (MInsert k v) l) ∧
    (∀ k (l : list (N * V)), sp (MRemove k) l = om_spec cmp cap (MRemove k) l) ∧
    (∀ o (l : list (N * V)), (sp o l).2 = (om_spec cmp cap o l).2 ∨ (sp o l).2 = l).
  Proof.
    split_and!; [|done|].
    - intros k v l Hf. cbn [cb_spec om_spec]. rewrite Hf. by destruct (decide _).
    - intros o l. destruct o; try (by left). cbn [cb_spec]. destruct (decide _); [by left|by right].
  Qed.
  Lemma eqb_same a b : N.eqb a b = cmp_same cmp a b.
  Proof. unfold cmp_same. rewrite N.eqb_compare. by destruct (N.compare a b). Qed.
  Lemma cb_look o : Forall u128_op o →
    let m := slots_after N.eqb (cf sp id [] o) in
    (∀ k, there (run o).2 k → cb_value_slot (run o).2 k = Val (slot_of N.eqb k m)) ∧
    free_list_head (cb_leaves (run o).2) = top_of (sl_next m) (sl_left m).
  Proof using H0 Hw Hnew.
    intros Hu m. destruct (cb_follow nn ms d t0 H0 Hw Hnew o (cf sp id [] o) Hu) as (H1 & (_ & H2 & _) & _); [exact (cf_trace sp id [] o)|].
    fold m in H1, H2. split.
    - intros k [Hk Hc]. destruct (cb_lookups_fact nn ms d t0 H0 Hw Hnew o Hu k Hk) as [_ Hc']. rewrite Hc in Hc'. unfold om_get in Hc'.
      destruct (om_find cmp k (cb_contents ms o)) as [kv|] eqn:E; [|done]. apply find_mem in E as [Hin ->]. apply H1.
      by rewrite (cf_last sp id [] o eq_refl).
    - rewrite H2. by destruct (sl_left m) as [|[i x] lf].
  Qed.
  Lemma cb_len_is o : Forall u128_op o → cb_len (run o).2 = lengthN (fin [] o).
  Proof using H0 Hw Hnew. intros Hu. apply (cb_nodes_fact nn ms d t0 H0 Hw Hnew o Hu). Qed.
  Lemma cb_detour o1 x o2 xs :
    Forall u128_op o1 → Forall u128_op x → Forall u128_op o2 →
    let l := fin [] o1 in let m := slots_after N.eqb (cf sp id [] o1) in
    fin l x = l ∧ rel N.eqb m (slots_run N.eqb m l (cf sp id l x)) ∧ (spec_history sp x l).1 = xs →
    let r := run (o1 ++ o2) in let r' := run (o1 ++ x ++ o2) in
    no_trace (length o1) xs (there r.2) cb_value_slot r r' ∧ free_list_head (cb_leaves r'.2) = free_list_head (cb_leaves r.2).
  Proof using H0 Hw Hnew.
    intros U1 Ux U2 l m (Hf & Hr & Hx) r r'. pose proof (same_laws cmp N_laws N.eqb eqb_same) as HL.
    assert (Forall u128_op (o1 ++ o2)) as U12 by by apply Forall_app. assert (Forall u128_op (o1 ++ x ++ o2)) as U1x2 by by rewrite !Forall_app.
    destruct (detour N.eqb _ HL sp id [] o1 x o2 eq_refl Hf Hr) as (Hrel & Hfin & Ha).
    destruct (cb_look (o1 ++ o2) U12) as [G1 G2]. destruct (cb_look (o1 ++ x ++ o2) U1x2) as [G1' G2']. split; [split|].
    - unfold r', r, put_in. rewrite (proj1 (cb_reach nn ms d t0 H0 Hw Hnew _ U1x2)), (proj1 (cb_reach nn ms d t0 H0 Hw Hnew _ U12)), <- Hx. exact Ha.
    - intros k [Hk Hc]. unfold r', r. rewrite G1, G1'; [f_equal; apply Hrel| |done]. split; [done|].
      rewrite (proj2 (cb_lookups_fact nn ms d t0 H0 Hw Hnew _ U1x2 k Hk)). rewrite <- Hc. unfold r.
      rewrite (proj2 (cb_lookups_fact nn ms d t0 H0 Hw Hnew _ U12 k Hk)). unfold cb_contents. by rewrite Hfin.
    - unfold r', r. rewrite G2', G2. by apply (rel_top N.eqb).
  Qed.
  Lemma cb_undo_fact o1 o2 k v :
    Forall u128_op o1 → Forall u128_op o2 → k < W128 → cb_get (run o1).2 k = Val None →
    let xs := if decide (cb_len (run o1).2 < cap) then [Val (MBool true); Val (MVal (Some v))] else [Val (MBool false); Val (MVal None)] in
    let r := run (o1 ++ o2) in let r' := run (o1 ++ [MInsert k v; MRemove k] ++ o2) in
    no_trace (length o1) xs (there r.2) cb_value_slot r r' ∧ free_list_head (cb_leaves r'.2) = free_list_head (cb_leaves r.2).
  Proof using H0 Hw Hnew.
    intros U1 U2 Hk Hg xs. destruct cb_hyps as (A1 & A2 & A3). apply cb_detour; [done|by repeat constructor|done|]. unfold xs. rewrite cb_len_is by done.
    rewrite (proj1 (cb_lookups_fact nn ms d t0 H0 Hw Hnew o1 U1 k Hk)) in Hg. unfold om_get in Hg. change (cb_contents ms o1) with (fin [] o1) in Hg.
    destruct (om_find cmp k (fin [] o1)) as [kv|] eqn:E; [done|].
    apply (undo_fact cmp N_laws cap N.eqb eqb_same sp A1 A2); [apply (fin_inv cmp N_laws cap sp A3)|done|].
    apply (absent_after N.eqb _ (same_laws cmp N_laws N.eqb eqb_same)). rewrite (cf_last sp id [] o1 eq_refl).
    by apply (not_has cmp N_laws N.eqb eqb_same).
  Qed.
  Lemma cb_redo_fact o1 o2 k v :
    Forall u128_op o1 → Forall u128_op o2 → k < W128 → cb_get (run o1).2 k = Val (Some v) →
    let r := run (o1 ++ o2) in let r' := run (o1 ++ [MRemove k; MInsert k v] ++ o2) in
    no_trace (length o1) [Val (MVal (Some v)); Val (MBool true)] (there r.2) cb_value_slot r r' ∧
    free_list_head (cb_leaves r'.2) = free_list_head (cb_leaves r.2).
  Proof using H0 Hw Hnew.
    intros U1 U2 Hk Hg. destruct cb_hyps as (A1 & A2 & A3). apply cb_detour; [done|by repeat constructor|done|].
    rewrite (proj1 (cb_lookups_fact nn ms d t0 H0 Hw Hnew o1 U1 k Hk)) in Hg. unfold om_get in Hg. change (cb_contents ms o1) with (fin [] o1) in Hg.
    destruct (om_find cmp k (fin [] o1)) as [kv|] eqn:E; [|done]. apply find_mem in E as [Hin ->]. cbn in Hg. injection Hg as <-.
    destruct (fin_inv cmp N_laws cap sp A3 o1) as [Ha Hl].
    apply (redo_fact cmp N_laws cap N.eqb eqb_same sp A1 A2); [done|done|]. by destruct kv.
  Qed.
End cb.
