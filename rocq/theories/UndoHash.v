(** * Detours of the hash table (for C86) *)
From Verif Require Import ChangeHash SlotMap SlotHash OrderProof MtfProof.
From Verif Require Export UndoSpec UndoProof OrderSpec HashMain.

Section table.
  Context {K V : Type} (keq : K → K → bool) (hash : K → N) (HL : HashLaws keq hash) (cap : N).
  Implicit Types T : list (list (K * V)).
  Notation sp := (hb_spec keq hash cap).

  Lemma undo_table T k v : (0 < length T)%nat → hb_split keq k (hb_chain hash T k) = None →
    let x := [HInsert k v; HRemove k] in
    (spec_history sp x T).2 = T ∧
    (lengthN (concat T) < cap → ∃ T', cf sp (@concat (K * V)) T x = [concat T'; concat T] ∧ concat T' ≡ₚ (k, v) :: concat T) ∧
    (cap ≤ lengthN (concat T) → cf sp (@concat (K * V)) T x = [concat T; concat T]) ∧
    (spec_history sp x T).1 = if decide (lengthN (concat T) < cap) then [Val (HBool true); Val (HVal (Some v))] else [Val (HBool false); Val (HVal None)].
  Proof using HL.
    intros HT Hs x. unfold x. rewrite !fin_cons, !ans_cons. cbn [cf spec_history fst snd]. unfold hb_spec. unfold hb_insert. rewrite Hs.
    assert (hb_index hash T k < length T)%nat as Hi.
    { unfold hb_index, lengthN. pose proof (N.mod_upper_bound (hash k) (N.of_nat (length T))). lia. }
    destruct (lookup_lt_is_Some_2 T _ Hi) as [c Hc]. assert (hb_chain hash T k = c) as Hch by (unfold hb_chain; by rewrite Hc).
    destruct (decide _) as [Hlt|Hge]; cbn [fst snd].
    - set (T' := hb_put hash T k ((k, v) :: hb_chain hash T k)).
      assert (hb_index hash T' k = hb_index hash T k) as Hi' by (unfold hb_index, T', hb_put, lengthN; by rewrite insert_length).
      assert (hb_chain hash T' k = (k, v) :: c) as Hch'. { unfold hb_chain. rewrite Hi'. unfold T', hb_put. rewrite list_lookup_insert by done. by rewrite Hch. }
      assert (hb_split keq k (hb_chain hash T' k) = Some ([], (k, v), c)) as Hsp'. { rewrite Hch'. cbn. by rewrite (keq_refl _ _ HL). }
      assert (hb_remove keq hash T' k = T) as Hr.
      { unfold hb_remove. rewrite Hsp'. cbn [app]. unfold hb_put. rewrite Hi'. unfold T', hb_put. rewrite list_insert_insert. by apply list_insert_id. }
      rewrite Hr. split_and!; [done| |lia|].
      + intros _. exists T'. split; [done|]. unfold T', hb_put. rewrite Hch.
        assert (concat T = concat (take (hb_index hash T k) T) ++ c ++ concat (drop (S (hb_index hash T k)) T)) as ->.
        { rewrite <- (take_drop_middle T _ c Hc) at 1. by rewrite concat_app. }
        rewrite insert_take_drop by done. rewrite concat_app. cbn [concat app]. by rewrite <- Permutation_middle.
      + unfold hb_get. by rewrite Hsp'.
    - assert (hb_remove keq hash T k = T) as Hr by (unfold hb_remove; by rewrite Hs).
      rewrite Hr. split_and!; [done|lia|done|]. unfold hb_get. by rewrite Hs.
  Qed.
End table.

Section ht.
  Context `{Profile} {K V : Type} (keq : K → K → bool) (hash : K → N) (HL : HashLaws keq hash) (nb ms : nat) (d : K * V).
  Context (h0 : htable K V) (Hnew : ht_new nb ms d = Some h0) (Hnb : (0 < nb)%nat) (Hw : N.of_nat ms + 1 < W32).
  Notation cap := (N.of_nat ms).
  Notation run o := (history (ht_step keq hash) o h0).
  Notation sp := (hb_spec keq hash cap).
  Notation T0 := (replicate nb (@nil (K * V))).
  Notation fin o := (spec_history sp o T0).2.

  Lemma concat_T0 : concat T0 = [].
  Proof. clear. induction nb as [|n IH]; [done|exact IH]. Qed.
  Lemma ht_held o : ∃ l0, ht_holds keq hash ms h0 o l0 ∧ concat (fin o) ≡ₚ l0.
  Proof using HL Hnew Hnb Hw.
    destruct (ht_is_map_fact keq hash HL nb ms d h0 Hnew Hnb Hw o) as (l & Hl & _). exists l. split; [done|].
    destruct (ht_iter_fact keq hash HL nb ms d h0 Hnew Hnb Hw o l Hl) as (l' & Hp & Hit).
    assert (concat (fin o) = l') as ->; [|done]. apply fw_spec_inj. intros sc.
    pose proof (order_iter_fact keq hash nb ms d h0 Hnew Hnb Hw o sc) as H1. unfold ht_after in Hit. rewrite (Hit sc) in H1. by injection H1.
  Qed.
  Lemma ht_look o :
    let m := slots_after keq (cf sp (@concat (K * V)) T0 o) in
    (∀ k, ht_get_addr keq hash (run o).2 k = Val (slot_of keq k m)) ∧ free_list_head (ht_al (run o).2) = top_of (sl_next m) (sl_left m).
  Proof using HL Hnew Hnb Hw.
    intros m. destruct (ht_follow_perm keq hash HL nb ms d h0 Hnew Hnb Hw o (cf sp (@concat (K * V)) T0 o)) as (H1 & _ & (_ & H2 & _) & _);
      [|split; [exact H1|exact H2]].
    destruct (cf_trace sp (@concat (K * V)) T0 o) as [Hl Ht]. split; [done|]. intros n l Hn. rewrite (Ht n l Hn). apply ht_held.
  Qed.
  Lemma ht_len_is o : ht_len (run o).2 = lengthN (concat (fin o)).
  Proof using HL Hnew Hnb Hw.
    pose proof (order_answers_fact keq hash nb ms d h0 Hnew Hnb Hw (o ++ [HLen])) as Ha. rewrite ChangeHash.hist_snoc, ans_app in Ha.
    pose proof (order_answers_fact keq hash nb ms d h0 Hnew Hnb Hw o) as Hb. destruct (run o) as [rs t] eqn:E. cbn [fst snd] in *.
    destruct (call (ht_step keq hash HLen) t) as [r t'] eqn:Ec. cbn [fst] in Ha. rewrite Hb in Ha. apply app_inv_head in Ha. cbn in Ha.
    injection Ha as ->. cbn in Ec. by injection Ec.
  Qed.
  Lemma ht_undo_fact o1 o2 k v :
    ht_get keq hash (run o1).2 k = Val None →
    let xs := if decide (ht_len (run o1).2 < cap) then [Val (HBool true); Val (HVal (Some v))] else [Val (HBool false); Val (HVal None)] in
    let r := run (o1 ++ o2) in let r' := run (o1 ++ [HInsert k v; HRemove k] ++ o2) in
    no_trace (length o1) xs (λ _, True) (ht_get_addr keq hash) r r' ∧ free_list_head (ht_al r'.2) = free_list_head (ht_al r.2) ∧
    (∀ sc, ht_iterate r'.2 sc = ht_iterate r.2 sc).
  Proof using HL Hnew Hnb Hw.
    intros Hg xs r r'. set (x := [HInsert k v; HRemove k]) in *. set (m := slots_after keq (cf sp (@concat (K * V)) T0 o1)).
    destruct (ht_held o1) as (l & Hl & Hp).
    destruct (ht_lookups_fact keq hash HL nb ms d h0 Hnew Hnb Hw o1 l k Hl) as (i & Hi & Hget & _ & _ & Hcase). unfold ht_after in *.
    rewrite Hg in Hget. unfold hm_get in Hget. destruct (hm_find keq k l) as [kv|] eqn:E; [done|]. subst i.
    apply (hm_find_None keq) in E. rewrite <- Hp in E.
    destruct (ht_look o1) as [Hs _]. rewrite Hs in Hi. injection Hi as Hi.
    assert (has keq k (concat (fin o1)) = false) as Hnh.
    { apply not_true_iff_false. intros (y & Hy & Hyk)%SlotProof.has_true. rewrite Forall_forall in E. specialize (E y Hy). congruence. }
    assert (length (fin o1) = nb) as Hlen by by rewrite hb_history_len, replicate_length.
    assert (hb_split keq k (hb_chain hash (fin o1) k) = None) as Hsp.
    { destruct (hb_split keq k (hb_chain hash (fin o1) k)) as [[[c1 y] c2]|] eqn:Es; [|done]. apply split_keys in Es as [Es Hy].
      unfold hb_chain in Es. destruct (fin o1 !! hb_index hash (fin o1) k) as [c|] eqn:Ec; cbn in Es; [|by destruct c1].
      assert (y ∈ concat (fin o1)) as Hin.
      { apply elem_of_list_In, in_concat. exists c. split; apply elem_of_list_In; [by eapply elem_of_list_lookup_2|]. rewrite Es. set_solver. }
      rewrite Forall_forall in E. specialize (E y Hin). congruence. }
    destruct (undo_table keq hash HL cap (fin o1) k v) as (U1 & U2 & U3 & U4); [by rewrite Hlen|done|]. fold x in U1, U2, U3, U4.
    destruct (detour keq hash HL sp (@concat (K * V)) T0 o1 x o2 concat_T0 U1) as (Hrel & Hfin & Ha).
    { fold m. destruct (decide (lengthN (concat (fin o1)) < cap)) as [Hlt|Hge].
      - destruct (U2 Hlt) as (T' & -> & HP). cbn [slots_run].
        rewrite (step_come keq hash HL _ _ _ (k, v) HP Hnh), (step_go keq hash HL _ _ _ (k, v) HP Hnh). by apply (rel_undo keq hash HL).
      - rewrite U3 by lia. cbn [slots_run].
        assert (∀ m', slots_step keq m' (concat (fin o1)) (concat (fin o1)) = m') as Hid.
        { intros m'. unfold slots_step. rewrite SlotProof.filter_nil; [done|]. intros z Hz. apply negb_false_iff, SlotProof.has_true.
          exists z. split; [done|apply (keq_refl _ _ HL)]. }
        rewrite !Hid. split; [done|]. by left. }
    destruct (ht_look (o1 ++ o2)) as [G1 G2]. destruct (ht_look (o1 ++ x ++ o2)) as [G1' G2']. split_and!; [split| |].
    - unfold r', r, put_in, xs. rewrite !(order_answers_fact keq hash nb ms d h0 Hnew Hnb Hw), ht_len_is, <- U4. exact Ha.
    - intros k' _. unfold r', r. rewrite G1', G1. f_equal. apply Hrel.
    - unfold r', r. rewrite G2', G2. by apply (rel_top keq).
    - intros sc. unfold r', r. by rewrite !(order_iter_fact keq hash nb ms d h0 Hnew Hnb Hw), Hfin.
  Qed.
End ht.
