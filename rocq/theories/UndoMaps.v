(** * Detours of an ordered map: a key in and out again, a pair out and in again *)
From Verif Require Import FuzzProof SlotMap.
From Verif Require Export UndoProof CritApi.

Section om.
  Context {K V : Type} (cmp : K → K → comparison) (HO : OrdLaws cmp) (cap : N).
  Context (same : K → K → bool) (Hsame : ∀ a b, same a b = cmp_same cmp a b).
  (** the map of MapSpec.v, or one that may leave the contents alone *)
  Context (sp : om_op K V → list (K * V) → res (om_out K V) * list (K * V)).
  Context (Hins : ∀ k v l, om_find cmp k l = None → sp (MInsert k v) l = om_spec cmp cap (MInsert k v) l).
  Context (Hrem : ∀ k l, sp (MRemove k) l = om_spec cmp cap (MRemove k) l).
  Context (Hor : ∀ o l, (sp o l).2 = (om_spec cmp cap o l).2 ∨ (sp o l).2 = l).
  Notation fin l o := (spec_history sp o l).2.
  Notation ans l o := (spec_history sp o l).1.
  Implicit Types l : list (K * V).

  Lemma same_laws : HashLaws same (λ _, 0).
  Proof using HO Hsame.
    pose proof (cmp_same_laws cmp HO) as [H1 H2 H3 H4]. split; [intros a; rewrite Hsame; apply H1|intros a b; rewrite !Hsame; apply H2| |done].
    intros a b c. rewrite !Hsame. apply H3.
  Qed.
  Lemma fin_inv o : ascending cmp (fin [] o) ∧ lengthN (fin [] o) ≤ cap.
  Proof using HO Hor.
    assert (∀ l, om_inv cmp (λ _, True) cap l → om_inv cmp (λ _, True) cap (fin l o)) as Hx.
    { induction o as [|x o IH]; intros l Hl; [done|]. rewrite fin_cons. apply IH.
      destruct (Hor x l) as [->| ->]; [|done]. apply om_spec_inv; [done| |done]. by destruct x. }
    destruct (Hx []) as (? & ? & _); [|done]. split_and!; [constructor|unfold lengthN; simpl; lia|constructor].
  Qed.
  Lemma not_has k l : om_find cmp k l = None → has same k l = false.
  Proof using HO Hsame.
    intros Hf. apply not_true_iff_false. unfold has. rewrite existsb_exists. intros (x & Hx%elem_of_list_In & Hk).
    rewrite Hsame in Hk. unfold cmp_same in Hk. destruct (cmp x.1 k) eqn:E; try done. apply (cmp_eq_sym cmp HO) in E.
    clear Hk. induction l as [|y l IH]; [by apply elem_of_nil in Hx|]. cbn [om_find] in Hf. apply elem_of_cons in Hx as [->|Hx].
    - by rewrite E in Hf.
    - destruct (cmp k y.1); [done|auto..].
  Qed.

  (** In and out again *)
  Lemma undo_fact m k v l : ascending cmp l → om_find cmp k l = None → slot_of same k m = SENTINEL →
    let x := [MInsert k v; MRemove k] in
    fin l x = l ∧ rel same m (slots_run same m l (cf sp id l x)) ∧
    ans l x = if decide (lengthN l < cap) then [Val (MBool true); Val (MVal (Some v))] else [Val (MBool false); Val (MVal None)].
  Proof using HO Hsame Hins Hrem.
    intros Ha Hf Hs x. pose proof same_laws as HL. pose proof (not_has k l Hf) as Hnh. unfold x.
    rewrite !fin_cons, !ans_cons. cbn [cf slots_run spec_history fst snd]. unfold id. rewrite (Hins k v l Hf), !Hrem. cbn [om_spec fst snd]. rewrite Hf.
    destruct (asc_cases cmp HO k l Ha) as [(l1 & y & l2 & -> & Hb & Hx & _)|(l1 & l2 & -> & Hb & Hab)].
    { by rewrite om_find_found in Hf. }
    assert (om_remove cmp k (l1 ++ l2) = l1 ++ l2) as Hr1 by by apply om_remove_absent.
    destruct (decide _) as [Hc|Hc]; cbn [fst snd].
    - rewrite om_insert_absent by done. rewrite om_remove_found; [|done|by apply cmp_refl]. cbn [fst snd].
      assert (l1 ++ (k, v) :: l2 ≡ₚ (k, v) :: l1 ++ l2) as Hp by (symmetry; apply Permutation_middle).
      split_and!; [done| |].
      + rewrite (step_come same _ HL _ _ _ (k, v) Hp Hnh), (step_go same _ HL _ _ _ (k, v) Hp Hnh). by apply (rel_undo same _ HL).
      + unfold om_get. rewrite om_find_found; [done|done|by apply cmp_refl].
    - rewrite Hr1. split_and!; [done| |unfold om_get; by rewrite Hf].
      assert (∀ m', slots_step same m' (l1 ++ l2) (l1 ++ l2) = m') as Hid.
      { intros m'. unfold slots_step. rewrite SlotProof.filter_nil; [done|]. intros z Hz. apply negb_false_iff, SlotProof.has_true. exists z. split; [done|apply (keq_refl _ _ HL)]. }
      rewrite !Hid. split; [done|]. by left.
  Qed.
  (** Out and in again *)
  Lemma redo_fact m k v l : ascending cmp l → lengthN l ≤ cap → (k, v) ∈ l →
    let x := [MRemove k; MInsert k v] in
    fin l x = l ∧ rel same m (slots_run same m l (cf sp id l x)) ∧ ans l x = [Val (MVal (Some v)); Val (MBool true)].
  Proof using HO Hsame Hins Hrem.
    intros Ha Hlen Hin x. pose proof same_laws as HL. apply elem_of_list_split in Hin as (l1 & l2 & ->). unfold x.
    pose proof Ha as (_ & _ & Hb & Hab & _)%(ascending_mid cmp HO). cbn [fst] in *.
    assert (om_find cmp k (l1 ++ l2) = None) as Hf by by apply om_find_absent.
    assert (lengthN (l1 ++ l2) < cap) as Hlt. { unfold lengthN in *. rewrite app_length in *. cbn [length] in Hlen. lia. }
    rewrite !fin_cons, !ans_cons. cbn [cf slots_run spec_history fst snd]. unfold id. rewrite !Hrem. cbn [om_spec fst snd].
    rewrite om_remove_found; [|done|by apply cmp_refl]. rewrite (Hins k v _ Hf). cbn [om_spec fst snd]. rewrite Hf.
    rewrite decide_True by done. cbn [fst snd]. rewrite om_insert_absent by done.
    assert (l1 ++ (k, v) :: l2 ≡ₚ (k, v) :: l1 ++ l2) as Hp by (symmetry; apply Permutation_middle).
    pose proof (not_has k _ Hf) as Hnh. split_and!; [done| |].
    - rewrite (step_go same _ HL _ _ _ (k, v) Hp Hnh), (step_come same _ HL _ _ _ (k, v) Hp Hnh). by apply (rel_redo same _ HL).
    - unfold om_get. rewrite om_find_found; [done|done|by apply cmp_refl].
  Qed.
End om.
