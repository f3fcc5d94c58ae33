(** * Detours of the two balanced trees and the crit-bit tree (for C86) *)
From Verif Require Import ChangeHash SlotMap RBMain AVLMain SlotRB SlotAVL.
From Verif Require Export UndoSpec UndoMaps.

Section av.
  Context `{Profile} {K V : Type} (pcmp : K → K → option comparison) (ms : nat) (d : K * V).
  Context (HO : OrdLaws (po_cmp pcmp)) (H0 : (0 < ms)%nat) (Hw : N.of_nat ms + 1 < W32).
  Notation cmp := (po_cmp pcmp).
  Notation cap := (N.of_nat ms).
  Notation run o := (history (av_step pcmp) o (av_new ms d)).
  Notation same := (cmp_same cmp).
  Notation sp := (om_spec cmp cap).
  Notation fin l o := (spec_history sp o l).2.

  Lemma av_hyps : (∀ k v (l : list (K * V)), om_find cmp k l = None → sp (MInsert k v) l = om_spec cmp cap (MInsert k v) l) ∧
    (∀ k (l : list (K * V)), sp (MRemove k) l = om_spec cmp cap (MRemove k) l) ∧
    (∀ o (l : list (K * V)), (sp o l).2 = (om_spec cmp cap o l).2 ∨ (sp o l).2 = l).
  Proof. split_and!; auto. Qed.
  Lemma av_look o :
    let m := slots_after same (cf sp id [] o) in
    (∀ k, av_get_addr pcmp (run o).2 k = Val (slot_of same k m)) ∧ free_list_head (av_al (run o).2) = top_of (sl_next m) (sl_left m).
  Proof using HO H0 Hw.
    intros m. destruct (av_follow pcmp HO ms d H0 Hw o (cf sp id [] o)) as (H1 & _ & (_ & H2 & _) & _); [|split; [exact H1|exact H2]].
    exact (cf_trace sp id [] o).
  Qed.
  Lemma av_len_is o : av_len (run o).2 = lengthN (fin [] o).
  Proof using HO H0 Hw.
    pose proof (av_is_map_fact pcmp HO ms d H0 Hw (o ++ [MLen])) as Ha. rewrite ChangeHash.hist_snoc, ans_app in Ha.
    pose proof (av_is_map_fact pcmp HO ms d H0 Hw o) as Hb. destruct (run o) as [rs t] eqn:E. cbn [fst snd] in *.
    destruct (call (av_step pcmp MLen) t) as [r t'] eqn:Ec. cbn [fst] in Ha. rewrite Hb in Ha. apply app_inv_head in Ha. cbn in Ha.
    injection Ha as ->. cbn in Ec. by injection Ec.
  Qed.
  Lemma av_detour o1 x o2 xs :
    let l := fin [] o1 in let m := slots_after same (cf sp id [] o1) in
    fin l x = l ∧ rel same m (slots_run same m l (cf sp id l x)) ∧ (spec_history sp x l).1 = xs →
    let r := run (o1 ++ o2) in let r' := run (o1 ++ x ++ o2) in
    no_trace (length o1) xs (λ _, True) (av_get_addr pcmp) r r' ∧ free_list_head (av_al r'.2) = free_list_head (av_al r.2).
  Proof using HO H0 Hw.
    intros l m (Hf & Hr & Hx) r r'. pose proof (cmp_same_laws cmp HO) as HL.
    destruct (detour same _ HL sp id [] o1 x o2 eq_refl Hf Hr) as (Hrel & _ & Ha).
    destruct (av_look (o1 ++ o2)) as [G1 G2]. destruct (av_look (o1 ++ x ++ o2)) as [G1' G2']. split; [split|].
    - unfold r', r, put_in. rewrite !(av_is_map_fact pcmp HO ms d H0 Hw), <- Hx. exact Ha.
    - intros k _. unfold r', r. rewrite G1', G1. f_equal. apply Hrel.
    - unfold r', r. rewrite G2', G2. by apply (rel_top same).
  Qed.
  Lemma av_undo_fact o1 o2 k v :
    av_get pcmp (run o1).2 k = Val None →
    let xs := if decide (av_len (run o1).2 < cap) then [Val (MBool true); Val (MVal (Some v))] else [Val (MBool false); Val (MVal None)] in
    let r := run (o1 ++ o2) in let r' := run (o1 ++ [MInsert k v; MRemove k] ++ o2) in
    no_trace (length o1) xs (λ _, True) (av_get_addr pcmp) r r' ∧ free_list_head (av_al r'.2) = free_list_head (av_al r.2).
  Proof using HO H0 Hw.
    intros Hg xs. destruct av_hyps as (A1 & A2 & A3). apply av_detour. unfold xs. rewrite av_len_is.
    destruct (av_lookups_fact pcmp HO ms d H0 Hw o1 k) as (i & Hi & Hget & _ & Hcase). unfold av_after in *. rewrite Hg in Hget.
    destruct (av_look o1) as [Hs _]. rewrite Hs in Hi. injection Hi as Hi. unfold om_get in Hget.
    change (om_contents pcmp ms o1) with (fin [] o1) in *. change (av_cmp pcmp) with cmp in *.
    destruct (om_find cmp k (fin [] o1)) as [kv|] eqn:E; [done|]. rewrite Hcase in Hi.
    apply (undo_fact cmp HO cap same (λ _ _, eq_refl) sp A1 A2); [apply (fin_inv cmp HO cap sp A3)|done|done].
  Qed.
  Lemma av_redo_fact o1 o2 k v i :
    av_get_addr pcmp (run o1).2 k = Val i → i ≠ SENTINEL → av_get_node (run o1).2 i = Val (k, v) →
    let r := run (o1 ++ o2) in let r' := run (o1 ++ [MRemove k; MInsert k v] ++ o2) in
    no_trace (length o1) [Val (MVal (Some v)); Val (MBool true)] (λ _, True) (av_get_addr pcmp) r r' ∧
    free_list_head (av_al r'.2) = free_list_head (av_al r.2).
  Proof using HO H0 Hw.
    intros Hi Hn Hnode. destruct av_hyps as (A1 & A2 & A3). apply av_detour.
    destruct (av_lookups_fact pcmp HO ms d H0 Hw o1 k) as (i' & Hi' & _ & _ & Hcase). unfold av_after in *. rewrite Hi in Hi'. injection Hi' as <-.
    change (om_contents pcmp ms o1) with (fin [] o1) in *. change (av_cmp pcmp) with cmp in *. destruct (om_find cmp k (fin [] o1)) as [kv|] eqn:E; [|done]. destruct Hcase as (_ & Hnode' & _).
    rewrite Hnode in Hnode'. injection Hnode' as <-. destruct (fin_inv cmp HO cap sp A3 o1) as [Ha Hl].
    apply (redo_fact cmp HO cap same (λ _ _, eq_refl) sp A1 A2); [done|done|].
    clear -E. induction (fin [] o1) as [|y l IH]; [done|]. cbn [om_find] in E. destruct (cmp k y.1); [injection E as ->; by left|right; auto..].
  Qed.
End av.

Section rb.
  Context `{Profile} {K V : Type} (cmp : K → K → comparison) (ms : nat) (d : K * V).
  Context (HO : OrdLaws cmp) (H0 : (0 < ms)%nat) (Hw : N.of_nat ms + 1 < W32).
  Notation cap := (N.of_nat ms).
  Notation run o := (history (rb_step cmp) (map Some o) (rb_new ms d)).
  Notation same := (cmp_same cmp).
  Notation sp := (om_spec cmp cap).
  Notation fin l o := (spec_history sp o l).2.

  Lemma rb_hyps : (∀ k v (l : list (K * V)), om_find cmp k l = None → sp (MInsert k v) l = om_spec cmp cap (MInsert k v) l) ∧
    (∀ k (l : list (K * V)), sp (MRemove k) l = om_spec cmp cap (MRemove k) l) ∧
    (∀ o (l : list (K * V)), (sp o l).2 = (om_spec cmp cap o l).2 ∨ (sp o l).2 = l).
  Proof. split_and!; auto. Qed.
  Lemma rb_held o : (run o).1 = (spec_history sp o []).1 ∧ rb_holds cmp ms d (map Some o) (fin [] o).
  Proof using HO H0 Hw.
    destruct (rb_reach cmp HO ms d (map Some o) H0 Hw) as (U & l & Hl & _). pose proof Hl as Hl'. unfold rb_holds, rb_answers in Hl'.
    apply om_run_ops in Hl'. rewrite Hl'. done.
  Qed.
  Lemma rb_look o :
    let m := slots_after same (cf sp id [] o) in
    (∀ k, rb_get_addr cmp (run o).2 k = Val (slot_of same k m)) ∧ free_list_head (rb_al (run o).2) = top_of (sl_next m) (sl_left m).
  Proof using HO H0 Hw.
    intros m. destruct (rb_follow cmp HO ms d H0 Hw (map Some o) (cf sp id [] o)) as (H1 & _ & (_ & H2 & _) & _); [|split; [exact H1|exact H2]].
    destruct (cf_trace sp id [] o) as [Hl Ht]. split; [by rewrite map_length|]. intros n l Hn. rewrite (Ht n l Hn), firstn_map. apply rb_held.
  Qed.
  Lemma rb_len_is o : rb_len (run o).2 = lengthN (fin [] o).
  Proof using HO H0 Hw.
    destruct (rb_held (o ++ [MLen])) as [Ha _]. destruct (rb_held o) as [Hb _]. rewrite map_app, ans_app in Ha.
    cbn [map] in Ha. rewrite ChangeHash.hist_snoc in Ha. destruct (run o) as [rs t] eqn:E. cbn [fst snd] in *.
    destruct (call (rb_step cmp (Some MLen)) t) as [r t'] eqn:Ec. cbn [fst] in Ha. rewrite Hb in Ha. apply app_inv_head in Ha. cbn in Ha.
    injection Ha as ->. cbn in Ec. by injection Ec.
  Qed.
  Lemma rb_detour o1 x o2 xs :
    let l := fin [] o1 in let m := slots_after same (cf sp id [] o1) in
    fin l x = l ∧ rel same m (slots_run same m l (cf sp id l x)) ∧ (spec_history sp x l).1 = xs →
    let r := run (o1 ++ o2) in let r' := run (o1 ++ x ++ o2) in
    no_trace (length o1) xs (λ _, True) (rb_get_addr cmp) r r' ∧ free_list_head (rb_al r'.2) = free_list_head (rb_al r.2).
  Proof using HO H0 Hw.
    intros l m (Hf & Hr & Hx) r r'. pose proof (cmp_same_laws cmp HO) as HL.
    destruct (detour same _ HL sp id [] o1 x o2 eq_refl Hf Hr) as (Hrel & _ & Ha).
    destruct (rb_look (o1 ++ o2)) as [G1 G2]. destruct (rb_look (o1 ++ x ++ o2)) as [G1' G2']. split; [split|].
    - unfold r', r, put_in. rewrite (proj1 (rb_held _)), (proj1 (rb_held (o1 ++ o2))), <- Hx. exact Ha.
    - intros k _. unfold r', r. rewrite G1', G1. f_equal. apply Hrel.
    - unfold r', r. rewrite G2', G2. by apply (rel_top same).
  Qed.
  Lemma rb_undo_fact o1 o2 k v :
    rb_get cmp (run o1).2 k = Val None →
    let xs := if decide (rb_len (run o1).2 < cap) then [Val (MBool true); Val (MVal (Some v))] else [Val (MBool false); Val (MVal None)] in
    let r := run (o1 ++ o2) in let r' := run (o1 ++ [MInsert k v; MRemove k] ++ o2) in
    no_trace (length o1) xs (λ _, True) (rb_get_addr cmp) r r' ∧ free_list_head (rb_al r'.2) = free_list_head (rb_al r.2).
  Proof using HO H0 Hw.
    intros Hg xs. destruct rb_hyps as (A1 & A2 & A3). apply rb_detour. unfold xs. rewrite rb_len_is.
    destruct (rb_lookups_fact cmp HO ms d H0 Hw (map Some o1) _ k (proj2 (rb_held o1))) as (i & Hi & Hget & _ & Hcase). unfold rb_after in *. rewrite Hg in Hget.
    destruct (rb_look o1) as [Hs _]. rewrite Hs in Hi. injection Hi as Hi. unfold om_get in Hget.
    destruct (om_find cmp k (fin [] o1)) as [kv|] eqn:E; [done|]. rewrite Hcase in Hi.
    apply (undo_fact cmp HO cap same (λ _ _, eq_refl) sp A1 A2); [apply (fin_inv cmp HO cap sp A3)|done|done].
  Qed.
  Lemma rb_redo_fact o1 o2 k v i :
    rb_get_addr cmp (run o1).2 k = Val i → i ≠ SENTINEL → rb_get_node (run o1).2 i = Val (k, v) →
    let r := run (o1 ++ o2) in let r' := run (o1 ++ [MRemove k; MInsert k v] ++ o2) in
    no_trace (length o1) [Val (MVal (Some v)); Val (MBool true)] (λ _, True) (rb_get_addr cmp) r r' ∧
    free_list_head (rb_al r'.2) = free_list_head (rb_al r.2).
  Proof using HO H0 Hw.
    intros Hi Hn Hnode. destruct rb_hyps as (A1 & A2 & A3). apply rb_detour.
    destruct (rb_lookups_fact cmp HO ms d H0 Hw (map Some o1) _ k (proj2 (rb_held o1))) as (i' & Hi' & _ & _ & Hcase). unfold rb_after in *. rewrite Hi in Hi'. injection Hi' as <-.
    destruct (om_find cmp k (fin [] o1)) as [kv|] eqn:E; [|done]. destruct Hcase as (_ & Hnode' & _).
    rewrite Hnode in Hnode'. injection Hnode' as <-. destruct (fin_inv cmp HO cap sp A3 o1) as [Ha Hl].
    apply (redo_fact cmp HO cap same (λ _ _, eq_refl) sp A1 A2); [done|done|].
    clear -E. induction (fin [] o1) as [|y l IH]; [done|]. cbn [om_find] in E. destruct (cmp k y.1); [injection E as ->; by left|right; auto..].
  Qed.
End rb.
