(** * Detours of the deque (for C86) *)
From Verif Require Import IterProof DequeApi SlotGhost SlotProof SlotDeque.
From Verif Require Export UndoSpec SlotSpec DequeProof.

Section machine.
  Context {T : Type} (cap : N).
  Implicit Types m : dslots (T := T).
  Definition drel m m' : Prop :=
    ds_used m' = ds_used m ∧
    ((ds_left m').*1 = (ds_left m).*1 ∧ ds_next m' = ds_next m ∨
     (ds_left m').*1 = (ds_left m).*1 ++ [ds_next m] ∧ ds_next m' = ds_next m + 1).
  Lemma drel_top m m' : drel m m' → ds_slot m' = ds_slot m.
  Proof.
    unfold ds_slot, top_of. intros (_ & [[H1 H2]|[H1 H2]]); destruct (ds_left m) as [|[i x] lf], (ds_left m') as [|[i' x'] lf']; cbn in *; congruence.
  Qed.
  Lemma drel_take m m' u : drel m m' → drel (ds_take m u) (ds_take m' u).
  Proof.
    intros [_ Hc]. unfold ds_take. destruct (ds_left m) as [|[i x] lf], (ds_left m') as [|[i' x'] lf'] eqn:E'; cbn in *.
    - destruct Hc as [[_ Hn]|[? _]]; [|done]. rewrite Hn. split; [done|by left].
    - destruct Hc as [[? _]|[[= -> H1] ->]]; [done|]. split; [done|]. left. split; [done|cbn; lia].
    - by destruct Hc as [[? _]|[? _]].
    - split; [done|]. destruct Hc as [[[= -> H1] ->]|[[= -> H1] ->]]; [by left|by right].
  Qed.
  Lemma drel_give m m' u e : drel m m' → drel (DSlots u (e :: ds_left m) (ds_next m)) (DSlots u (e :: ds_left m') (ds_next m')).
  Proof.
    intros [_ Hc]. split; [done|]. cbn [ds_left ds_next]. rewrite !fmap_cons. destruct Hc as [[-> ->]|[-> ->]]; [by left|by right].
  Qed.
  Lemma drel_step o m m' : drel m m' → drel (dslots_step cap o m) (dslots_step cap o m').
  Proof.
    intros Hr. pose proof (drel_top _ _ Hr) as Ht. pose proof Hr as [Hu Hc]. destruct o as [v|v| | | | | | |sc|sc]; cbn [dslots_step]; try done.
    - rewrite Hu, Ht. destruct (decide _); [by apply drel_take|done].
    - rewrite Hu, Ht. destruct (decide _); [by apply drel_take|done].
    - rewrite Hu. destruct (ds_used m) as [|e es]; [done|]. by apply drel_give.
    - rewrite Hu. destruct (unsnoc (ds_used m)) as [[es e]|]; [|done]. by apply drel_give.
    - rewrite Hu. split; [done|]. exact Hc.
  Qed.
  Definition drun m (o : list (dq_op T)) : dslots := foldl (λ m o, dslots_step cap o m) m o.
  Lemma drel_run o m m' : drel m m' → drel (drun m o) (drun m' o).
  Proof. revert m m'. induction o as [|x o IH]; intros m m' Hr; [done|]. apply (IH (dslots_step cap x m) (dslots_step cap x m')); by apply drel_step. Qed.
  Lemma drel_refl m : drel m m.
  Proof. split; [done|by left]. Qed.
  Lemma drel_undo m u v e : e.1 = ds_slot m → ds_used m = u → drel m (DSlots u (e :: ds_left (ds_take m v)) (ds_next (ds_take m v))).
  Proof.
    intros He <-. split; [done|]. cbn [ds_left ds_next]. rewrite fmap_cons, He. unfold ds_take, ds_slot, top_of.
    destruct (ds_left m) as [|[i x] lf]; cbn; [by right|by left].
  Qed.
  (** the four detours *)
  Lemma undo_front m v : lengthN (ds_used m) < cap → drel m (drun m [DPushFront v; DPopFront]).
  Proof.
    intros Hl. unfold drun; cbn [foldl dslots_step]. rewrite decide_True by done. assert (ds_used (ds_take m ((ds_slot m, v) :: ds_used m)) = (ds_slot m, v) :: ds_used m) as ->.
    { unfold ds_take. by destruct (ds_left m). }
    by apply drel_undo.
  Qed.
  Lemma undo_back m v : lengthN (ds_used m) < cap → drel m (drun m [DPushBack v; DPopBack]).
  Proof.
    intros Hl. unfold drun; cbn [foldl dslots_step]. rewrite decide_True by done. assert (ds_used (ds_take m (ds_used m ++ [(ds_slot m, v)])) = ds_used m ++ [(ds_slot m, v)]) as ->.
    { unfold ds_take. by destruct (ds_left m). }
    rewrite unsnoc_snoc. by apply drel_undo.
  Qed.
  Lemma redo_front m i v es : ds_used m = (i, v) :: es → lengthN (ds_used m) ≤ cap → drun m [DPopFront; DPushFront v] = m.
  Proof.
    intros Hu Hl. unfold drun; cbn [foldl dslots_step]. rewrite Hu in *. cbn [ds_used ds_left ds_next]. rewrite lengthN_cons in Hl. rewrite decide_True by lia.
    destruct m as [u l n]. cbn in *. by subst u.
  Qed.
  Lemma redo_back m i v es : ds_used m = es ++ [(i, v)] → lengthN (ds_used m) ≤ cap → drun m [DPopBack; DPushBack v] = m.
  Proof.
    intros Hu Hl. unfold drun; cbn [foldl dslots_step]. rewrite Hu in *. rewrite unsnoc_snoc. cbn [ds_used ds_left ds_next]. rewrite lengthN_app in Hl.
    change (lengthN [(i, v)]) with 1 in Hl. rewrite decide_True by lia. destruct m as [u l n]. cbn in *. by subst u.
  Qed.
End machine.

Section dq.
  Context `{Profile} {T : Type} (ms : nat) (v0 : T) (Hw : N.of_nat ms + 1 < W32).
  Notation cap := (N.of_nat ms).
  Notation run o := (history dq_step o (dq_new ms v0)).
  Notation sp := (dq_spec (T:=T) cap).
  Implicit Types s : (list T * N)%type.

  (** the answers do not depend on the counter *)
  Lemma spec_counter o l n n' :
    (spec_history sp o (l, n)).1 = (spec_history sp o (l, n')).1 ∧ (spec_history sp o (l, n)).2.1 = (spec_history sp o (l, n')).2.1.
  Proof.
    revert l n n'. induction o as [|x o IH]; intros l n n'; [done|]. cbn [spec_history].
    assert (∃ r l1 n1 n1', sp x (l, n) = (r, (l1, n1)) ∧ sp x (l, n') = (r, (l1, n1'))) as (r & l1 & n1 & n1' & -> & ->).
    { destruct x as [v|v| | | | | | |sc|sc]; cbn [dq_spec]; try (do 4 eexists; split; reflexivity).
      - destruct (decide _); (do 4 eexists; split; reflexivity).
      - destruct (decide _); (do 4 eexists; split; reflexivity).
      - destruct l; (do 4 eexists; split; reflexivity).
      - destruct (unsnoc l) as [[? ?]|]; (do 4 eexists; split; reflexivity).
      - destruct (de_mut_spec _ sc l); (do 4 eexists; split; reflexivity). }
    destruct (IH l1 n1 n1') as [H1 H2]. destruct (spec_history sp o (l1, n1)), (spec_history sp o (l1, n1')). cbn in *. by rewrite H1.
  Qed.
  Lemma sp_app o o' s : spec_history sp (o ++ o') s =
    ((spec_history sp o s).1 ++ (spec_history sp o' (spec_history sp o s).2).1, (spec_history sp o' (spec_history sp o s).2).2).
  Proof.
    revert s. induction o as [|x o IH]; intros s; cbn [app spec_history]; [apply surjective_pairing|].
    destruct (sp x s) as [r s1]. rewrite IH. destruct (spec_history sp o s1) as [rs s2]. done.
  Qed.
  Lemma sp_len o s : length (spec_history sp o s).1 = length o.
  Proof. revert s. induction o as [|x o IH]; intros s; [done|]. cbn [spec_history]. destruct (sp x s) as [r s1]. specialize (IH s1). destruct (spec_history sp o s1). cbn in *. by rewrite IH. Qed.
  Definition same_ends (d d' : deque T) : Prop :=
    dq_head d' = dq_head d ∧ dq_tail d' = dq_tail d ∧ free_list_head (dq_al d') = free_list_head (dq_al d) ∧ dq_len d' = dq_len d.
  Lemma dq_detour o1 x o2 xs :
    (overflow_checks = true → lengthN (o1 ++ x ++ o2) < W64) → (overflow_checks = true → lengthN (o1 ++ o2) < W64) →
    let s := (spec_history sp o1 ([], 0)).2 in
    drel (dslots_after cap o1) (drun cap (dslots_after cap o1) x) →
    (spec_history sp x s).1 = xs → (spec_history sp x s).2.1 = s.1 →
    let r := run (o1 ++ o2) in let r' := run (o1 ++ x ++ o2) in
    no_trace (length o1) xs (λ _, True) (λ d sc, dq_iterate sc d) r r' ∧ same_ends r.2 r'.2.
  Proof using Hw.
    intros F1 F2 s Hr Hx Hs r r'.
    assert (drel (dslots_after cap (o1 ++ o2)) (dslots_after cap (o1 ++ x ++ o2))) as Hd.
    { unfold dslots_after in *. rewrite !foldl_app. by apply drel_run. }
    pose proof (DI_after ms v0 Hw _ F1) as D1. pose proof (DI_after ms v0 Hw _ F2) as D2.
    pose proof (drel_top _ _ Hd) as Htop. destruct Hd as [Hu _]. unfold DI in D1. rewrite Hu in D1. unfold DI in D2. split; [split|].
    - unfold r', r, put_in. rewrite (proj1 (dq_history_ok ms v0 _ Hw F1)), (proj1 (dq_history_ok ms v0 _ Hw F2)), !sp_app. cbn [fst]. fold s. rewrite Hx.
      pose proof (sp_len o1 ([], 0)) as Hl. rewrite <- Hl at 1 2. rewrite take_app, drop_app. do 2 f_equal.
      destruct s as [l n]. destruct (spec_history sp x (l, n)).2 as [l' n'] eqn:E. cbn in Hs. subst l'. apply spec_counter.
    - intros sc _. unfold r', r. by rewrite (dq_iterate_ok _ _ _ sc D1), (dq_iterate_ok _ _ _ sc D2).
    - destruct (dq_follow ms v0 Hw _ F1) as (A1 & A2 & _ & (_ & A3 & _)). destruct (dq_follow ms v0 Hw _ F2) as (B1 & B2 & _ & (_ & B3 & _)).
      unfold r', r. split_and!; [by rewrite A1, B1, Hu|by rewrite A2, B2, Hu|rewrite A3, B3; exact Htop|].
      by rewrite (DOK_len _ _ _ D1), (DOK_len _ _ _ D2).
  Qed.
  Lemma used_spec o : (ds_used (dslots_after cap o)).*2 = (spec_history sp o ([], 0)).2.1.
  Proof. apply dslots_values. Qed.
  Lemma used_len o : (overflow_checks = true → lengthN o < W64) →
    dq_len (run o).2 = lengthN (ds_used (dslots_after cap o)) ∧ lengthN (ds_used (dslots_after cap o)) ≤ cap.
  Proof using Hw.
    intros F. pose proof (DI_after ms v0 Hw _ F) as D. split; [exact (DOK_len _ _ _ D)|]. destruct D as [Hh _ _]. apply CH_len_le in Hh. by rewrite dseg_length in Hh.
  Qed.
  (** Pushed and popped *)
  Lemma dq_undo_fact o1 o2 v x xs :
    (overflow_checks = true → lengthN o1 + lengthN o2 + 2 < W64) → dq_len (run o1).2 < cap →
    x = [DPushFront v; DPopFront] ∨ x = [DPushBack v; DPopBack] → xs = [Val DUnit; Val (DVal (Some v))] →
    let r := run (o1 ++ o2) in let r' := run (o1 ++ x ++ o2) in
    no_trace (length o1) xs (λ _, True) (λ d sc, dq_iterate sc d) r r' ∧ same_ends r.2 r'.2.
  Proof using Hw.
    intros F Hlen Hx ->. assert (overflow_checks = true → lengthN o1 < W64) as F1 by (intros Hc; specialize (F Hc); lia).
    destruct (used_len o1 F1) as [Hl _]. rewrite Hl in Hlen. pose proof (used_spec o1) as Hu.
    assert (lengthN (spec_history sp o1 ([], 0)).2.1 < cap) as Hls by (rewrite <- Hu; unfold lengthN in *; by rewrite fmap_length).
    assert (lengthN x = 2) as Hlx by by destruct Hx as [-> | ->].
    apply dq_detour; [intros Hc; specialize (F Hc); rewrite !lengthN_app; lia|intros Hc; specialize (F Hc); rewrite !lengthN_app; lia|..].
    - destruct Hx as [-> | ->]; [by apply undo_front|by apply undo_back].
    - destruct (spec_history sp o1 ([], 0)).2 as [l n]. cbn [fst] in Hls. destruct Hx as [-> | ->]; cbn [spec_history dq_spec]; rewrite decide_True by done;
        cbn [dq_spec]; [done|]. by rewrite unsnoc_snoc.
    - destruct (spec_history sp o1 ([], 0)).2 as [l n]. cbn [fst] in Hls. destruct Hx as [-> | ->]; cbn [spec_history dq_spec]; rewrite decide_True by done;
        cbn [dq_spec]; [done|]. by rewrite unsnoc_snoc.
  Qed.
  (** Popped and pushed *)
  Lemma dq_redo_fact o1 o2 v x :
    (overflow_checks = true → lengthN o1 + lengthN o2 + 2 < W64) →
    dq_front (run o1).2 = Val (Some v) ∧ x = [DPopFront; DPushFront v] ∨ dq_back (run o1).2 = Val (Some v) ∧ x = [DPopBack; DPushBack v] →
    let r := run (o1 ++ o2) in let r' := run (o1 ++ x ++ o2) in
    no_trace (length o1) [Val (DVal (Some v)); Val DUnit] (λ _, True) (λ d sc, dq_iterate sc d) r r' ∧ same_ends r.2 r'.2.
  Proof using Hw.
    intros F Hx. assert (overflow_checks = true → lengthN o1 < W64) as F1 by (intros Hc; specialize (F Hc); lia).
    destruct (used_len o1 F1) as [_ Hl]. pose proof (used_spec o1) as Hu. pose proof (DI_after ms v0 Hw _ F1) as D. unfold DI in D.
    assert (lengthN (spec_history sp o1 ([], 0)).2.1 ≤ cap) as Hls by (rewrite <- Hu; unfold lengthN in *; by rewrite fmap_length).
    assert (lengthN x = 2) as Hlx by by destruct Hx as [[_ ->]|[_ ->]].
    apply dq_detour; [intros Hc; specialize (F Hc); rewrite !lengthN_app; lia|intros Hc; specialize (F Hc); rewrite !lengthN_app; lia|..];
      destruct Hx as [[Hv ->]|[Hv ->]].
    1,3,5: rewrite (DOK_front _ _ _ D) in Hv; destruct (ds_used (dslots_after cap o1)) as [|[i y] es] eqn:E; [done|]; cbn in Hv; injection Hv as ->.
    4,5,6: rewrite (DOK_back _ _ _ D) in Hv; destruct (snoc_case (ds_used (dslots_after cap o1))) as [E|(es & i & y & E)];
      [by rewrite E in Hv|]; rewrite E, last_snoc in Hv; cbn in Hv; injection Hv as ->.
    - rewrite (redo_front cap _ i v es E); [apply drel_refl|by rewrite E].
    - destruct (spec_history sp o1 ([], 0)).2 as [l n]. cbn in Hu. cbn [fst] in *. subst l. cbn [spec_history dq_spec].
      rewrite lengthN_cons in Hls. by rewrite decide_True by lia.
    - destruct (spec_history sp o1 ([], 0)).2 as [l n]. cbn in Hu. cbn [fst] in *. subst l. cbn [spec_history dq_spec].
      rewrite lengthN_cons in Hls. by rewrite decide_True by lia.
    - rewrite (redo_back cap _ i v es E); [apply drel_refl|done].
    - destruct (spec_history sp o1 ([], 0)).2 as [l n]. rewrite E, fmap_app in Hu. cbn in Hu. cbn [fst] in *. subst l. cbn [spec_history dq_spec].
      rewrite unsnoc_snoc. rewrite lengthN_app in Hls. change (lengthN [v]) with 1 in Hls. cbn [dq_spec]. by rewrite decide_True by lia.
    - destruct (spec_history sp o1 ([], 0)).2 as [l n]. rewrite E, fmap_app in Hu. cbn in Hu. cbn [fst] in *. subst l. cbn [spec_history dq_spec].
      rewrite unsnoc_snoc. rewrite lengthN_app in Hls. change (lengthN [v]) with 1 in Hls. cbn [dq_spec]. by rewrite decide_True by lia.
  Qed.
End dq.
