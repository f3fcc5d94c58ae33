(** * A detour that ends with the contents it began with: the slot machine forgets it *)
From Verif Require Import SlotProof MapProof.
From Verif Require Export SlotSpec HashSpec MapSpec.

Section machine.
  Context {K V : Type} (same : K → K → bool) (hash : K → N) (HL : HashLaws same hash).
  Notation pair := (K * V)%type.
  Implicit Types m : slots (K := K) (V := V).
  Implicit Types l : list (K * V).

  (** The same slots for the keys, and the same slots to come *)
  Definition rel m m' : Prop :=
    (∀ k, slot_of same k m' = slot_of same k m) ∧
    ((sl_left m').*1 = (sl_left m).*1 ∧ sl_next m' = sl_next m ∨
     (sl_left m').*1 = (sl_left m).*1 ++ [sl_next m] ∧ sl_next m' = sl_next m + 1).
  Lemma slot_give m kv k : slot_of same k (give_back same m kv) = if same kv.1 k then SENTINEL else slot_of same k m.
  Proof using HL.
    unfold slot_of, give_back. cbn [sl_addr]. destruct (same kv.1 k) eqn:E.
    - replace (List.find _ _) with (@None (K * N)); [done|]. symmetry. apply SlotProof.find_none. intros p [Hp Hin]%elem_of_list_In%filter_In.
      destruct (same p.1 k) eqn:E2; [|done]. exfalso. assert (same p.1 kv.1 = true) as Hx; [|by rewrite Hx in Hin].
      eapply (keq_trans _ _ HL); [exact E2|]. by rewrite (keq_sym _ _ HL).
    - induction (sl_addr m) as [|p l IH]; [done|]. cbn [List.filter List.find]. destruct (same p.1 kv.1) eqn:E1; cbn [negb List.find].
      + destruct (same p.1 k) eqn:E2; [|exact IH]. exfalso. assert (same kv.1 k = true); [|congruence].
        eapply (keq_trans _ _ HL); [|exact E2]. by rewrite (keq_sym _ _ HL).
      + destruct (same p.1 k); [done|exact IH].
  Qed.
  Lemma slot_take m kv k : slot_of same k (take_slot m kv) = if same kv.1 k then top_of (sl_next m) (sl_left m) else slot_of same k m.
  Proof.
    unfold slot_of, take_slot, top_of. destruct (sl_left m) as [|[i x] lf]; cbn [sl_addr List.find fst snd]; by destruct (same kv.1 k).
  Qed.
  Lemma rel_top m m' : rel m m' → top_of (sl_next m') (sl_left m') = top_of (sl_next m) (sl_left m).
  Proof.
    intros (_ & [[H1 H2]|[H1 H2]]); destruct (sl_left m) as [|[i x] lf], (sl_left m') as [|[i' x'] lf']; cbn in *; congruence.
  Qed.
  Lemma rel_give m m' kv : rel m m' → rel (give_back same m kv) (give_back same m' kv).
  Proof using HL.
    intros [Hs Hc]. split; [intros k; rewrite !slot_give; by destruct (same kv.1 k)|]. unfold give_back. cbn [sl_left sl_next]. rewrite !fmap_cons. cbn [fst].
    rewrite Hs. destruct Hc as [[-> ->]|[-> ->]]; [by left|by right].
  Qed.
  Lemma rel_take m m' kv : rel m m' → rel (take_slot m kv) (take_slot m' kv).
  Proof.
    intros Hr. split; [intros k; rewrite !slot_take, (rel_top m m' Hr); destruct Hr as [Hs _]; by rewrite Hs|].
    destruct Hr as [_ Hc]. unfold take_slot. destruct (sl_left m) as [|[i x] lf], (sl_left m') as [|[i' x'] lf'] eqn:E'; cbn in *.
    - destruct Hc as [[_ ->]|[? _]]; [by left|done].
    - destruct Hc as [[? _]|[[= -> H1] ->]]; [done|]. left. split; [done|lia].
    - by destruct Hc as [[? _]|[? _]].
    - destruct Hc as [[[= -> H1] ->]|[[= -> H1] ->]]; [by left|by right].
  Qed.
  Lemma rel_step m m' l l' : rel m m' → rel (slots_step same m l l') (slots_step same m' l l').
  Proof using HL.
    intros Hr. unfold slots_step. generalize (List.filter (λ kv : pair, negb (has same kv.1 l')) l) (List.filter (λ kv : pair, negb (has same kv.1 l)) l').
    intros gone come. assert (rel (foldl (give_back same) m gone) (foldl (give_back same) m' gone)) as Hg.
    { revert m m' Hr. induction gone as [|x gone IH]; intros m m' Hr; [done|]. cbn. apply IH. by apply rel_give. }
    revert Hg. generalize (foldl (give_back same) m gone) (foldl (give_back same) m' gone). clear Hr m m'.
    induction come as [|x come IH]; intros m m' Hr; [done|]. cbn. apply IH. by apply rel_take.
  Qed.
  Lemma rel_run ls m m' l : rel m m' → rel (slots_run same m l ls) (slots_run same m' l ls).
  Proof using HL. revert m m' l. induction ls as [|l' ls IH]; intros m m' l Hr; [done|]. cbn. by apply IH, rel_step. Qed.

  Lemma step_come m l l' kv : l' ≡ₚ kv :: l → has same kv.1 l = false → slots_step same m l l' = take_slot m kv.
  Proof using HL.
    intros Hp Hh. unfold slots_step. rewrite (SlotProof.filter_nil (λ x : pair, negb (has same x.1 l')) l).
    2:{ intros x Hx. apply negb_false_iff, has_true. exists x. rewrite Hp. split; [by right|apply (keq_refl _ _ HL)]. }
    enough (List.filter (λ x : pair, negb (has same x.1 l)) l' = [kv]) as -> by done.
    apply Permutation_singleton_r. rewrite (filter_perm' _ _ _ Hp). cbn [List.filter]. rewrite Hh. cbn [negb].
    rewrite (SlotProof.filter_nil (λ x : pair, negb (has same x.1 l)) l); [done|]. intros x Hx. apply negb_false_iff, has_true. exists x. split; [done|apply (keq_refl _ _ HL)].
  Qed.
  Lemma step_go m l l' kv : l' ≡ₚ kv :: l → has same kv.1 l = false → slots_step same m l' l = give_back same m kv.
  Proof using HL.
    intros Hp Hh. unfold slots_step. rewrite (SlotProof.filter_nil (λ x : pair, negb (has same x.1 l')) l).
    2:{ intros x Hx. apply negb_false_iff, has_true. exists x. rewrite Hp. split; [by right|apply (keq_refl _ _ HL)]. }
    enough (List.filter (λ x : pair, negb (has same x.1 l)) l' = [kv]) as -> by done.
    apply Permutation_singleton_r. rewrite (filter_perm' _ _ _ Hp). cbn [List.filter]. rewrite Hh. cbn [negb].
    rewrite (SlotProof.filter_nil (λ x : pair, negb (has same x.1 l)) l); [done|]. intros x Hx. apply negb_false_iff, has_true. exists x. split; [done|apply (keq_refl _ _ HL)].
  Qed.
  Lemma slot_same m a b : same a b = true → slot_of same a m = slot_of same b m.
  Proof using HL.
    intros E. unfold slot_of. assert (∀ p : K * N, same p.1 a = same p.1 b) as Hx.
    { intros p. destruct (same p.1 a) eqn:E1, (same p.1 b) eqn:E2; try done.
      - assert (same p.1 b = true); [by eapply (keq_trans _ _ HL)|congruence].
      - assert (same p.1 a = true); [eapply (keq_trans _ _ HL); [exact E2|by rewrite (keq_sym _ _ HL)]|congruence]. }
    enough (List.find (λ p : K * N, same p.1 a) (sl_addr m) = List.find (λ p : K * N, same p.1 b) (sl_addr m)) as -> by done.
    induction (sl_addr m) as [|p l IH]; [done|]. cbn [List.find]. by rewrite Hx, IH.
  Qed.
  Lemma absent_step m l l' : (∀ k, has same k l = false → slot_of same k m = SENTINEL) →
    ∀ k, has same k l' = false → slot_of same k (slots_step same m l l') = SENTINEL.
  Proof using HL.
    intros Hm k Hk. unfold slots_step.
    assert (slot_of same k (foldl (give_back same) m (List.filter (λ kv : pair, negb (has same kv.1 l')) l)) = SENTINEL) as Hg.
    { assert (slot_of same k m = SENTINEL ∨ ∃ x, x ∈ List.filter (λ kv : pair, negb (has same kv.1 l')) l ∧ same x.1 k = true) as Hc.
      { destruct (has same k l) eqn:E; [|left; by apply Hm]. right. apply has_true in E as (x & Hx & Hxk). exists x. split; [|done].
        apply elem_of_list_In, filter_In. split; [by apply elem_of_list_In|]. apply negb_true_iff. apply not_true_iff_false. intros Hy.
        apply has_true in Hy as (y & Hy & Hyx). assert (has same k l' = true); [|congruence]. apply has_true. exists y. split; [done|].
        by eapply (keq_trans _ _ HL). }
      clear Hm. revert m Hc. induction (List.filter _ l) as [|y g IH]; intros m Hc.
      - destruct Hc as [?|(x & Hx & _)]; [done|]. by apply elem_of_nil in Hx.
      - cbn [foldl]. apply IH. rewrite slot_give. destruct (same y.1 k) eqn:E; [by left|]. destruct Hc as [?|(x & [->|Hx]%elem_of_cons & Hxk)];
          [by left|congruence|right; eauto]. }
    assert (∀ x, x ∈ List.filter (λ kv : pair, negb (has same kv.1 l)) l' → same x.1 k = false) as Hc.
    { intros x [Hx _]%elem_of_list_In%filter_In. apply not_true_iff_false. intros E. assert (has same k l' = true); [|congruence].
      apply has_true. exists x. split; [by apply elem_of_list_In|done]. }
    revert Hg. generalize (foldl (give_back same) m (List.filter (λ kv : pair, negb (has same kv.1 l')) l)). clear Hm m.
    induction (List.filter _ l') as [|y g IH]; intros m Hm; [done|]. cbn [foldl]. apply IH; [intros x Hx; apply Hc; by right|].
    rewrite slot_take, Hc; [done|by left].
  Qed.
  Lemma absent_run ls m l : (∀ k, has same k l = false → slot_of same k m = SENTINEL) →
    ∀ k, has same k (List.last (l :: ls) []) = false → slot_of same k (slots_run same m l ls) = SENTINEL.
  Proof using HL.
    revert m l. induction ls as [|l' ls IH]; intros m l Hm; [exact Hm|]. cbn [slots_run]. intros k Hk. apply IH; [by apply absent_step|].
    destruct ls; exact Hk.
  Qed.
  Lemma absent_after (ls : list (list (K * V))) k : has same k (List.last ls []) = false → slot_of same k (slots_after same ls) = SENTINEL.
  Proof using HL. intros Hk. apply absent_run; [done|]. by destruct ls. Qed.
  (** in and out again *)
  Lemma rel_undo m kv : slot_of same kv.1 m = SENTINEL → rel m (give_back same (take_slot m kv) kv).
  Proof using HL.
    intros Hs. split.
    - intros k. rewrite slot_give, slot_take. destruct (same kv.1 k) eqn:E; [|done]. rewrite <- Hs. by apply slot_same.
    - assert (slot_of same kv.1 (take_slot m kv) = top_of (sl_next m) (sl_left m)) as Ht by (rewrite slot_take; by rewrite (keq_refl _ _ HL)).
      unfold give_back. cbn [sl_left sl_next]. rewrite Ht. unfold take_slot, top_of. destruct (sl_left m) as [|[i x] lf]; cbn; [by right|by left].
  Qed.
  (** out and in again *)
  Lemma rel_redo m kv kv' : kv'.1 = kv.1 → rel m (take_slot (give_back same m kv) kv').
  Proof using HL.
    intros Hk. split.
    - intros k. rewrite slot_take, slot_give, Hk. destruct (same kv.1 k) eqn:E; [|done]. by apply slot_same.
    - by left.
  Qed.
End machine.

Section spec.
  Context {S K V O A : Type} (same : K → K → bool) (hash : K → N) (HL : HashLaws same hash) (spec : O → S → A * S) (view : S → list (K * V)) (s0 : S).
  Notation fin l o := (spec_history spec o l).2.
  Implicit Types l : S.
  Fixpoint cf l (o : list O) : list (list (K * V)) := match o with [] => [] | x :: o => view (spec x l).2 :: cf (spec x l).2 o end.
  Lemma fin_cons l x o : fin l (x :: o) = fin (spec x l).2 o.
  Proof. cbn [spec_history]. destruct (spec x l) as [r l1]. cbn [snd]. by destruct (spec_history spec o l1). Qed.
  Lemma fin_app l o o' : fin l (o ++ o') = fin (fin l o) o'.
  Proof. revert l. induction o as [|x o IH]; intros l; [done|]. cbn [app]. by rewrite !fin_cons, IH. Qed.
  Lemma ans_cons l x o : (spec_history spec (x :: o) l).1 = (spec x l).1 :: (spec_history spec o (spec x l).2).1.
  Proof. cbn [spec_history]. destruct (spec x l) as [r l1]. cbn [fst snd]. by destruct (spec_history spec o l1). Qed.
  Lemma ans_app l o o' : (spec_history spec (o ++ o') l).1 = (spec_history spec o l).1 ++ (spec_history spec o' (fin l o)).1.
  Proof. revert l. induction o as [|x o IH]; intros l; [done|]. cbn [app]. by rewrite !ans_cons, fin_cons, IH. Qed.
  Lemma ans_len l o : length (spec_history spec o l).1 = length o.
  Proof. revert l. induction o as [|x o IH]; intros l; [done|]. rewrite ans_cons. cbn [length]. by rewrite IH. Qed.
  Lemma cf_len l o : length (cf l o) = length o.
  Proof. revert l. induction o as [|x o IH]; intros l; [done|]. cbn [cf length]. by rewrite IH. Qed.
  Lemma cf_lookup l o n c : cf l o !! n = Some c → c = view (fin l (take (Datatypes.S n) o)).
  Proof.
    revert l n. induction o as [|x o IH]; intros l n; [done|]. cbn [cf]. destruct n as [|n].
    - intros [= <-]. cbn [take]. by rewrite take_0, fin_cons.
    - cbn [lookup list_lookup]. intros Hl. change (take (Datatypes.S (Datatypes.S n)) (x :: o)) with (x :: take (Datatypes.S n) o). rewrite fin_cons. by apply IH.
  Qed.
  Lemma cf_trace o : trace (λ o c, c = view (fin s0 o)) o (cf s0 o).
  Proof. split; [apply cf_len|]. intros n c. apply cf_lookup. Qed.
  Lemma cf_last o : view s0 = [] → List.last (cf s0 o) [] = view (fin s0 o).
  Proof.
    intros Hv. rewrite <- Hv. generalize s0 as l. clear Hv. induction o as [|x o IH]; intros l; [done|]. rewrite fin_cons, <- IH. cbn [cf].
    generalize (cf (spec x l).2 o) (view (spec x l).2) (view l). intros c. induction c as [|b c IHc]; intros y z; [done|].
    destruct c as [|b' c]; [done|]. exact (IHc y z).
  Qed.
  Lemma run_cf_app m l o o' :
    slots_run same m (view l) (cf l (o ++ o')) = slots_run same (slots_run same m (view l) (cf l o)) (view (fin l o)) (cf (fin l o) o').
  Proof. revert m l. induction o as [|x o IH]; intros m l; [done|]. cbn [app cf slots_run]. by rewrite IH, fin_cons. Qed.

  (** A detour [x] that starts and ends with the same contents and related machines *)
  Lemma detour o1 x o2 :
    view s0 = [] → let l := fin s0 o1 in let m := slots_after same (cf s0 o1) in
    fin l x = l → rel same m (slots_run same m (view l) (cf l x)) →
    rel same (slots_after same (cf s0 (o1 ++ o2))) (slots_after same (cf s0 (o1 ++ x ++ o2))) ∧
    fin s0 (o1 ++ x ++ o2) = fin s0 (o1 ++ o2) ∧
    (spec_history spec (o1 ++ x ++ o2) s0).1 =
      take (length o1) (spec_history spec (o1 ++ o2) s0).1 ++ (spec_history spec x l).1 ++ drop (length o1) (spec_history spec (o1 ++ o2) s0).1.
  Proof using HL.
    intros Hv l m Hf Hr. split_and!.
    - assert (∀ o, slots_after same (cf s0 (o1 ++ o)) = slots_run same m (view l) (cf l o)) as Hx.
      { intros o. pose proof (run_cf_app slots0 s0 o1 o) as Hx. rewrite Hv in Hx. exact Hx. }
      rewrite !Hx, run_cf_app, Hf. by apply (rel_run _ hash HL).
    - rewrite !fin_app. fold l. by rewrite Hf.
    - rewrite !ans_app. fold l. rewrite Hf. pose proof (ans_len s0 o1) as Hl. rewrite <- Hl at 1 2. by rewrite take_app, drop_app.
  Qed.
End spec.
