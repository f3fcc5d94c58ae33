(** * Every way of dealing out the slots of a deque is reached by some calls *)
From Verif Require Import IterProof DealSpec SlotSpec SlotDeque.
Local Open Scope nat_scope.

Lemma mid {A} (x : A) b a : b ++ x :: a = (b ++ [x]) ++ a.
Proof. by rewrite <- app_assoc. Qed.
Section deal.
  Context {T : Type} (ms : nat).
  Notation cap := (N.of_nat ms).
  Implicit Types (u w L : list (N * T)) (m : dslots (T := T)).
  Definition run m (o : list (dq_op T)) : dslots := foldl (λ m o, dslots_step cap o m) m o.
  Definition leads (k : nat) m m' : Prop := ∃ o, run m o = m' ∧ length o ≤ k.
  Lemma leads_refl k m : leads k m m.
  Proof. exists []. split; [done|cbn; lia]. Qed.
  Lemma leads_trans k1 k2 m1 m2 m3 : leads k1 m1 m2 → leads k2 m2 m3 → leads (k1 + k2) m1 m3.
  Proof. intros (o1 & <- & H1) (o2 & <- & H2). exists (o1 ++ o2). unfold run. rewrite foldl_app, app_length. split; [done|lia]. Qed.
  Lemma leads_le k k' m1 m2 : leads k m1 m2 → k ≤ k' → leads k' m1 m2.
  Proof. intros (o & H1 & H2) Hk. exists o. split; [done|lia]. Qed.

  Lemma room_lt u n : length u ≤ n → n < ms → (lengthN u < cap)%N.
  Proof. unfold lengthN. lia. Qed.
  (** the first to the back *)
  Lemma rotate1 x u L nx : length (x :: u) ≤ ms → leads 2 (DSlots (x :: u) L nx) (DSlots (u ++ [x]) L nx).
  Proof.
    intros Hl. exists [DPopFront; DPushBack x.2]. split; [|done]. unfold run. cbn [foldl dslots_step ds_used ds_left ds_next].
    rewrite decide_True by (cbn [length] in Hl; unfold lengthN; lia). unfold ds_take, ds_slot. cbn [ds_left ds_next top_of ds_used]. by destruct x.
  Qed.
  (** the second to the back *)
  Lemma skip1 x y u L nx : length (x :: y :: u) ≤ ms → leads 4 (DSlots (x :: y :: u) L nx) (DSlots (x :: u ++ [y]) L nx).
  Proof.
    intros Hl. cbn [length] in Hl. exists [DPopFront; DPopFront; DPushBack y.2; DPushFront x.2]. split; [|done]. unfold run. cbn [foldl dslots_step ds_used ds_left ds_next].
    rewrite (decide_True (P := (lengthN u < cap)%N)) by (unfold lengthN; lia). unfold ds_take, ds_slot. destruct x as [i a], y as [j b]. cbn [ds_left ds_next top_of ds_used fst snd].
    rewrite decide_True by (unfold lengthN; rewrite app_length; cbn [length]; lia). done.
  Qed.
  Lemma rotate a b L nx : length (a ++ b) ≤ ms → leads (2 * length a) (DSlots (a ++ b) L nx) (DSlots (b ++ a) L nx).
  Proof.
    revert b. induction a as [|x a IH]; intros b Hl; [rewrite app_nil_r; apply leads_refl|]. cbn [app].
    replace (2 * length (x :: a)) with (2 + 2 * length a) by (cbn [length]; lia). eapply leads_trans; [by apply rotate1|]. rewrite (mid x b a). rewrite <- (app_assoc a b [x]).
    apply IH. cbn [app length] in Hl. rewrite !app_length in *. cbn [length]. lia.
  Qed.
  Lemma skip x a b L nx : length (x :: a ++ b) ≤ ms → leads (4 * length a) (DSlots (x :: a ++ b) L nx) (DSlots (x :: b ++ a) L nx).
  Proof.
    revert b. induction a as [|y a IH]; intros b Hl; [rewrite app_nil_r; apply leads_refl|]. cbn [app].
    replace (4 * length (y :: a)) with (4 + 4 * length a) by (cbn [length]; lia). eapply leads_trans; [by apply skip1|]. rewrite (mid y b a). rewrite <- (app_assoc a b [y]).
    apply IH. cbn [length app] in *. rewrite !app_length in *. cbn [length] in *. lia.
  Qed.
  (** one to the place behind [d] *)
  Lemma pick d r1 t r2 L nx : length (d ++ r1 ++ t :: r2) ≤ ms → leads (8 * ms) (DSlots (d ++ r1 ++ t :: r2) L nx) (DSlots (d ++ t :: r1 ++ r2) L nx).
  Proof.
    intros Hl. assert (length d + length r1 + S (length r2) ≤ ms) as Hl' by (rewrite !app_length in Hl; cbn [length] in Hl; lia).
    assert (leads (2 * (length d + length r1)) (DSlots (d ++ r1 ++ t :: r2) L nx) (DSlots (t :: (r2 ++ d) ++ r1) L nx)) as H1.
    { replace (t :: (r2 ++ d) ++ r1) with ((t :: r2) ++ d ++ r1) by (cbn [app]; by rewrite <- app_assoc). rewrite app_assoc, <- app_length. apply rotate. rewrite !app_length. cbn [length]. lia. }
    assert (leads (4 * (length r2 + length d)) (DSlots (t :: (r2 ++ d) ++ r1) L nx) (DSlots ((t :: r1 ++ r2) ++ d) L nx)) as H2.
    { replace ((t :: r1 ++ r2) ++ d) with (t :: r1 ++ r2 ++ d) by (cbn [app]; by rewrite <- app_assoc). rewrite <- app_length. apply skip. cbn [length]. rewrite !app_length. lia. }
    assert (leads (2 * length (t :: r1 ++ r2)) (DSlots ((t :: r1 ++ r2) ++ d) L nx) (DSlots (d ++ t :: r1 ++ r2) L nx)) as H3.
    { apply rotate. rewrite app_length. cbn [length]. rewrite app_length. lia. }
    eapply leads_le; [exact (leads_trans _ _ _ _ _ H1 (leads_trans _ _ _ _ _ H2 H3))|]. cbn [length]. rewrite app_length. lia.
  Qed.
  Lemma permute d u w L nx : u ≡ₚ w → length (d ++ u) ≤ ms → leads (8 * ms * length w) (DSlots (d ++ u) L nx) (DSlots (d ++ w) L nx).
  Proof.
    revert d u. induction w as [|t w IH]; intros d u Hp Hl; [apply Permutation_nil_r in Hp as ->; apply leads_refl|].
    assert (t ∈ u) as Ht by (rewrite Hp; left). apply elem_of_list_split in Ht as (r1 & r2 & ->). replace (8 * ms * length (t :: w)) with (8 * ms + 8 * ms * length w) by (cbn [length]; lia). eapply leads_trans; [by apply pick|].
    rewrite (mid t d (r1 ++ r2)), (mid t d w).
    apply IH.
    - apply (Permutation_cons_inv (a := t)). rewrite <- Hp. by rewrite Permutation_middle.
    - rewrite !app_length in *. cbn [length] in *. lia.
  Qed.
  Lemma pops u w L nx : leads (length w) (DSlots (u ++ w) L nx) (DSlots u (w ++ L) nx).
  Proof.
    revert L. induction w as [|x w IH] using rev_ind; intros L; [rewrite app_nil_r; apply leads_refl|].
    rewrite app_length, Nat.add_comm. eapply leads_trans; [exists [DPopBack]; split; [reflexivity|done]|]. unfold run. cbn [foldl dslots_step ds_used ds_left ds_next]. rewrite app_assoc, unsnoc_snoc.
    replace ((w ++ [x]) ++ L) with (w ++ x :: L) by (apply mid). apply IH.
  Qed.
  Lemma pushes p : p.*1 = map N.of_nat (seq 1 (length p)) → length p ≤ ms → leads (length p) dslots0 (DSlots p [] (N.of_nat (length p) + 1)%N).
  Proof.
    induction p as [|x p IH] using rev_ind; intros Hp Hl; [apply leads_refl|]. rewrite app_length in Hp, Hl |- *. cbn [length] in *.
    rewrite fmap_app, seq_app, map_app in Hp. apply app_inj_2 in Hp as [Hp Hx]; [|done]. cbn in Hx. injection Hx as Hx.
    eapply leads_trans; [apply IH; [done|lia]|]. exists [DPushBack x.2]. split; [|done]. unfold run. cbn [foldl dslots_step ds_used ds_left ds_next].
    rewrite decide_True by (unfold lengthN; lia). unfold ds_take, ds_slot. cbn [ds_left ds_next ds_used top_of]. destruct x as [i v]. cbn [fst snd] in *.
    f_equal; [|lia]. do 3 f_equal. lia.
  Qed.
  Lemma dealt_reached u L nx : dealt ms u L nx → leads (8 * ms * ms + 2 * ms) dslots0 (DSlots u L nx).
  Proof.
    intros (n & Hn & -> & Hp). symmetry in Hp. apply Permutation_map_inv in Hp as (p & Hp1 & Hp2).
    assert (length p = n) as El by (apply (f_equal length) in Hp1; by rewrite !map_length, seq_length in Hp1). subst n.
    assert (length (u ++ L) = length p) as El by (by rewrite Hp2).
    eapply leads_le; [eapply leads_trans; [apply (pushes p); [by symmetry|done]|]; eapply leads_trans; [apply (permute [] p (u ++ L)); [by symmetry|done]|]; cbn [app];
      replace L with (L ++ []) at 2 by apply app_nil_r; apply pops|]. rewrite app_length in *. nia.
  Qed.

  Lemma step_dealt m o : dealt ms (ds_used m) (ds_left m) (ds_next m) →
    dealt ms (ds_used (dslots_step cap o m)) (ds_left (dslots_step cap o m)) (ds_next (dslots_step cap o m)).
  Proof.
    destruct m as [u L nx]. cbn [ds_used ds_left ds_next]. intros (n & Hn & -> & Hp).
    assert (length u + length L = n) as Hlen by (apply Permutation_length in Hp; by rewrite fmap_length, app_length, map_length, seq_length in Hp).
    assert (∀ v u', u' ≡ₚ (top_of (N.of_nat n + 1)%N L, v) :: u → (lengthN u < cap)%N →
      let m' := ds_take (DSlots u L (N.of_nat n + 1)%N) u' in dealt ms (ds_used m') (ds_left m') (ds_next m')) as Htake.
    { intros v u' Hu' Hroom. unfold ds_take. cbn [ds_left ds_next]. destruct L as [|[i z] L]; cbn [ds_used ds_left ds_next top_of] in *.
      - exists (S n). split_and!; [unfold lengthN in Hroom; cbn [length] in Hlen; lia|lia|]. rewrite app_nil_r in Hp |- *. rewrite Hu', fmap_cons, Hp. cbn [fst].
        rewrite seq_S, map_app. cbn [map plus]. rewrite Permutation_cons_append. do 2 f_equiv. lia.
      - exists n. split_and!; [done|done|]. rewrite <- Hp, !fmap_app, Hu', !fmap_cons. cbn [fst app]. apply Permutation_middle. }
    destruct o as [v|v| | | | | | |sc|sc]; cbn [dslots_step ds_used ds_left ds_next]; try (exists n; done).
    - destruct (decide (lengthN u < cap)%N); [|exists n; done]. by apply (Htake v).
    - destruct (decide (lengthN u < cap)%N); [|exists n; done]. apply (Htake v); [|done]. symmetry. apply Permutation_cons_append.
    - destruct u as [|e u]; cbn [ds_used ds_left ds_next]; exists n; (split_and!; [done|done|]); [done|]. rewrite <- Hp, !fmap_app, !fmap_cons. cbn [app]. symmetry. apply Permutation_middle.
    - destruct (unsnoc u) as [[es e]|] eqn:Eu; cbn [ds_used ds_left ds_next]; exists n; (split_and!; [done|done|]); [|done]. apply unsnoc_Some in Eu as ->.
      rewrite <- Hp. by rewrite <- app_assoc.
    - exists n. split_and!; [done|done|]. rewrite fmap_app. rewrite (de_mut_spec_keys (λ f e, (e.1, f e.2)) fst) by done. by rewrite <- fmap_app.
  Qed.
  Lemma dealt_fact u L nx : (∃ o, dslots_after cap o = DSlots u L nx) ↔ dealt ms u L nx.
  Proof.
    split; [|intros Hd; destruct (dealt_reached u L nx Hd) as (o & Ho & _); by exists o]. intros (o & Ho).
    assert (∀ m, dealt ms (ds_used m) (ds_left m) (ds_next m) → dealt ms (ds_used (run m o)) (ds_left (run m o)) (ds_next (run m o))) as Hrun.
    { clear. induction o as [|x o IH]; intros m Hm; [done|]. apply IH. by apply step_dealt. }
    specialize (Hrun dslots0). unfold dslots_after in Ho. unfold run in Hrun. rewrite Ho in Hrun. cbn [ds_used ds_left ds_next] in Hrun. apply Hrun. exists 0. split_and!; [lia|done|done].
  Qed.
End deal.
