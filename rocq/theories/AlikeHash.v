(** * Containers with the same contents cannot be told apart: hash table and deque (for C87) *)
From Verif Require Import IterProof DequeApi UndoDeque AlikeOrd.
From Verif Require Export FuzzMain OrderProof HashMain AlikeSpec.

(** ** The table is determined by the order of iteration, and the number of buckets *)
Section placed.
  Context {K V : Type} (hash : K → N) (n : N).
  Notation at_ b := (λ x : K * V, hash x.1 mod n =? b).
  Lemma filter_all (p : K * V → bool) l : Forall (λ x, p x = true) l → List.filter p l = l.
  Proof. induction 1 as [|x l Hx _ IH]; [done|]. cbn. by rewrite Hx, IH. Qed.
  Lemma filter_none (p : K * V → bool) l : Forall (λ x, p x = false) l → List.filter p l = [].
  Proof. induction 1 as [|x l Hx _ IH]; [done|]. cbn. by rewrite Hx. Qed.
  Lemma chain_is (T : list (list (K * V))) o b c :
    (∀ i c, T !! i = Some c → Forall (λ x, hash x.1 mod n = o + N.of_nat i) c) → T !! b = Some c →
    c = List.filter (at_ (o + N.of_nat b)) (concat T).
  Proof.
    revert o b. induction T as [|c0 T IH]; intros o b Hp Hb; [done|].
    assert (∀ i c, T !! i = Some c → Forall (λ x, hash x.1 mod n = (o + 1) + N.of_nat i) c) as Hp'.
    { intros i c' Hi. specialize (Hp (S i) c' Hi). replace (o + 1 + N.of_nat i) with (o + N.of_nat (S i)) by lia. done. }
    pose proof (Hp 0%nat c0 eq_refl) as H0. cbn [concat]. rewrite List.filter_app. destruct b as [|b].
    - injection Hb as <-. rewrite (filter_all _ c0), (filter_none _ (concat T)), app_nil_r; [done| |].
      + apply Forall_forall. intros x Hx. apply elem_of_list_In, in_concat in Hx as (c' & [i Hi]%elem_of_list_In%elem_of_list_lookup & Hx%elem_of_list_In).
        specialize (Hp' i c' Hi). rewrite Forall_forall in Hp'. specialize (Hp' x Hx). apply N.eqb_neq. lia.
      + eapply Forall_impl; [exact H0|]. intros x Hx. by apply N.eqb_eq.
    - rewrite (filter_none _ c0); cbn [app].
      + replace (o + N.of_nat (S b)) with (o + 1 + N.of_nat b) by lia. by apply IH.
      + eapply Forall_impl; [exact H0|]. intros x Hx. cbv beta in *. apply N.eqb_neq. lia.
  Qed.
  Lemma table_is (T T' : list (list (K * V))) :
    length T = length T' → concat T = concat T' →
    (∀ i c, T !! i = Some c → Forall (λ x, hash x.1 mod n = N.of_nat i) c) →
    (∀ i c, T' !! i = Some c → Forall (λ x, hash x.1 mod n = N.of_nat i) c) → T = T'.
  Proof.
    intros Hl Hc H1 H2. apply (list_eq_same_length _ _ (length T)); [lia|done|]. intros i x y Hi Hx Hy.
    rewrite (chain_is T 0 i x H1 Hx), (chain_is T' 0 i y H2 Hy), Hc. done.
  Qed.
End placed.

Section ht.
  Context `{Profile} {K V : Type} (keq : K → K → bool) (hash : K → N).
  Lemma ht_from (nb ms : nat) (d : K * V) h0 o1 :
    ht_new nb ms d = Some h0 → (0 < nb)%nat → N.of_nat ms + 1 < W32 →
    let h := (history (ht_step keq hash) o1 h0).2 in
    ∃ T : list (list (K * V)), length T = nb ∧ (∀ i c, T !! i = Some c → Forall (λ x, hash x.1 mod N.of_nat nb = N.of_nat i) c) ∧
      (∀ sc, ht_iterate h sc = Val (fw_spec sc (concat T))) ∧
      ∀ o, (history (ht_step keq hash) o h).1 = (spec_history (hb_spec keq hash (N.of_nat ms)) o T).1.
  Proof.
    intros Hnew Hnb Hw h. destruct (order_fact keq hash nb ms d h0 Hnew Hnb Hw o1) as (bs & Hok & Hs). fold h in Hok.
    assert (length bs = nb) as Hlb.
    { assert (∀ o (T : list (list (K * V))), length (spec_history (hb_spec keq hash (N.of_nat ms)) o T).2 = length T) as Hlen.
      { intros o. induction o as [|x o IH]; intros T; [done|]. cbn [spec_history].
        assert (length (hb_spec keq hash (N.of_nat ms) x T).2 = length T) as Hx.
        { destruct x as [k v|k|k|k f|k|k| | | |k|k f|n|fs]; cbn [hb_spec]; try done.
          - unfold hb_insert, hb_put. destruct (hb_split _ _ _) as [[[? ?] ?]|]; cbn [snd]; [by rewrite insert_length|]. destruct (decide _); cbn [snd]; [by rewrite insert_length|done].
          - cbn [snd]. unfold hb_remove, hb_put. destruct (hb_split _ _ _) as [[[? ?] ?]|]; [by rewrite insert_length|done].
          - cbn [snd]. unfold hb_get_mut, hb_put. destruct (hb_split _ _ _) as [[[? ?] ?]|]; [by rewrite insert_length|done].
          - cbn [snd]. unfold hb_get_mut, hb_put. destruct (hb_split _ _ _) as [[[? ?] ?]|]; [by rewrite insert_length|done].
          - cbn [snd]. clear. revert fs. induction T as [|c T IH]; intros fs; [done|]. cbn. by rewrite IH. }
        destruct (hb_spec keq hash (N.of_nat ms) x T) as [r T1]. specialize (IH T1). destruct (spec_history _ o T1). cbn in *. lia. }
      specialize (Hlen o1 (replicate nb [])). rewrite Hs in Hlen. cbn in Hlen. rewrite map_length, replicate_length in Hlen. done. }
    exists (map (map snd) bs). split_and!.
    - by rewrite map_length.
    - intros i c Hi. rewrite list_lookup_fmap in Hi. destruct (bs !! i) as [es|] eqn:E; [|done]. injection Hi as <-.
      pose proof (ho_hash _ _ _ _ _ Hok i es E) as Hf. unfold lengthN in Hf. rewrite Hlb in Hf. by apply Forall_map.
    - intros sc. rewrite pairs_concat. by apply (ht_iterate_ok _ _ _ _ _ _ Hok).
    - intros o. destruct (order_history_ok keq hash (N.of_nat ms) o h bs Hok) as (bs' & _ & He). by rewrite He.
  Qed.
  Lemma nexts_inj (l l' : list (K * V)) : (∀ n, nexts n l = nexts n l') → l = l'.
  Proof. intros Hn. apply read_inj. intros n. cbv beta. rewrite <- !fw_spec_fwd, !nexts_fw. apply Hn. Qed.
  (** For every [==] and hash function *)
  Lemma ht_ht_fact (nb ms ms' : nat) (d d' : K * V) h0 h0' o o' :
    ht_new nb ms d = Some h0 → N.of_nat ms + 1 < W32 → ht_new nb ms' d' = Some h0' → N.of_nat ms' + 1 < W32 → (0 < nb)%nat →
    let h := (history (ht_step keq hash) o h0).2 in let h' := (history (ht_step keq hash) o' h0').2 in
    alike any (ht_step keq hash) (ht_step keq hash) h h' ↔ ms = ms' ∧ same_read (ht_iterate h) (ht_iterate h').
  Proof.
    intros Hnew Hw Hnew' Hw' Hnb h h'. destruct (ht_from nb ms d h0 o Hnew Hnb Hw) as (T & Hl & Hp & Hit & Ha).
    destruct (ht_from nb ms' d' h0' o' Hnew' Hnb Hw') as (T' & Hl' & Hp' & Hit' & Ha'). fold h in Hit, Ha. fold h' in Hit', Ha'. split.
    - intros HA. split.
      + specialize (HA [HCapacity] I). rewrite Ha, Ha' in HA. injection HA as HA. lia.
      + intros n. specialize (HA [HIter n] I). rewrite Ha, Ha' in HA. injection HA as HA. rewrite <- !nexts_fw in HA. by rewrite Hit, Hit', HA.
    - intros [<- Hr] os _. assert (T = T') as <-; [|by rewrite Ha, Ha'].
      apply (table_is hash (N.of_nat nb)); [congruence| |done|done]. apply nexts_inj. intros n. specialize (Hr n). rewrite Hit, Hit' in Hr. injection Hr as Hr. by rewrite <- !nexts_fw.
  Qed.
End ht.

(** ** What the calls other than iteration can see: the value of every key, and the capacity *)
Section blind.
  Context {K V : Type} (keq : K → K → bool) (hash : K → N) (HL : HashLaws keq hash).
  Implicit Types l : list (K * V).
  Definition same_gets l l' : Prop := ∀ k, hm_get keq k l = hm_get keq k l'.
  Lemma get_find k l : hm_get keq k l = None ↔ hm_find keq k l = None.
  Proof using Type. unfold hm_get. by destruct (hm_find keq k l). Qed.
  Lemma dk_remove k l : distinct_keys keq l → distinct_keys keq (hm_remove keq k l).
  Proof using HL. intros Hd. exact (hm_step_distinct keq hash HL 0 _ _ _ _ (st_remove keq 0 k l) Hd). Qed.
  Lemma gets_len l l' : distinct_keys keq l → distinct_keys keq l' → same_gets l l' → lengthN l = lengthN l'.
  Proof using HL.
    revert l'. induction l as [|[k v] l IH]; intros l' Hd Hd' Hs.
    - destruct l' as [|[k v] l']; [done|]. specialize (Hs k). rewrite hm_get_cons, (keq_refl _ _ HL) in Hs. done.
    - pose proof (Hs k) as Hk. rewrite hm_get_cons, (keq_refl _ _ HL) in Hk. unfold hm_get in Hk.
      destruct (hm_find keq k l') as [y|] eqn:E; [|done]. rewrite (hm_remove_len keq hash HL k l' y Hd' E).
      apply (dk_cons _ _ HL) in Hd as [Hf Hd].
      rewrite <- (IH (hm_remove keq k l')); [rewrite lengthN_cons; lia|done|by apply dk_remove|].
      intros k'. rewrite (hm_get_remove keq hash HL). destruct (keq k k') eqn:Ek.
      + rewrite <- (hm_get_keq keq hash HL _ _ _ Ek). apply get_find, (hm_find_None keq). exact Hf.
      + rewrite <- Hs, hm_get_cons, Ek. done.
  Qed.
  Lemma found_get k l l' : same_gets l l' → is_found (hm_find keq k l) = is_found (hm_find keq k l').
  Proof using Type. intros Hs. specialize (Hs k). unfold hm_get in Hs. destruct (hm_find keq k l), (hm_find keq k l'); done. Qed.
  Lemma found_not k l l' x : same_gets l l' → hm_find keq k l = Some x → hm_find keq k l' = None → False.
  Proof using Type. intros Hs H1 H2. pose proof (found_get k _ _ Hs) as Hf. by rewrite H1, H2 in Hf. Qed.
  Lemma alter_gets k f l l' : same_gets l l' → same_gets (hm_alter keq k f l) (hm_alter keq k f l').
  Proof using HL. intros Hs k'. rewrite !(hm_get_alter keq hash HL). destruct (keq k k'); by rewrite Hs. Qed.
  Lemma insert_gets k v l l' : same_gets l l' → same_gets (hm_insert keq k v l) (hm_insert keq k v l').
  Proof using HL.
    intros Hs. pose proof (found_get k _ _ Hs) as Hf. unfold hm_insert. destruct (hm_find keq k l), (hm_find keq k l'); try done; [by apply alter_gets|].
    intros k'. rewrite !hm_get_cons. destruct (keq k k'); [done|apply Hs].
  Qed.
  Lemma blind_step cap o l l' r r' l1 l1' :
    no_iter o → distinct_keys keq l → distinct_keys keq l' → same_gets l l' →
    hm_step keq cap o l r l1 → hm_step keq cap o l' r' l1' → r = r' ∧ same_gets l1 l1'.
  Proof using HL.
    intros Hn Hd Hd' Hs H1 H2. pose proof (gets_len _ _ Hd Hd' Hs) as Hl.
    assert (∀ k, hm_find keq k l = None ↔ hm_find keq k l' = None) as Hnone by (intros k; rewrite <- !get_find, Hs; done).
    destruct o; try done; inversion H1; subst; inversion H2; subst; try done.
    all: try (exfalso; by eapply found_not); try lia.
    all: try (split; [done|]; by apply insert_gets).
    all: try (by rewrite !Hs; split; [done|try done; by apply alter_gets]).
    all: try (by rewrite (found_get _ _ _ Hs)).
    all: try (by rewrite Hl).
    - exfalso. apply Hnone in H3. congruence.
    - rewrite Hs. split; [done|]. intros k'. rewrite !(hm_get_remove keq hash HL). destruct (keq k k'); [done|apply Hs].
    - split; [|done]. unfold lengthN in Hl. by destruct l1, l1'.
  Qed.
  Lemma blind_run cap o l l' rs rs' l1 l1' :
    Forall no_iter o → distinct_keys keq l → distinct_keys keq l' → same_gets l l' →
    hm_run keq cap o l rs l1 → hm_run keq cap o l' rs' l1' → rs = rs'.
  Proof using HL.
    intros Hn. revert l l' rs rs'. induction Hn as [|x o Hx _ IH]; intros l l' rs rs' Hd Hd' Hs H1 H2; inversion H1; subst; inversion H2; subst; [done|].
    match goal with Ha : hm_step _ _ _ l _ _, Hb : hm_step _ _ _ l' _ _ |- _ =>
      destruct (blind_step _ _ _ _ _ _ _ _ Hx Hd Hd' Hs Ha Hb) as [-> Hs1];
      pose proof (hm_step_distinct keq hash HL _ _ _ _ _ Ha Hd); pose proof (hm_step_distinct keq hash HL _ _ _ _ _ Hb Hd') end.
    f_equal. eapply IH; [| | |eassumption|eassumption]; done.
  Qed.
End blind.

Section htb.
  Context `{Profile} {K V : Type} (keq : K → K → bool).
  Lemma run_cap cap (l : list (K * V)) rs l' : hm_run keq cap [HCapacity] l rs l' → rs = [Val (HNum cap)].
  Proof. inversion 1 as [|? ? ? ? ? ? ? Ha Hb]; subst. inversion Ha; subst. by inversion Hb. Qed.
  Lemma run_get cap k (l : list (K * V)) rs l' : hm_run keq cap [HGet k] l rs l' → rs = [Val (HVal (hm_get keq k l))].
  Proof. inversion 1 as [|? ? ? ? ? ? ? Ha Hb]; subst. inversion Ha; subst. by inversion Hb. Qed.
  Lemma ht_blind_from hash (nb ms : nat) (d : K * V) h0 o1 :
    HashLaws keq hash → ht_new nb ms d = Some h0 → (0 < nb)%nat → N.of_nat ms + 1 < W32 →
    let h := (history (ht_step keq hash) o1 h0).2 in
    ∃ l : list (K * V), distinct_keys keq l ∧ (∀ k, ht_get keq hash h k = Val (hm_get keq k l)) ∧
      (∀ o, ∃ l', hm_run keq (N.of_nat ms) o l (history (ht_step keq hash) o h).1 l').
  Proof.
    intros HL Hnew Hnb Hw h. destruct (ht_history_ok keq hash HL (N.of_nat ms) o1 h0 [] (ht_new_ok _ _ _ _ d _ Hnew Hnb Hw)) as (E & HI & _).
    fold h in HI. exists E.*2. split_and!.
    - by eapply HI_keys.
    - intros k. by destruct (HI_lookups _ _ HL _ _ _ k HI) as (i & _ & Hg & _).
    - intros o. destruct (ht_history_ok keq hash HL (N.of_nat ms) o h E HI) as (E' & _ & Hr & _). by exists E'.*2.
  Qed.
  Lemma ht_blind_fact hash hash' (nb nb' ms ms' : nat) (d d' : K * V) h0 h0' o o' :
    HashLaws keq hash → ht_new nb ms d = Some h0 → (0 < nb)%nat → N.of_nat ms + 1 < W32 →
    HashLaws keq hash' → ht_new nb' ms' d' = Some h0' → (0 < nb')%nat → N.of_nat ms' + 1 < W32 →
    let h := (history (ht_step keq hash) o h0).2 in let h' := (history (ht_step keq hash') o' h0').2 in
    alike (Forall no_iter) (ht_step keq hash) (ht_step keq hash') h h' ↔ ms = ms' ∧ ∀ k, ht_get keq hash h k = ht_get keq hash' h' k.
  Proof.
    intros HL Hnew Hnb Hw HL' Hnew' Hnb' Hw' h h'.
    destruct (ht_blind_from hash nb ms d h0 o HL Hnew Hnb Hw) as (l & Hd & Hg & Hr).
    destruct (ht_blind_from hash' nb' ms' d' h0' o' HL' Hnew' Hnb' Hw') as (l' & Hd' & Hg' & Hr'). fold h in Hg, Hr. fold h' in Hg', Hr'. split.
    - intros HA. split.
      + specialize (HA [HCapacity] ltac:(by repeat constructor)). destruct (Hr [HCapacity]) as [x Hx], (Hr' [HCapacity]) as [y Hy].
        rewrite (run_cap _ _ _ _ Hx), (run_cap _ _ _ _ Hy) in HA. injection HA as HA. lia.
      + intros k. rewrite Hg, Hg'. specialize (HA [HGet k] ltac:(by repeat constructor)). destruct (Hr [HGet k]) as [x Hx], (Hr' [HGet k]) as [y Hy].
        rewrite (run_get _ _ _ _ _ Hx), (run_get _ _ _ _ _ Hy) in HA. by injection HA as ->.
    - intros [<- Hs] os Ho. destruct (Hr os) as [x Hx], (Hr' os) as [y Hy]. eapply (blind_run keq hash HL); [exact Ho|exact Hd|exact Hd'| |exact Hx|exact Hy].
      intros k. specialize (Hs k). rewrite Hg, Hg' in Hs. by injection Hs.
  Qed.
End htb.

(** ** The deque *)
Section dq.
  Context `{Profile} {T : Type}.
  Notation sp cap := (dq_spec (T:=T) cap).
  Definition few (n : N) (o : list (dq_op T)) : Prop := overflow_checks = true → n + lengthN o < W64.
  (** What an iterator gives, without the slots *)
  Definition dq_values (d : deque T) (sc : list fb) : res (list (option T)) :=
    match dq_iterate sc d with Val l => Val (no_index l) | Err e => Err e end.
  Lemma hist_app_1 {S O A} (step : O → M S A) o1 o2 s : (history step (o1 ++ o2) s).1 = (history step o1 s).1 ++ (history step o2 (history step o1 s).2).1.
  Proof.
    revert s. induction o1 as [|o o1 IH]; intros s; [done|]. cbn [app history]. destruct (call (step o) s) as [r s1]. specialize (IH s1).
    destruct (history step (o1 ++ o2) s1), (history step o1 s1). cbn in *. by rewrite IH.
  Qed.
  Lemma hist_len {S O A} (step : O → M S A) o s : length (history step o s).1 = length o.
  Proof. revert s. induction o as [|x o IH]; intros s; [done|]. cbn [history]. destruct (call (step x) s) as [r s1]. specialize (IH s1). destruct (history step o s1). cbn in *. by rewrite IH. Qed.
  Lemma dq_from (ms : nat) (v : T) o1 : N.of_nat ms + 1 < W32 → few 0 o1 → let d := (history dq_step o1 (dq_new ms v)).2 in
    ∃ l, lengthN l ≤ N.of_nat ms ∧ (∀ sc, dq_values d sc = Val (de_spec sc l)) ∧
    ∀ o, few (lengthN o1) o → (history dq_step o d).1 = (spec_history (sp (N.of_nat ms)) o (l, 0)).1.
  Proof.
    intros Hw F d. destruct (dq_history_ok ms v o1 Hw F) as [H1 (_ & es & Ho & He)]. fold d in Ho.
    exists (spec_history (sp (N.of_nat ms)) o1 ([], 0)).2.1. split_and!.
    - rewrite <- He. destruct Ho as [Hh _ _]. apply CH_len_le in Hh. rewrite dseg_length in Hh. unfold lengthN in *. by rewrite fmap_length.
    - intros sc. unfold dq_values. rewrite (dq_iterate_ok _ _ _ sc Ho). f_equal. unfold no_index. rewrite <- He. apply de_spec_map.
    - intros o Fo. destruct (dq_history_ok ms v (o1 ++ o) Hw) as [H2 _]; [intros Hc; specialize (Fo Hc); by rewrite lengthN_app|].
      rewrite hist_app_1, sp_app in H2. cbn [fst] in H2. fold d in H2. apply app_inj_1 in H2 as [_ H2]; [|by rewrite hist_len, sp_len].
      rewrite H2. destruct (spec_history (sp (N.of_nat ms)) o1 ([], 0)).2 as [l n]. apply spec_counter.
  Qed.
  (** Pushes until the deque is full *)
  Lemma pushes_fit cap n v (l : list T) c : lengthN l + N.of_nat n ≤ cap → Err Panic ∉ (spec_history (sp cap) (replicate n (DPushBack v)) (l, c)).1.
  Proof.
    revert l c. induction n as [|n IH]; intros l c Hl; [apply not_elem_of_nil|]. cbn [replicate spec_history dq_spec]. rewrite decide_True by lia.
    specialize (IH (l ++ [v]) (c + 1)). destruct (spec_history _ _ _). cbn in *. intros [?|?]%elem_of_cons; [done|]. apply IH; [|done].
    rewrite lengthN_app. change (lengthN [v]) with 1. lia.
  Qed.
  Lemma pushes_full cap n v (l : list T) c : cap < lengthN l + N.of_nat n → lengthN l ≤ cap → Err Panic ∈ (spec_history (sp cap) (replicate n (DPushBack v)) (l, c)).1.
  Proof.
    revert l c. induction n as [|n IH]; intros l c Hl Hle; [lia|]. cbn [replicate spec_history dq_spec]. destruct (decide (lengthN l < cap)) as [Hlt|Hge].
    - specialize (IH (l ++ [v]) (c + 1)). destruct (spec_history _ _ _). cbn in *. apply elem_of_list_further, IH.
      all: rewrite lengthN_app; change (lengthN [v]) with 1; lia.
    - destruct (spec_history _ _ _). apply elem_of_list_here.
  Qed.
  Lemma cap_seen (cap cap' : N) (v : T) l P : lengthN l ≤ cap → cap < cap' → cap' < W32 →
    (∀ o, lengthN o < W32 → P o) → (∀ o, P o → (spec_history (sp cap) o (l, 0)).1 = (spec_history (sp cap') o (l, 0)).1) → False.
  Proof.
    intros Hl Hc Hw HP HA. set (n := (N.to_nat cap + 1 - length l)%nat). specialize (HA (replicate n (DPushBack v))).
    pose proof (pushes_full cap n v l 0) as H1. pose proof (pushes_fit cap' n v l 0) as H2. rewrite HA in H1.
    - apply H2, H1; unfold lengthN, n in *; lia.
    - apply HP. unfold lengthN, n. rewrite replicate_length. lia.
  Qed.
  Lemma dq_dq_fact (ms ms' : nat) (v0 v0' : T) o1 o1' :
    N.of_nat ms + 1 < W32 → N.of_nat ms' + 1 < W32 →
    (overflow_checks = true → lengthN o1 + W32 < W64) → (overflow_checks = true → lengthN o1' + W32 < W64) →
    let d := (history dq_step o1 (dq_new ms v0)).2 in let d' := (history dq_step o1' (dq_new ms' v0')).2 in
    alike (λ o, overflow_checks = true → lengthN o1 + lengthN o < W64 ∧ lengthN o1' + lengthN o < W64) dq_step dq_step d d' ↔
    ms = ms' ∧ same_read (dq_values d) (dq_values d').
  Proof.
    intros Hw Hw' F F' d d'.
    destruct (dq_from ms v0 o1 Hw) as (l & Hl & Hit & Ha); [intros Hc; specialize (F Hc); unfold W32, W64 in *; lia|].
    destruct (dq_from ms' v0' o1' Hw') as (l' & Hl' & Hit' & Ha'); [intros Hc; specialize (F' Hc); unfold W32, W64 in *; lia|].
    fold d in Hit, Ha. fold d' in Hit', Ha'.
    set (P := λ o : list (dq_op T), overflow_checks = true → lengthN o1 + lengthN o < W64 ∧ lengthN o1' + lengthN o < W64).
    assert (∀ o, P o → few (lengthN o1) o) as P1 by (intros o Ho Hc; by apply Ho).
    assert (∀ o, P o → few (lengthN o1') o) as P2 by (intros o Ho Hc; by apply Ho).
    assert (∀ o, lengthN o < W32 → P o) as P3 by (intros o Ho Hc; specialize (F Hc); specialize (F' Hc); lia).
    split.
    - intros HA. assert (same_read (dq_values d) (dq_values d')) as Hr.
      { intros n. assert (P [DIter (replicate n Fwd)]) as Hp by by apply P3. specialize (HA _ Hp). rewrite Ha, Ha' in HA by eauto. injection HA as HA.
        by rewrite Hit, Hit', HA. }
      split; [|done]. assert (l = l') as <-. { apply read_inj. intros n. specialize (Hr n). cbv beta. rewrite Hit, Hit' in Hr. by injection Hr. }
      assert (∀ o, P o → (spec_history (sp (N.of_nat ms)) o (l, 0)).1 = (spec_history (sp (N.of_nat ms')) o (l, 0)).1) as Hsp.
      { intros o Ho. rewrite <- Ha, <- Ha' by eauto. by apply HA. }
      destruct (N.lt_trichotomy (N.of_nat ms) (N.of_nat ms')) as [Hlt|[He|Hgt]]; [|lia|]; exfalso.
      + apply (cap_seen _ _ v0 l P Hl Hlt); [lia|done|done].
      + apply (cap_seen _ _ v0 l P Hl' Hgt); [lia|done|]. intros o Ho. symmetry. by apply Hsp.
    - intros [<- Hr] o Ho. assert (l = l') as <-; [|rewrite Ha, Ha' by eauto; done].
      apply read_inj. intros n. specialize (Hr n). cbv beta. rewrite Hit, Hit' in Hr. by injection Hr.
  Qed.
End dq.
