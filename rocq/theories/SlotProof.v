(** * The slot machine follows the containers *)
From Verif Require Export HashProof SlotGhost.

Section mach.
  Context {K V : Type} (same : K → K → bool) (hash : K → N) (HL : HashLaws same hash).
  Notation ents := (list (N * (K * V))).
  Implicit Types X L : ents.
  Implicit Types m : slots (K:=K) (V:=V).

  Definition sk (e : N * (K * V)) : N * K := (e.1, e.2.1).
  (** What one call does: [X] the slots in use, [L] the free list, [B] the lowest slot never used *)
  Inductive SR X L (B : N) : ents → ents → N → Prop :=
  | SR_same X' : map sk X' ≡ₚ map sk X → SR X L B X' L B
  | SR_new X' k : L = [] → map sk X' ≡ₚ (B, k) :: map sk X → SR X L B X' [] (B + 1)
  | SR_reuse X' k e L' : L = e :: L' → map sk X' ≡ₚ (e.1, k) :: map sk X → SR X L B X' L' B
  | SR_rem X' X0 e : X ≡ₚ e :: X0 → map sk X' ≡ₚ map sk X0 → SR X L B X' (e :: L) B.

  Definition MM m X L B : Prop := sl_addr m ≡ₚ map (λ e, (e.2.1, e.1)) X ∧ sl_left m = L ∧ sl_next m = B.
  Notation dk := (distinct_keys same).

  Lemma sk_perm X X' : map sk X' ≡ₚ map sk X → map (λ e, (e.2.1, e.1)) X' ≡ₚ map (λ e : N * (K * V), (e.2.1, e.1)) X.
  Proof using Type.
    intros Hp. apply (Permutation_map (λ p : N * K, (p.2, p.1))) in Hp. by rewrite !map_map in Hp.
  Qed.
  Lemma sk_keys X X' (x : K * V) : map sk X' ≡ₚ map sk X → x ∈ X.*2 → ∃ y, y ∈ X'.*2 ∧ y.1 = x.1.
  Proof using Type.
    intros Hp ([i kv] & -> & Hin)%elem_of_list_fmap. apply (elem_of_list_fmap_1 sk) in Hin.
    change (sk <$> X) with (map sk X) in Hin. rewrite <- Hp in Hin. apply elem_of_list_fmap in Hin as ([i' kv'] & Heq & Hin).
    exists kv'. split; [by apply (elem_of_list_fmap_1 snd) in Hin|]. unfold sk in Heq. simpl in *. congruence.
  Qed.
  Lemma has_true k (l : list (K * V)) : has same k l = true ↔ ∃ x, x ∈ l ∧ same x.1 k = true.
  Proof using Type.
    unfold has. rewrite existsb_exists. split; intros (x & Hx & Hs); exists x; (split; [by apply elem_of_list_In|done]).
  Qed.
  Lemma has_false k (l : list (K * V)) : (∀ x, x ∈ l → same x.1 k = false) → has same k l = false.
  Proof using Type. intros Hf. apply not_true_is_false. rewrite has_true. intros (x & Hx & Hs). rewrite (Hf x Hx) in Hs. done. Qed.
  Lemma filter_nil {A} (f : A → bool) l : (∀ x, x ∈ l → f x = false) → List.filter f l = [].
  Proof using Type.
    induction l as [|x l IH]; [done|]. intros Hf. simpl. rewrite (Hf x (elem_of_list_here _ _)). apply IH. intros y Hy. apply Hf. by apply elem_of_list_further.
  Qed.
  Lemma filter_perm' {A} (p : A → bool) (l l' : list A) : l ≡ₚ l' → List.filter p l ≡ₚ List.filter p l'.
  Proof using Type.
    induction 1 as [|x l l' Hp IH|x y l|l1 l2 l3 H1 IH1 H2 IH2]; simpl; [done|by destruct (p x); rewrite IH| |by rewrite IH1].
    destruct (p x), (p y); [constructor|done..].
  Qed.
  (** nothing in [l] is missing in [l'] *)
  Lemma none_gone X X' l l' : l ≡ₚ X.*2 → l' ≡ₚ X'.*2 → (∀ x, x ∈ X.*2 → ∃ y, y ∈ X'.*2 ∧ y.1 = x.1) →
    List.filter (λ kv : K * V, negb (has same kv.1 l')) l = [].
  Proof using HL.
    intros Hl Hl' Hk. apply filter_nil. intros x Hx. rewrite Hl in Hx. destruct (Hk x Hx) as (y & Hy & He).
    assert (has same x.1 l' = true) as ->; [|done]. apply has_true. exists y. rewrite Hl'. split; [done|]. rewrite He. apply (keq_refl _ _ HL).
  Qed.
  (** only [x] of [l] is missing in [l'] *)
  Lemma one_gone X0 X' x l l' : l ≡ₚ x :: X0.*2 → l' ≡ₚ X'.*2 → map sk X' ≡ₚ map sk X0 → dk l →
    List.filter (λ kv : K * V, negb (has same kv.1 l')) l = [x].
  Proof using HL.
    intros Hl Hl' Hk Hd. eapply (dk_perm _ _ HL) in Hd; [|exact Hl]. apply (dk_cons _ _ HL) in Hd as [Hd _]. rewrite Forall_forall in Hd.
    apply Permutation_length_1_inv. symmetry. rewrite (filter_perm' _ _ _ Hl). simpl.
    rewrite (has_false x.1 l'); simpl.
    - f_equiv. rewrite (none_gone X0 X'); [done|done|done|]. intros y Hy. by eapply sk_keys.
    - intros y Hy. rewrite Hl' in Hy. symmetry in Hk. destruct (sk_keys _ _ _ Hk Hy) as (z & Hz & He). rewrite <- He. by apply Hd.
  Qed.

  Lemma find_one {A} (f : A → bool) l p : p ∈ l → f p = true → (∀ q, q ∈ l → f q = true → q = p) → List.find f l = Some p.
  Proof using Type.
    induction l as [|x l IH]; intros Hin Hf Hu; [by apply elem_of_nil in Hin|]. simpl. destruct (f x) eqn:Ex.
    - f_equal. apply Hu; [apply elem_of_list_here|done].
    - apply elem_of_cons in Hin as [->|Hin]; [congruence|]. apply IH; [done|done|]. intros q Hq. apply Hu. by apply elem_of_list_further.
  Qed.
  Lemma find_none {A} (f : A → bool) l : (∀ x, x ∈ l → f x = false) → List.find f l = None.
  Proof using Type.
    induction l as [|x l IH]; [done|]. intros Hf. simpl. rewrite (Hf x (elem_of_list_here _ _)). apply IH. intros y Hy. apply Hf. by apply elem_of_list_further.
  Qed.
  Lemma slot_of_in m X L B i kv k : MM m X L B → dk X.*2 → (i, kv) ∈ X → same kv.1 k = true → slot_of same k m = i.
  Proof using HL.
    intros (Ha & _) Hd Hin Hs. unfold slot_of. rewrite (find_one _ _ (kv.1, i)); [done| |done|].
    - rewrite Ha. apply elem_of_list_fmap. by exists (i, kv).
    - intros q Hq Hsq. rewrite Ha in Hq. apply elem_of_list_fmap in Hq as ([j kv'] & -> & Hj). simpl in *.
      apply elem_of_Permutation in Hin as [X0 HX]. rewrite HX in Hj. apply elem_of_cons in Hj as [Hj|Hj]; [by injection Hj as -> ->|].
      exfalso. assert (X.*2 ≡ₚ kv :: X0.*2) as Hp by (by rewrite HX). eapply (dk_perm _ _ HL) in Hd; [|exact Hp].
      apply (dk_cons _ _ HL) in Hd as [Hd _]. rewrite Forall_forall in Hd. specialize (Hd kv' (elem_of_list_fmap_1 snd _ _ Hj)).
      rewrite (keq_trans _ _ HL kv'.1 k kv.1) in Hd; [done|done|]. by rewrite (keq_sym _ _ HL).
  Qed.
  Lemma slot_of_none m X L B k : MM m X L B → Forall (λ e, same e.2.1 k = false) X → slot_of same k m = SENTINEL.
  Proof using Type.
    intros (Ha & _) Hf. unfold slot_of. rewrite find_none; [done|]. intros q Hq. rewrite Ha in Hq.
    apply elem_of_list_fmap in Hq as ([j kv'] & -> & Hj). rewrite Forall_forall in Hf. by apply (Hf _ Hj).
  Qed.

  Lemma filter_all {A} (f : A → bool) l : (∀ x, x ∈ l → f x = true) → List.filter f l = l.
  Proof using Type.
    induction l as [|x l IH]; [done|]. intros Hf. simpl. rewrite (Hf x (elem_of_list_here _ _)). f_equal. apply IH. intros y Hy. apply Hf. by apply elem_of_list_further.
  Qed.

  Lemma sk_split X X' i k : map sk X' ≡ₚ (i, k) :: map sk X → ∃ v X0, X' ≡ₚ (i, (k, v)) :: X0 ∧ map sk X0 ≡ₚ map sk X.
  Proof using Type.
    intros Hp. assert ((i, k) ∈ map sk X') as Hin by (rewrite Hp; apply elem_of_list_here).
    apply elem_of_list_fmap in Hin as ([i' [k' v]] & [= <- <-] & Hin). apply elem_of_Permutation in Hin as [X0 HX].
    exists v, X0. split; [done|]. rewrite HX in Hp. simpl in Hp. by apply Permutation_cons_inv in Hp.
  Qed.
  Lemma new_keys X X' i k : map sk X' ≡ₚ (i, k) :: map sk X → ∀ x, x ∈ X.*2 → ∃ y, y ∈ X'.*2 ∧ y.1 = x.1.
  Proof using Type.
    intros (v & X0 & HX & Hk)%sk_split x Hx. destruct (sk_keys _ _ _ Hk Hx) as (y & Hy & He). exists y. split; [|done].
    rewrite HX. by apply elem_of_list_further.
  Qed.

  Lemma MM_step m X L B X' L' B' l l' :
    MM m X L B → SR X L B X' L' B' → l ≡ₚ X.*2 → l' ≡ₚ X'.*2 → dk X.*2 → dk X'.*2 → MM (slots_step same m l l') X' L' B'.
  Proof using HL.
    intros (Ha & Hle & Hn) HR Hl Hl' Hd Hd'. unfold slots_step.
    destruct HR as [X' Hk|X' k -> Hk|X' k e L' -> Hk|X' X0 e HX Hk].
    - rewrite (none_gone X X'), (none_gone X' X); [|done|done|intros x; by apply sk_keys|done|done|intros x; by apply sk_keys].
      simpl. split_and!; [|done|done]. rewrite Ha. symmetry. by apply sk_perm.
    - rewrite (none_gone X X'); [|done|done|by eapply new_keys]. destruct (sk_split _ _ _ _ Hk) as (v & X0 & HX & Hk0).
      rewrite (one_gone X0 X (k, v)); [|by rewrite Hl', HX|done|done|by eapply (dk_perm _ _ HL); [|exact Hd']].
      simpl. unfold take_slot. rewrite Hle. split_and!; simpl; [|done|by rewrite Hn].
      rewrite HX. simpl. rewrite Hn. f_equiv. rewrite Ha. symmetry. by apply sk_perm.
    - rewrite (none_gone X X'); [|done|done|by eapply new_keys]. destruct (sk_split _ _ _ _ Hk) as (v & X0 & HX & Hk0).
      rewrite (one_gone X0 X (k, v)); [|by rewrite Hl', HX|done|done|by eapply (dk_perm _ _ HL); [|exact Hd']].
      simpl. unfold take_slot. rewrite Hle. destruct e as [i w]. split_and!; simpl; [|done|done].
      rewrite HX. simpl. f_equiv. rewrite Ha. symmetry. by apply sk_perm.
    - destruct e as [i kv]. rewrite (one_gone X0 X' kv); [|by rewrite Hl, HX|done|done|by eapply (dk_perm _ _ HL); [|exact Hd]].
      rewrite (none_gone X' X); [|done|done|].
      2:{ intros x Hx. symmetry in Hk. destruct (sk_keys _ _ _ Hk Hx) as (y & Hy & He). exists y. split; [|done].
          rewrite HX. by apply elem_of_list_further. }
      simpl. unfold give_back.
      assert (slot_of same kv.1 m = i) as Hslot.
      { eapply (slot_of_in m X L B i kv); [by split_and!|done|rewrite HX; apply elem_of_list_here|apply (keq_refl _ _ HL)]. }
      split_and!; simpl; [|by rewrite Hslot, Hle|done].
      rewrite (filter_perm' _ _ _ Ha). rewrite (filter_perm' _ _ _ (Permutation_map (λ e : N * (K * V), (e.2.1, e.1)) HX)). simpl.
      rewrite (keq_refl _ _ HL). simpl. rewrite filter_all; [symmetry; by apply sk_perm|].
      intros q ([j kv'] & -> & Hj)%elem_of_list_fmap. simpl.
      assert (X.*2 ≡ₚ kv :: X0.*2) as Hp by (by rewrite HX). eapply (dk_perm _ _ HL) in Hd; [|exact Hp].
      apply (dk_cons _ _ HL) in Hd as [Hd _]. rewrite Forall_forall in Hd. by rewrite (Hd kv' (elem_of_list_fmap_1 snd _ _ Hj)).
  Qed.

  Lemma slots_run_snoc m l ls l' :
    slots_run same m l (ls ++ [l']) = slots_step same (slots_run same m l ls) (List.last ls l) l'.
  Proof using Type.
    revert m l. induction ls as [|x ls IH]; intros m l; simpl; [done|]. rewrite IH. f_equal. destruct ls as [|y ls]; [done|].
    clear. revert y. induction ls as [|z ls IH]; intros y; simpl; [done|]. simpl in IH. by rewrite IH.
  Qed.

  Lemma lengthN_cons {A} (x : A) l : lengthN (x :: l) = lengthN l + 1.
  Proof using Type. unfold lengthN. simpl. lia. Qed.
  Lemma lengthN_perm {A} (l l' : list A) : l ≡ₚ l' → lengthN l = lengthN l'.
  Proof using Type. intros Hp. unfold lengthN. by rewrite Hp. Qed.
  Lemma peak_snoc {A} (ls : list (list A)) l : peak (ls ++ [l]) = N.max (peak ls) (lengthN l).
  Proof using Type. unfold peak. induction ls as [|x ls IH]; simpl; [lia|]. rewrite IH. lia. Qed.
  Lemma SR_peak X L B X' L' B' l' (p : N) :
    SR X L B X' L' B' → l' ≡ₚ X'.*2 → B = 1 + lengthN X + lengthN L → B = 1 + p → B' = 1 + N.max p (lengthN l').
  Proof using Type.
    intros HR Hl HB Hp. apply lengthN_perm in Hl. unfold lengthN in *. rewrite fmap_length in Hl.
    assert (∀ Y Y' : ents, map sk Y ≡ₚ map sk Y' → length Y = length Y') as Hlen.
    { intros Y Y' HY. apply Permutation_length in HY. by rewrite !map_length in HY. }
    destruct HR as [X' Hk|X' k -> Hk|X' k e L' -> Hk|X' X0 e HX Hk].
    - apply Hlen in Hk. lia.
    - apply Permutation_length in Hk. simpl in *. rewrite !map_length in Hk. lia.
    - apply Permutation_length in Hk. simpl in *. rewrite !map_length in Hk. lia.
    - apply Hlen in Hk. apply Permutation_length in HX. simpl in *. lia.
  Qed.

  (** *** The whole history *)
  Section hist.
    Context {S O : Type} (after : list O → S) (nxt : S → O → S) (ok : O → Prop) (holds : list O → list (K * V) → Prop)
      (SI : ents → N → S → ents → Prop).
    Context (Hsn : ∀ o x, after (o ++ [x]) = nxt (after o) x) (Hnil : SI [] 1 (after []) [])
      (Hstep : ∀ L B s X x, ok x → SI L B s X → ∃ X' L' B', SI L' B' (nxt s x) X' ∧ SR X L B X' L' B')
      (Hcont : ∀ o l L B X, holds o l → SI L B (after o) X → l ≡ₚ X.*2)
      (Hdist : ∀ L B s X, SI L B s X → dk X.*2)
      (Hcnt : ∀ L B s X, SI L B s X → B = 1 + lengthN X + lengthN L).
    Lemma slots_follow o ls :
      Forall ok o → trace holds o ls →
      ∃ X L B, SI L B (after o) X ∧ MM (slots_after same ls) X L B ∧ List.last ls [] ≡ₚ X.*2 ∧ B = 1 + peak ls.
    Proof using HL Hsn Hnil Hstep Hcont Hdist Hcnt.
      revert ls. induction o as [|x o IH] using rev_ind; intros ls Hok [Hlen Htr].
      { destruct ls; [|done]. exists [], [], 1. by split_and!. }
      apply Forall_app in Hok as [Hok Hx]. apply Forall_cons in Hx as [Hx _]. rewrite app_length in Hlen. simpl in Hlen.
      destruct (unsnoc ls) as [[ls0 l']|] eqn:E; [|apply unsnoc_None in E as ->; simpl in Hlen; lia].
      apply unsnoc_Some in E as ->. rewrite app_length in Hlen. simpl in Hlen.
      destruct (IH ls0 Hok) as (X & L & B & HS & HM & Hl & HB).
      { split; [lia|]. intros n l Hn. pose proof (lookup_lt_Some _ _ _ Hn). rewrite <- (take_app_le o [x]) by lia.
        apply Htr. by apply lookup_app_l_Some. }
      destruct (Hstep _ _ _ _ x Hx HS) as (X' & L' & B' & HS' & HR). rewrite <- Hsn in HS'.
      assert (holds (o ++ [x]) l') as Hh.
      { specialize (Htr (length ls0) l'). rewrite take_ge in Htr; [|rewrite app_length; simpl; lia].
        apply Htr. by rewrite lookup_app_r, Nat.sub_diag. }
      pose proof (Hcont _ _ _ _ _ Hh HS') as Hl'. exists X', L', B'. split_and!; [done| |by rewrite last_last|].
      2:{ rewrite peak_snoc. eapply SR_peak; [exact HR|exact Hl'|by eapply Hcnt|exact HB]. }
      unfold slots_after. rewrite slots_run_snoc. eapply MM_step; [exact HM|exact HR|exact Hl|exact Hl'|by eapply Hdist|by eapply Hdist].
    Qed.
  End hist.

End mach.

Lemma hist_snoc {S O A} (step : O → M S A) os o s : (history step (os ++ [o]) s).2 = (call (step o) (history step os s).2).2.
Proof.
  revert s. induction os as [|o' os IH]; intros s; simpl.
  - by destruct (call (step o) s).
  - destruct (call (step o') s) as [r s1]. specialize (IH s1). destruct (history step (os ++ [o]) s1), (history step os s1). exact IH.
Qed.
Lemma trace_exists {O A} (holds : list O → list A → Prop) : (∀ o, ∃ l, holds o l) → ∀ o, ∃ ls, trace holds o ls.
Proof.
  intros Hh o. induction o as [|x o (ls & Hn & Ht)] using rev_ind; [by exists []|].
  destruct (Hh (o ++ [x])) as (l & Hl). exists (ls ++ [l]). split; [rewrite !app_length; simpl; lia|].
  intros n l' Hl'. apply lookup_app_Some in Hl' as [Hl'|[Hn' Hl']].
  - pose proof (lookup_lt_Some _ _ _ Hl') as Hlt. rewrite take_app_le by lia. by apply Ht.
  - apply list_lookup_singleton_Some in Hl' as [Hz <-]. rewrite take_ge by (rewrite app_length; simpl; lia). done.
Qed.
