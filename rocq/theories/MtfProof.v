(** * Rounds of the lookups of the HashTable, exactly; move-to-front against every fixed order *)
From Verif Require Import OrderProof CostHt.
From Verif Require Export MtfSpec CostModel.

Local Open Scope nat_scope.

(** ** Exact rounds *)
Section exact.
  Context `{Profile} {K V : Type} (keq : K → K → bool) (hash : K → N) (cap : N).
  Implicit Types h : htable K V.
  Notation CK := (HOK (λ _ _ : K, false) hash cap).
  Notation pairs := (map (map (@snd N (K * V)))).
  Notation out := (Err OutOfFuel).

  Lemma looks_split k c : match hb_split keq k c with Some (c1, _, _) => looks (V := V) keq k c = S (length c1) | None => looks keq k c = S (length c) end.
  Proof.
    induction c as [|x c IH]; [done|]. cbn [hb_split looks]. destruct (keq x.1 k); [done|]. destruct (hb_split keq k c) as [[[c1 y] c2]|]; cbn [length]; by rewrite IH.
  Qed.

  Lemma enough h bs b k es1 es2 f : CK h bs → bs !! b = Some (es1 ++ es2) → looks keq k es2.*2 ≤ f → ∃ x, ht_get_addr_loop keq f h k (fst0 0%N es2) = Val x.
  Proof.
    intros Hok. revert es1 f. induction es2 as [|[j kv] es2 IH]; intros es1 f Hb Hf.
    - destruct f; [cbn in Hf; lia|]. by eexists.
    - rewrite fmap_cons in Hf. cbn [looks snd] in Hf. destruct f as [|f]; [destruct (keq kv.1 k); lia|].
      destruct (ht_read _ _ _ _ _ _ _ _ _ _ Hok Hb) as (Hnz & Hn & Hnx & _).
      cbn [ht_get_addr_loop fst0]. rewrite decide_False by done. rewrite Hn. cbn [mbind res_bind]. destruct (keq kv.1 k); [by eexists|].
      rewrite Hnx. cbn [mbind res_bind]. eapply (IH (es1 ++ [(j, kv)])); [by rewrite <- app_assoc|lia].
  Qed.
  Lemma short h bs b k es1 es2 f : CK h bs → bs !! b = Some (es1 ++ es2) → f < looks keq k es2.*2 →
    ht_get_loop keq f h k (fst0 0%N es2) = out ∧ ht_contains_loop keq f h k (fst0 0%N es2) = out ∧ ht_get_addr_loop keq f h k (fst0 0%N es2) = out ∧
    (∀ g i hd, ht_get_mut_loop keq f k g i hd (fst0 0%N es2) h = Fail OutOfFuel h) ∧
    (∀ v i hd, ht_insert_loop keq f k v i hd (fst0 0%N es2) h = Fail OutOfFuel h) ∧
    (∀ i hd, ht_remove_loop keq f k i hd (fst0 0%N es2) h = Fail OutOfFuel h).
  Proof.
    intros Hok. revert es1 es2. induction f as [|f IH]; intros es1 es2 Hb Hf; [done|].
    destruct es2 as [|[j kv] es2]; [cbn in Hf; lia|]. rewrite fmap_cons in Hf. cbn [looks snd] in Hf.
    destruct (keq kv.1 k) eqn:Ek; [lia|]. destruct (ht_read _ _ _ _ _ _ _ _ _ _ Hok Hb) as (Hnz & Hn & Hnx & _).
    destruct (IH (es1 ++ [(j, kv)]) es2) as (H1 & H2 & H3 & H4 & H5 & H6); [by rewrite <- app_assoc|lia|].
    cbn [fst0]. split_and!; intros; cbn [ht_get_loop ht_contains_loop ht_get_addr_loop ht_get_mut_loop ht_insert_loop ht_remove_loop];
      rewrite decide_False by done.
    1-3: rewrite Hn; cbn [mbind res_bind]; rewrite Ek, Hnx; cbn [mbind res_bind]; done.
    all: unfold mbind, M_bind, gets; rewrite Hn, Ek, Hnx; done.
  Qed.

  Lemma rounds_ok h bs k n : CK h bs → looks_in keq hash (pairs bs) k ≤ n →
    htn_get keq hash n h k = ht_get keq hash h k ∧ htn_contains keq hash n h k = ht_contains keq hash h k ∧
    htn_get_addr keq hash n h k = ht_get_addr keq hash h k ∧ (∀ f, htn_get_mut keq hash n k f h = ht_get_mut keq hash k f h) ∧
    (∀ v, htn_insert keq hash n k v h = ht_insert keq hash k v h) ∧ htn_remove keq hash n k h = ht_remove keq hash k h.
  Proof.
    intros Hok Hn. destruct (bk_chain _ _ _ _ _ k Hok) as [es Hb]. unfold looks_in in Hn. rewrite (pairs_chain _ _ _ _ Hb) in Hn.
    pose proof (HOK_chain_len _ _ _ _ _ _ _ Hok Hb) as Hfu.
    assert (looks keq k es.*2 ≤ S (length es)) as Hle.
    { clear. induction es as [|e es IH]; [done|]. rewrite fmap_cons. cbn [looks length]. destruct (keq _ k); lia. }
    pose proof (ht_bucket_index_ok _ _ _ _ _ k Hok) as Hbi. pose proof (ht_bucket_ok _ _ _ _ _ _ _ Hok Hb) as Hbk.
    destruct (enough h bs (bk hash bs k) k [] es (Nat.min n (ht_fuel h)) Hok Hb) as [x Hx]; [unfold ht_fuel; lia|].
    assert (Nat.min n (ht_fuel h) ≤ ht_fuel h) as Hm by lia.
    split_and!.
    - unfold htn_get, ht_get. rewrite Hbi. cbn [mbind res_bind]. rewrite Hbk. cbn [mbind res_bind]. by eapply hget_along.
    - unfold htn_contains, ht_contains. rewrite Hbi. cbn [mbind res_bind]. rewrite Hbk. cbn [mbind res_bind]. by eapply hcontains_along.
    - unfold htn_get_addr, ht_get_addr. rewrite Hbi. cbn [mbind res_bind]. rewrite Hbk. cbn [mbind res_bind]. by eapply haddr_along.
    - intros f. unfold htn_get_mut, ht_get_mut. apply hbind_ext; [done|]. intros b s [Hb' ->]%hgets_inv. rewrite Hbi in Hb'. injection Hb' as <-.
      apply hbind_ext; [done|]. intros hd s [Hb' ->]%hgets_inv. rewrite Hbk in Hb'. injection Hb' as <-.
      apply hbind_ext; [done|]. intros t' s' [= <- <-]. by eapply hget_mut_along.
    - intros f. unfold htn_insert, ht_insert. apply hbind_ext; [done|]. intros b s [Hb' ->]%hgets_inv. rewrite Hbi in Hb'. injection Hb' as <-.
      apply hbind_ext; [done|]. intros hd s [Hb' ->]%hgets_inv. rewrite Hbk in Hb'. injection Hb' as <-.
      apply hbind_ext; [done|]. intros t' s' [= <- <-]. by eapply hinsert_along.
    - unfold htn_remove, ht_remove. apply hbind_ext; [done|]. intros b s [Hb' ->]%hgets_inv. rewrite Hbi in Hb'. injection Hb' as <-.
      apply hbind_ext; [done|]. intros hd s [Hb' ->]%hgets_inv. rewrite Hbk in Hb'. injection Hb' as <-.
      apply hbind_ext; [done|]. intros t' s' [= <- <-]. by eapply hremove_along.
  Qed.
  Lemma rounds_short h bs k n : CK h bs → n < looks_in keq hash (pairs bs) k →
    htn_get keq hash n h k = out ∧ htn_contains keq hash n h k = out ∧ htn_get_addr keq hash n h k = out ∧
    (∀ f, htn_get_mut keq hash n k f h = Fail OutOfFuel h) ∧ (∀ v, htn_insert keq hash n k v h = Fail OutOfFuel h) ∧
    htn_remove keq hash n k h = Fail OutOfFuel h.
  Proof.
    intros Hok Hn. destruct (bk_chain _ _ _ _ _ k Hok) as [es Hb]. unfold looks_in in Hn. rewrite (pairs_chain _ _ _ _ Hb) in Hn.
    pose proof (ht_bucket_index_ok _ _ _ _ _ k Hok) as Hbi. pose proof (ht_bucket_ok _ _ _ _ _ _ _ Hok Hb) as Hbk.
    destruct (short h bs (bk hash bs k) k [] es (Nat.min n (ht_fuel h)) Hok Hb) as (H1 & H2 & H3 & H4 & H5 & H6); [lia|].
    split_and!.
    - unfold htn_get. rewrite Hbi. cbn [mbind res_bind]. rewrite Hbk. done.
    - unfold htn_contains. rewrite Hbi. cbn [mbind res_bind]. rewrite Hbk. done.
    - unfold htn_get_addr. rewrite Hbi. cbn [mbind res_bind]. rewrite Hbk. done.
    - intros f. unfold htn_get_mut, mbind, M_bind, gets. rewrite Hbi, Hbk. apply H4.
    - intros f. unfold htn_insert, mbind, M_bind, gets. rewrite Hbi, Hbk. apply H5.
    - unfold htn_remove, mbind, M_bind, gets. rewrite Hbi, Hbk. apply H6.
  Qed.
  Lemma get_mut_chains h bs k f : CK h bs →
    ∃ bs' v, CK (call (ht_get_mut keq hash k f) h).2 bs' ∧ pairs bs' = hb_get_mut keq hash (pairs bs) k f ∧ (call (ht_get_mut keq hash k f) h).1 = Val v.
  Proof.
    intros Hok. unfold hb_get_mut. destruct (where_is_ok keq hash cap h bs k Hok) as [es1 i kv es2 Hb Hk Hf|es Hb Hf].
    - rewrite (get_first _ _ _ _ _ _ _ _ Hb Hk Hf).
      destruct (wp_elim _ _ _ (get_mut_first _ _ _ _ _ k f _ _ _ _ Hok Hb Hk Hf)) as (o & h' & He & -> & Hok').
      unfold call. rewrite He. do 2 eexists. split; [exact Hok'|]. split; [|done]. by rewrite <- pairs_put, fmap_cons, fmap_app.
    - rewrite (get_nowhere _ _ _ _ _ Hb Hf). unfold call. rewrite (get_mut_nowhere _ _ _ _ _ k f _ Hok Hb Hf). by exists bs, None.
  Qed.
End exact.

(** ** Inversions *)
Section inversions.
  Context {A : Type} (r : A → nat).
  Definition below (x : A) (l : list A) : nat := length (filter (λ y, r y < r x) l).
  Definition above (x : A) (l : list A) : nat := length (filter (λ y, r x < r y) l).
  Fixpoint inv (l : list A) : nat := match l with [] => 0 | x :: l => below x l + inv l end.
  Lemma below_app x l1 l2 : below x (l1 ++ l2) = below x l1 + below x l2.
  Proof. unfold below. by rewrite filter_app, app_length. Qed.
  Lemma inv_mid l1 x l2 : inv (l1 ++ x :: l2) = inv (l1 ++ l2) + above x l1 + below x l2.
  Proof.
    induction l1 as [|y l1 IH]; cbn [app inv]; [unfold above; cbn; lia|]. rewrite IH, !below_app.
    assert (below y (x :: l2) = below y l2 + (if decide (r x < r y) then 1 else 0)) as ->.
    { unfold below. rewrite filter_cons. destruct (decide (r x < r y)); cbn [length]; lia. }
    assert (above x (y :: l1) = above x l1 + (if decide (r x < r y) then 1 else 0)) as ->.
    { unfold above. rewrite filter_cons. destruct (decide (r x < r y)); cbn [length]; lia. }
    lia.
  Qed.
  Lemma inv_front l1 x l2 : Forall (λ y, r y ≠ r x) l1 → length l1 + inv (x :: l1 ++ l2) = 2 * below x l1 + inv (l1 ++ x :: l2).
  Proof.
    intros Hf. rewrite inv_mid. cbn [inv]. rewrite below_app.
    enough (length l1 = below x l1 + above x l1) by lia.
    induction Hf as [|y l1 Hy _ IH]; [done|]. unfold below, above in *. rewrite !filter_cons. cbn [length].
    destruct (decide (r y < r x)), (decide (r x < r y)); cbn [length]; lia.
  Qed.
  Lemma below_len x l : below x l ≤ length l.
  Proof. apply filter_length. Qed.
  Lemma inv_bound l : inv l ≤ length l * (length l - 1) / 2.
  Proof.
    apply Nat.div_le_lower_bound; [done|]. induction l as [|x l IH]; [done|]. cbn [inv length]. pose proof (below_len x l). nia.
  Qed.
  Lemma below_rank x l : NoDup (map r l) → Forall (λ y, 1 ≤ r y) l → below x l ≤ r x - 1.
  Proof.
    intros Hnd Hf. unfold below. rewrite <- (map_length r). rewrite <- (seq_length (r x - 1) 1).
    apply NoDup_incl_length.
    - apply NoDup_ListNoDup. clear Hf. induction l as [|y l IH]; [constructor|]. cbn [map] in Hnd. apply NoDup_cons in Hnd as [Hn Hnd].
      rewrite filter_cons. destruct (decide (r y < r x)); [|by apply IH]. cbn [map]. apply NoDup_cons. split; [|by apply IH].
      intros Hin. apply Hn. apply elem_of_list_In in Hin. apply in_map_iff in Hin as (z & Hz & Hin). apply elem_of_list_In.
      apply in_map_iff. exists z. split; [done|]. apply elem_of_list_In in Hin. apply elem_of_list_filter in Hin as [_ Hin]. by apply elem_of_list_In.
    - intros z Hz. apply in_map_iff in Hz as (y & <- & Hin). apply elem_of_list_In, elem_of_list_filter in Hin as [Hlt Hin].
      rewrite Forall_forall in Hf. specialize (Hf y Hin). apply in_seq. lia.
  Qed.
End inversions.

(** ** One chain *)
Section chain.
  Context {K V : Type} (keq : K → K → bool) (hash : K → N) (HL : HashLaws keq hash).
  Implicit Types c : list (K * V).
  Definition lk (ks : list K) (k : K) : nat := looks keq k (map (λ x, (x, ())) ks).

  Lemma looks_keys k c : looks keq k c = lk c.*1 k.
  Proof. unfold lk. induction c as [|x c IH]; [done|]. rewrite fmap_cons. cbn [map looks fst]. by rewrite IH. Qed.
  Lemma lk_pos ks k : 1 ≤ lk ks k.
  Proof. unfold lk. destruct ks as [|x ks]; cbn [map looks fst]; [done|]. destruct (keq x k); lia. Qed.
  Lemma lk_same ks a b : keq a b = true → lk ks a = lk ks b.
  Proof using HL.
    unfold lk.
    intros He. induction ks as [|x ks IH]; [done|]. cbn [map looks fst].
    assert (keq x a = keq x b) as ->; [|by rewrite IH]. destruct (keq x a) eqn:E.
    - symmetry. by eapply (keq_trans _ _ HL).
    - destruct (keq x b) eqn:E2; [|done]. rewrite <- E. eapply (keq_trans _ _ HL); [exact E2|]. by rewrite (keq_sym _ _ HL).
  Qed.
  Lemma lk_inj ks a b : a ∈ ks → b ∈ ks → lk ks a = lk ks b → keq a b = true.
  Proof using HL.
    unfold lk. induction ks as [|x ks IH]; [by intros ?%elem_of_nil|]. intros Ha Hb. cbn [map looks fst].
    pose proof (lk_pos ks a). pose proof (lk_pos ks b). unfold lk in *.
    destruct (keq x a) eqn:Ea, (keq x b) eqn:Eb; intros He.
    - eapply (keq_trans _ _ HL); [|exact Eb]. by rewrite (keq_sym _ _ HL).
    - lia.
    - lia.
    - apply elem_of_cons in Ha as [->|Ha]; [by rewrite (keq_refl _ _ HL) in Ea|]. apply elem_of_cons in Hb as [->|Hb]; [by rewrite (keq_refl _ _ HL) in Eb|].
      apply IH; [done|done|lia].
  Qed.
  Lemma lk_absent ks k : Forall (λ x, keq x k = false) ks → lk ks k = S (length ks).
  Proof. unfold lk. induction 1 as [|x ks Hx _ IH]; [done|]. cbn [map looks fst length]. by rewrite Hx, IH. Qed.

  (** The pairs in an order other than that of [c'] *)
  Definition phi c c' : nat := inv (lk c'.*1) c.*1.
  Lemma split_keys k c c1 x c2 : hb_split keq k c = Some (c1, x, c2) → c = c1 ++ x :: c2 ∧ keq x.1 k = true.
  Proof.
    revert c1. induction c as [|y c IH]; intros c1; cbn [hb_split]; [done|]. destruct (keq y.1 k) eqn:E; [by intros [= <- <- <-]|].
    destruct (hb_split keq k c) as [[[c3 z] c4]|]; [|done]. intros [= <- <- <-]. destruct (IH c3 eq_refl) as [-> ?]. done.
  Qed.
  Lemma split_absent k c : hb_split keq k c = None → Forall (λ x, keq x k = false) c.*1.
  Proof.
    induction c as [|y c IH]; cbn [hb_split]; [constructor|]. destruct (keq y.1 k) eqn:E; [done|].
    destruct (hb_split keq k c) as [[[c3 z] c4]|]; [done|]. intros _. rewrite fmap_cons. constructor; [done|]. by apply IH.
  Qed.
  Lemma ranks_nodup ks ks' : ForallOrdPairs (λ x y, keq x y = false) ks → (∀ x, x ∈ ks → x ∈ ks') → NoDup (map (lk ks') ks).
  Proof using HL.
    induction 1 as [|x ks Hx _ IH]; intros Hin; [constructor|]. cbn [map]. apply NoDup_cons. split.
    - intros (y & He & Hy)%elem_of_list_In%in_map_iff. apply elem_of_list_In in Hy. rewrite Forall_forall in Hx. specialize (Hx y Hy).
      assert (keq y x = true) as Ht by (apply (lk_inj ks'); [apply Hin; by right|apply Hin; by left|done]).
      rewrite (keq_sym _ _ HL) in Ht. congruence.
    - apply IH. intros y Hy. apply Hin. by right.
  Qed.
  Lemma dk_ks c : distinct_keys keq c → ForallOrdPairs (λ x y, keq x y = false) c.*1.
  Proof. unfold distinct_keys. induction 1 as [|x c Hx _ IH]; [constructor|]. rewrite fmap_cons. constructor; [|done]. by apply Forall_fmap. Qed.
  Lemma FOP_app_l {A} (R : A → A → Prop) l1 l2 : ForallOrdPairs R (l1 ++ l2) → ForallOrdPairs R l1.
  Proof. induction l1 as [|x l1 IH]; [constructor|]. cbn. inversion 1 as [|? ? H1 H2]; subst. apply Forall_app in H1 as [H1 _]. constructor; [done|by apply IH]. Qed.
  Lemma FOP_mid {A} (R : A → A → Prop) l1 x l2 : ForallOrdPairs R (l1 ++ x :: l2) → Forall (λ y, R y x) l1.
  Proof.
    induction l1 as [|y l1 IH]; [constructor|]. cbn. inversion 1 as [|? ? H1 H2]; subst. apply Forall_app in H1 as [_ H1]. apply Forall_cons in H1 as [H1 _].
    constructor; [done|by apply IH].
  Qed.

  Lemma chain_step k f c c' : distinct_keys keq c → c.*1 ≡ₚ c'.*1 →
    match hb_split keq k c with
    | Some (c1, x, c2) => looks keq k c + phi ((x.1, f x.2) :: c1 ++ c2) c' ≤ 2 * looks keq k c' + phi c c'
    | None => looks keq k c = looks keq k c'
    end.
  Proof using HL.
    intros Hd Hp. pose proof (looks_split keq k c) as Hlk. destruct (hb_split keq k c) as [[[c1 x] c2]|] eqn:Es.
    - apply split_keys in Es as [-> Hk]. apply dk_ks in Hd. unfold phi. rewrite Hlk. rewrite fmap_cons, !fmap_app, fmap_cons in *. cbn [fst].
      set (ks' := c'.*1) in *. set (k1 := c1.*1) in *. set (k2 := c2.*1) in *.
      assert (∀ y, y ∈ k1 ++ x.1 :: k2 → y ∈ ks') as Hin by (intros y; by rewrite Hp).
      pose proof (ranks_nodup _ _ Hd Hin) as Hnd. rewrite map_app in Hnd. apply NoDup_app in Hnd as (Hnd1 & Hnd2 & _).
      pose proof (inv_front (lk ks') k1 x.1 k2) as Hi.
      assert (Forall (λ y, lk ks' y ≠ lk ks' x.1) k1) as Hne.
      { apply Forall_forall. intros y Hy He. apply (Hnd2 (lk ks' y)); [apply elem_of_list_In; by apply (in_map (lk ks')), elem_of_list_In|]. rewrite He. cbn [map]. by apply elem_of_list_here. }
      specialize (Hi Hne). assert (below (lk ks') x.1 k1 ≤ lk ks' x.1 - 1) as Hb.
      { apply below_rank; [done|]. apply Forall_forall. intros y _. apply lk_pos. }
      pose proof (lk_pos ks' x.1). rewrite (looks_keys k c'). fold ks'. rewrite <- (lk_same ks' x.1 k Hk). cbn beta in *.
      assert (length k1 = length c1) by apply fmap_length. lia.
    - apply split_absent in Es. rewrite Hlk, (looks_keys k c'), lk_absent by (by rewrite <- Hp). rewrite <- Hp. by rewrite fmap_length.
  Qed.
  Lemma phi_bound c c' : phi c c' ≤ length c * (length c - 1) / 2.
  Proof. unfold phi. rewrite <- (fmap_length fst c). apply inv_bound. Qed.
End chain.

(** ** A table *)
Section table.
  Context {K V : Type} (keq : K → K → bool) (hash : K → N) (HL : HashLaws keq hash).
  Implicit Types T : list (list (K * V)).
  Definition Phi T T' : nat := sum_list (zip_with (phi keq) T T').

  Lemma Phi_insert T T' i c d c' : T !! i = Some c → T' !! i = Some c' → Phi (<[i := d]> T) T' + phi keq c c' = Phi T T' + phi keq d c'.
  Proof.
    unfold Phi. revert T' i. induction T as [|e T IH]; intros [|e' T'] [|i] H1 H2; try done.
    - injection H1 as ->. injection H2 as ->. cbn. lia.
    - cbn in H1, H2. specialize (IH T' i H1 H2). cbn [zip_with insert list_insert sum_list sum_list_with id] in *. unfold id, insert in *. lia.
  Qed.
  Lemma Phi_bound T T' : Phi T T' ≤ sharing T.
  Proof.
    unfold Phi, sharing. revert T'. induction T as [|c T IH]; intros [|c' T']; cbn [zip_with map sum_list sum_list_with id]; [done|done|lia|].
    specialize (IH T'). pose proof (phi_bound keq c c'). unfold id in *. lia.
  Qed.
  Lemma table_step k f T T' : Forall (distinct_keys keq) T → rearranged T T' →
    looks_in keq hash T k + Phi (hb_get_mut keq hash T k f) T' ≤ 2 * looks_in keq hash T' k + Phi T T'.
  Proof using HL.
    intros Hd Hr. assert (hb_index hash T' k = hb_index hash T k) as Hi.
    { unfold hb_index, lengthN. by rewrite (Forall2_length _ _ _ Hr). }
    unfold looks_in, hb_get_mut, hb_put, hb_chain. rewrite Hi. set (i := hb_index hash T k). destruct (T !! i) as [c|] eqn:Ec.
    - destruct (Forall2_lookup_l _ _ _ _ _ Hr Ec) as (c' & Ec' & Hp). rewrite Ec'. cbn [default].
      pose proof (chain_step keq hash HL k f c c') as Hc. unfold id. rewrite Forall_lookup in Hd. specialize (Hc (Hd _ _ Ec) Hp).
      destruct (hb_split keq k c) as [[[c1 x] c2]|]; [|lia].
      pose proof (Phi_insert T T' i c ((x.1, f x.2) :: c1 ++ c2) c' Ec Ec'). lia.
    - assert (T' !! i = None) as ->. { apply lookup_ge_None. rewrite <- (Forall2_length _ _ _ Hr). by apply lookup_ge_None. }
      cbn [default hb_split looks]. lia.
  Qed.
  Lemma rearranged_step k f T T' : rearranged T T' → rearranged (hb_get_mut keq hash T k f) T'.
  Proof.
    intros Hr. unfold hb_get_mut. destruct (hb_split keq k _) as [[[c1 x] c2]|] eqn:Es; [|done]. apply split_keys in Es as [Es _].
    unfold hb_put, hb_chain in *. set (i := hb_index hash T k) in *. destruct (T !! i) as [c|] eqn:Ec; [|by destruct c1]. cbn in Es.
    apply Forall2_lookup. intros j. destruct (decide (i = j)) as [<-|Hne].
    - rewrite list_lookup_insert by (by eapply lookup_lt_Some). destruct (Forall2_lookup_l _ _ _ _ _ Hr Ec) as (c' & -> & Hp). constructor.
      rewrite <- Hp, Es, fmap_cons, !fmap_app, fmap_cons. cbn [fst]. apply Permutation_middle.
    - rewrite list_lookup_insert_ne by done. by apply Forall2_lookup.
  Qed.

  (** *** Equal keys never meet in a chain *)
  Notation DK := (Forall (distinct_keys keq)).
  Lemma DK_put T k c : DK T → (distinct_keys keq (hb_chain hash T k) → distinct_keys keq c) → DK (hb_put hash T k c).
  Proof.
    intros HT Hc. unfold hb_put. destruct (decide (hb_index hash T k < length T)) as [Hlt|]; [|by rewrite list_insert_ge by lia].
    apply Forall_insert; [done|]. apply Hc. unfold hb_chain. apply lookup_lt_is_Some in Hlt as [c0 Hc0]. rewrite Hc0.
    rewrite Forall_lookup in HT. by eapply HT.
  Qed.
  Lemma DK_same (c c' : list (K * V)) : c.*1 = c'.*1 → distinct_keys keq c → distinct_keys keq c'.
  Proof using HL. apply (dk_keys keq hash HL). Qed.
  Lemma DK_get_mut T k f : DK T → DK (hb_get_mut keq hash T k f).
  Proof using HL.
    intros HT. unfold hb_get_mut. destruct (hb_split keq k _) as [[[c1 x] c2]|] eqn:Es; [|done]. apply split_keys in Es as [Es _].
    apply DK_put; [done|]. rewrite Es. intros Hd. apply (DK_same (x :: c1 ++ c2)); [done|].
    eapply (dk_perm keq hash HL); [|exact Hd]. symmetry. apply Permutation_middle.
  Qed.
  Lemma chain_apply_keys fs (c : list (K * V)) : (chain_apply fs c).*1 = c.*1.
  Proof. revert c. induction fs as [|f fs IH]; intros [|x c]; [done..|]. cbn [chain_apply]. rewrite !fmap_cons. cbn [fst]. by rewrite IH. Qed.
  Lemma DK_apply fs T : DK T → DK (table_apply fs T).
  Proof.
    intros HT. revert fs. induction HT as [|c T Hc _ IH]; intros fs; cbn [table_apply]; constructor; [|by apply IH].
    eapply DK_same; [|exact Hc]. by rewrite chain_apply_keys.
  Qed.
  Lemma DK_spec cap o T : DK T → DK (hb_spec keq hash cap o T).2.
  Proof using HL.
    intros HT. destruct o as [k v|k|k|k f|k|k| | | |k|k f|n|fs]; cbn [hb_spec snd]; try done.
    - unfold hb_insert. destruct (hb_split keq k _) as [[[c1 x] c2]|] eqn:Es.
      + apply split_keys in Es as [Es _]. cbn [snd]. apply DK_put; [done|]. rewrite Es. apply DK_same. by rewrite !fmap_app, !fmap_cons.
      + apply split_absent in Es. destruct (decide _); cbn [snd]; [|done]. apply DK_put; [done|]. intros Hd.
        apply (dk_cons keq hash HL). split; [|done]. by apply Forall_fmap in Es.
    - unfold hb_remove. destruct (hb_split keq k _) as [[[c1 x] c2]|] eqn:Es; [|done]. apply split_keys in Es as [Es _].
      apply DK_put; [done|]. rewrite Es. intros Hd. eapply (dk_perm keq hash HL) in Hd; [|symmetry; apply Permutation_middle].
      by apply (dk_cons keq hash HL) in Hd as [_ ?].
    - by apply DK_get_mut.
    - by apply DK_get_mut.
    - by apply DK_apply.
  Qed.
  Lemma DK_history cap ops T : DK T → DK (spec_history (hb_spec keq hash cap) ops T).2.
  Proof using HL.
    revert T. induction ops as [|o ops IH]; intros T HT; [done|]. cbn [spec_history]. pose proof (DK_spec cap o T HT) as H1.
    destruct (hb_spec keq hash cap o T) as [r T1]. cbn [snd] in H1. specialize (IH T1 H1). by destruct (spec_history _ ops T1).
  Qed.
End table.

(** ** Sequences of [get_mut] *)
Section seq.
  Context `{Profile} {K V : Type} (keq : K → K → bool) (hash : K → N) (cap : N).
  Notation CK := (HOK (λ _ _ : K, false) hash cap).
  Notation pairs := (map (map (@snd N (K * V)))).
  Notation calls := (list (K * (V → V))).
  Notation gets := (history (λ c : K * (V → V), ht_get_mut keq hash c.1 c.2)).
  Notation gets_n := (history (λ cn : K * (V → V) * nat, htn_get_mut keq hash cn.2 cn.1.1 cn.1.2)).

  Fixpoint costs (cs : calls) (T : list (list (K * V))) : list nat :=
    match cs with [] => [] | (k, f) :: cs => looks_in keq hash T k :: costs cs (hb_get_mut keq hash T k f) end.
  Lemma costs_length cs T : length (costs cs T) = length cs.
  Proof. revert T. induction cs as [|[k f] cs IH]; intros T; [done|]. cbn [costs length]. by rewrite IH. Qed.
  Lemma costs_enough cs h bs : CK h bs → gets_n (zip cs (costs cs (pairs bs))) h = gets cs h.
  Proof.
    revert h bs. induction cs as [|[k f] cs IH]; intros h bs Hok; [done|]. cbn [costs zip zip_with history fst snd].
    destruct (get_mut_chains keq hash cap h bs k f Hok) as (bs' & v & Hok' & He & _).
    destruct (rounds_ok keq hash cap h bs k _ Hok (le_n _)) as (_ & _ & _ & Hg & _).
    assert (call (htn_get_mut keq hash (looks_in keq hash (pairs bs) k) k f) h = call (ht_get_mut keq hash k f) h) as ->.
    { unfold call. by rewrite Hg. }
    destruct (call (ht_get_mut keq hash k f) h) as [r h']. cbn [fst snd] in *. rewrite <- He. by rewrite (IH h' bs' Hok').
  Qed.
  Lemma costs_least cs h bs ns : CK h bs → length ns = length cs → (gets_n (zip cs ns) h).1 = (gets cs h).1 →
    Forall2 le (costs cs (pairs bs)) ns.
  Proof.
    revert h bs ns. induction cs as [|[k f] cs IH]; intros h bs [|n ns] Hok Hl; try done. cbn [costs zip zip_with history fst snd].
    destruct (get_mut_chains keq hash cap h bs k f Hok) as (bs' & v & Hok' & He & Hv).
    destruct (decide (looks_in keq hash (pairs bs) k ≤ n)) as [Hle|Hgt].
    - destruct (rounds_ok keq hash cap h bs k _ Hok Hle) as (_ & _ & _ & Hg & _).
      assert (call (htn_get_mut keq hash n k f) h = call (ht_get_mut keq hash k f) h) as ->. { unfold call. by rewrite Hg. }
      destruct (call (ht_get_mut keq hash k f) h) as [r h']. cbn [fst snd] in *. specialize (IH h' bs' ns Hok').
      cbn [zip] in IH. unfold zip in IH.
      destruct (gets_n _ h') as [rs1 h1], (gets cs h') as [rs2 h2]. cbn [fst] in *. intros [= Hrs]. constructor; [done|]. rewrite <- He.
      apply IH; [by injection Hl|done].
    - destruct (rounds_short keq hash cap h bs k n Hok) as (_ & _ & _ & Hg & _); [lia|].
      assert (call (htn_get_mut keq hash n k f) h = (Err OutOfFuel, h)) as -> by (unfold call; by rewrite Hg).
      destruct (call (ht_get_mut keq hash k f) h) as [r h']. cbn [fst snd] in *. subst r.
      destruct (gets_n _ h) as [rs1 h1], (gets cs h') as [rs2 h2]. done.
  Qed.
End seq.

Section upper.
  Context {K V : Type} (keq : K → K → bool) (hash : K → N) (HL : HashLaws keq hash).
  Lemma costs_le cs T T' : Forall (distinct_keys keq) T → rearranged T T' →
    sum_list (costs (V := V) keq hash cs T) ≤ 2 * sum_list (map (λ c, looks_in keq hash T' c.1) cs) + Phi keq T T'.
  Proof using HL.
    revert T. induction cs as [|[k f] cs IH]; intros T Hd Hr; [cbn; lia|]. cbn [costs map sum_list sum_list_with fst].
    specialize (IH _ (DK_get_mut keq hash HL T k f Hd) (rearranged_step keq hash k f T T' Hr)).
    pose proof (table_step keq hash HL k f T T' Hd Hr). unfold id in *. lia.
  Qed.
End upper.

Section facts.
  Context `{Profile} {K V : Type} (keq : K → K → bool) (hash : K → N) (nb ms : nat) (d : K * V).
  Context (h0 : htable K V) (Hnew : ht_new nb ms d = Some h0) (Hnb : 0 < nb) (Hw : (N.of_nat ms + 1 < W32)%N).
  Notation tables o := (spec_history (hb_spec keq hash (N.of_nat ms)) o (replicate nb [])).
  Notation after o := (history (ht_step keq hash) o h0).2.
  Notation gets := (history (λ c : K * (V → V), ht_get_mut keq hash c.1 c.2)).
  Notation gets_n := (history (λ cn : K * (V → V) * nat, htn_get_mut keq hash cn.2 cn.1.1 cn.1.2)).

  Lemma rounds_fact o k n :
    let h := after o in let r := looks_in keq hash (tables o).2 k in
    (r ≤ n →
      htn_get keq hash n h k = ht_get keq hash h k ∧ htn_contains keq hash n h k = ht_contains keq hash h k ∧
      htn_get_addr keq hash n h k = ht_get_addr keq hash h k ∧ (∀ f, htn_get_mut keq hash n k f h = ht_get_mut keq hash k f h) ∧
      (∀ v, htn_insert keq hash n k v h = ht_insert keq hash k v h) ∧ htn_remove keq hash n k h = ht_remove keq hash k h) ∧
    (n < r →
      htn_get keq hash n h k = Err OutOfFuel ∧ htn_contains keq hash n h k = Err OutOfFuel ∧ htn_get_addr keq hash n h k = Err OutOfFuel ∧
      (∀ f, htn_get_mut keq hash n k f h = Fail OutOfFuel h) ∧ (∀ v, htn_insert keq hash n k v h = Fail OutOfFuel h) ∧
      htn_remove keq hash n k h = Fail OutOfFuel h).
  Proof using Hnew Hnb Hw.
    destruct (order_fact keq hash nb ms d h0 Hnew Hnb Hw o) as (bs & Hok & ->). cbn zeta. cbn [snd]. split; intros Hn.
    - by eapply rounds_ok.
    - by eapply rounds_short.
  Qed.
  Lemma least_fact o cs :
    let h := after o in let ns := costs keq hash cs (tables o).2 in
    length ns = length cs ∧ gets_n (zip cs ns) h = gets cs h ∧
    ∀ ns', length ns' = length cs → (gets_n (zip cs ns') h).1 = (gets cs h).1 → Forall2 le ns ns'.
  Proof using Hnew Hnb Hw.
    destruct (order_fact keq hash nb ms d h0 Hnew Hnb Hw o) as (bs & Hok & ->). cbn zeta. cbn [snd]. split_and!.
    - apply costs_length.
    - by eapply costs_enough.
    - intros ns' Hl He. by eapply costs_least.
  Qed.
  Lemma mtf_fact (HL : HashLaws keq hash) o cs T' :
    let h := after o in rearranged (tables o).2 T' →
    ∃ ns, length ns = length cs ∧ gets_n (zip cs ns) h = gets cs h ∧
      (∀ ns', length ns' = length cs → (gets_n (zip cs ns') h).1 = (gets cs h).1 → Forall2 le ns ns') ∧
      sum_list ns ≤ 2 * sum_list (map (λ c, looks_in keq hash T' c.1) cs) + sharing (tables o).2.
  Proof using Hnew Hnb Hw.
    intros h Hr. destruct (least_fact o cs) as (H1 & H2 & H3). eexists. split_and!; [exact H1|exact H2|exact H3|].
    etrans; [apply (costs_le keq hash HL _ _ T' (DK_history keq hash HL _ _ _ (Forall_replicate _ _ _ (FOP_nil _))) Hr)|].
    pose proof (Phi_bound keq (tables o).2 T'). lia.
  Qed.
End facts.

(** ** Tables with one chain *)
Lemma suml_app (l1 l2 : list nat) : sum_list (l1 ++ l2) = sum_list l1 + sum_list l2.
Proof. induction l1 as [|x l1 IH]; [done|]. cbn [app sum_list sum_list_with]. unfold id in *. lia. Qed.
Lemma suml_replicate n x : sum_list (replicate n x) = n * x.
Proof. induction n as [|n IH]; [done|]. cbn [replicate sum_list sum_list_with]. unfold id in *. lia. Qed.
Section one.
  Notation hash0 := (λ _ : N, 0%N).
  Definition ins (l : list N) : list (hm_op N N) := map (λ k, HInsert k 0%N) l.
  Notation pr := (map (λ k : N, (k, 0%N))).
  Implicit Types l : list N.

  Lemma split_fresh k l : k ∉ l → hb_split N.eqb k (pr l) = None.
  Proof.
    induction l as [|x l IH]; [done|]. intros [H1 H2]%not_elem_of_cons. cbn [map hb_split fst]. destruct (N.eqb_spec x k); [done|]. by rewrite IH.
  Qed.
  Lemma split_last k l : k ∉ l → hb_split N.eqb k (pr (l ++ [k])) = Some (pr l, (k, 0%N), []).
  Proof.
    induction l as [|x l IH]; [intros _; cbn; by rewrite N.eqb_refl|]. intros [H1 H2]%not_elem_of_cons. cbn [app map hb_split fst].
    destruct (N.eqb_spec x k); [done|]. by rewrite IH.
  Qed.
  Lemma index0 T (k : N) : length T = 2 → hb_index (V := N) hash0 T k = 0.
  Proof. intros E. unfold hb_index, lengthN. by rewrite E. Qed.
  Lemma ins_table cap l c : NoDup l → (∀ k, k ∈ l → k ∉ c) → (lengthN l + lengthN c ≤ cap)%N →
    (spec_history (hb_spec N.eqb hash0 cap) (ins l) [pr c; []]).2 = [pr (rev l ++ c); []].
  Proof.
    intros Hnd. revert c. induction Hnd as [|k l Hk Hnd IH]; intros c Hin Hc; [done|]. cbn [ins map spec_history hb_spec].
    unfold hb_insert, hb_chain, hb_put. rewrite index0 by done. cbn [lookup list_lookup default id].
    rewrite split_fresh by (apply Hin; by left). rewrite decide_True.
    2:{ cbn [concat app]. unfold lengthN in *. rewrite app_nil_r, map_length. cbn [length] in *. lia. }
    cbn [insert list_insert]. specialize (IH (k :: c)). cbn [map ins] in IH.
    assert ((spec_history (hb_spec N.eqb hash0 cap) (ins l) [(k, 0%N) :: pr c; []]).2 = [pr (rev l ++ k :: c); []]) as IH'.
    { apply IH; [|unfold lengthN in *; cbn [length] in *; lia]. intros j Hj. apply not_elem_of_cons. split; [|apply Hin; by right]. intros ->. done. }
    unfold id. fold (ins l). destruct (spec_history _ (ins l) _) as [rs T]. cbn [snd] in *. rewrite IH'. cbn [rev]. by rewrite <- app_assoc.
  Qed.

  (** Asking for the last key of the chain, again and again *)
  Definition cs_of (l : list N) : list (N * (N → N)) := map (λ k, (k, λ v, v)) l.
  Lemma looks_last k l : k ∉ l → looks N.eqb k (pr (l ++ [k])) = S (length l).
  Proof. intros Hk. pose proof (looks_split N.eqb k (pr (l ++ [k]))) as Hx. rewrite split_last in Hx by done. by rewrite map_length in Hx. Qed.
  Lemma get_mut_last k l : k ∉ l → hb_get_mut N.eqb hash0 [pr (l ++ [k]); []] k (λ v, v) = [pr (k :: l); []].
  Proof.
    intros Hk. unfold hb_get_mut, hb_chain, hb_put. rewrite index0 by done. cbn [lookup list_lookup default id]. unfold id.
    rewrite split_last by done. by rewrite app_nil_r.
  Qed.
  Lemma costs_app cs1 cs2 T : ∃ T1, costs N.eqb hash0 (cs1 ++ cs2) T = costs (V := N) N.eqb hash0 cs1 T ++ costs N.eqb hash0 cs2 T1 ∧
    T1 = foldl (λ T (c : N * (N → N)), hb_get_mut N.eqb hash0 T c.1 c.2) T cs1.
  Proof.
    revert T. induction cs1 as [|[k f] cs1 IH]; intros T; [by eexists|]. cbn [app costs foldl fst snd]. destruct (IH (hb_get_mut N.eqb hash0 T k f)) as (T1 & -> & ->).
    by eexists.
  Qed.
  Lemma cycle l e : NoDup (l ++ e) →
    costs N.eqb hash0 (cs_of l) [pr (e ++ rev l); []] = replicate (length l) (length l + length e) ∧
    foldl (λ T (c : N * (N → N)), hb_get_mut N.eqb hash0 T c.1 c.2) [pr (e ++ rev l); []] (cs_of l) = [pr (rev l ++ e); []].
  Proof.
    revert e. induction l as [|k l IH]; intros e Hnd; [cbn; by rewrite app_nil_r|].
    assert (k ∉ e ++ rev l) as Hk.
    { cbn in Hnd. apply NoDup_cons in Hnd as [Hn _]. rewrite elem_of_app in *. rewrite (elem_of_list_In (rev l) k), <- in_rev, <- elem_of_list_In. tauto. }
    destruct (IH (k :: e)) as [IH1 IH2].
    { cbn in Hnd. by rewrite <- Permutation_middle. }
    change (cs_of (k :: l)) with ((k, λ v : N, v) :: cs_of l). cbn [costs rev foldl fst snd length replicate]. rewrite app_assoc. rewrite get_mut_last by done. unfold looks_in, hb_chain.
    rewrite index0 by done. cbn [lookup list_lookup default id]. unfold id. rewrite looks_last by done.
    cbn [app] in IH1, IH2. rewrite IH1, IH2. split.
    - f_equal; [rewrite app_length, rev_length; lia|]. f_equal. cbn [length]. lia.
    - by rewrite <- app_assoc.
  Qed.
  Definition cycles (m : nat) (l : list N) : list N := concat (replicate m l).
  Lemma cycles_cost m l : NoDup l → sum_list (costs N.eqb hash0 (cs_of (cycles m l)) [pr (rev l); []]) = m * (length l * length l).
  Proof.
    intros Hnd. induction m as [|m IH]; [done|]. unfold cycles in *. cbn [replicate concat]. unfold cs_of in *. rewrite map_app. fold (cs_of l).
    destruct (costs_app (cs_of l) (map (λ k, (k, λ v : N, v)) (concat (replicate m l))) [pr (rev l); []]) as (T1 & -> & ->).
    destruct (cycle l []) as [H1 H2]; [by rewrite app_nil_r|]. cbn [app] in H1, H2. rewrite app_nil_r in H2. rewrite H1, H2, suml_app, IH.
    rewrite suml_replicate. cbn [length]. nia.
  Qed.
  Lemma sorted_cost l : NoDup l → 2 * sum_list (map (λ k, looks N.eqb k (pr l)) l) = length l * S (length l).
  Proof.
    induction 1 as [|x l Hx Hnd IH]; [done|]. cbn [map looks fst sum_list sum_list_with length]. rewrite N.eqb_refl.
    assert (map (λ k, if N.eqb x k then 1 else S (looks N.eqb k (pr l))) l = map (λ k, S (looks N.eqb k (pr l))) l) as ->.
    { apply map_ext_in. intros k Hk%elem_of_list_In. destruct (N.eqb_spec x k) as [->|]; [done|done]. }
    assert (∀ (g : N → nat) (l : list N), sum_list (map (λ k, S (g k)) l) = length l + sum_list (map g l)) as Hs.
    { clear. intros g l. induction l as [|x l IH]; [done|]. cbn [map sum_list sum_list_with length]. unfold id in *. lia. }
    unfold id. rewrite Hs. nia.
  Qed.
  Lemma fixed_cost m l T : sum_list (map (λ c, looks_in N.eqb hash0 T c.1) (cs_of (cycles m l))) =
    m * sum_list (map (λ k, looks_in (V := N) N.eqb hash0 T k) l).
  Proof.
    unfold cs_of. rewrite map_map. cbn [fst]. unfold cycles. induction m as [|m IH]; [done|]. cbn [replicate concat]. rewrite map_app, suml_app, IH. lia.
  Qed.
End one.

Section least.
  Context `{Profile}.
  Notation hash0 := (λ _ : N, 0%N).
  Notation pr := (map (λ k : N, (k, 0%N))).
  Definition keys (n : nat) : list N := map N.of_nat (seq 0 n).
  Lemma keys_nodup n : NoDup (keys n).
  Proof. unfold keys. apply NoDup_ListNoDup. apply FinFun.Injective_map_NoDup; [intros ? ?; lia|apply seq_NoDup]. Qed.
  Lemma keys_len n : length (keys n) = n.
  Proof. unfold keys. by rewrite map_length, seq_length. Qed.
  Lemma keys_table n : (spec_history (hb_spec N.eqb hash0 (N.of_nat n)) (ins (keys n)) (replicate 2 [])).2 = [pr (rev (keys n)); []].
  Proof.
    etrans; [apply (ins_table (N.of_nat n) (keys n) []); [apply keys_nodup|by intros ? ? ?%elem_of_nil|]|by rewrite app_nil_r].
    unfold lengthN. rewrite keys_len. cbn [length]. lia.
  Qed.
  Lemma keys_back n : rearranged [pr (rev (keys n)); []] [pr (keys n); []].
  Proof.
    unfold rearranged. assert (∀ l : list N, (pr l).*1 = l) as Hf by (intros l; induction l as [|x l IH]; [done|]; cbn [map]; by rewrite fmap_cons, IH).
    repeat constructor. rewrite !Hf. symmetry. apply Permutation_rev.
  Qed.

  Lemma two_fact (a b : nat) (extra : nat → nat) : a < 2 * b → (N.of_nat a + 2 < W32)%N →
    ∃ (ms : nat) (h0 : htable N N) (o : list (hm_op N N)) (cs : list (N * (N → N))) (T' : list (list (N * N))),
      ht_new 2 ms (0, 0)%N = Some h0 ∧ rearranged (spec_history (hb_spec N.eqb hash0 (N.of_nat ms)) o (replicate 2 [])).2 T' ∧
      ∀ ns, length ns = length cs →
        (history (λ cn : N * (N → N) * nat, htn_get_mut N.eqb hash0 cn.2 cn.1.1 cn.1.2) (zip cs ns) (history (ht_step N.eqb hash0) o h0).2).1 =
        (history (λ c : N * (N → N), ht_get_mut N.eqb hash0 c.1 c.2) cs (history (ht_step N.eqb hash0) o h0).2).1 →
        a * sum_list (map (λ c, looks_in N.eqb hash0 T' c.1) cs) + extra ms < b * sum_list ns.
  Proof.
    intros Hab Hw. set (n := S a). set (m := 2 * extra n + 1).
    exists n, (HT (replicate 2 SENTINEL) (Alloc 0 1 1 (replicate n (node_default 4 (0, 0)%N)))), (ins (keys n)), (cs_of (cycles m (keys n))), [pr (keys n); []].
    split; [done|]. rewrite keys_table. split; [apply keys_back|]. intros ns Hl He.
    destruct (least_fact N.eqb hash0 2 n (0, 0)%N _ eq_refl (Nat.lt_0_succ 1) ltac:(unfold n, W32 in *; lia) (ins (keys n)) (cs_of (cycles m (keys n)))) as (_ & _ & Hle).
    specialize (Hle ns Hl He). rewrite keys_table in Hle.
    assert (m * (n * n) ≤ sum_list ns) as Hs.
    { rewrite <- (keys_len n) at 1 2. rewrite <- cycles_cost by apply keys_nodup. clear -Hle.
      induction Hle as [|x y l1 l2 Hxy _ IH]; [done|]. cbn [sum_list sum_list_with]. unfold id in *. lia. }
    rewrite fixed_cost. pose proof (sorted_cost (keys n) (keys_nodup n)) as Hf. rewrite keys_len in Hf.
    change (map (λ i : N, looks_in N.eqb hash0 [pr (keys n); []] i) (keys n)) with (map (λ j : N, looks N.eqb j (pr (keys n))) (keys n)).
    set (F := sum_list (map _ (keys n))) in *. clearbody F. clear He Hle Hl.
    assert (b * (m * (n * n)) ≤ b * sum_list ns) as H1 by (apply Nat.mul_le_mono_l; exact Hs).
    enough (2 * (a * (m * F) + extra n) < 2 * (b * (m * (n * n)))) by lia. clear H1 Hs ns.
    assert (2 * (a * (m * F)) = a * m * (n * S n)) as H2 by (rewrite <- Hf; lia).
    assert (S a * (m * (n * n)) ≤ 2 * b * (m * (n * n))) as H3 by (apply Nat.mul_le_mono_r; lia).
    assert (S a * (m * (n * n)) = a * m * (n * S n) + m * n) as H4 by (unfold n; lia).
    assert (2 * extra n < m * n) as H5 by (unfold m, n; lia). lia.
  Qed.

  Lemma get_fact (c : nat) (extra : nat → nat) : (N.of_nat c + 2 < W32)%N →
    ∃ (ms : nat) (h0 : htable N N) (o : list (hm_op N N)) (ks : list N) (T' : list (list (N * N))),
      ht_new 2 ms (0, 0)%N = Some h0 ∧ rearranged (spec_history (hb_spec N.eqb hash0 (N.of_nat ms)) o (replicate 2 [])).2 T' ∧
      ∀ ns, Forall2 (λ k n, htn_get N.eqb hash0 n (history (ht_step N.eqb hash0) o h0).2 k = ht_get N.eqb hash0 (history (ht_step N.eqb hash0) o h0).2 k) ks ns →
        c * sum_list (map (looks_in N.eqb hash0 T') ks) + extra ms < sum_list ns.
  Proof.
    intros Hw. set (n := S c). set (m := extra n + 1).
    exists n, (HT (replicate 2 SENTINEL) (Alloc 0 1 1 (replicate n (node_default 4 (0, 0)%N)))), (ins (keys n)), (replicate m 0%N), [pr (keys n); []].
    split; [done|]. rewrite keys_table. split; [apply keys_back|]. intros ns He.
    set (h0 := HT _ _) in *. set (h := (history _ _ h0).2) in *.
    assert (∀ r, htn_get N.eqb hash0 r h 0%N = ht_get N.eqb hash0 h 0%N → n ≤ r) as Hge.
    { intros r Hr. destruct (decide (n ≤ r)) as [|Hlt]; [done|]. exfalso.
      destruct (rounds_fact N.eqb hash0 2 n (0, 0)%N h0 eq_refl (Nat.lt_0_succ 1) ltac:(unfold n, W32 in *; lia) (ins (keys n)) 0%N r) as [_ Hs].
      destruct (rounds_fact N.eqb hash0 2 n (0, 0)%N h0 eq_refl (Nat.lt_0_succ 1) ltac:(unfold n, W32 in *; lia) (ins (keys n)) 0%N (S n + 1)) as [Hb _].
      fold h in Hs, Hb. rewrite keys_table in Hs, Hb. unfold looks_in in Hs, Hb.
      change (hb_chain hash0 [pr (rev (keys n)); []] 0%N) with (pr (rev (keys n))) in *.
      assert (looks N.eqb 0%N (pr (rev (keys n))) = n) as Hlk.
      { unfold n, keys. cbn [seq map rev]. rewrite looks_last.
        - by rewrite rev_length, map_length, seq_length.
        - rewrite elem_of_list_In, <- in_rev, in_map_iff. intros (x & Hx & Hin%in_seq). lia. }
      rewrite Hlk in *. destruct Hs as [Hs _]; [lia|]. rewrite Hs in Hr.
      destruct (order_fact N.eqb hash0 2 n (0, 0)%N h0 eq_refl (Nat.lt_0_succ 1) ltac:(unfold n, W32 in *; lia) (ins (keys n))) as (bs & Hok & _).
      fold h in Hok. destruct (CK_lookups N.eqb hash0 (N.of_nat n) h bs 0%N Hok) as [Hg _]. rewrite Hg in Hr. done. }
    assert (m * n ≤ sum_list ns) as Hs.
    { clear -He Hge. revert ns He. induction m as [|m IH]; intros ns He; [lia|]. cbn [replicate] in He. apply Forall2_cons_inv_l in He as (y & ns' & Hy & He & ->).
      specialize (IH ns' He). apply Hge in Hy. cbn [sum_list sum_list_with]. unfold id in *. lia. }
    assert (sum_list (map (looks_in N.eqb hash0 [pr (keys n); []]) (replicate m 0%N)) = m) as ->.
    { clear. induction m as [|m IH]; [done|]. cbn [replicate map sum_list sum_list_with]. rewrite IH. done. }
    unfold m, n in *. nia.
  Qed.
End least.
