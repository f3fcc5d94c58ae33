(** * The fuzzing harness on maps that behave like maps (for C55) *)
From Verif Require Import FuzzModel.
From Verif Require Import MapProof IterProof.

Lemma swap_remove_perm {A} (l : list A) j x : l !! j = Some x → l ≡ₚ x :: swap_remove j l.
Proof.
  intros Hj. destruct l as [|y l' _] using rev_ind; [done|].
  unfold swap_remove. rewrite last_snoc, app_length. simpl. replace (length l' + 1 - 1)%nat with (length l') by lia.
  destruct (decide (j < length l')%nat) as [Hl|Hl].
  - rewrite lookup_app_l in Hj by done. rewrite insert_app_l by done. rewrite take_app_alt by by rewrite insert_length.
    rewrite <- (take_drop_middle l' j x) at 1 by done. rewrite insert_take_drop by done. solve_Permutation.
  - pose proof (lookup_lt_Some _ _ _ Hj) as Hlt. rewrite app_length in Hlt. simpl in Hlt.
    assert (j = length l') as -> by lia. rewrite lookup_app_r, Nat.sub_diag in Hj by done. injection Hj as ->.
    rewrite list_insert_id by (by rewrite lookup_app_r, Nat.sub_diag by done). rewrite take_app. solve_Permutation.
Qed.

(** ** What the harness relies on *)
Section generic.
  Context {S K V : Type} `{EqDecision V} (api : nam S K V) (keq : K → K → bool) (dom : K → Prop) (cap : N) (up : bool).
  (** [Rep s g n]: the map [s] holds [n] pairs and maps [k] to [g k] *)
  Context (Rep : S → (K → option V) → N → Prop).
  Definition upd (g : K → option V) (k : K) (o : option V) (k' : K) : option V := if keq k k' then o else g k'.
  Record fz_ok : Prop := {
    fo_refl : ∀ k, keq k k = true;
    fo_sym : ∀ k k', keq k k' = true → keq k' k = true;
    fo_trans : ∀ k k' k'', keq k k' = true → keq k' k'' = true → keq k k'' = true;
    fo_ext : ∀ s g g' n, Rep s g n → (∀ k, g' k = g k) → Rep s g' n;
    fo_keq : ∀ s g n k k', Rep s g n → keq k k' = true → g k = g k';
    fo_len : ∀ s g n, Rep s g n → n_len api s = n;
    fo_get : ∀ s g n k, Rep s g n → dom k → n_get api s k = Val (g k);
    fo_insert_new : ∀ s g n k v, Rep s g n → dom k → g k = None →
      ∃ o s', n_insert api k v s = Ret o s' ∧
        if decide (n < cap) then is_Some o ∧ Rep s' (upd g k (Some v)) (n + 1) else o = None ∧ Rep s' g n;
    fo_insert_old : ∀ s g n k v v0, Rep s g n → dom k → g k = Some v0 →
      ∃ o s', n_insert api k v s = Ret o s' ∧
        if up || bool_decide (n < cap) then is_Some o ∧ Rep s' (upd g k (Some v)) n else o = None ∧ Rep s' g n;
    fo_get_mut : ∀ s g n k f v0, Rep s g n → dom k → g k = Some v0 →
      ∃ s', n_get_mut api k f s = Ret (Some v0) s' ∧ Rep s' (upd g k (Some (f v0))) n;
    fo_remove : ∀ s g n k v0, Rep s g n → dom k → g k = Some v0 →
      ∃ s', n_remove api k s = Ret (Some v0) s' ∧ Rep s' (upd g k None) (n - 1);
    fo_iter : ∀ s g n e, Rep s g n →
      ∃ l xs, n_iter api s (replicate (fz_calls api s) e) = Val l ∧ until_none l = Val xs ∧ ∀ kv, kv ∈ xs → dom kv.1 ∧ g kv.1 = Some kv.2;
    fo_iter_mut : ∀ s g n e, Rep s g n →
      ∃ l xs s', n_iter_mut api (replicate (fz_calls api s) (e, λ v, v)) s = Ret l s' ∧ until_none l = Val xs ∧ Rep s' g n }.
  Context (OK : fz_ok).

  (** The harness's [keys] are, without repetition, the keys of the map *)
  Definition fz_inv (s : S) (ks : list K) : Prop :=
    ∃ g, Rep s g (lengthN ks) ∧ Forall dom ks ∧ ForallOrdPairs (λ a b, keq a b = false) ks ∧
      ∀ k, is_Some (g k) ↔ ∃ k', k' ∈ ks ∧ keq k' k = true.
  Definition dom_action (a : fz_action K V) : Prop := match a with FInsert k _ => dom k | _ => True end.
  (** An upsert on a full map is only fine if the map takes it *)
  Definition up_action (a : fz_action K V) (ks : list K) : Prop :=
    match a with FUpsert _ => up = true ∨ lengthN ks < cap | _ => True end.

  Lemma fz_assert_get_ok s g n k v : Rep s g n → dom k → g k = Some v → fz_assert_get api s k v = Val ().
  Proof using OK.
    intros HR Hd Hk. unfold fz_assert_get. rewrite (fo_get OK _ _ _ _ HR Hd), Hk. unfold mbind, res_bind, unwrap, assert_eq. by rewrite decide_True.
  Qed.
  Lemma fz_pick_ok rnd (ks : list K) : lengthN ks ≠ 0 → ∃ j k, fz_pick rnd ks = Val (j, k) ∧ ks !! j = Some k.
  Proof using Type.
    intros Hn. unfold fz_pick. assert (N.to_nat (rnd mod lengthN ks) < length ks)%nat as Hl.
    { pose proof (N.mod_lt rnd (lengthN ks) Hn). unfold lengthN in *. lia. }
    apply lookup_lt_is_Some in Hl as [k Hk]. exists (N.to_nat (rnd mod lengthN ks)), k. by rewrite Hk.
  Qed.
  Lemma upd_same s g n k : Rep s g n → ∀ k', upd g k (g k) k' = g k'.
  Proof using OK. intros HR k'. unfold upd. destruct (keq k k') eqn:E; [|done]. by apply (fo_keq OK s g n). Qed.
  Lemma keq_comm a b : keq a b = keq b a.
  Proof using OK. destruct (keq a b) eqn:E; [by rewrite (fo_sym OK _ _ E)|]. destruct (keq b a) eqn:E'; [|done]. by rewrite (fo_sym OK _ _ E') in E. Qed.

  (** Overwriting the value of a key in [ks] keeps the invariant *)
  Lemma inv_upd s' g ks k v :
    is_Some (g k) → Rep s' (upd g k (Some v)) (lengthN ks) → Forall dom ks → ForallOrdPairs (λ a b, keq a b = false) ks →
    (∀ k, is_Some (g k) ↔ ∃ k', k' ∈ ks ∧ keq k' k = true) → fz_inv s' ks.
  Proof using OK.
    intros Hk HR Hd Hp Hks. exists (upd g k (Some v)). split_and!; [done..|]. intros k'. rewrite <- Hks. unfold upd.
    destruct (keq k k') eqn:E; [|done]. split; [|by eauto]. intros _. apply Hks. apply Hks in Hk as (k0 & ? & ?). exists k0. split; [done|].
    by eapply (fo_trans OK).
  Qed.
  Lemma fops_perm (R : K → K → Prop) (l l' : list K) :
    (∀ a b, R a b → R b a) → l ≡ₚ l' → ForallOrdPairs R l → ForallOrdPairs R l'.
  Proof using Type.
    intros Hs Hp. induction Hp as [|x l l' Hp IH|x y l|l1 l2 l3 _ IH1 _ IH2]; intros HF; [done| | |by auto].
    - inversion HF; subst. constructor; [by rewrite <- Hp|by apply IH].
    - inversion HF as [|? ? Hx HF']; subst. inversion HF' as [|? ? Hy HF'']; subst. inversion Hx; subst.
      constructor; [constructor; [by apply Hs|done]|]. by constructor.
  Qed.

  Lemma fz_check_ok s g n xs : Rep s g n → (∀ kv, kv ∈ xs → dom kv.1 ∧ g kv.1 = Some kv.2) → fz_check api s xs = Val ().
  Proof using OK.
    intros HR. induction xs as [|kv xs IH]; intros Hx; [done|]. cbn [fz_check].
    destruct (Hx kv (elem_of_list_here _ _)) as [Hd Hg]. rewrite (fz_assert_get_ok _ _ _ _ _ HR Hd Hg). cbn. apply IH.
    intros kv' Hkv'. apply Hx. by apply elem_of_list_further.
  Qed.
  Lemma fz_iter_ok e s ks : fz_inv s ks → wp (fz_iter api e) (s, ks) (λ _ st, fz_inv st.1 st.2 ∧ lengthN st.2 ≤ lengthN ks + 0).
  Proof using OK.
    intros Hinv. pose proof Hinv as (g & HR & _). destruct (fo_iter OK _ _ _ e HR) as (l & xs & Hl & Hu & Hx).
    unfold fz_iter. apply wp_bind, wp_mget. cbn [fst]. apply wp_bind. eapply wp_lift; [exact Hl|]. apply wp_bind. eapply wp_lift; [exact Hu|].
    eapply wp_lift; [by eapply fz_check_ok|]. cbn [fst snd]. split; [done|lia].
  Qed.
  Lemma fz_iter_mut_ok e s ks : fz_inv s ks → wp (fz_iter_mut api e) (s, ks) (λ _ st, fz_inv st.1 st.2 ∧ lengthN st.2 ≤ lengthN ks + 0).
  Proof using OK.
    intros (g & HR & Hr). destruct (fo_iter_mut OK _ _ _ e HR) as (l & xs & s' & Hl & Hu & HR').
    unfold fz_iter_mut. apply wp_bind, wp_mget. cbn [fst]. apply wp_bind, wp_zoom. eapply wp_intro; [exact Hl|]. cbn [fst snd].
    apply wp_bind. eapply wp_lift; [exact Hu|]. apply wp_ret. cbn [fst snd]. split; [by exists g|lia].
  Qed.

  Lemma perform_action_ok s ks a rnd :
    fz_inv s ks → dom_action a → up_action a ks →
    wp (perform_action api a rnd) (s, ks) (λ _ st, fz_inv st.1 st.2 ∧ lengthN st.2 ≤ lengthN ks + (match a with FInsert _ _ => 1 | _ => 0 end)).
  Proof using OK.
    intros (g & HR & Hd & Hp & Hks) Hda Hua. unfold perform_action. apply wp_bind, wp_mget. cbn [snd].
    assert (∀ k, k ∈ ks → is_Some (g k)) as Hin. { intros k Hk. apply Hks. exists k. split; [done|]. apply (fo_refl OK). }
    assert (fz_inv s ks) as Hinv by by exists g.
    destruct a as [k v|v| |v| | | |].
    - simpl in Hda. apply wp_bind. eapply wp_gets; [by eapply (fo_get OK)|]. destruct (g k) as [v0|] eqn:Hk.
      { apply wp_ret. split; [done|]. simpl. lia. }
      destruct (fo_insert_new OK s g (lengthN ks) k v HR Hda Hk) as (o & s' & Hi & Ho).
      apply wp_bind, wp_zoom. eapply wp_intro; [exact Hi|]. cbn [fst snd].
      destruct (decide (lengthN ks < cap)).
      + destruct Ho as [[i ->] HR']. apply wp_bind, wp_modify. cbn [fst snd].
        eapply wp_gets; [eapply fz_assert_get_ok; [exact HR'|done|]; unfold upd; by rewrite (fo_refl OK)|]. cbn [fst snd].
        split; [|unfold lengthN; rewrite app_length; simpl; lia].
        exists (upd g k (Some v)). split_and!.
        * replace (lengthN (ks ++ [k])) with (lengthN ks + 1); [done|]. unfold lengthN. rewrite app_length. simpl. lia.
        * apply Forall_app. by repeat constructor.
        * eapply (fops_perm _ (k :: ks)); [by intros a b; rewrite keq_comm|solve_Permutation|]. constructor; [|done].
          apply Forall_forall. intros k' Hk'. destruct (keq k k') eqn:E; [|done]. exfalso.
          assert (is_Some (g k)) as [? ?]; [|congruence]. rewrite (fo_keq OK s g _ k k' HR E). by apply Hin.
        * intros k'. unfold upd. destruct (keq k k') eqn:E.
          -- split; [|by eauto]. intros _. exists k. split; [set_solver|done].
          -- rewrite Hks. setoid_rewrite elem_of_app. split; [intros (x & ? & ?); exists x; by auto|].
             intros (x & [?|Hx] & ?); [by exists x|]. apply elem_of_list_singleton in Hx as ->. congruence.
      + destruct Ho as [-> HR']. apply wp_ret. cbn [fst snd]. split; [by exists g|lia].
    - destruct (decide (lengthN ks = 0)) as [Hz|Hz]. { apply wp_ret. split; [done|]. simpl. lia. }
      destruct (fz_pick_ok rnd ks Hz) as (j & k & Hpk & Hj). pose proof (elem_of_list_lookup_2 _ _ _ Hj) as Hk.
      apply wp_bind. eapply wp_lift; [exact Hpk|]. cbn [snd].
      destruct (Hin k Hk) as [v0 Hv0]. assert (dom k) as Hdk by by eapply Forall_forall.
      destruct (fo_insert_old OK s g (lengthN ks) k v v0 HR Hdk Hv0) as (o & s' & Hi & Ho).
      apply wp_bind, wp_zoom. eapply wp_intro; [exact Hi|]. cbn [fst snd].
      assert (up || bool_decide (lengthN ks < cap) = true) as Hup.
      { destruct Hua as [->|Hl]; [done|]. rewrite bool_decide_eq_true_2 by done. apply orb_true_r. }
      rewrite Hup in Ho. destruct Ho as [_ HR'].
      eapply wp_gets; [eapply fz_assert_get_ok; [exact HR'|done|]; unfold upd; by rewrite (fo_refl OK)|]. cbn [fst snd].
      split; [by eapply (inv_upd s' g)|lia].
    - destruct (decide (lengthN ks = 0)) as [Hz|Hz]. { apply wp_ret. split; [done|]. simpl. lia. }
      destruct (fz_pick_ok rnd ks Hz) as (j & k & Hpk & Hj). pose proof (elem_of_list_lookup_2 _ _ _ Hj) as Hk.
      apply wp_bind. eapply wp_lift; [exact Hpk|]. cbn [fst snd].
      destruct (Hin k Hk) as [v0 Hv0]. assert (dom k) as Hdk by by eapply Forall_forall.
      apply wp_bind. eapply wp_gets; [by eapply (fo_get OK)|]. rewrite Hv0. apply wp_bind. eapply wp_lift; [done|].
      destruct (fo_remove OK s g (lengthN ks) k v0 HR Hdk Hv0) as (s' & Hr & HR').
      apply wp_bind, wp_zoom. eapply wp_intro; [exact Hr|]. cbn [fst snd]. apply wp_bind. eapply wp_lift; [done|].
      apply wp_bind. eapply wp_lift; [unfold assert_eq; by rewrite decide_True|]. apply wp_modify. cbn [fst snd].
      pose proof (swap_remove_perm ks j k Hj) as Hperm. set (ks' := swap_remove j ks) in *. clearbody ks'.
      assert (lengthN ks = lengthN ks' + 1) as Hlen. { unfold lengthN. rewrite Hperm. simpl. lia. }
      split; [|lia].
      assert (ForallOrdPairs (λ a b, keq a b = false) (k :: ks')) as Hp'.
      { eapply fops_perm; [by intros a b; rewrite keq_comm|exact Hperm|done]. }
      inversion Hp' as [|? ? Hka Hp'']; subst. rewrite Hperm in Hd. apply Forall_cons_1 in Hd as [_ Hd].
      exists (upd g k None). split_and!; [|done|done|].
      + rewrite Hlen in HR'. by replace (lengthN ks' + 1 - 1) with (lengthN ks') in HR' by lia.
      + intros k'. unfold upd. destruct (keq k k') eqn:E.
        * split; [by intros []|]. intros (x & Hx & Hxk). rewrite Forall_forall in Hka. specialize (Hka x Hx).
          rewrite (fo_trans OK k k' x) in Hka; [done|done|]. by apply (fo_sym OK).
        * rewrite Hks. setoid_rewrite Hperm. setoid_rewrite elem_of_cons.
          split; [|intros (x & ? & ?); exists x; by auto]. intros (x & [->|?] & ?); [congruence|by exists x].
    - destruct (decide (lengthN ks = 0)) as [Hz|Hz]. { apply wp_ret. split; [done|]. simpl. lia. }
      destruct (fz_pick_ok rnd ks Hz) as (j & k & Hpk & Hj). pose proof (elem_of_list_lookup_2 _ _ _ Hj) as Hk.
      apply wp_bind. eapply wp_lift; [exact Hpk|]. cbn [fst snd].
      destruct (Hin k Hk) as [v0 Hv0]. assert (dom k) as Hdk by by eapply Forall_forall.
      destruct (fo_get_mut OK s g (lengthN ks) k (λ _, v) v0 HR Hdk Hv0) as (s' & Hr & HR').
      apply wp_bind, wp_zoom. eapply wp_intro; [exact Hr|]. cbn [fst snd]. apply wp_bind. eapply wp_lift; [done|].
      eapply wp_gets; [eapply fz_assert_get_ok; [exact HR'|done|]; unfold upd; by rewrite (fo_refl OK)|]. cbn [fst snd].
      split; [by eapply (inv_upd s' g)|lia].
    - by apply (fz_iter_ok Fwd).
    - by apply (fz_iter_ok Bwd).
    - by apply (fz_iter_mut_ok Fwd).
    - by apply (fz_iter_mut_ok Bwd).
  Qed.

  (** The loop: no action fails, provided no upsert meets a full map that does not take it *)
  Lemma fz_target_ok check acts s ks :
    (∀ s g n, Rep s g n → check s = Val true) → fz_inv s ks → Forall dom_action acts.*1 →
    up = true ∨ (∀ pre v rnd post s' ks', acts = pre ++ (FUpsert v, rnd) :: post → fz_target api check pre (s, ks) = Ret () (s', ks') →
      n_len api s' < cap) →
    wp (fz_target api check acts) (s, ks) (λ _ st, fz_inv st.1 st.2).
  Proof using OK.
    intros Hch. revert s ks. induction acts as [|[a rnd] acts IH]; intros s ks Hinv Hd Hu; [by apply wp_ret|].
    cbn [fz_target]. apply Forall_cons_1 in Hd as [Hda Hd]. cbn [fst] in Hda.
    assert (up_action a ks) as Hua.
    { destruct a; try done. destruct Hu as [->|Hu]; [by left|]. right. pose proof Hinv as (g & HR & _).
      rewrite <- (fo_len OK _ _ _ HR). by eapply (Hu []). }
    apply wp_bind. pose proof (perform_action_ok s ks a rnd Hinv Hda Hua) as Hp.
    destruct (wp_elim _ _ _ Hp) as ([] & [s1 ks1] & He & Hinv1 & _). cbn [fst snd] in Hinv1.
    eapply wp_intro; [exact He|]. pose proof Hinv1 as (g1 & HR1 & _).
    apply wp_bind. eapply wp_gets; [by eapply Hch|]. apply wp_bind, wp_massert; [done|].
    apply IH; [done|done|]. destruct Hu as [->|Hu]; [by left|]. right. intros pre v rnd' post s' ks' -> Hpre.
    eapply (Hu ((a, rnd) :: pre)); [done|]. cbn [fz_target]. unfold mbind, M_bind. rewrite He. cbn [fst]. unfold gets. cbn [fst].
    rewrite (Hch _ _ _ HR1). cbn. exact Hpre.
  Qed.
  Lemma fz_inv_nil s g : Rep s g 0 → (∀ k, g k = None) → fz_inv s [].
  Proof using Type.
    intros HR Hg. exists g. split_and!; [done|constructor|constructor|]. intros k. rewrite Hg. split; [by intros []|].
    intros (? & Hin & _). by apply elem_of_nil in Hin.
  Qed.
  (** What the invariant says in terms of the calls *)
  Lemma fz_inv_facts s ks :
    fz_inv s ks → n_len api s = lengthN ks ∧ ForallOrdPairs (λ a b, keq a b = false) ks ∧
      ∀ k, dom k → ∃ o, n_get api s k = Val o ∧ (is_Some o ↔ ∃ k', k' ∈ ks ∧ keq k' k = true).
  Proof using OK.
    intros (g & HR & _ & Hp & Hks). split; [by eapply (fo_len OK)|]. split; [done|]. intros k Hk. exists (g k).
    split; [by eapply (fo_get OK)|done].
  Qed.

  (** A map that refuses upserts when full: fill it, then upsert *)
  Lemma fz_fill check news s ks g v :
    (∀ s g n, Rep s g n → check s = Val true) → Rep s g (lengthN ks) → (∀ k, g k = None ∨ g k = Some v) → (∀ k, k ∈ ks → dom k ∧ g k = Some v) →
    Forall dom news → ForallOrdPairs (λ a b, keq a b = false) news → (∀ k, k ∈ news → g k = None) → lengthN ks + lengthN news ≤ cap →
    ∃ s' g', fz_target api check (map (λ k, (FInsert k v, 0)) news) (s, ks) = Ret () (s', ks ++ news) ∧ Rep s' g' (lengthN (ks ++ news)) ∧
      ∀ k, k ∈ ks ++ news → dom k ∧ g' k = Some v.
  Proof using OK.
    intros Hch. revert s ks g. induction news as [|k news IH]; intros s ks g HR Hv Hks Hd Hp Hn Hl.
    { exists s, g. rewrite app_nil_r. done. }
    apply Forall_cons_1 in Hd as [Hdk Hd]. inversion Hp as [|? ? Hpk Hp']; subst. cbn [map fz_target].
    assert (g k = None) as Hk by (apply Hn; apply elem_of_list_here).
    destruct (fo_insert_new OK s g (lengthN ks) k v HR Hdk Hk) as (o & s1 & Hi & Ho).
    rewrite decide_True in Ho by (unfold lengthN in *; simpl in *; lia). destruct Ho as [[i ->] HR1].
    assert (lengthN ks + 1 = lengthN (ks ++ [k])) as Hlk by (unfold lengthN; rewrite app_length; simpl; lia). rewrite Hlk in HR1.
    assert (perform_action api (FInsert k v) 0 (s, ks) = Ret () (s1, ks ++ [k])) as Hpa.
    { unfold perform_action, mbind, M_bind, mget, gets. cbn [fst snd]. rewrite (fo_get OK _ _ _ _ HR Hdk), Hk. unfold fz_on, zoom. cbn [fst snd].
      rewrite Hi. unfold modify. cbn [fst snd]. erewrite fz_assert_get_ok; [done|exact HR1|done|]. unfold upd. by rewrite (fo_refl OK). }
    destruct (IH s1 (ks ++ [k]) (upd g k (Some v))) as (s' & g' & He & HR' & Hks').
    - exact HR1.
    - intros k'. unfold upd. destruct (keq k k'); [by right|done].
    - intros k'. rewrite elem_of_app, elem_of_list_singleton. unfold upd. intros [Hin| ->]; [|by rewrite (fo_refl OK)].
      destruct (Hks k' Hin) as [? ?]. split; [done|]. by destruct (keq k k').
    - done.
    - done.
    - intros k' Hk'. unfold upd. rewrite Forall_forall in Hpk. rewrite (Hpk k' Hk'). apply Hn. by apply elem_of_list_further.
    - unfold lengthN in *. rewrite app_length. simpl in *. lia.
    - rewrite <- app_assoc in He, HR', Hks'. cbn [app] in He, HR', Hks'. exists s', g'. split_and!; [|done|done].
      unfold mbind, M_bind. rewrite Hpa. unfold gets. cbn [fst]. rewrite (Hch _ _ _ HR1). cbn. exact He.
  Qed.
  Lemma fz_upsert_full s ks g v v' rnd :
    up = false → Rep s g cap → lengthN ks = cap → 0 < cap → (∀ k, k ∈ ks → dom k ∧ g k = Some v) → v' ≠ v →
    ∃ st, perform_action api (FUpsert v') rnd (s, ks) = Fail Panic st.
  Proof using OK.
    intros Hup HR Hl Hc Hks Hv. destruct (fz_pick_ok rnd ks) as (j & k & Hpk & Hj); [lia|].
    destruct (Hks k (elem_of_list_lookup_2 _ _ _ Hj)) as [Hd Hk].
    destruct (fo_insert_old OK s g cap k v' v HR Hd Hk) as (o & s1 & Hi & Ho). rewrite Hup, bool_decide_eq_false_2 in Ho by lia. destruct Ho as [-> HR1].
    unfold perform_action, mbind, M_bind, mget. cbn [snd]. rewrite decide_False by lia. unfold lift, gets. rewrite Hpk.
    unfold fz_on, zoom. cbn [fst snd]. rewrite Hi. cbn [fst snd]. unfold fz_assert_get. rewrite (fo_get OK _ _ _ _ HR1 Hd), Hk.
    unfold mbind, res_bind, unwrap, assert_eq. rewrite decide_False by done. eauto.
  Qed.
  Lemma fz_target_app check a1 a2 st st' : fz_target api check a1 st = Ret () st' → fz_target api check (a1 ++ a2) st = fz_target api check a2 st'.
  Proof using Type.
    revert st. induction a1 as [|[a rnd] a1 IH]; intros st; [by intros [= ->]|]. cbn [fz_target app]. unfold mbind, M_bind.
    destruct (perform_action api a rnd st) as [[] st1|]; [|done]. unfold gets. destruct (check st1.1) as [b|]; [|done]. destruct b; [|done]. cbn. apply IH.
  Qed.
End generic.

(** ** Facts about the specification of ordered maps *)
Section om.
  Context {K V : Type} (cmp : K → K → comparison) (HO : OrdLaws cmp).
  Implicit Types l : list (K * V).
  Lemma asc_cases k l : ascending cmp l →
    (∃ l1 x l2, l = l1 ++ x :: l2 ∧ below cmp k l1 ∧ cmp k x.1 = Eq ∧ above cmp k l2) ∨
    (∃ l1 l2, l = l1 ++ l2 ∧ below cmp k l1 ∧ above cmp k l2).
  Proof using HO.
    induction l as [|x l IH]; intros Ha; [right; exists [], []; split_and!; [done|constructor..]|].
    apply StronglySorted_inv in Ha as [Ha Hx]. destruct (cmp k x.1) eqn:E.
    - left. exists [], x, l. split_and!; [done|constructor|done|]. by eapply above_eq.
    - right. exists [], (x :: l). split_and!; [done|constructor|]. constructor; [done|]. by eapply above_trans.
    - destruct (IH Ha) as [(l1 & y & l2 & -> & Hb & Hy & Hab)|(l1 & l2 & -> & Hb & Hab)]; [left|right].
      + exists (x :: l1), y, l2. split_and!; [done|by constructor|done|done].
      + exists (x :: l1), l2. split_and!; [done|by constructor|done].
  Qed.
  Lemma om_get_insert k k' v l : om_get cmp k' (om_insert cmp k v l) = if decide (cmp k k' = Eq) then Some v else om_get cmp k' l.
  Proof using HO.
    unfold om_get. induction l as [|x l IH]; cbn [om_insert om_find fst].
    - destruct (decide (cmp k k' = Eq)) as [E|E]; [by rewrite (proj1 (cmp_eq_sym cmp HO k k') E)|].
      destruct (cmp k' k) eqn:E'; try done. by apply (cmp_eq_sym cmp HO) in E'.
    - destruct (cmp k x.1) eqn:Ex; cbn [om_find fst].
      + destruct (decide (cmp k k' = Eq)) as [E|E].
        * rewrite <- (cmp_eq _ HO k k' x.1 E), Ex. done.
        * destruct (cmp k' x.1) eqn:E'; [|done..]. destruct E. rewrite (cmp_eq_r cmp HO k' x.1 k E'). done.
      + destruct (decide (cmp k k' = Eq)) as [E|E]; [by rewrite (proj1 (cmp_eq_sym cmp HO k k') E)|].
        destruct (cmp k' k) eqn:E'; [|done..]. by apply (cmp_eq_sym cmp HO) in E'.
      + destruct (cmp k' x.1) eqn:E'; [|done..]. rewrite decide_False; [done|].
        rewrite (cmp_eq_r cmp HO k' x.1 k E'), Ex. done.
  Qed.
  Lemma om_get_alter k k' f l :
    om_get cmp k' (om_alter cmp k f l) = if decide (cmp k k' = Eq) then f <$> om_get cmp k l else om_get cmp k' l.
  Proof using HO.
    unfold om_get. induction l as [|x l IH]; cbn [om_alter om_find fst]; [by destruct (decide _)|].
    destruct (cmp k x.1) eqn:Ex; cbn [om_find fst].
    - destruct (decide (cmp k k' = Eq)) as [E|E].
      + rewrite <- (cmp_eq _ HO k k' x.1 E), Ex. done.
      + destruct (cmp k' x.1) eqn:E'; [|done..]. destruct E. rewrite (cmp_eq_r cmp HO k' x.1 k E'). done.
    - destruct (decide (cmp k k' = Eq)) as [E|E]; [rewrite <- (cmp_eq _ HO k k' x.1 E), Ex; done|by destruct (cmp k' x.1)].
    - destruct (decide (cmp k k' = Eq)) as [E|E]; [rewrite <- (cmp_eq _ HO k k' x.1 E), Ex; done|by destruct (cmp k' x.1)].
  Qed.
  Lemma om_get_above k l : above cmp k l → om_get cmp k l = None.
  Proof using Type. intros Ha. unfold om_get. by rewrite om_find_above. Qed.
  Lemma om_get_remove k k' l : ascending cmp l →
    om_get cmp k' (om_remove cmp k l) = if decide (cmp k k' = Eq) then None else om_get cmp k' l.
  Proof using HO.
    induction l as [|x l IH]; cbn [om_remove]; intros Ha; [by destruct (decide _)|].
    apply StronglySorted_inv in Ha as [Ha Hx]. specialize (IH Ha). unfold om_get in *. destruct (cmp k x.1) eqn:Ex; cbn [om_find fst].
    - destruct (decide (cmp k k' = Eq)) as [E|E].
      + apply om_get_above. eapply (above_eq cmp HO); [|exact Hx]. by rewrite <- (cmp_eq _ HO k k' x.1 E).
      + destruct (cmp k' x.1) eqn:E'; [|done..]. destruct E. rewrite (cmp_eq_r cmp HO k' x.1 k E'). done.
    - destruct (decide (cmp k k' = Eq)) as [E|E]; [rewrite <- (cmp_eq _ HO k k' x.1 E), Ex; done|by destruct (cmp k' x.1)].
    - destruct (decide (cmp k k' = Eq)) as [E|E]; [rewrite <- (cmp_eq _ HO k k' x.1 E), Ex; done|by destruct (cmp k' x.1)].
  Qed.
  Lemma om_get_mem x l : ascending cmp l → x ∈ l → om_get cmp x.1 l = Some x.2.
  Proof using HO.
    intros Ha Hx. apply elem_of_list_split in Hx as (l1 & l2 & ->). unfold om_get. apply (ascending_mid cmp HO) in Ha as (_ & _ & Hb & _).
    rewrite om_find_found; [done|done|by apply cmp_refl].
  Qed.

  Definition dom_op (dom : K → Prop) (o : om_op K V) : Prop :=
    match o with
    | MInsert k _ | MRemove k | MGet k | MGetMut k _ | MContains k | MIndex k | MIndexMut k _ => dom k
    | _ => True
    end.
  Definition om_inv (dom : K → Prop) (cap : N) l : Prop := ascending cmp l ∧ lengthN l ≤ cap ∧ Forall dom l.*1.
  Lemma om_inv_keys dom cap l l' : l.*1 = l'.*1 → om_inv dom cap l → om_inv dom cap l'.
  Proof using Type.
    intros He (Ha & Hl & Hd). split_and!; [by eapply ascending_keys| |by rewrite <- He].
    unfold lengthN in *. by rewrite <- (fmap_length fst l'), <- He, fmap_length.
  Qed.
  Lemma om_alter_keys k f l : (om_alter cmp k f l).*1 = l.*1.
  Proof using Type. induction l as [|x l IH]; [done|]. cbn [om_alter]. destruct (cmp k x.1); cbn; by rewrite ?IH. Qed.
  Lemma om_spec_inv dom cap o l : dom_op dom o → om_inv dom cap l → om_inv dom cap (om_spec cmp cap o l).2.
  Proof using HO.
    intros Hd Hi. destruct o as [k v|k|k|k f|k| | | | | |k|k f|sc|sc]; cbn [om_spec snd dom_op] in *; try done.
    - destruct Hi as (Ha & Hl & Hf). destruct (asc_cases k l Ha) as [(l1 & x & l2 & -> & Hb & Hx & Hab)|(l1 & l2 & -> & Hb & Hab)].
      + rewrite om_find_found by done. cbn [snd]. rewrite om_insert_found by done.
        eapply om_inv_keys; [|by split_and!]. by rewrite !fmap_app, !fmap_cons.
      + rewrite om_find_absent by done. destruct (decide _) as [Hc|Hc]; cbn [snd]; [|by split_and!]. rewrite om_insert_absent by done.
        split_and!; [by apply ascending_insert| |].
        * unfold lengthN in *. rewrite app_length in *. simpl. lia.
        * rewrite fmap_app in *. rewrite fmap_cons. apply Forall_app in Hf as [? ?]. apply Forall_app. split; [done|]. by constructor.
    - destruct Hi as (Ha & Hl & Hf). destruct (asc_cases k l Ha) as [(l1 & x & l2 & -> & Hb & Hx & Hab)|(l1 & l2 & -> & Hb & Hab)].
      + rewrite om_remove_found by done. split_and!; [by eapply ascending_delete| |].
        * unfold lengthN in *. rewrite app_length in *. simpl in *. lia.
        * rewrite fmap_app in *. rewrite fmap_cons in Hf. apply Forall_app in Hf as [? Hf]. apply Forall_cons_1 in Hf as [_ ?]. apply Forall_app. done.
      + rewrite om_remove_absent by done. by split_and!.
    - eapply om_inv_keys; [|exact Hi]. by rewrite om_alter_keys.
    - eapply om_inv_keys; [|exact Hi]. by rewrite om_alter_keys.
    - pose proof (de_mut_spec_keys (λ (f : V → V) (x : K * V), (x.1, f x.2)) fst sc l (λ _ _, eq_refl)) as Hk.
      destruct (de_mut_spec _ sc l) as [o l'] eqn:E. cbn [snd] in *. eapply om_inv_keys; [|exact Hi]. by symmetry.
  Qed.
End om.

(** ** Iteration to the end *)
Lemma until_none_map {A B} (f : A → B) l xs : until_none (map (option_map f) l) = Val xs → ∃ ys, until_none l = Val ys.
Proof.
  revert xs. induction l as [|[x|] l IH]; intros xs; cbn; [done| |by eauto].
  unfold res_bind. destruct (until_none (map (option_map f) l)) eqn:E; [|done]. intros _. destruct (IH _ eq_refl) as [ys ->]. eauto.
Qed.
Lemma until_none_de {A} m e (l : list A) : (length l < m)%nat → ∃ xs, until_none (de_spec (replicate m e) l) = Val xs ∧ xs ≡ₚ l.
Proof.
  revert l. induction m as [|m IH]; intros l Hl; [lia|]. destruct e; cbn [replicate de_spec].
  - destruct l as [|x l]; [by exists []|]. cbn [until_none]. destruct (IH l) as (xs & -> & Hp); [simpl in Hl; lia|].
    cbn. exists (x :: xs). split; [done|]. by rewrite Hp.
  - destruct (unsnoc l) as [[l' x]|] eqn:E.
    + apply unsnoc_Some in E as ->. cbn [until_none]. destruct (IH l') as (xs & -> & Hp); [rewrite app_length in Hl; simpl in Hl; lia|].
      cbn. exists (x :: xs). split; [done|]. rewrite Hp. solve_Permutation.
    + apply unsnoc_None in E as ->. by exists [].
Qed.
Lemma de_mut_spec_same {A V} (u : (V → V) → A → A) m e l : (∀ x, u (λ v, v) x = x) → (de_mut_spec u (replicate m (e, λ v, v)) l).2 = l.
Proof.
  intros Hu. revert l. induction m as [|m IH]; intros l; [done|]. destruct e; cbn [replicate de_mut_spec].
  - destruct l as [|x l].
    + specialize (IH []). destruct (de_mut_spec _ _ _). done.
    + specialize (IH l). destruct (de_mut_spec _ _ _). cbn in *. by rewrite IH, Hu.
  - destruct (unsnoc l) as [[l' x]|] eqn:E.
    + apply unsnoc_Some in E as ->. specialize (IH l'). destruct (de_mut_spec _ _ _). cbn in *. by rewrite IH, Hu.
    + apply unsnoc_None in E as ->. specialize (IH []). destruct (de_mut_spec _ _ _). done.
Qed.
Lemma history_snoc' {S O A} (step : O → M S A) os o s :
  history step (os ++ [o]) s =
  ((history step os s).1 ++ [(call (step o) (history step os s).2).1], (call (step o) (history step os s).2).2).
Proof.
  revert s. induction os as [|o' os IH]; intros s; simpl; [by destruct (call (step o) s)|].
  destruct (call (step o') s) as [r s1]. rewrite IH. by destruct (history step os s1).
Qed.
Lemma spec_history_snoc' {S O A} (f : O → S → A * S) ops o s :
  spec_history f (ops ++ [o]) s = ((spec_history f ops s).1 ++ [(f o (spec_history f ops s).2).1], (f o (spec_history f ops s).2).2).
Proof.
  revert s. induction ops as [|p ops IH]; intros s; simpl; [by destruct (f o s)|].
  destruct (f p s) as [r s1]. rewrite IH. by destruct (spec_history f ops s1).
Qed.

(** ** The trees: whatever answers every history like the specification does meets the requirements *)
Section trees.
  Context {S K V : Type} (api : oapi S K V) (cmp : K → K → comparison) (HO : OrdLaws cmp) (dom : K → Prop) (cap : N) (up : bool)
    (sp : om_op K V → list (K * V) → res (om_out K V) * list (K * V)) (s0 : S).
  Hypothesis Hsp : ∀ o l, sp o l =
    match o with
    | MInsert k v => if up || bool_decide (lengthN l < cap) then om_spec cmp cap o l else (Val (MBool false), l)
    | _ => om_spec cmp cap o l
    end.
  Hypothesis Hist : ∀ ops, Forall (dom_op dom) ops → (history (om_step api) ops s0).1 = (spec_history sp ops []).1.
  Definition tr_at (s : S) (l : list (K * V)) : Prop :=
    ∃ ops, Forall (dom_op dom) ops ∧ s = (history (om_step api) ops s0).2 ∧ l = (spec_history sp ops []).2.
  Definition tr_rep (s : S) (g : K → option V) (n : N) : Prop := ∃ l, tr_at s l ∧ n = lengthN l ∧ ∀ k, g k = om_get cmp k l.
  Definition tr_keq (a b : K) : bool := bool_decide (cmp a b = Eq).

  Lemma tr_call s l o : tr_at s l → dom_op dom o → (call (om_step api o) s).1 = (sp o l).1 ∧ tr_at (call (om_step api o) s).2 (sp o l).2.
  Proof using Hist.
    intros (ops & Hops & -> & ->) Ho. assert (Forall (dom_op dom) (ops ++ [o])) as Ha. { apply Forall_app. by repeat constructor. }
    split.
    - pose proof (Hist _ Ha) as He. rewrite history_snoc', spec_history_snoc' in He. cbn [fst] in He. apply app_inj_tail in He. apply He.
    - exists (ops ++ [o]). split; [done|]. by rewrite history_snoc', spec_history_snoc'.
  Qed.
  Lemma tr_ask s l o : tr_at s l → dom_op dom o → (call (om_step api o) s).1 = (sp o l).1.
  Proof using Hist. intros. by apply tr_call. Qed.
  Lemma tr_inv s l : tr_at s l → om_inv cmp dom cap l.
  Proof using HO Hsp.
    clear Hist. intros (ops & Hops & _ & ->). induction ops as [|o ops IH] using rev_ind.
    { split_and!; [constructor|unfold lengthN; simpl; lia|constructor]. }
    apply Forall_app in Hops as [Hops Ho]. apply Forall_cons_1 in Ho as [Ho _]. specialize (IH Hops).
    rewrite spec_history_snoc'. cbn [snd]. rewrite Hsp. pose proof (om_spec_inv cmp HO dom cap o _ Ho IH) as Hi.
    destruct o as [k v| | | | | | | | | | | | |]; try done. by destruct (up || _).
  Qed.
  Lemma tr_step s l o r s' :
    tr_at s l → dom_op dom o → call (om_step api o) s = (r, s') → r = (sp o l).1 ∧ tr_at s' (sp o l).2.
  Proof using Hist. intros Ha Ho Hc. destruct (tr_call s l o Ha Ho) as [H1 H2]. by rewrite Hc in H1, H2. Qed.
  Lemma tr_capacity s l : tr_at s l → a_capacity api s = cap.
  Proof using Hist Hsp.
    intros Ha. pose proof (tr_ask s l MCapacity Ha I) as Hc. rewrite Hsp in Hc. by injection Hc.
  Qed.
  Lemma tr_insert s l k v :
    tr_at s l → dom k → ∃ o s', a_insert api k v s = Ret o s' ∧ tr_at s' (sp (MInsert k v) l).2 ∧
      (sp (MInsert k v) l).1 = Val (MBool (match o with Some _ => true | None => false end)).
  Proof using Hist Hsp.
    intros Ha Hk. destruct (tr_call s l (MInsert k v) Ha Hk) as [H1 H2]. unfold call, om_step, mbind, M_bind in H1, H2.
    destruct (a_insert api k v s) as [o s'|e s'].
    - exists o, s'. split; [done|]. split; [exact H2|]. symmetry. exact H1.
    - exfalso. cbn in H1. rewrite Hsp in H1. cbn in H1. destruct (up || _); [|done]. destruct (om_find cmp k l); [done|]. by destruct (decide _).
  Qed.

  Lemma tr_ok `{EqDecision V} : fz_ok (nam_of_oapi api) tr_keq dom cap up tr_rep.
  Proof using HO Hist Hsp.
    split; cbn [nam_of_oapi n_insert n_remove n_get n_get_mut n_len n_capacity n_iter n_iter_mut].
    - intros k. apply bool_decide_eq_true. by apply cmp_refl.
    - unfold tr_keq. intros k k'. rewrite !bool_decide_eq_true. by apply (cmp_eq_sym cmp HO).
    - unfold tr_keq. intros k k' k''. rewrite !bool_decide_eq_true. intros H1 H2. by rewrite (cmp_eq _ HO _ _ _ H1).
    - intros s g g' n (l & Ha & -> & Hg) He. exists l. split_and!; [done|done|]. intros k. by rewrite He, Hg.
    - intros s g n k k' (l & Ha & -> & Hg) He. unfold tr_keq in He. apply bool_decide_eq_true in He. rewrite !Hg. clear -He HO.
      unfold om_get. f_equal. induction l as [|x l IH]; [done|]. cbn. rewrite (cmp_eq _ HO k k' x.1 He), IH. done.
    - intros s g n (l & Ha & -> & Hg). pose proof (tr_ask s l MLen Ha I) as Hc. rewrite Hsp in Hc. by injection Hc.
    - intros s g n k (l & Ha & -> & Hg) Hk. pose proof (tr_ask s l (MGet k) Ha Hk) as Hc. rewrite Hsp in Hc.
      unfold call, om_step, mbind, M_bind, gets in Hc. cbn in Hc. rewrite Hg. destruct (a_get api s k); [|done]. by injection Hc as ->.
    - intros s g n k v (l & Ha & -> & Hg) Hk Hn. destruct (tr_insert s l k v Ha Hk) as (o & s' & He & Ha' & Ho).
      exists o, s'. split; [done|]. rewrite Hsp in Ho, Ha'. rewrite Hg in Hn.
      assert (om_find cmp k l = None) as Hf by (unfold om_get in Hn; by destruct (om_find cmp k l)).
      cbn [om_spec] in Ho, Ha'. rewrite Hf in Ho, Ha'. destruct (decide (lengthN l < cap)) as [Hl|Hl].
      + rewrite bool_decide_eq_true_2, orb_true_r in Ho, Ha' by done. cbn in Ho, Ha'. split; [by destruct o; [eauto|]|].
        exists (om_insert cmp k v l). split_and!; [done| |].
        * destruct (tr_inv s l Ha) as (Has & _ & _). destruct (asc_cases cmp HO k l Has) as [(l1 & x & l2 & -> & Hb & Hx & Hab)|(l1 & l2 & -> & Hb & Hab)].
          -- rewrite om_find_found in Hf; done.
          -- rewrite om_insert_absent by done. unfold lengthN. rewrite !app_length. simpl. lia.
        * intros k'. rewrite (om_get_insert cmp HO), <- Hg. unfold upd, tr_keq. by destruct (decide _) as [E|E];
            [rewrite bool_decide_eq_true_2 by done|rewrite bool_decide_eq_false_2 by done].
      + destruct (up || _); cbn in Ho, Ha'; (split; [by destruct o|]; exists l; split_and!; [done|done|done]).
    - intros s g n k v v0 (l & Ha & -> & Hg) Hk Hn. destruct (tr_insert s l k v Ha Hk) as (o & s' & He & Ha' & Ho).
      exists o, s'. split; [done|]. rewrite Hsp in Ho, Ha'. rewrite Hg in Hn. unfold om_get in Hn.
      cbn [om_spec] in Ho, Ha'. destruct (om_find cmp k l) as [x|] eqn:Hf; [|done].
      destruct (up || _); cbn in Ho, Ha'.
      + split; [by destruct o; [eauto|]|]. exists (om_insert cmp k v l). split_and!; [done| |].
        * destruct (tr_inv s l Ha) as (Has & _ & _). destruct (asc_cases cmp HO k l Has) as [(l1 & y & l2 & -> & Hb & Hx & Hab)|(l1 & l2 & -> & Hb & Hab)].
          -- rewrite om_insert_found by done. unfold lengthN. rewrite !app_length. done.
          -- rewrite om_find_absent in Hf; done.
        * intros k'. rewrite (om_get_insert cmp HO), <- Hg. unfold upd, tr_keq. by destruct (decide _) as [E|E];
            [rewrite bool_decide_eq_true_2 by done|rewrite bool_decide_eq_false_2 by done].
      + split; [by destruct o|]. exists l. done.
    - intros s g n k f v0 (l & Ha & -> & Hg) Hk Hn. destruct (tr_call s l (MGetMut k f) Ha Hk) as [H1 H2]. rewrite Hsp in H1, H2.
      unfold call, om_step, mbind, M_bind in H1, H2. cbn in H1, H2. rewrite Hg in Hn. rewrite Hn in H1.
      destruct (a_get_mut api k f s) as [o s'|]; [|done]. cbn in H1, H2. injection H1 as ->. exists s'. split; [done|].
      exists (om_alter cmp k f l). split_and!; [done| |].
      + unfold lengthN. by rewrite <- (fmap_length fst (om_alter _ _ _ _)), om_alter_keys, fmap_length.
      + intros k'. rewrite (om_get_alter cmp HO), Hn, <- Hg. unfold upd, tr_keq. by destruct (decide _) as [E|E];
          [rewrite bool_decide_eq_true_2 by done|rewrite bool_decide_eq_false_2 by done].
    - intros s g n k v0 (l & Ha & -> & Hg) Hk Hn. destruct (tr_call s l (MRemove k) Ha Hk) as [H1 H2]. rewrite Hsp in H1, H2.
      unfold call, om_step, mbind, M_bind in H1, H2. cbn in H1, H2. rewrite Hg in Hn. rewrite Hn in H1.
      destruct (a_remove api k s) as [o s'|]; [|done]. cbn in H1, H2. injection H1 as ->. exists s'. split; [done|].
      destruct (tr_inv s l Ha) as (Has & _ & _). exists (om_remove cmp k l). split_and!; [done| |].
      + unfold om_get in Hn. destruct (asc_cases cmp HO k l Has) as [(l1 & y & l2 & -> & Hb & Hx & Hab)|(l1 & l2 & -> & Hb & Hab)].
        * rewrite om_remove_found by done. unfold lengthN. rewrite !app_length. simpl. lia.
        * rewrite om_find_absent in Hn; done.
      + intros k'. rewrite (om_get_remove cmp HO), <- Hg by done. unfold upd, tr_keq. by destruct (decide _) as [E|E];
          [rewrite bool_decide_eq_true_2 by done|rewrite bool_decide_eq_false_2 by done].
    - intros s g n e (l & Ha & -> & Hg). unfold fz_calls. cbn [n_capacity nam_of_oapi]. rewrite (tr_capacity s l Ha).
      pose proof (tr_ask s l (MIter (replicate (N.to_nat (cap + 1)) e)) Ha I) as Hc. rewrite Hsp in Hc.
      unfold call, om_step, mbind, M_bind, gets in Hc. cbn [om_spec fst] in Hc. destruct (tr_inv s l Ha) as (Has & Hl & Hd).
      destruct (a_iter api s _) as [out|]; [|done]. injection Hc as ->.
      destruct (until_none_de (N.to_nat (cap + 1)) e l) as (xs & Hx & Hp); [unfold lengthN in Hl; lia|].
      do 2 eexists. split_and!; [done|exact Hx|]. intros kv Hkv. rewrite Hp in Hkv. split.
      + eapply Forall_forall; [exact Hd|]. by apply elem_of_list_fmap_1.
      + rewrite Hg. by apply om_get_mem.
    - intros s g n e (l & Ha & -> & Hg). unfold fz_calls. cbn [n_capacity nam_of_oapi]. rewrite (tr_capacity s l Ha).
      destruct (tr_call s l (MIterMut (replicate (N.to_nat (cap + 1)) (e, λ v, v))) Ha I) as [H1 H2]. rewrite Hsp in H1, H2.
      unfold call, om_step, mbind, M_bind in H1, H2. cbn [om_spec fst snd] in H1, H2. destruct (tr_inv s l Ha) as (Has & Hl & Hd).
      pose proof (de_mut_spec_out (λ (f : V → V) (x : K * V), (x.1, f x.2)) (replicate (N.to_nat (cap + 1)) (e, λ v, v)) l) as Ho.
      pose proof (de_mut_spec_same (λ (f : V → V) (x : K * V), (x.1, f x.2)) (N.to_nat (cap + 1)) e l) as Hs.
      destruct (de_mut_spec _ _ l) as [o' l']. cbn [fst snd] in *. rewrite Hs in H2 by by intros [].
      destruct (a_iter_mut api _ s) as [out s'|]; [|done]. cbn [fst snd] in *. injection H1 as H1.
      destruct (until_none_de (N.to_nat (cap + 1)) e l) as (xs & Hx & Hp); [unfold lengthN in Hl; lia|].
      rewrite fmap_replicate in Ho. cbn [fst] in Ho. rewrite <- Ho, <- H1 in Hx. apply until_none_map in Hx as [ys Hys].
      exists out, ys, s'. split_and!; [done|done|]. by exists l.
  Qed.
  Lemma tr_start : tr_rep s0 (λ _, None) 0.
  Proof using Type. exists []. split_and!; [by exists []|done|done]. Qed.
End trees.

