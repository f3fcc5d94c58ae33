(** * The cost of lookups is the number of clashes; universal families *)
From Coq Require Import Znumtheory.
From Verif Require Import OrderProof CostHt MtfProof UnivSpec.
Local Open Scope nat_scope.
Lemma suml_cons n l : sum_list (n :: l) = n + sum_list l.
Proof. done. Qed.

Lemma count_app {A} (p : A → bool) l1 l2 : count p (l1 ++ l2) = count p l1 + count p l2.
Proof. unfold count. by rewrite map_app, suml_app. Qed.
Lemma count_perm {A} (p : A → bool) l1 l2 : l1 ≡ₚ l2 → count p l1 = count p l2.
Proof. unfold count. induction 1; cbn [map]; rewrite ?suml_cons; lia. Qed.
Lemma count_all {A} (p : A → bool) l : Forall (λ x, p x = true) l → count p l = length l.
Proof. unfold count. induction 1 as [|x l Hx _ IH]; [done|]. cbn [map length]; rewrite ?suml_cons. rewrite Hx, IH. done. Qed.
Lemma count_none {A} (p : A → bool) l : Forall (λ x, p x = false) l → count p l = 0.
Proof. unfold count. induction 1 as [|x l Hx _ IH]; [done|]. cbn [map]; rewrite ?suml_cons. rewrite Hx, IH. done. Qed.
Lemma sum_perm (l1 l2 : list nat) : l1 ≡ₚ l2 → sum_list l1 = sum_list l2.
Proof. induction 1; rewrite ?suml_cons; lia. Qed.
Lemma sum_map_le {A} (f g : A → nat) l : (∀ x, x ∈ l → f x ≤ g x) → sum_list (map f l) ≤ sum_list (map g l).
Proof.
  induction l as [|x l IH]; intros Hl; [done|]. cbn [map]; rewrite ?suml_cons. specialize (Hl x ltac:(left)) as Hx.
  assert (sum_list (map f l) ≤ sum_list (map g l)) by (apply IH; intros y Hy; apply Hl; by right). lia.
Qed.
Lemma sum_map_ext {A} (f g : A → nat) l : (∀ x, x ∈ l → f x = g x) → sum_list (map f l) = sum_list (map g l).
Proof. intros Hl. apply Nat.le_antisymm; apply sum_map_le; intros x Hx; rewrite (Hl x Hx); done. Qed.
Lemma sum_map_add {A} (f g : A → nat) l : sum_list (map (λ x, f x + g x) l) = sum_list (map f l) + sum_list (map g l).
Proof. induction l as [|x l IH]; [done|]. cbn [map]; rewrite ?suml_cons. rewrite IH. lia. Qed.
Lemma sum_map_const {A} c (l : list A) : sum_list (map (λ _, c) l) = length l * c.
Proof. induction l as [|x l IH]; [done|]. cbn [map length]; rewrite ?suml_cons. rewrite IH. lia. Qed.

Section clashes.
  Context {K : Type} (nb : nat) (hash : K → N).
  Notation clash := (clash nb hash).
  Notation clashes := (clashes nb hash).
  Lemma clash_sym x y : clash x y = clash y x.
  Proof. unfold UnivSpec.clash. apply N.eqb_sym. Qed.
  Lemma clashes_perm l1 l2 : l1 ≡ₚ l2 → clashes l1 = clashes l2.
  Proof.
    induction 1 as [|x l1 l2 Hp IH|x y l|l1 l2 l3 _ IH1 _ IH2]; cbn [UnivSpec.clashes]; [done|by rewrite IH, (count_perm _ _ _ Hp)| |lia].
    unfold count. cbn [map]; rewrite ?suml_cons. rewrite (clash_sym y x). lia.
  Qed.
  Lemma clashes_app l1 l2 : Forall (λ x, Forall (λ y, clash x y = false) l2) l1 → clashes (l1 ++ l2) = clashes l1 + clashes l2.
  Proof. induction 1 as [|x l1 Hx _ IH]; [done|]. cbn [app UnivSpec.clashes]. rewrite count_app, IH, (count_none _ _ Hx). lia. Qed.
End clashes.

Section table.
  Context {K V : Type} (keq : K → K → bool) (hash : K → N) (HL : HashLaws keq hash) (nb : nat) (Hnb : 0 < nb).
  Notation table := (list (list (K * V))).
  Notation DK := (Forall (distinct_keys keq)).
  Notation clash := (clash nb hash).
  (** every pair in the chain of its key *)
  Definition placed (T : table) : Prop := length T = nb ∧ ∀ j c x, T !! j = Some c → x ∈ c → hb_index hash T x.1 = j.
  Lemma index_lt (T : table) k : length T = nb → hb_index hash T k < nb.
  Proof using Hnb. intros E. unfold hb_index, lengthN. rewrite E. pose proof (N.mod_upper_bound (hash k) (N.of_nat nb) ltac:(lia)). lia. Qed.
  Lemma chain_some (T : table) k : length T = nb → T !! hb_index hash T k = Some (hb_chain hash T k).
  Proof using Hnb. intros E. pose proof (index_lt T k E). unfold hb_chain. destruct (lookup_lt_is_Some_2 T (hb_index hash T k)) as [c ->]; [lia|done]. Qed.
  Lemma index_clash (T : table) x y : length T = nb → clash x y = true ↔ hb_index hash T x = hb_index hash T y.
  Proof using Hnb. intros E. unfold UnivSpec.clash, hb_index, lengthN. rewrite E, N.eqb_eq. split; [by intros ->|]. apply N2Nat.inj. Qed.
  Lemma concat_put (T : table) i c0 : T !! i = Some c0 → ∃ rest, concat T ≡ₚ c0 ++ rest ∧ ∀ c, concat (<[i := c]> T) ≡ₚ c ++ rest.
  Proof.
    intros E. exists (concat (take i T) ++ concat (drop (S i) T)). assert (i < length T) as Hi by (by eapply lookup_lt_Some). split.
    - rewrite <- (take_drop_middle T i c0 E) at 1. rewrite concat_app. cbn [concat]. rewrite !app_assoc. by rewrite (Permutation_app_comm c0).
    - intros c. rewrite (insert_take_drop T i c Hi), concat_app. cbn [concat]. rewrite !app_assoc. by rewrite (Permutation_app_comm c).
  Qed.
  Lemma placed_put T k c : placed T → (∀ x, x ∈ c → hb_index hash T x.1 = hb_index hash T k) → placed (hb_put hash T k c).
  Proof.
    intros [E Hp] Hc. unfold hb_put. split; [by rewrite insert_length|]. intros j c' x Hj Hx.
    assert (hb_index hash (<[hb_index hash T k := c]> T) x.1 = hb_index hash T x.1) as -> by (unfold hb_index, lengthN; by rewrite insert_length).
    destruct (decide (j = hb_index hash T k)) as [->|Hne].
    - rewrite list_lookup_insert in Hj by (eapply lookup_lt_Some in Hj; by rewrite insert_length in Hj). injection Hj as <-. by apply Hc.
    - rewrite list_lookup_insert_ne in Hj by done. by eapply Hp.
  Qed.
  Lemma placed_chain T k x : placed T → x ∈ hb_chain hash T k → hb_index hash T x.1 = hb_index hash T k.
  Proof. intros [E Hp] Hx. unfold hb_chain in Hx. destruct (T !! hb_index hash T k) as [c|] eqn:Ec; [|by apply elem_of_nil in Hx]. by eapply Hp. Qed.
  Lemma table_apply_keys fs (T : table) : map (map fst) (table_apply fs T) = map (map fst) T.
  Proof.
    revert fs. induction T as [|c T IH]; intros fs; [done|]. cbn [table_apply map]. rewrite IH. f_equal. apply (chain_apply_keys fs c).
  Qed.
  Lemma keys_of (T : table) : (concat T).*1 = concat (map (map fst) T).
  Proof. induction T as [|c T IH]; [done|]. cbn [concat map]. rewrite fmap_app, IH. done. Qed.
  (** a key equal to [k] is stored iff it is in the chain of [k] *)
  Lemma stored_chain T k : placed T → (∃ x, x ∈ (concat T).*1 ∧ keq x k = true) ↔ ∃ x, x ∈ (hb_chain hash T k).*1 ∧ keq x k = true.
  Proof using HL Hnb.
    intros [E Hp]. split; intros (x & Hx & Hk); exists x; (split; [|done]).
    - apply elem_of_list_fmap in Hx as (p & -> & Hx). apply elem_of_list_In, in_concat in Hx as (c & Hc & Hin). apply elem_of_list_In, elem_of_list_lookup in Hc as [j Hj].
      apply elem_of_list_In in Hin. pose proof (Hp _ _ _ Hj Hin) as Hi. apply elem_of_list_fmap_1.
      assert (hb_index hash T k = j) as Ek by (rewrite <- Hi; unfold hb_index; by rewrite (hash_keq _ _ HL _ _ Hk)).
      unfold hb_chain. rewrite Ek, Hj. done.
    - destruct (concat_put T _ _ (chain_some T k E)) as (rest & Hr & _). apply elem_of_list_fmap in Hx as (p & -> & Hx). apply elem_of_list_fmap_1.
      rewrite Hr. apply elem_of_app. by left.
  Qed.
  Lemma filter_id (k : K) (l : list K) : Forall (λ x, keq x k = false) l → filter (λ x, keq x k = false) l = l.
  Proof. induction 1 as [|x l Hx _ IH]; [done|]. rewrite filter_cons_True by done. by rewrite IH. Qed.

  Notation Good T := (placed T ∧ DK T).
  Lemma step_good cap o T : Good T → Good (hb_spec keq hash cap o T).2 ∧ (concat (hb_spec keq hash cap o T).2).*1 ≡ₚ keys_step keq cap (concat T).*1 o.
  Proof using HL Hnb.
    intros [HP HD]. assert (DK (hb_spec keq hash cap o T).2) as HD' by (by apply (DK_spec keq hash HL)).
    enough (placed (hb_spec keq hash cap o T).2 ∧ (concat (hb_spec keq hash cap o T).2).*1 ≡ₚ keys_step keq cap (concat T).*1 o) as [? ?] by done.
    clear HD'. pose proof HP as [E _].
    assert (∀ k c, (hb_chain hash T k).*1 ≡ₚ c.*1 → placed (hb_put hash T k c) ∧ (concat (hb_put hash T k c)).*1 ≡ₚ (concat T).*1) as Hsame.
    { intros k c Hc. split.
      - apply placed_put; [done|]. intros x Hx. assert (x.1 ∈ (hb_chain hash T k).*1) as Hx1 by (rewrite Hc; by apply elem_of_list_fmap_1).
        apply elem_of_list_fmap in Hx1 as (y & -> & Hy). by apply placed_chain.
      - destruct (concat_put T _ _ (chain_some T k E)) as (rest & Hr & Hput). unfold hb_put. rewrite Hput, Hr, !fmap_app. by rewrite Hc. }
    assert (∀ k f, placed (hb_get_mut keq hash T k f) ∧ (concat (hb_get_mut keq hash T k f)).*1 ≡ₚ (concat T).*1) as Hgm.
    { intros k f. unfold hb_get_mut. destruct (hb_split keq k _) as [[[c1 x] c2]|] eqn:Es; [|done]. apply split_keys in Es as [Es _]. apply Hsame.
      rewrite Es, fmap_cons, !fmap_app, fmap_cons. cbn [fst]. symmetry. apply Permutation_middle. }
    destruct o as [k v|k|k|k f|k|k| | | |k|k f|n|fs]; cbn [hb_spec keys_step snd]; try done; try apply Hgm.
    - pose proof (stored_chain T k HP) as Hst. unfold hb_insert. destruct (hb_split keq k _) as [[[c1 x] c2]|] eqn:Es; cbn [snd].
      + apply split_keys in Es as [Es Ek]. assert (existsb (λ x, keq x k) (concat T).*1 = true) as ->.
        { apply existsb_exists. destruct Hst as [_ [y [Hy Hyk]]].
          - exists x.1. split; [|done]. rewrite Es, fmap_app, fmap_cons. apply elem_of_app. right. left.
          - exists y. split; [by apply elem_of_list_In|done]. }
        apply Hsame. by rewrite Es, !fmap_app, !fmap_cons.
      + apply split_absent in Es. assert (existsb (λ x, keq x k) (concat T).*1 = false) as ->.
        { apply not_true_is_false. intros Hex. apply existsb_exists in Hex as (y & Hy & Hyk). destruct Hst as [[z [Hz Hzk]] _]; [exists y; split; [by apply elem_of_list_In|done]|].
          rewrite Forall_forall in Es. rewrite (Es z Hz) in Hzk. done. }
        assert (lengthN (concat T).*1 = lengthN (concat T)) as -> by (unfold lengthN; by rewrite fmap_length).
        destruct (decide (lengthN (concat T) < cap)%N); cbn [snd]; [|done]. split.
        * apply placed_put; [done|]. intros x [->|Hx]%elem_of_cons; [done|]. by apply placed_chain.
        * destruct (concat_put T _ _ (chain_some T k E)) as (rest & Hr & Hput). unfold hb_put. rewrite Hput, Hr. done.
    - unfold hb_remove. destruct (concat_put T _ _ (chain_some T k E)) as (rest & Hr & Hput).
      assert (Forall (λ x, keq x k = false) rest.*1) as Hrest.
      { apply Forall_forall. intros x Hx. apply not_true_is_false. intros Hxk.
        (* in the rest there are the pairs of other chains only *)
        apply elem_of_list_fmap in Hx as (p & -> & Hx). assert (p ∈ concat (<[hb_index hash T k := []]> T)) as Hin by (by rewrite Hput).
        apply elem_of_list_In, in_concat in Hin as (c & Hc & Hin). apply elem_of_list_In, elem_of_list_lookup in Hc as [j Hj]. apply elem_of_list_In in Hin.
        destruct (decide (j = hb_index hash T k)) as [->|Hne].
        - rewrite list_lookup_insert in Hj by (eapply lookup_lt_Some in Hj; by rewrite insert_length in Hj). injection Hj as <-. by apply elem_of_nil in Hin.
        - rewrite list_lookup_insert_ne in Hj by done. apply Hne. destruct HP as [_ Hp]. rewrite <- (Hp _ _ _ Hj Hin). unfold hb_index. by rewrite (hash_keq _ _ HL _ _ Hxk). }
      assert (distinct_keys keq (hb_chain hash T k)) as Hdk.
      { rewrite Forall_lookup in HD. eapply HD. by apply chain_some. }
      destruct (hb_split keq k _) as [[[c1 x] c2]|] eqn:Es.
      + apply split_keys in Es as [Es Ek]. split.
        * apply placed_put; [done|]. intros y Hy. apply placed_chain; [done|]. rewrite Es. apply elem_of_app in Hy as [Hy|Hy]; apply elem_of_app; [by left|right; by right].
        * unfold hb_put. rewrite Hput, Hr, Es, !fmap_app, fmap_cons, !filter_app, filter_cons_False by (by rewrite Ek). rewrite (filter_id k rest.*1 Hrest).
          assert (Forall (λ y, keq y k = false) c1.*1 ∧ Forall (λ y, keq y k = false) c2.*1) as [H1 H2].
          { rewrite Es in Hdk. eapply (dk_perm keq hash HL) in Hdk; [|symmetry; apply Permutation_middle]. apply (dk_cons keq hash HL) in Hdk as [Hx _].
            apply Forall_app in Hx as [Hx1 Hx2].
            assert (∀ y, keq x.1 y = false ∨ keq y x.1 = false → keq y k = false) as Hyk.
            { intros y Hy. apply not_true_is_false. intros Ht. assert (keq y x.1 = true) as Hyx.
              { apply (keq_trans _ _ HL y k x.1); [done|]. by rewrite (keq_sym _ _ HL). }
              destruct Hy as [Hy|Hy]; [rewrite (keq_sym _ _ HL) in Hy|]; congruence. }
            split; apply Forall_fmap; (eapply Forall_impl; [eassumption|]); intros y Hy; apply Hyk; auto. }
          by rewrite !filter_id by done.
      + apply split_absent in Es. split; [done|]. by rewrite Hr, fmap_app, filter_app, !filter_id.
    - pose proof (table_apply_keys fs T) as Et. split; [|by rewrite !keys_of, Et]. destruct HP as [_ Hp]. assert (length (table_apply fs T) = length T) as El.
      { pose proof (f_equal length Et) as El. by rewrite !map_length in El. }
      split; [by rewrite El|]. intros j c x Hj Hx. unfold hb_index, lengthN. rewrite El.
      assert (map (map fst) (table_apply fs T) !! j = Some (map fst c)) as Hm by (rewrite list_lookup_fmap, Hj; done).
      rewrite Et, list_lookup_fmap in Hm. destruct (T !! j) as [c'|] eqn:Ec; [|done]. injection Hm as Hm.
      assert (x.1 ∈ map fst c') as Hx1 by (rewrite Hm; by apply elem_of_list_fmap_1). apply elem_of_list_fmap in Hx1 as (y & -> & Hy). by eapply Hp.
  Qed.
  Lemma keys_step_perm cap ks ks' (o : hm_op K V) : ks ≡ₚ ks' → keys_step keq cap ks o ≡ₚ keys_step keq cap ks' o.
  Proof.
    intros Hp. destruct o as [k v|k|k|k f|k|k| | | |k|k f|n|fs]; cbn [keys_step]; try done.
    - assert (existsb (λ x, keq x k) ks = existsb (λ x, keq x k) ks') as ->.
      { apply eq_true_iff_eq. rewrite !existsb_exists. by split; intros (x & Hx & E); exists x; (split; [|done]); apply elem_of_list_In in Hx; apply elem_of_list_In; [rewrite <- Hp|rewrite Hp]. }
      assert (lengthN ks = lengthN ks') as -> by (unfold lengthN; by rewrite Hp). destruct (existsb _ ks'); [done|]. by case_decide; [f_equiv|].
    - by rewrite Hp.
  Qed.
  Lemma history_good cap ops : ∀ T, Good T → Good (spec_history (hb_spec keq hash cap) ops T).2 ∧
    (concat (spec_history (hb_spec keq hash cap) ops T).2).*1 ≡ₚ fold_left (keys_step keq cap) ops (concat T).*1.
  Proof using HL Hnb.
    induction ops as [|o ops IH]; intros T HT; [done|]. cbn [spec_history fold_left]. destruct (step_good cap o T HT) as [H1 H2].
    destruct (hb_spec keq hash cap o T) as [r T1]. cbn [snd] in H1, H2. destruct (IH T1 H1) as [H3 H4]. destruct (spec_history _ ops T1) as [rs T2]. cbn [snd] in *.
    split; [done|]. rewrite H4. clear - H2. revert H2. generalize (keys_step keq cap (concat T).*1 o), ((concat T1).*1). induction ops as [|o' ops IH]; intros l l' Hp; [done|].
    cbn [fold_left]. apply IH. by apply keys_step_perm.
  Qed.
  Lemma new_good : Good (replicate nb [] : table).
  Proof. split; [split; [by rewrite replicate_length|]|apply Forall_replicate; constructor]. intros j c x [-> _]%lookup_replicate Hx. by apply elem_of_nil in Hx. Qed.

  (** ** The cost *)
  Lemma chain_cost (c : list (K * V)) : distinct_keys keq c → Forall (λ x, Forall (λ y, clash x y = true) c.*1) c.*1 →
    sum_list (map (λ x, looks keq x.1 c) c) = length c + clashes nb hash c.*1.
  Proof using HL Hnb.
    induction c as [|p c IH]; intros Hd Hc; [done|]. apply (dk_cons keq hash HL) in Hd as [Hp Hd]. rewrite fmap_cons in Hc. apply Forall_cons in Hc as [Hc1 Hc2].
    cbn [map looks]; rewrite ?suml_cons. rewrite (keq_refl _ _ HL). rewrite fmap_cons. cbn [clashes length].
    rewrite (sum_map_ext _ (λ x, 1 + looks keq x.1 c)).
    2:{ intros x Hx. rewrite Forall_forall in Hp. specialize (Hp x Hx). cbn in Hp. assert (keq p.1 x.1 = false) as -> by (by rewrite ?(keq_sym _ _ HL p.1 x.1)). done. }
    rewrite sum_map_add, sum_map_const, IH.
    - rewrite count_all by (by apply Forall_cons in Hc1 as [_ ?]). rewrite fmap_length. lia.
    - done.
    - eapply Forall_impl; [exact Hc2|]. intros x Hx. by apply Forall_cons in Hx as [_ ?].
  Qed.
  Lemma table_cost T : Good T → sum_list (map (looks_in keq hash T) (concat T).*1) = length (concat T) + clashes nb hash (concat T).*1.
  Proof using HL Hnb.
    intros [[E Hp] HD].
    assert (∀ T1 T2, T = T1 ++ T2 → sum_list (map (looks_in keq hash T) (concat T2).*1) = length (concat T2) + clashes nb hash (concat T2).*1) as Hall.
    { intros T1 T2. revert T1. induction T2 as [|c T2 IH]; intros T1 ET; [done|]. cbn [concat]. rewrite fmap_app, map_app, suml_app, app_length.
      rewrite (IH (T1 ++ [c])) by (by rewrite <- app_assoc). assert (T !! length T1 = Some c) as Hc by (by rewrite ET, list_lookup_middle).
      rewrite clashes_app.
      - assert (sum_list (map (looks_in keq hash T) c.*1) = length c + clashes nb hash c.*1) as ->; [|lia].
        rewrite <- chain_cost.
        + change (c.*1) with (map fst c). rewrite map_map. apply sum_map_ext. intros x Hx. unfold looks_in, hb_chain. by rewrite (Hp _ _ _ Hc Hx), Hc.
        + rewrite Forall_lookup in HD. by eapply HD.
        + apply Forall_fmap, Forall_forall. intros x Hx. apply Forall_fmap, Forall_forall. intros y Hy. cbn. apply (index_clash T); [done|].
          by rewrite (Hp _ _ _ Hc Hx), (Hp _ _ _ Hc Hy).
      - apply Forall_fmap, Forall_forall. intros x Hx. apply Forall_fmap, Forall_forall. intros y Hy. cbn. apply not_true_is_false. intros Ht.
        apply (index_clash T) in Ht; [|done]. rewrite (Hp _ _ _ Hc Hx) in Ht.
        apply elem_of_list_In, in_concat in Hy as (c' & Hc' & Hy). apply elem_of_list_In in Hy, Hc'. apply elem_of_list_lookup in Hc' as [j Hj].
        assert (T !! (length T1 + S j) = Some c') as Hj'.
        { rewrite ET, lookup_app_r by lia. replace (length T1 + S j - length T1) with (S j) by lia. done. }
        rewrite (Hp _ _ _ Hj' Hy) in Ht. lia. }
    by apply (Hall []).
  Qed.
  Lemma absent_cost T k : Good T → Forall (λ x, keq x k = false) (concat T).*1 → looks_in keq hash T k = 1 + count (clash k) (concat T).*1.
  Proof using HL Hnb.
    intros [[E Hp] HD] Hno. destruct (concat_put T _ _ (chain_some T k E)) as (rest & Hr & Hput).
    rewrite (count_perm _ _ _ (fmap_Permutation fst _ _ Hr)), fmap_app, count_app. unfold looks_in.
    assert (Forall (λ x, clash k x = false) rest.*1) as Hrest.
    { apply Forall_fmap, Forall_forall. intros p Hx. cbn. apply not_true_is_false. intros Ht. apply (index_clash T) in Ht; [|done].
      assert (p ∈ concat (<[hb_index hash T k := []]> T)) as Hin by (by rewrite Hput).
      apply elem_of_list_In, in_concat in Hin as (c & Hc & Hin). apply elem_of_list_In, elem_of_list_lookup in Hc as [j Hj]. apply elem_of_list_In in Hin.
      destruct (decide (j = hb_index hash T k)) as [->|Hne].
      - rewrite list_lookup_insert in Hj by (eapply lookup_lt_Some in Hj; by rewrite insert_length in Hj). injection Hj as <-. by apply elem_of_nil in Hin.
      - rewrite list_lookup_insert_ne in Hj by done. apply Hne. rewrite <- (Hp _ _ _ Hj Hin). done. }
    rewrite (count_none _ _ Hrest), count_all.
    - assert (Forall (λ x, keq x k = false) (hb_chain hash T k).*1) as Hc.
      { rewrite (fmap_Permutation fst _ _ Hr), fmap_app in Hno. by apply Forall_app in Hno as [? _]. }
      rewrite (looks_keys keq), lk_absent by done. lia.
    - apply Forall_fmap, Forall_forall. intros x Hx. cbn. apply (index_clash T); [done|]. symmetry. by apply placed_chain.
  Qed.
End table.

Section family.
  Context {K : Type} (nb : nat).
  Lemma count_swap (h : list (K → N)) x ks : sum_list (map (λ f, count (clash nb f x) ks) h) = sum_list (map (λ y, count (λ f, clash nb f x y) h) ks).
  Proof.
    induction ks as [|y ks IH]; cbn [map]; rewrite ?suml_cons.
    - unfold count. cbn [map]; rewrite ?suml_cons. rewrite sum_map_const. change (sum_list (@nil nat)) with 0. lia.
    - rewrite <- IH. transitivity (sum_list (map (λ f, (if clash nb f x y then 1 else 0) + count (clash nb f x) ks) h)); [done|]. by rewrite sum_map_add.
  Qed.
  Context (keq : K → K → bool).
  Lemma family_clashes (h : list (K → N)) ks : ForallOrdPairs (λ x y, keq x y = false) ks → universal keq nb h ks →
    2 * (nb * sum_list (map (λ f, clashes nb f ks) h)) ≤ length h * (length ks * (length ks - 1)).
  Proof.
    induction ks as [|x ks IH]; intros Hd Hu; [cbn [clashes]; rewrite sum_map_const; lia|]. apply ForallOrdPairs_inv in Hd as [Hx Hd] || (inversion Hd as [|? ? Hx Hd']; subst).
    cbn [clashes length]. rewrite sum_map_add, count_swap.
    assert (2 * (nb * sum_list (map (λ f, clashes nb f ks) h)) ≤ length h * (length ks * (length ks - 1))) as IH'.
    { apply IH; [done|]. intros y z Hy Hz. apply Hu; by right. }
    assert (nb * sum_list (map (λ y, count (λ f, clash nb f x y) h) ks) ≤ length ks * length h) as H1.
    { clear IH IH'. rewrite <- sum_map_const. assert (∀ y, y ∈ ks → nb * count (λ f, clash nb f x y) h ≤ length h) as Hy.
      { intros y Hy. apply Hu; [left|by right|]. rewrite Forall_forall in Hx. by apply Hx. }
      clear - Hy. induction ks as [|y ks IH]; cbn [map]; rewrite ?suml_cons; [change (sum_list (@nil nat)) with 0; lia|]. specialize (Hy y ltac:(left)) as H0.
      assert (nb * sum_list (map (λ y, count (λ f, clash nb f x y) h) ks) ≤ sum_list (map (λ _, length h) ks)) by (apply IH; intros z Hz; apply Hy; by right). lia. }
    destruct (length ks) as [|m] eqn:El; [nia|]. replace (S (S m) - 1) with (S m) by lia. replace (S m - 1) with m in IH' by lia. nia.
  Qed.
  Lemma family_absent (h : list (K → N)) k ks : universal keq nb h (k :: ks) → Forall (λ x, keq x k = false) ks → (∀ x y, keq x y = keq y x) →
    nb * sum_list (map (λ f, count (clash nb f k) ks) h) ≤ length ks * length h.
  Proof.
    intros Hu Hno Hs. rewrite count_swap, <- sum_map_const. assert (∀ y, y ∈ ks → nb * count (λ f, clash nb f k y) h ≤ length h) as Hy.
    { intros y Hy. apply Hu; [left|by right|]. rewrite Forall_forall in Hno. rewrite Hs. by apply Hno. }
    clear - Hy. induction ks as [|y ks IH]; cbn [map]; rewrite ?suml_cons; [change (sum_list (@nil nat)) with 0; lia|]. specialize (Hy y ltac:(left)) as H0.
    assert (nb * sum_list (map (λ y, count (λ f, clash nb f k y) h) ks) ≤ sum_list (map (λ _, length h) ks)) by (apply IH; intros z Hz; apply Hy; by right). lia.
  Qed.
End family.

Section pigeon.
  Context {K : Type} (nb : nat) (Hnb : 0 < nb) (hash : K → N).
  Lemma cauchy_x x (l : list nat) : 2 * (sum_list l * x) ≤ sum_list (map (λ y, y * y) l) + length l * (x * x).
  Proof. induction l as [|y l IH]; [done|]. cbn [map length]; rewrite !suml_cons.
    assert (2 * (y * x) ≤ y * y + x * x).
    { destruct (Nat.le_ge_cases x y) as [Hl|Hl]; [replace y with (x + (y - x)) by lia; generalize (y - x)|replace x with (y + (x - y)) by lia; generalize (x - y)]; intros e; nia. }
    rewrite Nat.mul_add_distr_r. cbn [Nat.mul]. lia. Qed.
  Lemma cauchy (l : list nat) : sum_list l * sum_list l ≤ length l * sum_list (map (λ y, y * y) l).
  Proof. induction l as [|y l IH]; [done|]. cbn [map length]; rewrite !suml_cons. pose proof (cauchy_x y l). nia. Qed.
  Notation bucket x := (N.to_nat (hash x mod N.of_nat nb)).
  Lemma bucket_lt x : bucket x < nb.
  Proof using Hnb. pose proof (N.mod_upper_bound (hash x) (N.of_nat nb) ltac:(lia)). lia. Qed.
  Definition inb (j : nat) (ks : list K) : nat := count (λ y, bucket y =? j) ks.
  Lemma inb_cons j x ks : inb j (x :: ks) = (if bucket x =? j then 1 else 0) + inb j ks.
  Proof. done. Qed.
  Lemma inb_clash x ks : count (clash nb hash x) ks = inb (bucket x) ks.
  Proof.
    unfold inb, count. apply sum_map_ext. intros y _. unfold clash. destruct (N.eqb_spec (hash x mod N.of_nat nb) (hash y mod N.of_nat nb)) as [->|Hn].
    - by rewrite Nat.eqb_refl.
    - destruct (Nat.eqb_spec (bucket y) (bucket x)) as [He|]; [|done]. apply N2Nat.inj in He. congruence.
  Qed.
  (** a sum over the buckets in which one has one more *)
  Lemma one_more (f : nat → nat) b lo n : lo ≤ b < lo + n →
    sum_list (map (λ j, (if b =? j then 1 else 0) + f j) (seq lo n)) = 1 + sum_list (map f (seq lo n)) ∧
    sum_list (map (λ y, y * y) (map (λ j, (if b =? j then 1 else 0) + f j) (seq lo n))) = 1 + 2 * f b + sum_list (map (λ y, y * y) (map f (seq lo n))).
  Proof.
    assert (∀ n lo, b < lo → map (λ j, (if b =? j then 1 else 0) + f j) (seq lo n) = map f (seq lo n)) as Hout.
    { clear. induction n as [|n IH]; intros lo Hb; [done|]. cbn [seq map]. rewrite IH by lia. destruct (Nat.eqb_spec b lo); [lia|done]. }
    revert lo. induction n as [|n IH]; intros lo Hb; [lia|]. cbn [seq map]. rewrite !suml_cons. destruct (Nat.eqb_spec b lo) as [->|Hne].
    - rewrite !Hout by lia. split; [lia|nia].
    - destruct (IH (S lo) ltac:(lia)) as [H1 H2]. rewrite H1, H2. split; lia.
  Qed.
  Lemma buckets_sums ks :
    sum_list (map (λ j, inb j ks) (seq 0 nb)) = length ks ∧ sum_list (map (λ y, y * y) (map (λ j, inb j ks) (seq 0 nb))) = 2 * clashes nb hash ks + length ks.
  Proof using Hnb.
    induction ks as [|x ks [IH1 IH2]].
    - unfold inb, count. cbn [map clashes length]. rewrite map_map, !sum_map_const. change (sum_list (@nil nat)) with 0. lia.
    - destruct (one_more (λ j, inb j ks) (bucket x) 0 nb) as [H1 H2]; [split; [apply Nat.le_0_l|exact (bucket_lt x)]|].
      change (λ j, inb j (x :: ks)) with (λ j, (if bucket x =? j then 1 else 0) + inb j ks). rewrite H1, H2, IH1, IH2. cbn [clashes length]. rewrite inb_clash. lia.
  Qed.
  Lemma least_clashes ks : length ks * length ks ≤ nb * (2 * clashes nb hash ks + length ks).
  Proof using Hnb. destruct (buckets_sums ks) as [H1 H2]. pose proof (cauchy (map (λ j, inb j ks) (seq 0 nb))) as Hc. rewrite H1, H2, map_length, seq_length in Hc. done. Qed.
End pigeon.

Section facts94.
  Context `{Profile} {K V : Type} (keq : K → K → bool) (nb ms : nat) (d : K * V).
  Context (h0 : htable K V) (Hnew : ht_new nb ms d = Some h0) (Hnb : 0 < nb) (Hw : (N.of_nat ms + 1 < W32)%N).
  Notation tables hash o := (spec_history (hb_spec keq hash (N.of_nat ms)) o (replicate nb [])).2.
  Notation after hash o := (history (ht_step keq hash) o h0).2.
  Notation keys := (keys_after keq (N.of_nat ms)).

  Lemma keys_distinct (hash : K → N) (HL : HashLaws keq hash) (o : list (hm_op K V)) : ForallOrdPairs (λ x y, keq x y = false) (keys o).
  Proof using Type.
    unfold keys_after. assert (ForallOrdPairs (λ x y, keq x y = false) (@nil K)) as H0 by constructor. revert H0. generalize (@nil K).
    induction o as [|c o IH]; intros l Hl; [done|]. cbn [fold_left]. apply IH. destruct c as [k v|k|k|k f|k|k| | | |k|k f|n|fs]; cbn [keys_step]; try done.
    - destruct (existsb (λ x, keq x k) l) eqn:Ex; [done|]. case_decide; [|done]. constructor; [|done]. apply Forall_forall. intros x Hx.
      rewrite (keq_sym _ _ HL). apply not_true_is_false. intros Ht. apply not_true_iff_false in Ex. apply Ex, existsb_exists. exists x. split; [by apply elem_of_list_In|done].
    - clear IH. induction Hl as [|x l Hx Hl IH]; [constructor|]. rewrite filter_cons. destruct (decide (keq x k = false)); [|done]. constructor; [|done].
      rewrite Forall_forall in Hx |- *. intros y Hy. apply elem_of_list_filter in Hy as [_ Hy]. by apply Hx.
  Qed.
  Lemma total_fact (hash : K → N) (HL : HashLaws keq hash) (o : list (hm_op K V)) :
    sum_list (map (looks_in keq hash (tables hash o)) (keys o)) = length (keys o) + clashes nb hash (keys o) ∧
    ∀ k, Forall (λ x, keq x k = false) (keys o) → looks_in keq hash (tables hash o) k = 1 + count (clash nb hash k) (keys o).
  Proof using Hnb.
    destruct (history_good (V := V) keq hash HL nb Hnb (N.of_nat ms) o (replicate nb [])) as [HG Hk]; [apply new_good|].
    assert (keys o ≡ₚ (concat (tables hash o)).*1) as Hk'.
    { symmetry. rewrite Hk. unfold keys_after. assert ((concat (replicate nb (@nil (K * V)))).*1 = []) as ->; [|done]. clear. induction nb; done. }
    split.
    - rewrite (sum_perm _ _ (Permutation_map (looks_in keq hash (tables hash o)) Hk')), (table_cost keq hash HL nb Hnb _ HG), (clashes_perm _ _ _ _ Hk'), Hk', fmap_length. done.
    - intros k Hno. rewrite Hk' in Hno. rewrite (absent_cost keq hash HL nb Hnb _ k HG Hno). by rewrite (count_perm _ _ _ Hk').
  Qed.
  Lemma keys_fact (hash : K → N) (HL : HashLaws keq hash) (o : list (hm_op K V)) :
    ∃ l, (∀ script, ht_iterate (after hash o) script = Val (fw_spec script l)) ∧ l.*1 ≡ₚ keys o.
  Proof using Hnew Hnb Hw.
    exists (concat (tables hash o)). split; [intros; by eapply order_iter_fact|].
    destruct (history_good (V := V) keq hash HL nb Hnb (N.of_nat ms) o (replicate nb [])) as [HG Hk]; [apply new_good|]. rewrite Hk. unfold keys_after.
    assert ((concat (replicate nb (@nil (K * V)))).*1 = []) as ->; [|done]. clear. induction nb; done.
  Qed.
  Lemma rounds94 (hash : K → N) o k n :
    (looks_in keq hash (tables hash o) k ≤ n → htn_get keq hash n (after hash o) k = ht_get keq hash (after hash o) k) ∧
    (n < looks_in keq hash (tables hash o) k → htn_get keq hash n (after hash o) k = Err OutOfFuel).
  Proof using Hnew Hnb Hw. destruct (rounds_fact keq hash nb ms d h0 Hnew Hnb Hw o k n) as [H1 H2]. split; intros Hn; [by destruct (H1 Hn)|by destruct (H2 Hn)]. Qed.
  Lemma exact_fact (hash : K → N) (HL : HashLaws keq hash) (o : list (hm_op K V)) :
    ∃ r : K → nat,
      (∀ k n, (r k ≤ n → htn_get keq hash n (after hash o) k = ht_get keq hash (after hash o) k) ∧ (n < r k → htn_get keq hash n (after hash o) k = Err OutOfFuel)) ∧
      sum_list (map r (keys o)) = length (keys o) + clashes nb hash (keys o) ∧
      ∀ k, Forall (λ x, keq x k = false) (keys o) → r k = 1 + count (clash nb hash k) (keys o).
  Proof using Hnew Hnb Hw. exists (looks_in keq hash (tables hash o)). split; [intros; apply rounds94|by apply total_fact]. Qed.
  Lemma least_fact94 (hash : K → N) (HL : HashLaws keq hash) (o : list (hm_op K V)) (r : K → nat) :
    (∀ k, k ∈ keys o → htn_get keq hash (r k) (after hash o) k ≠ Err OutOfFuel) → length (keys o) * (length (keys o) + nb) ≤ 2 * (nb * sum_list (map r (keys o))).
  Proof using Hnew Hnb Hw.
    intros Hr. transitivity (2 * (nb * sum_list (map (looks_in keq hash (tables hash o)) (keys o)))).
    - destruct (total_fact hash HL o) as [-> _]. pose proof (least_clashes nb Hnb hash (keys o)). nia.
    - apply Nat.mul_le_mono_l, Nat.mul_le_mono_l, sum_map_le. intros k Hk. apply Nat.nlt_ge. intros Hlt. apply (Hr k Hk). by apply (rounds94 hash o k (r k)).
  Qed.
  Lemma family_fact (hs : list (K → N)) (HL : Forall (HashLaws keq) hs) (o : list (hm_op K V)) :
    ∃ r : (K → N) → K → nat,
      (∀ hash k n, (r hash k ≤ n → htn_get keq hash n (after hash o) k = ht_get keq hash (after hash o) k) ∧
        (n < r hash k → htn_get keq hash n (after hash o) k = Err OutOfFuel)) ∧
      (universal keq nb hs (keys o) →
        2 * (nb * sum_list (map (λ hash, sum_list (map (r hash) (keys o))) hs)) ≤ length hs * (length (keys o) * (2 * nb + (length (keys o) - 1)))) ∧
      ∀ k, Forall (λ x, keq x k = false) (keys o) → universal keq nb hs (k :: keys o) →
        nb * sum_list (map (λ hash, r hash k) hs) ≤ length hs * (nb + length (keys o)).
  Proof using Hnew Hnb Hw.
    exists (λ hash, looks_in keq hash (tables hash o)). split; [intros; apply rounds94|].
    destruct hs as [|h1 hs]; [split; [intros _; cbn; lia|intros k _ _; cbn; lia]|]. assert (HashLaws keq h1) as H1 by (by apply Forall_cons in HL as [? _]).
    revert HL H1. generalize (h1 :: hs). clear hs. intros hs HL H1. rewrite Forall_forall in HL. split.
    - intros Hu. pose proof (family_clashes nb keq hs (keys o) (keys_distinct h1 H1 o) Hu) as Hc.
      rewrite (sum_map_ext _ (λ hash, length (keys o) + clashes nb hash (keys o))) by (intros hash Hin; apply total_fact; by apply HL).
      rewrite sum_map_add, sum_map_const. nia.
    - intros k Hno Hu. pose proof (family_absent nb keq hs k (keys o) Hu Hno (keq_sym _ _ H1)) as Hc.
      rewrite (sum_map_ext _ (λ hash, 1 + count (clash nb hash k) (keys o))) by (intros hash Hin; apply total_fact; [by apply HL|done]).
      rewrite sum_map_add, sum_map_const. nia.
  Qed.
End facts94.

(** ** Families that are universal *)
Lemma count_map {A B} (f : A → B) (p : B → bool) l : count p (map f l) = count (λ x, p (f x)) l.
Proof. unfold count. by rewrite map_map. Qed.
Lemma count_concat {A B} (f : A → list B) (p : B → bool) l : count p (concat (map f l)) = sum_list (map (λ x, count p (f x)) l).
Proof. induction l as [|x l IH]; [done|]. cbn [map concat]. by rewrite count_app, suml_cons, IH. Qed.
Lemma length_concat_const {A B} (f : A → list B) c l : (∀ x, x ∈ l → length (f x) = c) → length (concat (map f l)) = length l * c.
Proof. induction l as [|x l IH]; intros Hf; [done|]. cbn [map concat length]. rewrite app_length, IH, (Hf x) by (try left; intros; apply Hf; by right). done. Qed.
Lemma count_one (p : nat → bool) l : NoDup l → (∀ a b, a ∈ l → b ∈ l → p a = true → p b = true → a = b) → count p l ≤ 1.
Proof.
  induction 1 as [|a l Hn Hl IH]; intros Hp; [by unfold count; cbn; lia|]. unfold count. cbn [map]. rewrite suml_cons. destruct (p a) eqn:Ea.
  - assert (count p l = 0%nat) as E0.
    { apply count_none, Forall_forall. intros b Hb. apply not_true_is_false. intros Eb. apply Hn. by rewrite (Hp a b) by (try left; try right; done). }
    unfold count in E0. rewrite E0. lia.
  - apply IH. intros b c Hb Hc. apply Hp; by right.
Qed.
Lemma count_ext {A} (p q : A → bool) l : (∀ x, x ∈ l → p x = q x) → count p l = count q l.
Proof. intros Hl. apply sum_map_ext. intros x Hx. by rewrite Hl. Qed.
Lemma sum_count_swap {A B} (p : A → B → bool) (l1 : list A) (l2 : list B) :
  sum_list (map (λ a, count (p a) l2) l1) = sum_list (map (λ b, count (λ a, p a b) l1) l2).
Proof.
  induction l2 as [|b l2 IH].
  - unfold count. cbn [map]. rewrite sum_map_const. change (sum_list (@nil nat)) with 0. lia.
  - cbn [map]. rewrite suml_cons, <- IH. transitivity (sum_list (map (λ a, (if p a b then 1 else 0) + count (p a) l2) l1)); [done|]. by rewrite sum_map_add.
Qed.
Lemma digit_unique (p x y u v a b : N) : prime (Z.of_N p) → (x < p → y < p → a < p → b < p → x ≠ y →
  (a * x + u) mod p = (a * y + v) mod p → (b * x + u) mod p = (b * y + v) mod p → a = b)%N.
Proof.
  intros Hp Hx Hy Ha Hb Hne E1 E2. assert (0 < Z.of_N p)%Z as Hpos by lia.
  assert (∀ u v : N, (u mod p = v mod p)%N → (Z.of_N p | Z.of_N u - Z.of_N v)%Z) as Hdiv.
  { clear - Hpos. intros u v E. apply (f_equal Z.of_N) in E. rewrite !N2Z.inj_mod in E.
    exists (Z.of_N u / Z.of_N p - Z.of_N v / Z.of_N p)%Z. pose proof (Z.div_mod (Z.of_N u) (Z.of_N p) ltac:(lia)). pose proof (Z.div_mod (Z.of_N v) (Z.of_N p) ltac:(lia)). nia. }
  assert (∀ z, (- Z.of_N p < z < Z.of_N p)%Z → (Z.of_N p | z)%Z → z = 0%Z) as Hsmall.
  { intros z Hz [q Hq]. assert (q = 0)%Z by nia. nia. }
  pose proof (Z.divide_sub_r _ _ _ (Hdiv _ _ E1) (Hdiv _ _ E2)) as D.
  replace (Z.of_N (a * x + u) - Z.of_N (a * y + v) - (Z.of_N (b * x + u) - Z.of_N (b * y + v)))%Z
    with ((Z.of_N a - Z.of_N b) * (Z.of_N x - Z.of_N y))%Z in D by lia.
  apply prime_mult in D as [D|D]; [| |done]; apply Hsmall in D; lia.
Qed.
Lemma linear_length p m : length (linear_family p m) = p ^ m.
Proof. induction m as [|m IH]; [done|]. cbn [linear_family]. rewrite (length_concat_const _ (p ^ m)) by (intros; by rewrite map_length). by rewrite seq_length. Qed.
Lemma linear_pair (nb : nat) : prime (Z.of_nat nb) → ∀ m x y, (x < N.of_nat nb ^ N.of_nat m)%N → (y < N.of_nat nb ^ N.of_nat m)%N → x ≠ y →
  nb * count (λ f, clash nb f x y) (linear_family nb m) ≤ nb ^ m.
Proof.
  intros Hp. pose proof (prime_ge_2 _ Hp) as H2. set (p := N.of_nat nb). assert (Z.of_nat nb = Z.of_N p) as Ep by (unfold p; lia). rewrite Ep in Hp.
  assert (p ≠ 0)%N as Hp0 by lia.
  induction m as [|m IH]; intros x y Hx Hy Hxy; [cbn in Hx, Hy; lia|]. cbn [linear_family]. fold p. rewrite count_concat.
  rewrite (sum_map_ext _ (λ a, count (λ f, clash nb (λ k, N.of_nat a * (k mod p) + f (k / p))%N x y) (linear_family nb m))) by (intros; by rewrite count_map).
  rewrite Nat2N.inj_succ, N.pow_succ_r' in Hx, Hy. fold p in Hx, Hy.
  pose proof (N.div_lt_upper_bound x p _ Hp0 Hx) as Hx1. pose proof (N.div_lt_upper_bound y p _ Hp0 Hy) as Hy1.
  destruct (N.eq_dec (x mod p) (y mod p)) as [E|E].
  - assert (x / p ≠ y / p)%N as Hne.
    { intros E1. apply Hxy. rewrite (N.div_mod x p), (N.div_mod y p) by done. by rewrite E, E1. }
    rewrite (sum_map_ext _ (λ _, count (λ f, clash nb f (x / p)%N (y / p)%N) (linear_family nb m))).
    + rewrite sum_map_const, seq_length. specialize (IH _ _ Hx1 Hy1 Hne). cbn [Nat.pow]. nia.
    + intros a _. apply count_ext. intros f _. unfold clash. fold p. rewrite E. apply eq_true_iff_eq. rewrite !N.eqb_eq.
      generalize (f (x / p)%N) (f (y / p)%N) (N.of_nat a * (y mod p))%N. clear - Hp0. intros u v c. split; intros Ec.
      * apply (f_equal Z.of_N) in Ec. apply N2Z.inj. rewrite !N2Z.inj_mod, ?N2Z.inj_add in Ec |- *.
        assert (Z.of_N p ≠ 0)%Z by lia. apply (f_equal (λ z, (z - Z.of_N c) mod Z.of_N p)%Z) in Ec. rewrite !Zminus_mod_idemp_l in Ec.
        replace (Z.of_N (c + u) - Z.of_N c)%Z with (Z.of_N u) in Ec by lia. replace (Z.of_N (c + v) - Z.of_N c)%Z with (Z.of_N v) in Ec by lia. done.
      * rewrite <- (N.add_mod_idemp_r c u), <- (N.add_mod_idemp_r c v) by done. by rewrite Ec.
  - rewrite (sum_count_swap (λ a f, clash nb (λ k, N.of_nat a * (k mod p) + f (k / p))%N x y)).
    etrans; [apply Nat.mul_le_mono_l, (sum_map_le _ (λ _, 1))|].
    + intros f _. apply count_one; [apply NoDup_seq|]. intros a b Ha Hb. unfold clash. fold p. rewrite !N.eqb_eq. intros Ea Eb. apply elem_of_seq in Ha, Hb. apply Nat2N.inj.
      eapply (digit_unique p (x mod p) (y mod p)); try done; try (by apply N.mod_upper_bound); unfold p; lia.
    + rewrite sum_map_const, linear_length. cbn [Nat.pow]. lia.
Qed.
Lemma product_pair {K} (a b : nat) (fs gs : list (K → N)) x y : 0 < a → 0 < b →
  count (λ h, clash (a * b) h x y) (product_family a b fs gs) = count (λ f, clash a f x y) fs * count (λ g, clash b g x y) gs.
Proof.
  intros Ha Hb. unfold product_family. rewrite count_concat.
  assert (∀ f g : K → N, clash (a * b) (λ k, f k mod N.of_nat a + N.of_nat a * (g k mod N.of_nat b))%N x y = clash a f x y && clash b g x y) as Hc.
  { intros f g. unfold clash. apply eq_true_iff_eq. rewrite andb_true_iff, !N.eqb_eq, Nat2N.inj_mul.
    pose proof (N.mod_upper_bound (f x) (N.of_nat a) ltac:(lia)). pose proof (N.mod_upper_bound (f y) (N.of_nat a) ltac:(lia)).
    pose proof (N.mod_upper_bound (g x) (N.of_nat b) ltac:(lia)). pose proof (N.mod_upper_bound (g y) (N.of_nat b) ltac:(lia)).
    revert H H0 H1 H2. generalize (f x mod N.of_nat a)%N (f y mod N.of_nat a)%N (g x mod N.of_nat b)%N (g y mod N.of_nat b)%N. intros u v w z Hu Hv Hw Hz.
    rewrite !N.mod_small by nia. split; [|by intros [-> ->]]. intros E. assert (w = z) as ->; [|split; [lia|done]]. nia. }
  induction fs as [|f fs IH]; [done|]. cbn [map]. rewrite suml_cons, IH, count_map.
  assert (count (λ f, clash a f x y) (f :: fs) = (if clash a f x y then 1 else 0) + count (λ f, clash a f x y) fs) as -> by done. rewrite Nat.mul_add_distr_r. f_equal.
  rewrite (count_ext _ (λ g, clash a f x y && clash b g x y)) by (intros; apply Hc). destruct (clash a f x y); [rewrite Nat.mul_1_l; by apply count_ext|].
  rewrite Nat.mul_0_l. by apply count_none, Forall_forall.
Qed.
Lemma product_length {K} (a b : nat) (fs gs : list (K → N)) : length (product_family a b fs gs) = length fs * length gs.
Proof. unfold product_family. apply length_concat_const. intros. by rewrite map_length. Qed.
Lemma linear_universal nb m ks : prime (Z.of_nat nb) → Forall (λ k, k < N.of_nat nb ^ N.of_nat m)%N ks → universal N.eqb nb (linear_family nb m) ks.
Proof. intros Hp Hks x y Hx Hy Hxy. rewrite Forall_forall in Hks. rewrite linear_length. apply linear_pair; [done|by apply Hks..|]. by apply N.eqb_neq. Qed.
Lemma product_universal {K} keq (a b : nat) (fs gs : list (K → N)) ks : 0 < a → 0 < b → universal keq a fs ks → universal keq b gs ks →
  universal keq (a * b) (product_family a b fs gs) ks.
Proof.
  intros Ha Hb Hf Hg x y Hx Hy Hxy. rewrite product_pair, product_length by done. specialize (Hf x y Hx Hy Hxy). specialize (Hg x y Hx Hy Hxy).
  pose proof (Nat.mul_le_mono _ _ _ _ Hf Hg). lia.
Qed.
Lemma universal_exists (nb : nat) (ks : list N) : 0 < nb → ∃ hs, hs ≠ [] ∧ universal N.eqb nb hs ks.
Proof.
  induction (lt_wf nb) as [nb _ IH]. intros Hnb. destruct (decide (nb = 1)) as [->|Hn1].
  { exists [λ _, 0%N]. split; [done|]. intros x y _ _ _. unfold count. cbn. lia. }
  destruct (prime_dec (Z.of_nat nb)) as [Hp|Hp].
  - assert (∃ m, Forall (λ k, k < N.of_nat nb ^ N.of_nat m)%N ks) as [m Hm].
    { clear IH. induction ks as [|k ks [m Hm]]; [by exists 0|]. exists (m + N.to_nat k). rewrite Nat2N.inj_add, N2Nat.id. constructor.
      - pose proof (N.pow_gt_lin_r (N.of_nat nb) k ltac:(lia)). rewrite N.pow_add_r. assert (1 ≤ N.of_nat nb ^ N.of_nat m)%N by (apply N.lt_pred_le, N.neq_0_lt_0, N.pow_nonzero; lia). nia.
      - eapply Forall_impl; [exact Hm|]. cbn. intros j Hj. eapply N.lt_le_trans; [exact Hj|]. apply N.pow_le_mono_r; lia. }
    exists (linear_family nb m). split; [|by apply linear_universal]. intros E. apply (f_equal length) in E. rewrite linear_length in E. cbn in E.
    pose proof (Nat.pow_nonzero nb m). lia.
  - apply not_prime_divide in Hp as (a & Ha & b & Hb); [|lia]. assert (0 < b < Z.of_nat nb)%Z as Hb' by nia.
    assert (nb = Z.to_nat a * Z.to_nat b) as Enb by lia.
    destruct (IH (Z.to_nat a) ltac:(lia) ltac:(lia)) as (fs & Hf0 & Hf). destruct (IH (Z.to_nat b) ltac:(lia) ltac:(lia)) as (gs & Hg0 & Hg).
    exists (product_family (Z.to_nat a) (Z.to_nat b) fs gs). split.
    + intros E. apply (f_equal length) in E. rewrite product_length in E. destruct fs, gs; done.
    + rewrite Enb. apply product_universal; (done || lia).
Qed.
