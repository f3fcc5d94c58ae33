(** * Proofs about the navigation functions of the HashTable and [get_node_mut] of the HashTable and the AVL tree *)
From Verif Require Import TypedProof Spec HashMain.
From Verif Require Export NavSpec.

Section ht.
  Context `{Profile} {K V : Type} (keq : K → K → bool) (hash : K → N) (HL : HashLaws keq hash) (cap : N).
  Implicit Types h : htable K V.
  Implicit Types bs : list (list (N * (K * V))).

  Lemma fst0_head (es : list (N * (K * V))) : fst0 0 es = default SENTINEL (head es.*1).
  Proof. by destruct es as [|[i kv] es]. Qed.
  Lemma lst0_last p (es : list (N * (K * V))) : lst0 p es = default p (last es.*1).
  Proof.
    destruct es as [|[i kv] es _] using rev_ind; [done|]. rewrite lst0_app, fmap_app. simpl. by rewrite last_snoc.
  Qed.
  Lemma ht_tells_ok h bs : HOK keq hash cap h bs → ht_tells keq hash h bs.
  Proof using HL.
    intros Hok. constructor.
    - rewrite (ho_bk _ _ _ _ _ Hok). apply map_ext. apply fst0_head.
    - intros b c i kv Hb Hin. pose proof (ho_hash _ _ _ _ _ Hok _ _ Hb) as Hh. rewrite Forall_forall in Hh.
      exact (Hh _ Hin).
    - rewrite <- hcells_fst. eapply CH_NoDup. exact (ho_heap _ _ _ _ _ Hok).
    - rewrite <- hcells_fst. intros Hx. by eapply (CH_nz' _ _ _ _ _ (ho_heap _ _ _ _ _ Hok) Hx).
    - intros b c j i kv Hb Hj. destruct (elem_of_list_split_length _ _ _ Hj) as (es1 & es2 & -> & ->).
      destruct (ht_read _ _ _ _ _ _ _ _ _ _ Hok Hb) as (Hnz & H1 & H2 & H3). split_and!.
      + done.
      + rewrite H2, fst0_head. rewrite fmap_app, lookup_app_r; rewrite fmap_length; [|lia].
        replace (S (length es1) - length es1)%nat with 1%nat by lia. rewrite fmap_cons. simpl. by destruct (es2.*1).
      + rewrite H3, lst0_last. destruct es1 as [|e es1 _] using rev_ind; [done|].
        rewrite app_length, Nat.add_comm. simpl. rewrite !fmap_app, <- app_assoc. simpl. rewrite last_snoc.
        rewrite lookup_app_r; rewrite fmap_length; [|done]. by rewrite Nat.sub_diag.
      + assert ((i, kv) ∈ concat bs) as Hin.
        { rewrite (concat_focus0' _ _ _ Hb), elem_of_app. left. rewrite elem_of_app, elem_of_cons. auto. }
        apply elem_of_Permutation in Hin as [R HR].
        eapply (ht_found _ _ HL cap h (concat bs) _ _ _ R); [by exists bs|exact HR|by apply HL].
    - intros n. rewrite (ht_iterate_ok _ _ _ _ _ _ Hok). by rewrite fw_spec_fwd.
  Qed.
  (** Writing through [get_node_mut] *)
  Lemma ht_node_mut_ok h bs b c j i kv v :
    HOK keq hash cap h bs → bs !! b = Some c → c !! j = Some (i, kv) →
    ∃ h', ht_set_node_value i v h = Ret () h' ∧ HOK keq hash cap h' (<[b:=<[j:=(i, (kv.1, v))]> c]> bs).
  Proof using HL.
    intros Hok Hb Hj. destruct (elem_of_list_split_length _ _ _ Hj) as (es1 & es2 & -> & ->).
    rewrite list_insert_mid.
    assert (wp (ht_set_node_value i v) h (λ _ h', HOK keq hash cap h' (<[b:=es1 ++ (i, (kv.1, v)) :: es2]> bs))) as Hw.
    { eapply wp_set_node_value; [pose proof (ho_heap _ _ _ _ _ Hok) as Hh; by rewrite (hcells_focus' _ _ _ Hb) in Hh|].
      intros a' Ha'. assert (set_hal a' h = HT (<[b:=fst0 0 (es1 ++ (i, (kv.1, v)) :: es2)]> (buckets h)) a') as ->.
      { unfold set_hal. f_equal. symmetry. apply list_insert_id. rewrite (ho_bk _ _ _ _ _ Hok).
        etrans; [apply (list_lookup_fmap (fst0 0) bs b)|]. rewrite Hb. simpl. by rewrite !fst0_app. }
      eapply HOK_update; [done|exact Hok|exact Hb|exact Ha'| |].
      - pose proof (ho_hash _ _ _ _ _ Hok _ _ Hb) as Hh. rewrite !Forall_app, !Forall_cons in *. tauto.
      - pose proof (ho_keys _ _ _ _ _ Hok) as Hd. eapply dk_perm in Hd; [|done|by rewrite (concat_focus0' _ _ _ Hb)].
        eapply dk_keys; [exact HL| |exact Hd]. rewrite !fmap_app, !fmap_cons. done. }
    apply wp_elim in Hw as ([] & h' & ? & ?). by exists h'.
  Qed.
End ht.

Section reach.
  Context `{Profile} {K V : Type} (keq : K → K → bool) (hash : K → N) (HL : HashLaws keq hash) (nb ms : nat) (d : K * V).
  Context (h0 : htable K V) (Hnew : ht_new nb ms d = Some h0) (Hnb : (0 < nb)%nat) (Hw : N.of_nat ms + 1 < W32).
  Lemma ht_nav_fact (o : list (hm_op K V)) l :
    ht_holds keq hash ms h0 o l → let h := ht_after keq hash h0 o in
    ∃ chains, length chains = nb ∧ (concat chains).*2 ≡ₚ l ∧ ht_tells keq hash h chains ∧
      ∀ b c j i kv v, chains !! b = Some c → c !! j = Some (i, kv) →
        ∃ h', ht_set_node_value i v h = Ret () h' ∧ ht_tells keq hash h' (<[b:=<[j:=(i, (kv.1, v))]> c]> chains).
  Proof using HL Hnew Hnb Hw.
    intros Hl h. destruct (ht_reach keq hash HL nb ms d h0 Hnew Hnb Hw o l Hl) as (E & (bs & Hok & Hp) & <-).
    exists bs. split_and!.
    - rewrite <- (HOK_bk_len _ _ _ _ _ Hok). eapply th_len. by eapply th_history.
    - by rewrite Hp.
    - by eapply ht_tells_ok.
    - intros b c j i kv v Hb Hj. destruct (ht_node_mut_ok _ _ HL _ _ _ _ _ _ _ _ v Hok Hb Hj) as (h' & Hs & Hok').
      exists h'. split; [exact Hs|]. by eapply ht_tells_ok.
  Qed.
End reach.
