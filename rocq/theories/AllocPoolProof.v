(** * Proofs about allocator histories *)
From Verif Require Export IterProof AllocApi AllocProof.

Section pool.
  Context `{Profile} {T : Type} (ms nr : nat) (d : T).
  Local Notation cap := (N.of_nat ms).
  Implicit Types a : alloc T.

  Definition PInv a (live : list N) : Prop :=
    ∃ cs fr, AOK nr cap a cs fr ∧ cs.*1 = live ∧
      Forall (λ c, length (regs c.2) = nr) cs ∧ Forall (λ f, length f.2 = (nr - 1)%nat) fr.

  Lemma in_split_fst (cs : list (N * node T)) i : i ∈ cs.*1 → ∃ n cs1 cs2, cs = cs1 ++ (i, n) :: cs2.
  Proof.
    intros ([j n] & -> & Hin)%elem_of_list_fmap. apply elem_of_list_split in Hin as (cs1 & cs2 & ->). eauto.
  Qed.
  Lemma filter_remove (l1 l2 : list N) i :
    NoDup (l1 ++ i :: l2) → filter (λ j, j ≠ i) (l1 ++ i :: l2) = l1 ++ l2.
  Proof.
    intros Hnd. assert (∀ l : list N, i ∉ l → filter (λ j, j ≠ i) l = l) as Hf.
    { intros l Hl. induction l as [|x l IH]; [done|]. rewrite filter_cons_True; [|set_solver]. f_equal. apply IH. set_solver. }
    apply NoDup_app in Hnd as (_ & H1 & H2). apply NoDup_cons in H2 as [H2 _].
    rewrite filter_app, filter_cons_False by (intros ?; done). rewrite !Hf; [done|done|].
    intros Hi. apply (H1 i Hi). mem.
  Qed.

  (** Write to a live node *)
  Lemma PInv_write a live i (f : node T → res (node T)) (Q : () → alloc T → Prop) :
    PInv a live → i ∈ live →
    (∀ n, length (regs n) = nr → ∃ n', f n = Val n' ∧ length (regs n') = nr) →
    (∀ a', PInv a' live → Q () a') → wp (na_get_mut i f) a Q.
  Proof.
    intros (cs & fr & Ho & <- & Hl & Hf) Hi Hn HQ.
    destruct (in_split_fst _ _ Hi) as (n & cs1 & cs2 & ->).
    apply Forall_app in Hl as [Hl1 Hl2]. apply Forall_cons in Hl2 as [Hl2 Hl3]. simpl in Hl2.
    destruct (Hn n Hl2) as (n' & Hn' & Hl').
    eapply wp_get_mut; [eapply AOK_perm; [exact Ho|symmetry; apply Permutation_middle]|done|].
    intros a' Ho'. apply HQ. exists (cs1 ++ (i, n') :: cs2), fr. split_and!; [|by rewrite !fmap_app| |done].
    - eapply AOK_perm; [done|apply Permutation_middle].
    - apply Forall_app. split; [done|]. by apply Forall_cons.
  Qed.
  Lemma PInv_setreg a live i r v (Q : () → alloc T → Prop) :
    PInv a live → i ∈ live → r < N.of_nat nr →
    (∀ a', PInv a' live → Q () a') → wp (na_get_mut i (node_set_register r v)) a Q.
  Proof.
    intros Hp Hi Hr HQ. eapply PInv_write; [done|done| |done]. intros n Hn. exists (setr r v n).
    split; [apply node_set_register_ok; unfold lengthN; lia|]. simpl. unfold insertN. by rewrite insert_length.
  Qed.
  Lemma PInv_nz a live i : PInv a live → i ∈ live → i ≠ 0.
  Proof. intros (cs & fr & Ho & <- & _) Hi. by eapply AOK_nz'. Qed.

  (** Register operations on SENTINEL or live indices *)
  Lemma PInv_set a live i v r (Q : () → alloc T → Prop) :
    PInv a live → ok_index live i → r < N.of_nat nr →
    (∀ a', PInv a' live → Q () a') → wp (na_set_register i v r) a Q.
  Proof.
    intros Hp [->|Hi] Hr HQ; [by apply wp_set_register_0, HQ|]. unfold na_set_register.
    rewrite decide_False by by eapply PInv_nz. by eapply PInv_setreg.
  Qed.
  Lemma na_connect_alt i j ri rj a :
    na_connect (T := T) i j ri rj a = (na_set_register i j ri;; na_set_register j i rj) a.
  Proof. done. Qed.
  Lemma na_disconnect_alt i j ri rj a :
    na_disconnect (T := T) i j ri rj a = (na_set_register i 0 ri;; na_set_register j 0 rj) a.
  Proof.
    unfold na_disconnect, na_clear_register, na_set_register. repeat case_decide; done.
  Qed.

  Lemma add_pool a live v :
    PInv a live → lengthN live < cap →
    ∃ i a' tl, na_add_node v a = Ret i a' ∧ i ∉ live ∧ PInv a' (i :: live) ∧
      na_get a' i = Val (Node (0 :: tl) v) ∧ ∀ j, j ∈ live → na_get a' j = na_get a j.
  Proof.
    intros (cs & fr & Ho & <- & Hl & Hf) Hlen.
    destruct (na_add_node_ok _ _ _ _ _ v Ho) as (i & tl & fr' & a' & He & Ho' & Hx).
    { unfold lengthN in *. by rewrite fmap_length in Hlen. }
    exists i, a', tl. split_and!; [done| | |eapply AOK_get; [done|mem]|].
    - apply AOK_NoDup in Ho'. simpl in Ho'. by apply NoDup_cons in Ho' as [? _].
    - exists ((i, Node (0 :: tl) v) :: cs), fr'. pose proof (ok_nr _ _ _ _ _ Ho).
      destruct fr as [|[j tl'] fr0]; destruct Hx as (-> & -> & ->).
      + split_and!; [done|done| |done]. apply Forall_cons. split; [|done]. simpl. rewrite replicate_length. lia.
      + apply Forall_cons in Hf as [Hf1 Hf2]. simpl in Hf1.
        split_and!; [done|done| |done]. apply Forall_cons. split; [|done]. simpl. lia.
    - intros j ([j' n] & -> & Hin)%elem_of_list_fmap. simpl.
      rewrite (AOK_get _ _ _ _ _ _ _ Ho Hin). eapply AOK_get; [done|]. by apply elem_of_list_further.
  Qed.

  Lemma remove_pool a live i :
    PInv a live → i ∈ live →
    ∃ v a' n, na_get a i = Val n ∧ val n = v ∧ na_remove_node i a = Ret (Some v) a' ∧
      PInv a' (filter (λ j, j ≠ i) live) ∧ (∀ j, j ∈ live → j ≠ i → na_get a' j = na_get a j) ∧
      ∀ w, ∃ a'', na_add_node w a' = Ret i a''.
  Proof.
    intros (cs & fr & Ho & <- & Hl & Hf) Hi.
    destruct (in_split_fst _ _ Hi) as (n & cs1 & cs2 & ->).
    pose proof (AOK_NoDup _ _ _ _ _ Ho) as Hnd.
    apply Forall_app in Hl as [Hl1 Hl2]. apply Forall_cons in Hl2 as [Hl2 Hl3]. simpl in Hl2.
    pose proof (ok_nr _ _ _ _ _ Ho). destruct n as [[|r0 tl] v]; [simpl in Hl2; lia|]. simpl in Hl2.
    assert (AOK nr cap a ((i, Node (r0 :: tl) v) :: cs1 ++ cs2) fr) as Ho1
      by (eapply AOK_perm; [done|symmetry; apply Permutation_middle]).
    destruct (na_remove_node_ok _ _ _ _ _ _ _ _ _ Ho1) as (a' & He & Ho').
    exists v, a', (Node (r0 :: tl) v). split_and!; [eapply AOK_get; [exact Ho1|mem]|done|done| | |].
    - exists (cs1 ++ cs2), ((i, tl) :: fr). split_and!; [done| |by apply Forall_app|].
      + rewrite !fmap_app in *. simpl in *. by rewrite filter_remove.
      + apply Forall_cons. split; [simpl; lia|done].
    - intros j Hj Hne. rewrite fmap_app in Hj. simpl in Hj.
      assert (j ∈ (cs1 ++ cs2).*1) as Hj' by (rewrite fmap_app; set_solver).
      apply elem_of_list_fmap in Hj' as ([j' m] & -> & Hin). simpl.
      rewrite (AOK_get _ _ _ _ _ _ _ Ho' Hin). symmetry. eapply AOK_get; [exact Ho1|].
      by apply elem_of_list_further.
    - intros w. apply AOK_len_le in Ho1. rewrite lengthN_cons in Ho1.
      destruct (na_add_node_ok _ _ _ _ _ w Ho') as (? & ? & ? & a'' & Hw & _ & -> & _); [lia|]. eauto.
  Qed.

  Lemma PInv_len a live : PInv a live → size a = lengthN live ∧ lengthN live ≤ cap.
  Proof.
    intros (cs & fr & Ho & <- & _). assert (lengthN cs.*1 = lengthN cs) as ->.
    { unfold lengthN. by rewrite fmap_length. }
    split; [by destruct Ho|by eapply AOK_len_le].
  Qed.
  Lemma PInv_full a live v : PInv a live → lengthN live = cap → na_add_node v a = Fail Panic a.
  Proof.
    intros (cs & fr & Ho & <- & _) Hlen. eapply na_add_node_full; [done|].
    unfold lengthN in *. by rewrite fmap_length in Hlen.
  Qed.

  Lemma PInv_step a live o :
    PInv a live → al_pre nr live o →
    PInv (call (al_step o) a).2 (al_live o (call (al_step o) a).1 live).
  Proof.
    intros Hp Hpre.
    assert ((∀ r, al_live o r live = live) → wp (al_step o) a (λ _ a', PInv a' live) →
      PInv (call (al_step o) a).2 (al_live o (call (al_step o) a).1 live)) as Hunit.
    { intros Hl Hw. destruct (call_wp _ _ _ Hw) as (? & ? & -> & Hq). simpl. by rewrite Hl. }
    destruct o as [v|i|i v r|i r|i j ri rj|i j ri rj|i f]; simpl in Hpre.
    - destruct (PInv_len _ _ Hp) as [Hs Hc]. destruct (decide (lengthN live < cap)) as [Hlt|Hge].
      + destruct (add_pool a live v Hp Hlt) as (i & a' & tl & He & _ & Hp' & _).
        erewrite call_ret; [|simpl; unfold mbind, M_bind; rewrite He; reflexivity]. done.
      + erewrite call_fail; [|simpl; unfold mbind, M_bind; rewrite (PInv_full a live v); [reflexivity|done|lia]]. done.
    - destruct Hpre as [->|Hi].
      + erewrite call_ret; [|reflexivity]. simpl.
        assert (filter (λ j, j ≠ SENTINEL) live = live) as ->; [|done].
        assert (∀ i, i ∈ live → i ≠ SENTINEL) as Hnz by (intros; by eapply PInv_nz).
        clear Hp Hunit. induction live as [|x l IH]; [done|]. rewrite filter_cons_True by (apply Hnz; mem).
        f_equal. apply IH. intros i Hi. apply Hnz. by apply elem_of_list_further.
      + destruct (remove_pool a live i Hp Hi) as (v & a' & n & _ & _ & He & Hp' & _).
        erewrite call_ret; [|simpl; unfold mbind, M_bind; rewrite He; reflexivity]. done.
    - apply Hunit; [done|]. apply wp_bind. eapply PInv_set; [done|naive_solver..|]. intros. by apply wp_ret.
    - apply Hunit; [done|]. apply wp_bind. change (na_clear_register i r) with (na_set_register (T:=T) i 0 r).
      eapply PInv_set; [done|naive_solver..|]. intros. by apply wp_ret.
    - apply Hunit; [done|]. apply wp_bind. unfold wp at 1. rewrite na_connect_alt.
      destruct Hpre as (? & ? & ? & ?).
      change (wp (na_set_register i j ri;; na_set_register j i rj) a (λ (_ : ()) s', wp (mret AlUnit) s' (λ (_ : al_out T) a', PInv a' live))).
      apply wp_bind. eapply PInv_set; [done|done|done|]. intros a1 Hp1.
      eapply PInv_set; [done|done|done|]. intros. by apply wp_ret.
    - apply Hunit; [done|]. apply wp_bind. unfold wp at 1. rewrite na_disconnect_alt.
      destruct Hpre as (? & ? & ? & ?).
      change (wp (na_set_register i 0 ri;; na_set_register j 0 rj) a (λ (_ : ()) s', wp (mret AlUnit) s' (λ (_ : al_out T) a', PInv a' live))).
      apply wp_bind. eapply PInv_set; [done|done|done|]. intros a1 Hp1.
      eapply PInv_set; [done|done|done|]. intros. by apply wp_ret.
    - apply Hunit; [done|]. apply wp_bind. eapply PInv_write; [done|done| |]; [by eauto|]. intros. by apply wp_ret.
  Qed.

  Lemma pool_inv a live : cap + 1 < W32 → pool ms nr d a live → PInv a live.
  Proof.
    intros Hw. induction 1 as [a Ha|a live o _ IH Hpre].
    - unfold na_default in Ha. destruct nr as [|k] eqn:E; [done|]. injection Ha as <-.
      exists [], []. rewrite E. split_and!; [|done|constructor|constructor]. apply na_new_ok; [done|done|lia].
    - by apply PInv_step.
  Qed.
End pool.

(** ** Register operations on arbitrary allocators *)
Section regs.
  Context `{Profile} {T : Type} (nr : nat).
  Implicit Types a : alloc T.

  Lemma set_register_eff a i v r :
    wf_nodes nr a → 1 ≤ i ≤ MAX_SIZE a → r < N.of_nat nr →
    ∃ a', na_set_register i v r a = Ret () a' ∧ wf_nodes nr a' ∧
      registers_changed a a' (λ k s, if decide (k = i ∧ s = r) then Some v else None).
  Proof.
    intros Hwf Hi Hr. destruct (rd_is_Some a i Hi) as [n Hn].
    assert (length (regs n) = nr) as Hln.
    { unfold rd in Hn. rewrite decide_False in Hn by lia. apply lookupN_Some in Hn.
      unfold wf_nodes in Hwf. rewrite Forall_lookup in Hwf. by eapply Hwf. }
    exists (wr i (setr r v n) a). unfold na_set_register. rewrite decide_False by (unfold SENTINEL; lia).
    assert (∀ k m, 1 ≤ k → na_get (wr i m a) k = if decide (k = i) then Val m else na_get a k) as Hget.
    { intros k m Hk. case_decide as Hki; [subst k; apply na_get_rd; by apply rd_wr|].
      unfold na_get, u32_sub. rewrite u_sub_ok by lia. simpl.
      rewrite lookupN_insertN_ne by lia. done. }
    split_and!; [| |split_and!; [|done|done|done| |]].
    - erewrite na_get_mut_rd; [done|done|]. apply node_set_register_ok. unfold lengthN. lia.
    - unfold wf_nodes, wr. simpl. unfold insertN. apply Forall_insert; [done|]. simpl. unfold insertN. by rewrite insert_length.
    - apply MAX_SIZE_wr.
    - intros k Hk. unfold get_value. rewrite Hget by (unfold SENTINEL in *; lia).
      case_decide; [|done]. subst k. rewrite (na_get_rd _ _ _ Hn). done.
    - intros k s. unfold na_get_register. case_decide as Hk; [done|]. rewrite Hget by (unfold SENTINEL in *; lia).
      case_decide as Hki.
      + subst k. simpl. rewrite (na_get_rd _ _ _ Hn). simpl. unfold node_get_register, setr. simpl.
        case_decide as Hs.
        * destruct Hs as [_ ->]. rewrite lookupN_insertN; [done|]. unfold lengthN. lia.
        * rewrite lookupN_insertN_ne; [done|]. intros ->. naive_solver.
      + rewrite decide_False by naive_solver. done.
  Qed.

  Lemma registers_changed_none a : registers_changed a a (λ _ _, None).
  Proof. split_and!; try done. intros k s. unfold na_get_register. by case_decide. Qed.
  Lemma registers_changed_trans a a1 a2 w1 w2 w :
    registers_changed a a1 w1 → registers_changed a1 a2 w2 →
    (∀ k s, k ≠ SENTINEL → w k s = match w2 k s with Some v => Some v | None => w1 k s end) →
    registers_changed a a2 w.
  Proof.
    intros (H1 & H2 & H3 & H4 & H5 & H6) (G1 & G2 & G3 & G4 & G5 & G6) Hw.
    split_and!; [congruence..| |].
    - intros i Hi. by rewrite G5, H5.
    - intros k s. rewrite G6. case_decide as Hk; [done|]. rewrite Hw, H6 by done.
      destruct (w2 k s); [done|]. by rewrite decide_False.
  Qed.

  Lemma set_register_eff' a i v r :
    wf_nodes nr a → addressable a i → r < N.of_nat nr →
    ∃ a', na_set_register i v r a = Ret () a' ∧ wf_nodes nr a' ∧
      registers_changed a a' (λ k s, if decide (k = i ∧ s = r) then Some v else None).
  Proof.
    intros Hwf [->|Hi] Hr; [|by apply set_register_eff]. exists a. split_and!; [done|done|].
    eapply registers_changed_trans; [apply registers_changed_none..|]. intros k s Hk. simpl.
    rewrite decide_False; [done|naive_solver].
  Qed.

  Lemma set2_eff a i j vi vj ri rj :
    wf_nodes nr a → addressable a i → addressable a j → ri < N.of_nat nr → rj < N.of_nat nr →
    ∃ a', (na_set_register i vi ri;; na_set_register j vj rj) a = Ret () a' ∧ wf_nodes nr a' ∧
      registers_changed a a' (λ k s, if decide (k = j ∧ s = rj) then Some vj
                                     else if decide (k = i ∧ s = ri) then Some vi else None).
  Proof.
    intros Hwf Hi Hj Hri Hrj.
    destruct (set_register_eff' a i vi ri Hwf Hi Hri) as (a1 & He1 & Hw1 & Hc1).
    destruct (set_register_eff' a1 j vj rj Hw1) as (a2 & He2 & Hw2 & Hc2); [|done|].
    { destruct Hj as [->|Hj]; [by left|right]. destruct Hc1 as (-> & _). done. }
    exists a2. split_and!; [|done|].
    - unfold mbind, M_bind. by rewrite He1.
    - eapply registers_changed_trans; [exact Hc1|exact Hc2|]. intros k s _. simpl. repeat case_decide; done.
  Qed.

  Lemma connect_eff a i j ri rj :
    wf_nodes nr a → addressable a i → addressable a j → ri < N.of_nat nr → rj < N.of_nat nr →
    ∃ a', na_connect i j ri rj a = Ret () a' ∧
      registers_changed a a' (λ k s, if decide (k = j ∧ s = rj) then Some i
                                     else if decide (k = i ∧ s = ri) then Some j else None).
  Proof.
    intros. rewrite na_connect_alt. edestruct (set2_eff a i j j i ri rj) as (a' & ? & _ & ?); eauto.
  Qed.
  Lemma disconnect_eff a i j ri rj :
    wf_nodes nr a → addressable a i → addressable a j → ri < N.of_nat nr → rj < N.of_nat nr →
    ∃ a', na_disconnect i j ri rj a = Ret () a' ∧
      registers_changed a a' (λ k s, if decide (k = j ∧ s = rj) then Some SENTINEL
                                     else if decide (k = i ∧ s = ri) then Some SENTINEL else None).
  Proof.
    intros. rewrite na_disconnect_alt. edestruct (set2_eff a i j 0 0 ri rj) as (a' & ? & _ & ?); eauto.
  Qed.
  Lemma clear_eff a i r :
    wf_nodes nr a → addressable a i → r < N.of_nat nr →
    ∃ a', na_clear_register i r a = Ret () a' ∧
      registers_changed a a' (λ k s, if decide (k = i ∧ s = r) then Some SENTINEL else None).
  Proof. intros. edestruct (set_register_eff' a i SENTINEL r) as (a' & ? & _ & ?); eauto. Qed.
  Lemma set_eff a i v r :
    wf_nodes nr a → addressable a i → r < N.of_nat nr →
    ∃ a', na_set_register i v r a = Ret () a' ∧
      registers_changed a a' (λ k s, if decide (k = i ∧ s = r) then Some v else None).
  Proof. intros. edestruct (set_register_eff' a i v r) as (a' & ? & _ & ?); eauto. Qed.
End regs.

(** ** The statements used in AllocProps *)
Section props.
  Context `{Profile} {T : Type} (ms nr : nat) (d : T).
  Local Notation cap := (N.of_nat ms).
  Hypothesis Hw : cap + 1 < W32.
  Implicit Types a : alloc T.

  Lemma add_fresh a live v i a' :
    pool ms nr d a live → na_add_node v a = Ret i a' → 1 ≤ i ≤ cap ∧ i ≠ SENTINEL ∧ i ∉ live.
  Proof using Hw.
    intros Hp He. apply pool_inv in Hp; [|done].
    destruct (PInv_len _ _ _ _ Hp) as [_ Hle].
    destruct (decide (lengthN live < cap)) as [Hlt|Hge].
    - destruct (add_pool _ _ _ _ v Hp Hlt) as (i' & a2 & tl & He' & Hni & Hp' & _).
      rewrite He in He'. injection He' as <- <-.
      assert (i ≠ 0) by (eapply PInv_nz; [done|mem]).
      destruct Hp' as (cs & fr & Ho & Hcs & _).
      assert (i ≤ cap) by (eapply AOK_le; [done|rewrite Hcs; mem]).
      split_and!; [lia|done|done|done].
    - rewrite (PInv_full _ _ _ _ v Hp) in He by lia. done.
  Qed.
  Lemma add_iff a live v :
    pool ms nr d a live →
    (lengthN live < cap ↔ ∃ i a', na_add_node v a = Ret i a') ∧
    (lengthN live = cap ↔ na_add_node v a = Fail Panic a) ∧ lengthN live ≤ cap.
  Proof using Hw.
    intros Hp. apply pool_inv in Hp; [|done]. destruct (PInv_len _ _ _ _ Hp) as [_ Hle].
    destruct (decide (lengthN live < cap)) as [Hlt|Hge].
    - destruct (add_pool _ _ _ _ v Hp Hlt) as (i & a2 & tl & He & _). rewrite He.
      split_and!; [naive_solver|split; [lia|done]|done].
    - rewrite (PInv_full _ _ _ _ v Hp) by lia. split_and!; [split; [lia|naive_solver]|naive_solver lia|done].
  Qed.
  Lemma size_live a live : pool ms nr d a live → NoDup live ∧ size a = lengthN live ∧ lengthN live ≤ cap.
  Proof using Hw.
    intros Hp. apply pool_inv in Hp; [|done]. split; [|by eapply PInv_len].
    destruct Hp as (cs & fr & Ho & <- & _). by eapply AOK_NoDup.
  Qed.
  Lemma add_local a live v i a' :
    pool ms nr d a live → na_add_node v a = Ret i a' →
    get_value a' i = Val v ∧ na_get_register a' i 0 = Val SENTINEL ∧ ∀ j, j ∈ live → na_get a' j = na_get a j.
  Proof using Hw.
    intros Hp He. pose proof (add_iff _ _ v Hp) as (_ & Hf & Hle). apply pool_inv in Hp; [|done].
    assert (lengthN live < cap) as Hlt.
    { destruct (decide (lengthN live = cap)) as [E|]; [|lia]. apply Hf in E. rewrite He in E. done. }
    destruct (add_pool _ _ _ _ v Hp Hlt) as (i' & a2 & tl & He' & Hni & Hp' & Hg & Hl).
    rewrite He in He'. injection He' as <- <-. unfold get_value. rewrite Hg. split_and!; [done| |done].
    unfold na_get_register. rewrite Hg. rewrite decide_False; [done|]. eapply PInv_nz; [done|mem].
  Qed.
  Lemma remove_local a live i :
    pool ms nr d a live → i ∈ live →
    ∃ v a', get_value a i = Val v ∧ na_remove_node i a = Ret (Some v) a' ∧
      (∀ j, j ∈ live → j ≠ i → na_get a' j = na_get a j) ∧ ∀ w, ∃ a'', na_add_node w a' = Ret i a''.
  Proof using Hw.
    intros Hp Hi. apply pool_inv in Hp; [|done].
    destruct (remove_pool _ _ _ _ _ Hp Hi) as (v & a' & n & Hg & <- & He & _ & Hl & Hw').
    exists (val n), a'. split_and!; [|done|done|done]. unfold get_value. by rewrite Hg.
  Qed.
  Lemma no_failure a live o :
    pool ms nr d a live → al_pre nr live o → (∃ v, o = AlAdd v ∧ lengthN live = cap) ∨
    ∃ r a', al_step o a = Ret r a'.
  Proof using Hw.
    intros Hp Hpre. pose proof Hp as Hpool. apply pool_inv in Hp; [|done].
    assert (∀ (Q : al_out T → alloc T → Prop), wp (al_step o) a Q → ∃ r a', al_step o a = Ret r a') as Hwp.
    { intros Q (r & a' & He & _)%wp_elim. eauto. }
    destruct o as [v|i|i v r|i r|i j ri rj|i j ri rj|i f]; simpl in Hpre.
    - destruct (add_iff _ _ v Hpool) as (Hs & _ & Hle).
      destruct (decide (lengthN live < cap)) as [Hlt|Hge]; [|left; exists v; split; [done|lia]].
      right. apply Hs in Hlt as (i & a' & He). exists (AlIdx i), a'. simpl. unfold mbind, M_bind. by rewrite He.
    - right. destruct Hpre as [->|Hi]; [eexists _, _; reflexivity|].
      destruct (remove_pool _ _ _ _ _ Hp Hi) as (v & a' & n & _ & _ & He & _).
      exists (AlVal (Some v)), a'. simpl. unfold mbind, M_bind. by rewrite He.
    - right. apply (Hwp (λ _ _, True)). apply wp_bind. eapply PInv_set; [done|naive_solver..|]. done.
    - right. apply (Hwp (λ _ _, True)). apply wp_bind.
      change (na_clear_register i r) with (na_set_register (T:=T) i 0 r).
      eapply PInv_set; [done|naive_solver..|]. done.
    - right. apply (Hwp (λ _ _, True)). apply wp_bind. unfold wp at 1. rewrite na_connect_alt.
      destruct Hpre as (? & ? & ? & ?).
      change (wp (na_set_register i j ri;; na_set_register j i rj) a (λ (_ : ()) s', wp (mret (AlUnit (T := T))) s' (λ _ _, True))).
      apply wp_bind. eapply PInv_set; [done|done|done|]. intros a1 Hp1. eapply PInv_set; done.
    - right. apply (Hwp (λ _ _, True)). apply wp_bind. unfold wp at 1. rewrite na_disconnect_alt.
      destruct Hpre as (? & ? & ? & ?).
      change (wp (na_set_register i 0 ri;; na_set_register j 0 rj) a (λ (_ : ()) s', wp (mret (AlUnit (T := T))) s' (λ _ _, True))).
      apply wp_bind. eapply PInv_set; [done|done|done|]. intros a1 Hp1. eapply PInv_set; done.
    - right. apply (Hwp (λ _ _, True)). apply wp_bind. eapply PInv_write; [done|done|by eauto|done].
  Qed.
End props.
