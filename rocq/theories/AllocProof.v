(** * Heap reasoning for the node allocator *)
From Verif Require Export AllocModel.

Ltac mem := solve [repeat first [apply elem_of_list_here | apply elem_of_list_further]].

Section Heap.
  Context `{Profile} {T : Type}.
  Implicit Types a : alloc T.
  Implicit Types n : node T.
  Implicit Types cs : list (N * node T).
  Implicit Types fr : list (N * list N).

  (** The node stored in slot [i] (1-based). *)
  Definition rd a (i : N) : option (node T) := if decide (i = 0) then None else lookupN (nodes a) (i - 1).
  Definition wr (i : N) n a : alloc T := set_nodes (insertN (nodes a) (i - 1) n) a.

  (** The free list starting at [h]: slots with their registers 1.. *)
  Fixpoint fchain a (h : N) fr : Prop :=
    match fr with
    | [] => h = bump_index a
    | (i, tl) :: fr => h = i ∧ ∃ nx v, rd a i = Some (Node (nx :: tl) v) ∧ fchain a nx fr
    end.

  Record AOK (nr : nat) (cap : N) a cs fr : Prop := {
    ok_cap : MAX_SIZE a = cap;
    ok_w : cap + 1 < W32;
    ok_nodup : NoDup (cs.*1 ++ fr.*1);
    ok_rng : ∀ i, i ∈ cs.*1 ++ fr.*1 → 1 ≤ i < bump_index a;
    ok_cells : ∀ i n, (i, n) ∈ cs → rd a i = Some n;
    ok_free : fchain a (free_list_head a) fr;
    ok_fresh : ∀ i, bump_index a ≤ i → i ≤ cap → ∃ v, rd a i = Some (Node (replicate nr 0) v);
    ok_bump : bump_index a = 1 + lengthN cs + lengthN fr;
    ok_bcap : bump_index a ≤ cap + 1;
    ok_size : size a = lengthN cs;
    ok_nr : (1 ≤ nr)%nat;
  }.

  Lemma rd_lt a i n : rd a i = Some n → 1 ≤ i ≤ MAX_SIZE a.
  Proof.
    unfold rd, MAX_SIZE, lengthN. case_decide; [done|]. unfold lookupN. case_decide; [|done]. lia.
  Qed.
  Lemma rd_is_Some a i : 1 ≤ i ≤ MAX_SIZE a → is_Some (rd a i).
  Proof.
    unfold rd, MAX_SIZE, lengthN. intros [H1 H2]. rewrite decide_False by lia.
    unfold lookupN. rewrite decide_True by lia. apply lookup_lt_is_Some. lia.
  Qed.
  Lemma rd_wr a i n : 1 ≤ i ≤ MAX_SIZE a → rd (wr i n a) i = Some n.
  Proof.
    unfold rd, wr, MAX_SIZE. intros [H1 H2]. rewrite decide_False by lia. simpl.
    apply lookupN_insertN. lia.
  Qed.
  Lemma rd_wr_ne a i j n : 1 ≤ i → i ≠ j → rd (wr i n a) j = rd a j.
  Proof.
    unfold rd, wr. intros. case_decide; [done|]. simpl. apply lookupN_insertN_ne. lia.
  Qed.
  Lemma MAX_SIZE_wr a i n : MAX_SIZE (wr i n a) = MAX_SIZE a.
  Proof. unfold MAX_SIZE, wr. simpl. apply lengthN_insertN. Qed.
  Lemma rd_set_size a x i : rd (set_size x a) i = rd a i. Proof. done. Qed.
  Lemma rd_set_bump a x i : rd (set_bump x a) i = rd a i. Proof. done. Qed.
  Lemma rd_set_fhead a x i : rd (set_fhead x a) i = rd a i. Proof. done. Qed.

  Lemma na_get_rd a i n : rd a i = Some n → na_get a i = Val n.
  Proof.
    intros Hr. pose proof (rd_lt _ _ _ Hr). unfold na_get, u32_sub.
    rewrite u_sub_ok by lia. simpl. unfold rd in Hr. rewrite decide_False in Hr by lia. by rewrite Hr.
  Qed.
  Lemma na_get_mut_rd a i n f n' :
    rd a i = Some n → f n = Val n' → na_get_mut i f a = Ret () (wr i n' a).
  Proof.
    intros Hr Hf. pose proof (rd_lt _ _ _ Hr). unfold na_get_mut, u32_sub.
    unfold mbind, M_bind, lift, gets. rewrite u_sub_ok by lia.
    unfold rd in Hr. rewrite decide_False in Hr by lia. by rewrite Hr, Hf.
  Qed.
  Lemma na_get_mut_fail a i n f e :
    rd a i = Some n → f n = Err e → na_get_mut i f a = Fail e a.
  Proof.
    intros Hr Hf. pose proof (rd_lt _ _ _ Hr). unfold na_get_mut, u32_sub.
    unfold mbind, M_bind, lift, gets. rewrite u_sub_ok by lia.
    unfold rd in Hr. rewrite decide_False in Hr by lia. by rewrite Hr, Hf.
  Qed.

  Lemma fchain_mono a a' h fr :
    bump_index a' = bump_index a → (∀ i, i ∈ fr.*1 → rd a' i = rd a i) → fchain a h fr → fchain a' h fr.
  Proof.
    intros Hb. revert h. induction fr as [|[i tl] fr IH]; intros h Hrd; simpl; [congruence|].
    intros (-> & nx & v & Hr & Hc). split; [done|]. exists nx, v. split.
    - rewrite Hrd; [done|]. simpl. set_solver.
    - apply IH; [|done]. intros. apply Hrd. set_solver.
  Qed.

  Section rules.
    Context (nr : nat) (cap : N).
    Notation OK := (AOK nr cap).

    Global Instance AOK_proper a : Proper ((≡ₚ) ==> (=) ==> (iff)) (OK a).
    Proof.
      assert (∀ cs cs' fr, cs ≡ₚ cs' → OK a cs fr → OK a cs' fr) as Hx.
      { intros cs cs' fr Hp [].
        assert (cs.*1 ++ fr.*1 ≡ₚ cs'.*1 ++ fr.*1) as Hpp by (by rewrite Hp).
        constructor; try done.
        - by rewrite <- Hpp.
        - intros i Hi. apply ok_rng0. by rewrite Hpp.
        - intros i n Hi. apply ok_cells0. by rewrite Hp.
        - unfold lengthN in *. by rewrite <- Hp.
        - unfold lengthN in *. by rewrite <- Hp. }
      intros cs cs' Hp fr ? <-. split; apply Hx; done.
    Qed.
    Lemma AOK_perm a cs cs' fr : OK a cs fr → cs ≡ₚ cs' → OK a cs' fr.
    Proof. intros Ho Hp. by rewrite <- Hp. Qed.

    Lemma AOK_rd a cs fr i n : OK a cs fr → (i, n) ∈ cs → rd a i = Some n.
    Proof. intros []. eauto. Qed.
    Lemma AOK_get a cs fr i n : OK a cs fr → (i, n) ∈ cs → na_get a i = Val n.
    Proof. intros. eapply na_get_rd, AOK_rd; eauto. Qed.
    Lemma AOK_nz a cs fr i n : OK a cs fr → (i, n) ∈ cs → i ≠ 0.
    Proof.
      intros [] Hin. assert (i ∈ cs.*1 ++ fr.*1) as Hi; [|apply ok_rng0 in Hi; lia].
      apply elem_of_app. left. apply elem_of_list_fmap. by exists (i, n).
    Qed.
    Lemma AOK_nz' a cs fr i : OK a cs fr → i ∈ cs.*1 → i ≠ 0.
    Proof. intros Ho ([? ?] & -> & ?)%elem_of_list_fmap. eapply AOK_nz; eauto. Qed.
    Lemma AOK_le a cs fr i : OK a cs fr → i ∈ cs.*1 → i ≤ cap.
    Proof.
      intros Ho ([? ?] & -> & Hin)%elem_of_list_fmap. simpl.
      pose proof (AOK_rd _ _ _ _ _ Ho Hin) as Hr%rd_lt. destruct Ho. lia.
    Qed.
    Lemma AOK_NoDup a cs fr : OK a cs fr → NoDup cs.*1.
    Proof. intros []. by apply NoDup_app in ok_nodup0 as (? & _). Qed.
    Lemma AOK_len_le a cs fr : OK a cs fr → lengthN cs ≤ cap.
    Proof. intros []. lia. Qed.
    Lemma AOK_lt_w a cs fr i : OK a cs fr → i ∈ cs.*1 → i < W32.
    Proof. intros Ho Hi%(AOK_le _ _ _ _ Ho). destruct Ho. lia. Qed.

    Lemma AOK_get_register a cs fr i n r v :
      OK a cs fr → (i, n) ∈ cs → lookupN (regs n) r = Some v → na_get_register a i r = Val v.
    Proof.
      intros Ho Hin Hr. unfold na_get_register.
      rewrite decide_False by (eapply AOK_nz; eauto).
      rewrite (AOK_get _ _ _ _ _ Ho Hin). simpl. unfold node_get_register. by rewrite Hr.
    Qed.

    Lemma AOK_write a cs fr i n n' : OK a ((i, n) :: cs) fr → OK (wr i n' a) ((i, n') :: cs) fr.
    Proof.
      intros Ho. pose proof Ho as [].
      assert (rd a i = Some n) as Hrd by (eapply AOK_rd; [done|mem]).
      pose proof (rd_lt _ _ _ Hrd) as Hlt.
      simpl in *. apply NoDup_cons in ok_nodup0 as [Hni Hnd].
      assert (∀ j, j ∈ cs.*1 ++ fr.*1 → rd (wr i n' a) j = rd a j) as Heq.
      { intros j Hj. apply rd_wr_ne; [lia|]. intros ->. done. }
      constructor; simpl; try done.
      - by rewrite MAX_SIZE_wr.
      - by apply NoDup_cons.
      - intros j m [[= -> ->]|Hj]%elem_of_cons; [by apply rd_wr|].
        rewrite Heq; [apply ok_cells0; set_solver|].
        apply elem_of_app. left. apply elem_of_list_fmap. by exists (j, m).
      - eapply fchain_mono; [| |exact ok_free0]; [done|]. intros. apply Heq. set_solver.
      - intros j Hj Hj'. destruct (ok_fresh0 j Hj Hj') as [v Hv]. exists v. rewrite <- Hv.
        apply rd_wr_ne; [lia|]. intros ->.
        assert (1 ≤ j < bump_index a); [|lia]. apply ok_rng0. set_solver.
    Qed.

    Lemma wp_get_mut a cs fr i n f n' (Q : () → alloc T → Prop) :
      OK a ((i, n) :: cs) fr → f n = Val n' →
      (∀ a', OK a' ((i, n') :: cs) fr → Q () a') →
      wp (na_get_mut i f) a Q.
    Proof.
      intros Ho Hf HQ. unfold wp.
      rewrite (na_get_mut_rd a i n f n'); [|eapply AOK_rd; [done|mem]|done].
      apply HQ. by eapply AOK_write.
    Qed.

    (** A node with register [r] set to [v] *)
    Definition setr (r v : N) n : node T := Node (insertN (regs n) r v) (val n).
    Lemma node_set_register_ok r v n :
      r < lengthN (regs n) → node_set_register r v n = Val (setr r v n).
    Proof.
      intros Hr. unfold node_set_register.
      destruct (lookupN (regs n) r) eqn:E; [done|].
      unfold lookupN in E. unfold lengthN in Hr. rewrite decide_True in E by lia.
      apply lookup_ge_None in E. lia.
    Qed.

    Lemma wp_set_register a cs fr i n r v (Q : () → alloc T → Prop) :
      OK a ((i, n) :: cs) fr → r < lengthN (regs n) →
      (∀ a', OK a' ((i, setr r v n) :: cs) fr → Q () a') →
      wp (na_set_register i v r) a Q.
    Proof.
      intros Ho Hr HQ. unfold na_set_register.
      rewrite decide_False by (eapply AOK_nz; [done|mem]).
      eapply wp_get_mut; [done|by apply node_set_register_ok|done].
    Qed.
    Lemma wp_set_register_0 a v r (Q : () → alloc T → Prop) : Q () a → wp (na_set_register 0 v r) a Q.
    Proof. done. Qed.
    Lemma wp_clear_register a cs fr i n r (Q : () → alloc T → Prop) :
      OK a ((i, n) :: cs) fr → r < lengthN (regs n) →
      (∀ a', OK a' ((i, setr r 0 n) :: cs) fr → Q () a') →
      wp (na_clear_register i r) a Q.
    Proof. exact (wp_set_register a cs fr i n r 0 Q). Qed.
    Lemma wp_clear_register_0 a r (Q : () → alloc T → Prop) : Q () a → wp (na_clear_register 0 r) a Q.
    Proof. done. Qed.

    (** connect, both nodes present *)
    Lemma wp_connect a cs fr i j n m ri rj (Q : () → alloc T → Prop) :
      OK a ((i, n) :: (j, m) :: cs) fr → ri < lengthN (regs n) → rj < lengthN (regs m) →
      (∀ a', OK a' ((i, setr ri j n) :: (j, setr rj i m) :: cs) fr → Q () a') →
      wp (na_connect i j ri rj) a Q.
    Proof.
      intros Ho Hi Hj HQ. unfold na_connect.
      rewrite (decide_False (P := i = SENTINEL)) by (eapply AOK_nz; [done|mem]).
      apply wp_bind. eapply wp_get_mut; [done|by apply node_set_register_ok|]. intros a1 Ho1.
      rewrite (decide_False (P := j = SENTINEL)) by (eapply AOK_nz; [exact Ho|mem]).
      eapply wp_get_mut; [eapply AOK_perm; [done|apply Permutation_swap]|by apply node_set_register_ok|].
      intros a2 Ho2. apply HQ. eapply AOK_perm; [done|apply Permutation_swap].
    Qed.
    (** connect to nothing *)
    Lemma wp_connect_0r a cs fr i n ri rj (Q : () → alloc T → Prop) :
      OK a ((i, n) :: cs) fr → ri < lengthN (regs n) →
      (∀ a', OK a' ((i, setr ri 0 n) :: cs) fr → Q () a') →
      wp (na_connect i 0 ri rj) a Q.
    Proof.
      intros Ho Hi HQ. unfold na_connect.
      rewrite (decide_False (P := i = SENTINEL)) by (eapply AOK_nz; [done|mem]).
      apply wp_bind. eapply wp_get_mut; [done|by apply node_set_register_ok|]. intros a1 Ho1.
      by apply HQ.
    Qed.
    Lemma wp_connect_0l a cs fr j m ri rj (Q : () → alloc T → Prop) :
      OK a ((j, m) :: cs) fr → rj < lengthN (regs m) →
      (∀ a', OK a' ((j, setr rj 0 m) :: cs) fr → Q () a') →
      wp (na_connect 0 j ri rj) a Q.
    Proof.
      intros Ho Hi HQ. unfold na_connect. apply wp_bind, wp_ret.
      rewrite (decide_False (P := j = SENTINEL)) by (eapply AOK_nz; [done|mem]).
      eapply wp_get_mut; [done|by apply node_set_register_ok|]. intros a1 Ho1.
      by apply HQ.
    Qed.
    Lemma wp_connect_00 a ri rj (Q : () → alloc T → Prop) : Q () a → wp (na_connect 0 0 ri rj) a Q.
    Proof. done. Qed.

    (** disconnect, both present *)
    Lemma wp_disconnect a cs fr i j n m ri rj (Q : () → alloc T → Prop) :
      OK a ((i, n) :: (j, m) :: cs) fr → ri < lengthN (regs n) → rj < lengthN (regs m) →
      (∀ a', OK a' ((i, setr ri 0 n) :: (j, setr rj 0 m) :: cs) fr → Q () a') →
      wp (na_disconnect i j ri rj) a Q.
    Proof.
      intros Ho Hi Hj HQ. unfold na_disconnect.
      rewrite (decide_False (P := i = SENTINEL)) by (eapply AOK_nz; [done|mem]).
      apply wp_bind. eapply wp_clear_register; [done|done|]. intros a1 Ho1.
      rewrite (decide_False (P := j = SENTINEL)) by (eapply AOK_nz; [exact Ho|mem]).
      eapply wp_clear_register; [eapply AOK_perm; [done|apply Permutation_swap]|done|].
      intros a2 Ho2. apply HQ. eapply AOK_perm; [done|apply Permutation_swap].
    Qed.

    (** add_node *)
    Lemma na_add_node_ok' a cs fr v :
      OK a cs fr → lengthN cs < cap →
      ∃ i tl fr' a', na_add_node v a = Ret i a' ∧ OK a' ((i, Node (0 :: tl) v) :: cs) fr' ∧
        (match fr with
         | [] => i = bump_index a ∧ tl = replicate (nr - 1) 0 ∧ fr' = []
         | (j, tl') :: fr0 => i = j ∧ tl = tl' ∧ fr' = fr0 end) ∧ (∀ j, j ≠ i → rd a' j = rd a j) ∧ bump_index a ≤ bump_index a'.
    Proof.
      intros Ho Hlen. pose proof Ho as []. unfold na_add_node.
      unfold mbind, M_bind, mget.
      destruct fr as [|[i tl] fr].
      - simpl in ok_free0. rewrite decide_True by done.
        unfold lengthN in ok_bump0 at 2. simpl in ok_bump0.
        rewrite decide_False; [|unfold as_u32; rewrite N.mod_small by (rewrite ok_cap0; lia); rewrite ok_cap0; lia].
        unfold lift, gets, modify, u32_add. rewrite u_add_ok by lia. simpl.
        destruct (ok_fresh0 (bump_index a)) as [v0 Hv0]; [lia|lia|].
        set (b := bump_index a) in *.
        set (a1 := set_fhead (b + 1) (set_bump (b + 1) a)).
        assert (rd a1 b = Some (Node (replicate nr 0) v0)) as Hr by exact Hv0.
        assert (free_list_head a = b) as Hfb by done. rewrite Hfb.
        erewrite na_get_mut_rd; [|exact Hr|reflexivity]. simpl.
        unfold u64_add. rewrite u_add_ok; [|rewrite ok_size0; unfold W64, W32 in *; lia].
        simpl. eexists b, (replicate (nr - 1) 0), [], _. split; [reflexivity|].
        assert (∀ j, j ≠ b → rd (set_size (size a + 1) (wr b (Node (replicate nr 0) v) a1)) j = rd a j) as Hne.
        { intros j Hj. rewrite rd_set_size, rd_wr_ne; [done|lia|done]. }
        split; [|split_and!; [done|done|done|exact Hne|simpl; lia]].
        assert (replicate nr 0 = 0 :: replicate (nr - 1) 0) as Hrep.
        { destruct nr; [lia|]. simpl. by rewrite Nat.sub_0_r. }
        constructor; simpl; rewrite ?app_nil_r in *; try done.
        + change (MAX_SIZE (wr b (Node (replicate nr 0) v) a1) = cap). rewrite MAX_SIZE_wr. done.
        + apply NoDup_cons. split; [|done]. intros Hb. apply ok_rng0 in Hb. lia.
        + intros j [->|Hj]%elem_of_cons; [lia|]. apply ok_rng0 in Hj. lia.
        + intros j m [[= -> ->]|Hj]%elem_of_cons.
          * rewrite rd_set_size, rd_wr; [by rewrite Hrep|].
            apply rd_lt in Hr. exact Hr.
          * rewrite Hne; [by apply ok_cells0|]. intros ->.
            assert (b ∈ cs.*1) as Hb by (apply elem_of_list_fmap; by exists (b, m)).
            apply ok_rng0 in Hb. lia.
        + intros j Hj Hj'. rewrite Hne by lia. apply ok_fresh0; lia.
        + unfold lengthN in *. simpl. lia.
        + lia.
        + rewrite ok_size0. unfold lengthN. simpl. lia.
      - simpl in ok_free0. destruct ok_free0 as (Hf & nx & v0 & Hr & Hc).
        assert (1 ≤ i < bump_index a) as Hib by (apply ok_rng0; set_solver).
        rewrite decide_False by lia.
        unfold lift, gets, modify. rewrite Hf.
        rewrite (na_get_rd _ _ _ Hr). simpl.
        set (a1 := set_fhead nx a).
        erewrite na_get_mut_rd; [|exact Hr|reflexivity]. simpl.
        assert (1 ≤ i ≤ MAX_SIZE a1) as Hlt by (by apply rd_lt in Hr).
        erewrite na_get_mut_rd; [|by apply rd_wr|reflexivity]. simpl.
        unfold u64_add. rewrite u_add_ok; [|rewrite ok_size0; unfold W64, W32 in *; lia].
        simpl. eexists i, tl, fr, _. split; [reflexivity|].
        set (a2 := wr i (Node (SENTINEL :: tl) v) (wr i (Node (SENTINEL :: tl) v0) a1)).
        assert (∀ j, j ≠ i → rd (set_size (size a + 1) a2) j = rd a j) as Hne.
        { intros j Hj. unfold a2. rewrite rd_set_size, !rd_wr_ne; [done|lia|done|lia|done]. }
        split; [|split_and!; [done|done|done|exact Hne|simpl; lia]].
        assert (cs.*1 ++ i :: fr.*1 ≡ₚ i :: cs.*1 ++ fr.*1) as Hperm by solve_Permutation.
        simpl in *. rewrite Hperm in ok_nodup0. apply NoDup_cons in ok_nodup0 as [Hni Hnd].
        constructor; simpl; try done.
        + change (MAX_SIZE a2 = cap). unfold a2. rewrite !MAX_SIZE_wr. done.
        + apply NoDup_cons. done.
        + intros j Hj. apply ok_rng0. by rewrite Hperm.
        + intros j m [[= -> ->]|Hj]%elem_of_cons.
          * unfold a2. rewrite rd_set_size, rd_wr; [done|]. by rewrite MAX_SIZE_wr.
          * rewrite Hne; [by apply ok_cells0|]. intros ->. apply Hni.
            apply elem_of_app. left. apply elem_of_list_fmap. by exists (i, m).
        + eapply fchain_mono; [| |exact Hc]; [done|]. intros j Hj. apply Hne. intros ->.
          apply Hni. set_solver.
        + intros j Hj Hj'. rewrite Hne by lia. apply ok_fresh0; lia.
        + unfold lengthN in *. simpl in *. lia.
        + rewrite ok_size0. unfold lengthN. simpl. lia.
    Qed.

    Lemma na_add_node_ok a cs fr v :
      OK a cs fr → lengthN cs < cap →
      ∃ i tl fr' a', na_add_node v a = Ret i a' ∧ OK a' ((i, Node (0 :: tl) v) :: cs) fr' ∧
        (match fr with
         | [] => i = bump_index a ∧ tl = replicate (nr - 1) 0 ∧ fr' = []
         | (j, tl') :: fr0 => i = j ∧ tl = tl' ∧ fr' = fr0 end).
    Proof. intros Ho Hl. destruct (na_add_node_ok' a cs fr v Ho Hl) as (i & tl & fr' & a' & H1 & H2 & H3 & _). eauto 10. Qed.

    Lemma na_add_node_full a cs fr v :
      OK a cs fr → lengthN cs = cap → na_add_node v a = Fail Panic a.
    Proof.
      intros [] Hlen. assert (lengthN fr = 0) as Hf by lia.
      destruct fr; [|unfold lengthN in Hf; simpl in Hf; lia].
      unfold na_add_node, mbind, M_bind, mget. simpl in ok_free0.
      rewrite decide_True by done. rewrite decide_True; [done|].
      unfold as_u32. rewrite N.mod_small by lia. lia.
    Qed.

    (** remove_node *)
    Lemma na_remove_node_ok' a cs fr i r0 tl v :
      OK a ((i, Node (r0 :: tl) v) :: cs) fr →
      ∃ a', na_remove_node i a = Ret (Some v) a' ∧ OK a' cs ((i, tl) :: fr) ∧
        (∀ j, j ≠ i → rd a' j = rd a j) ∧ val <$> rd a' i = Some v ∧ bump_index a ≤ bump_index a'.
    Proof.
      intros Ho. pose proof Ho as []. unfold na_remove_node.
      assert (rd a i = Some (Node (r0 :: tl) v)) as Hr by (eapply AOK_rd; [done|mem]).
      pose proof (rd_lt _ _ _ Hr) as Hlt.
      rewrite decide_False by (unfold SENTINEL; lia).
      unfold mbind, M_bind, mget, modify, lift, gets.
      erewrite na_get_mut_rd; [|exact Hr|reflexivity]. simpl.
      rewrite ok_size0. unfold u64_sub. rewrite u_sub_ok; [|unfold lengthN; simpl; lia].
      erewrite na_get_rd; [|rewrite rd_set_size, rd_set_fhead; by apply rd_wr].
      simpl. eexists. split; [done|].
      simpl in *. apply NoDup_cons in ok_nodup0 as [Hni Hnd].
      set (a1 := set_fhead i (wr i (Node (free_list_head a :: tl) v) a)).
      assert (∀ j, j ≠ i → rd (set_size (lengthN ((i, Node (r0 :: tl) v) :: cs) - 1) a1) j = rd a j) as Hne.
      { intros j Hj. rewrite rd_set_size. unfold a1. rewrite rd_set_fhead, rd_wr_ne; [done|lia|done]. }
      split; [|split_and!; [exact Hne|rewrite rd_set_size; unfold a1; by rewrite rd_set_fhead, rd_wr|simpl; lia]].
      assert (cs.*1 ++ i :: fr.*1 ≡ₚ i :: cs.*1 ++ fr.*1) as Hperm by solve_Permutation.
      constructor; simpl; try done.
      - change (MAX_SIZE (wr i (Node (free_list_head a :: tl) v) a) = cap). by rewrite MAX_SIZE_wr.
      - rewrite Hperm. by apply NoDup_cons.
      - intros j Hj. apply ok_rng0. by rewrite <- Hperm.
      - intros j m Hj. rewrite Hne; [apply ok_cells0; set_solver|]. intros ->. apply Hni.
        apply elem_of_app. left. apply elem_of_list_fmap. by exists (i, m).
      - split; [done|]. exists (free_list_head a), v. split.
        + rewrite rd_set_size. unfold a1. rewrite rd_set_fhead. by apply rd_wr.
        + eapply fchain_mono; [| |exact ok_free0]; [done|]. intros j Hj. apply Hne. intros ->.
          apply Hni. set_solver.
      - intros j Hj Hj'. rewrite Hne; [by apply ok_fresh0|]. intros ->.
        assert (1 ≤ i < bump_index a); [|lia]. apply ok_rng0. set_solver.
      - unfold lengthN in *. simpl in *. lia.
      - change (lengthN ((i, Node (r0 :: tl) v) :: cs) - 1 = lengthN cs). rewrite lengthN_cons. lia.
    Qed.

    Lemma na_remove_node_ok a cs fr i r0 tl v :
      OK a ((i, Node (r0 :: tl) v) :: cs) fr →
      ∃ a', na_remove_node i a = Ret (Some v) a' ∧ OK a' cs ((i, tl) :: fr).
    Proof. intros Ho. destruct (na_remove_node_ok' a cs fr i r0 tl v Ho) as (a' & H1 & H2 & _). eauto. Qed.

    Lemma na_new_ok ms v0 :
      cap = N.of_nat ms → cap + 1 < W32 → (1 ≤ nr)%nat →
      OK (Alloc 0 1 1 (replicate ms (node_default nr v0))) [] [].
    Proof.
      intros Hc Hw Hnr. constructor; simpl; try done.
      - unfold MAX_SIZE, lengthN. simpl. by rewrite replicate_length.
      - constructor.
      - set_solver.
      - set_solver.
      - intros i Hi Hi'. exists v0. unfold rd. rewrite decide_False by lia. simpl.
        apply lookupN_Some. apply lookup_replicate. split; [done|lia].
      - lia.
    Qed.
  End rules.
End Heap.

(** Ghost knowledge about the slots: the values in use, the free list with the value left in each slot (and [bump_index]), the values
    of the slots never used. An invariant of one call: [GAdd]: it survives [add_node] and writing a value, [GRem]: it survives
    [remove_node]. *)
Class Ghost (T : Type) := { g_live : N → T → Prop; g_free : list (N * T) → N → Prop; g_fresh : N → T → Prop }.
Class GAdd {T} (G : Ghost T) : Prop := {
  g_put : ∀ i v, g_live i v;
  g_pop : ∀ e l b, g_free (e :: l) b → g_free l b;
  g_bump : ∀ b, g_free [] b → g_free [] (b + 1) }.
Class GRem {T} (G : Ghost T) : Prop := g_push : ∀ i v l b, g_live i v → g_free l b → g_free ((i, v) :: l) b.
(** No knowledge *)
Global Instance ghost_any {T} : Ghost T | 100 := {| g_live := λ _ _, True; g_free := λ _ _, True; g_fresh := λ _ _, True |}.
Global Instance ghost_any_add {T} : GAdd (@ghost_any T) | 100.
Proof. done. Qed.
Global Instance ghost_any_rem {T} : GRem (@ghost_any T) | 100.
Proof. done. Qed.

(** Allocators whose freed nodes have all registers but the free-list one cleared (all containers except Critbit) *)
Section Clean.
  Context `{Profile} {T : Type} {G : Ghost T} (nr : nat) (cap : N).
  Implicit Types a : alloc T.

  Definition gok a (fr : list (N * list N)) : Prop :=
    (∃ l, l.*1 = fr.*1 ∧ Forall (λ e, val <$> rd a e.1 = Some e.2) l ∧ g_free l (bump_index a)) ∧
    ∀ i v, bump_index a ≤ i → val <$> rd a i = Some v → g_fresh i v.
  Definition CH a (cs : list (N * node T)) : Prop :=
    ∃ fr, AOK nr cap a cs fr ∧ Forall (λ f, f.2 = replicate (nr - 1) 0) fr ∧ gok a fr ∧ Forall (λ c, g_live c.1 (val c.2)) cs.

  Lemma gok_write a cs fr i n n' : AOK nr cap a ((i, n) :: cs) fr → gok a fr → gok (wr i n' a) fr.
  Proof.
    intros Ho [(l & Hl & Hv & Hg) Hf]. pose proof Ho as []. simpl in *.
    assert (rd a i = Some n) as Hrd by (eapply AOK_rd; [done|mem]). pose proof (rd_lt _ _ _ Hrd) as Hlt.
    apply NoDup_cons in ok_nodup0 as [Hni Hnd].
    split.
    - exists l. split_and!; [done| |done]. rewrite Forall_forall in *. intros e He. rewrite rd_wr_ne; [by apply Hv|lia|].
      intros Hei. apply Hni. apply elem_of_app. right. rewrite <- Hl. apply elem_of_list_fmap. by exists e.
    - intros j v Hj Hr. apply Hf; [done|]. rewrite <- Hr. symmetry. f_equal. apply rd_wr_ne; [lia|]. intros ->.
      assert (1 ≤ j < bump_index a) by (apply ok_rng0; set_solver). change (bump_index (wr j n' a)) with (bump_index a) in Hj. lia.
  Qed.

  Global Instance CH_proper a : Proper ((≡ₚ) ==> (iff)) (CH a).
  Proof. intros cs cs' Hp. unfold CH. by setoid_rewrite Hp. Qed.
  Lemma CH_perm a cs cs' : CH a cs → cs ≡ₚ cs' → CH a cs'.
  Proof. intros Ho Hp. by rewrite <- Hp. Qed.
  Lemma CH_get a cs i n : CH a cs → (i, n) ∈ cs → na_get a i = Val n.
  Proof. intros (? & Ho & _). by eapply AOK_get. Qed.
  Lemma CH_nz a cs i n : CH a cs → (i, n) ∈ cs → i ≠ 0.
  Proof. intros (? & Ho & _). by eapply AOK_nz. Qed.
  Lemma CH_nz' a cs i : CH a cs → i ∈ cs.*1 → i ≠ 0.
  Proof. intros (? & Ho & _). by eapply AOK_nz'. Qed.
  Lemma CH_NoDup a cs : CH a cs → NoDup cs.*1.
  Proof. intros (? & Ho & _). by eapply AOK_NoDup. Qed.
  Lemma CH_le a cs i : CH a cs → i ∈ cs.*1 → i ≤ cap.
  Proof. intros (? & Ho & _). by eapply AOK_le. Qed.
  Lemma CH_w a cs : CH a cs → cap + 1 < W32.
  Proof. by intros (? & [] & _). Qed.
  Lemma CH_size a cs : CH a cs → size a = lengthN cs.
  Proof. by intros (? & [] & _). Qed.
  Lemma CH_cap a cs : CH a cs → MAX_SIZE a = cap.
  Proof. by intros (? & [] & _). Qed.
  Lemma CH_len_le a cs : CH a cs → lengthN cs ≤ cap.
  Proof. intros (? & Ho & _). by eapply AOK_len_le. Qed.
  Lemma CH_get_register a cs i n r v :
    CH a cs → (i, n) ∈ cs → lookupN (regs n) r = Some v → na_get_register a i r = Val v.
  Proof. intros (? & Ho & _). by eapply AOK_get_register. Qed.

  Lemma CH_get_mut' a cs i n f n' (Q : () → alloc T → Prop) :
    CH a ((i, n) :: cs) → f n = Val n' → (g_live i (val n) → g_live i (val n')) →
    (∀ a', CH a' ((i, n') :: cs) → Q () a') → wp (na_get_mut i f) a Q.
  Proof.
    intros (fr & Ho & Hf & Hg & Hv) Hn Hl HQ. unfold wp.
    rewrite (na_get_mut_rd a i n f n'); [|eapply AOK_rd; [done|mem]|done].
    apply HQ. exists fr. apply Forall_cons in Hv as [Hv1 Hv]. split_and!; [by eapply AOK_write|done|by eapply gok_write|].
    apply Forall_cons. split; [by apply Hl|done].
  Qed.
  Lemma CH_get_mut `{!GAdd G} a cs i n f n' (Q : () → alloc T → Prop) :
    CH a ((i, n) :: cs) → f n = Val n' → (∀ a', CH a' ((i, n') :: cs) → Q () a') → wp (na_get_mut i f) a Q.
  Proof. intros Hc Hn HQ. eapply CH_get_mut'; [done|done| |done]. intros _. apply g_put. Qed.
  Lemma CH_set_register a cs i n r v (Q : () → alloc T → Prop) :
    CH a ((i, n) :: cs) → r < lengthN (regs n) →
    (∀ a', CH a' ((i, setr r v n) :: cs) → Q () a') → wp (na_set_register i v r) a Q.
  Proof.
    intros Ho Hr HQ. unfold na_set_register. rewrite decide_False by (eapply CH_nz; [done|mem]).
    eapply CH_get_mut'; [done|by apply node_set_register_ok|done|done].
  Qed.
  Lemma CH_clear_register a cs i n r (Q : () → alloc T → Prop) :
    CH a ((i, n) :: cs) → r < lengthN (regs n) →
    (∀ a', CH a' ((i, setr r 0 n) :: cs) → Q () a') → wp (na_clear_register i r) a Q.
  Proof. exact (CH_set_register a cs i n r 0 Q). Qed.
  Lemma CH_connect a cs i j n m ri rj (Q : () → alloc T → Prop) :
    CH a ((i, n) :: (j, m) :: cs) → ri < lengthN (regs n) → rj < lengthN (regs m) →
    (∀ a', CH a' ((i, setr ri j n) :: (j, setr rj i m) :: cs) → Q () a') → wp (na_connect i j ri rj) a Q.
  Proof.
    intros Ho Hi Hj HQ. unfold na_connect.
    rewrite (decide_False (P := i = SENTINEL)) by (eapply CH_nz; [done|mem]).
    apply wp_bind. eapply CH_get_mut'; [done|by apply node_set_register_ok|done|]. intros a1 Ho1.
    rewrite (decide_False (P := j = SENTINEL)) by (eapply CH_nz; [exact Ho|mem]).
    eapply CH_get_mut'; [eapply CH_perm; [done|apply Permutation_swap]|by apply node_set_register_ok|done|].
    intros a2 Ho2. apply HQ. eapply CH_perm; [done|apply Permutation_swap].
  Qed.
  Lemma CH_connect_0r a cs i n ri rj (Q : () → alloc T → Prop) :
    CH a ((i, n) :: cs) → ri < lengthN (regs n) →
    (∀ a', CH a' ((i, setr ri 0 n) :: cs) → Q () a') → wp (na_connect i 0 ri rj) a Q.
  Proof.
    intros Ho Hi HQ. unfold na_connect.
    rewrite (decide_False (P := i = SENTINEL)) by (eapply CH_nz; [done|mem]).
    apply wp_bind. eapply CH_get_mut'; [done|by apply node_set_register_ok|done|]. intros a1 Ho1. by apply HQ.
  Qed.
  Lemma CH_connect_0l a cs j m ri rj (Q : () → alloc T → Prop) :
    CH a ((j, m) :: cs) → rj < lengthN (regs m) →
    (∀ a', CH a' ((j, setr rj 0 m) :: cs) → Q () a') → wp (na_connect 0 j ri rj) a Q.
  Proof.
    intros Ho Hi HQ. unfold na_connect. apply wp_bind, wp_ret.
    rewrite (decide_False (P := j = SENTINEL)) by (eapply CH_nz; [done|mem]).
    eapply CH_get_mut'; [done|by apply node_set_register_ok|done|]. intros a1 Ho1. by apply HQ.
  Qed.
  Lemma CH_add_node `{!GAdd G} a cs v (Q : N → alloc T → Prop) :
    CH a cs → lengthN cs < cap →
    (∀ i a', CH a' ((i, Node (replicate nr 0) v) :: cs) → Q i a') → wp (na_add_node v) a Q.
  Proof.
    intros (fr & Ho & Hf & ((l & Hl & Hv & Hg) & Hfr) & Hlv) Hlen HQ.
    destruct (na_add_node_ok' _ _ _ _ _ v Ho Hlen) as (i & tl & fr' & a' & He & Ho' & Hx & Hrd & Hb).
    eapply wp_intro; [exact He|]. apply HQ.
    assert (replicate nr 0 = 0 :: replicate (nr - 1) 0) as Hrep.
    { destruct Ho. destruct nr; [lia|]. simpl. by rewrite Nat.sub_0_r. }
    assert (i ∉ fr'.*1 ∧ i < bump_index a') as [Hni Hib].
    { destruct Ho' as [_ _ Hnd Hrng _ _ _ _ _ _ _]. simpl in *. apply NoDup_cons in Hnd as [Hnd _].
      split; [|apply Hrng; set_solver]. set_solver. }
    assert (∀ j v, bump_index a' ≤ j → val <$> rd a' j = Some v → g_fresh j v) as Hfr'.
    { intros j w Hj Hw. apply Hfr; [lia|]. rewrite <- Hw. by rewrite Hrd by lia. }
    assert (Forall (λ c, g_live c.1 (val c.2)) ((i, Node (0 :: replicate (nr - 1) 0) v) :: cs)) as Hlv'.
    { apply Forall_cons. split; [apply g_put|done]. }
    rewrite Hrep. destruct fr as [|[j tl'] fr0].
    - destruct Hx as (-> & -> & ->). exists []. split_and!; [done|done| |done]. split; [|done]. destruct l; [|done].
      exists []. split_and!; [done|constructor|].
      assert (bump_index a' = bump_index a + 1) as ->; [|by apply g_bump].
      pose proof (ok_bump _ _ _ _ _ Ho). pose proof (ok_bump _ _ _ _ _ Ho'). unfold lengthN in *. simpl in *. lia.
    - destruct Hx as (-> & -> & ->). apply Forall_cons in Hf as [Ht Hf]. simpl in Ht. subst tl'.
      destruct l as [|e l]; [done|]. simpl in Hl. injection Hl as He1 Hl. change (l.*1 = fr0.*1) in Hl. apply Forall_cons in Hv as [_ Hv].
      exists fr0. split_and!; [done|done| |done]. split; [|done]. exists l. split_and!; [done| |].
      2:{ assert (bump_index a' = bump_index a) as ->; [|by eapply g_pop].
          pose proof (ok_bump _ _ _ _ _ Ho). pose proof (ok_bump _ _ _ _ _ Ho'). unfold lengthN in *. simpl in *. lia. }
      rewrite Forall_forall in *. intros x Hx. rewrite Hrd; [by apply Hv|]. intros Hxj. apply Hni. rewrite <- Hl. apply elem_of_list_fmap. by exists x.
  Qed.
  Lemma CH_add_node_full a cs v : CH a cs → lengthN cs = cap → na_add_node v a = Fail Panic a.
  Proof. intros (fr & Ho & Hf & _). by eapply na_add_node_full. Qed.
  Lemma CH_remove_node `{!GRem G} a cs i r0 v (Q : option T → alloc T → Prop) :
    CH a ((i, Node (r0 :: replicate (nr - 1) 0) v) :: cs) →
    (∀ a', CH a' cs → Q (Some v) a') → wp (na_remove_node i) a Q.
  Proof.
    intros (fr & Ho & Hf & ((l & Hl & Hv & Hg) & Hfr) & Hlv) HQ. apply Forall_cons in Hlv as [Hlv1 Hlv].
    destruct (na_remove_node_ok' _ _ _ _ _ _ _ _ _ Ho) as (a' & He & Ho' & Hrd & Hvi & Hb).
    assert (i ∉ fr.*1 ∧ i < bump_index a) as [Hni Hib].
    { destruct Ho as [_ _ Hnd Hrng _ _ _ _ _ _ _]. simpl in *. apply NoDup_cons in Hnd as [Hnd _].
      split; [|apply Hrng; set_solver]. set_solver. }
    eapply wp_intro; [exact He|]. apply HQ. exists ((i, replicate (nr - 1) 0) :: fr). split_and!; [done|by apply Forall_cons| |done].
    split.
    - exists ((i, v) :: l). split_and!; [rewrite !fmap_cons; by f_equal| |].
      2:{ assert (bump_index a' = bump_index a) as ->; [|by apply g_push].
          pose proof (ok_bump _ _ _ _ _ Ho). pose proof (ok_bump _ _ _ _ _ Ho'). unfold lengthN in *. simpl in *. lia. }
      apply Forall_cons. split; [done|]. rewrite Forall_forall in *. intros x Hx. rewrite Hrd; [by apply Hv|].
      intros Hxj. apply Hni. rewrite <- Hl. apply elem_of_list_fmap. by exists x.
    - intros j w Hj Hw. apply Hfr; [lia|]. rewrite <- Hw. by rewrite Hrd by lia.
  Qed.
  (** raw pointer update of the mutable iterators *)
  Lemma CH_raw_update `{!GAdd G} a cs i n f (Q : T → alloc T → Prop) :
    CH a ((i, n) :: cs) → (∀ a', CH a' ((i, Node (regs n) (f (val n))) :: cs) → Q (val n) a') →
    wp (na_raw_update i f) a Q.
  Proof.
    intros (fr & Ho & Hf & Hg & Hlv) HQ. apply Forall_cons in Hlv as [_ Hlv]. pose proof (AOK_rd _ _ _ _ _ i n Ho ltac:(mem)) as Hr.
    pose proof (rd_lt _ _ _ Hr). unfold wp, na_raw_update, mbind, M_bind, lift, gets, u32_sub.
    rewrite u_sub_ok by lia. unfold rd in Hr. rewrite decide_False in Hr by lia. rewrite Hr. simpl.
    apply HQ. exists fr. split_and!; [by eapply AOK_write in Ho|done|by eapply gok_write|].
    apply Forall_cons. split; [apply g_put|done].
  Qed.
End Clean.
Lemma CH_new {T} (nr : nat) (cap : N) ms (v0 : T) :
  cap = N.of_nat ms → cap + 1 < W32 → (1 ≤ nr)%nat →
  CH nr cap (Alloc 0 1 1 (replicate ms (node_default nr v0))) [].
Proof. intros. exists []. split_and!; [by apply na_new_ok|constructor| |constructor]. split; [|done]. by exists []. Qed.
