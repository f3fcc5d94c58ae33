(** * The NodeAllocator outside its contract: proofs *)
From Verif Require Export ContractSpec AllocPoolProof.

(** ** The indices [add_node] will answer, computed from the bump index, the head of the free list and the registers 0 *)
Section walk.
  Context (cap : N).
  Implicit Types b h i j : N.
  Implicit Types nx : N → N.
  Definition set1 j v nx : N → N := λ i, if decide (i = j) then v else nx i.
  Inductive walk : N → N → (N → N) → list N → Prop :=
  | walk_full nx : walk (cap + 1) (cap + 1) nx []
  | walk_lost b h nx : h ≠ b → ¬ (1 ≤ h ≤ cap) → walk b h nx []
  | walk_bump b nx is : 1 ≤ b ≤ cap → walk (b + 1) (b + 1) nx is → walk b b nx (b :: is)
  | walk_pop b h nx is : h ≠ b → 1 ≤ h ≤ cap → walk b (nx h) (set1 h 0 nx) is → walk b h nx (h :: is).
  (** the slots never used *)
  Definition fresh b : list N := N.of_nat <$> seq (N.to_nat b) (N.to_nat (cap + 1 - b)).
  Lemma fresh_nil : fresh (cap + 1) = [].
  Proof. unfold fresh. by rewrite N.sub_diag. Qed.
  Lemma fresh_cons b : b ≤ cap → fresh b = b :: fresh (b + 1).
  Proof.
    intros Hb. unfold fresh. replace (N.to_nat (cap + 1 - b)) with (S (N.to_nat (cap + 1 - (b + 1)))) by lia.
    cbn. rewrite N2Nat.id. f_equal. by replace (N.to_nat (b + 1)) with (S (N.to_nat b)) by lia.
  Qed.
  Lemma elem_of_fresh b i : i ∈ fresh b ↔ b ≤ i ≤ cap.
  Proof.
    unfold fresh. rewrite elem_of_list_fmap. setoid_rewrite elem_of_seq. split.
    - intros (n & -> & Hn). lia.
    - intros Hi. exists (N.to_nat i). split; lia.
  Qed.
  Lemma NoDup_fresh b : NoDup (fresh b).
  Proof. apply (NoDup_fmap_2 _). apply NoDup_seq. Qed.
  Lemma walk_fresh b nx : 1 ≤ b ≤ cap + 1 → walk b b nx (fresh b).
  Proof.
    intros Hb. remember (N.to_nat (cap + 1 - b)) as n eqn:Hn. revert b Hb Hn. induction n as [|n IH]; intros b Hb Hn.
    - replace b with (cap + 1) by lia. rewrite fresh_nil. apply walk_full.
    - rewrite fresh_cons by lia. apply walk_bump; [lia|]. apply IH; lia.
  Qed.
  (** following the registers from [h] through [l] ends at [k] *)
  Fixpoint path nx h (l : list N) k : Prop := match l with [] => h = k | i :: l => h = i ∧ path nx (nx i) l k end.
  Lemma path_ext nx nx' h l k : (∀ i, i ∈ l → nx' i = nx i) → path nx h l k → path nx' h l k.
  Proof.
    revert h. induction l as [|i l IH]; intros h He; [done|]. intros [-> Hp]. split; [done|].
    rewrite He by mem. apply IH; [|done]. intros j Hj. apply He. by apply elem_of_list_further.
  Qed.
  Lemma path_app nx h l1 m l2 k : path nx h l1 m → path nx m l2 k → path nx h (l1 ++ l2) k.
  Proof. revert h. induction l1 as [|i l1 IH]; intros h; [by intros ->|]. intros [-> Hp] H2. split; [done|]. by apply IH. Qed.
  Lemma path_app_inv nx h l1 l2 k : path nx h (l1 ++ l2) k → ∃ m, path nx h l1 m ∧ path nx m l2 k.
  Proof.
    revert h. induction l1 as [|i l1 IH]; intros h; [by exists h|]. intros [-> Hp]. apply IH in Hp as (m & H1 & H2).
    exists m. done.
  Qed.
  Definition zero (l : list N) nx : N → N := λ j, if decide (j ∈ l) then 0 else nx j.
  Lemma walk_ext b h nx is : walk b h nx is → ∀ nx', (∀ i, nx' i = nx i) → walk b h nx' is.
  Proof.
    induction 1 as [| | |b h nx is Hh Hr Hw IH]; intros nx' He.
    - apply walk_full.
    - by apply walk_lost.
    - apply walk_bump; [done|]. by apply IHwalk.
    - apply walk_pop; [done|done|]. rewrite He. apply IH. intros i. unfold set1. destruct (decide _); [done|]. apply He.
  Qed.
  Lemma walk_path b h nx l k is :
    path nx h l k → NoDup l → (∀ i, i ∈ l → i ≠ b ∧ 1 ≤ i ≤ cap) → walk b k (zero l nx) is → walk b h nx (l ++ is).
  Proof.
    revert h nx. induction l as [|i l IH]; intros h nx.
    - cbn. intros -> _ _ Hw. eapply walk_ext; [exact Hw|]. intros i. unfold zero. rewrite decide_False; [done|]. apply not_elem_of_nil.
    - intros [-> Hp] [Hi Hnd]%NoDup_cons Hl Hw. destruct (Hl i ltac:(mem)) as [H1 H2]. apply walk_pop; [done|done|]. apply IH.
      + eapply path_ext; [|exact Hp]. intros j Hj. unfold set1. rewrite decide_False; [done|]. by intros ->.
      + done.
      + intros j Hj. apply Hl. by apply elem_of_list_further.
      + eapply walk_ext; [exact Hw|]. intros j. unfold zero, set1.
        destruct (decide (j ∈ l)) as [Hj|Hj]; [by rewrite decide_True by (by apply elem_of_list_further)|].
        destruct (decide (j = i)) as [->|Hji]; [by rewrite decide_True by mem|]. rewrite decide_False; [done|].
        intros [?|?]%elem_of_cons; done.
  Qed.
  (** there always is an end *)
  Definition marked nx : nat := length (filter (λ j, nx j ≠ 0) (fresh 1)).
  Lemma marked_set1 h nx : 1 ≤ h ≤ cap → nx h ≠ 0 → (marked (set1 h 0 nx) < marked nx)%nat.
  Proof.
    intros Hr Hz. unfold marked. assert (h ∈ fresh 1) as Hin by (apply elem_of_fresh; lia). pose proof (NoDup_fresh 1) as Hnd.
    induction (fresh 1) as [|x l IHl]; [by apply elem_of_nil in Hin|]. apply NoDup_cons in Hnd as [Hx Hnd].
    rewrite !filter_cons. apply elem_of_cons in Hin as [<-|Hin].
    - rewrite decide_False by (unfold set1; rewrite decide_True by done; intros Hc; done). rewrite decide_True by done.
      cbn. apply Nat.lt_succ_r. apply Nat.eq_le_incl. f_equal. clear -Hx. induction l as [|y l IHl]; [done|].
      apply not_elem_of_cons in Hx as [Hy Hx]. rewrite !filter_cons, IHl by done.
      assert (set1 h 0 nx y = nx y) as -> by (unfold set1; rewrite decide_False; [done|by intros ->]). done.
    - specialize (IHl Hin Hnd). assert (set1 h 0 nx x = nx x) as -> by (unfold set1; rewrite decide_False; [done|by intros ->]).
      destruct (decide (nx x ≠ 0)); cbn; lia.
  Qed.
  Lemma walk_total b h nx : 1 ≤ b ≤ cap + 1 → ∃ is, walk b h nx is.
  Proof.
    remember (N.to_nat (cap + 1 - b) + marked nx)%nat as m eqn:Hm.
    revert b h nx Hm. induction (lt_wf m) as [m _ IH]. intros b h nx Hm Hb.
    destruct (decide (h = b)) as [->|Hne].
    - destruct (decide (b = cap + 1)) as [->|Hc]; [exists []; apply walk_full|].
      edestruct (IH (N.to_nat (cap + 1 - (b + 1)) + marked nx)%nat) as [is His]; [lia|reflexivity|lia|].
      exists (b :: is). apply walk_bump; [lia|exact His].
    - destruct (decide (1 ≤ h ≤ cap)) as [Hr|Hr]; [|exists []; by apply walk_lost].
      destruct (decide (nx h = 0)) as [Hz|Hz].
      + exists [h]. apply walk_pop; [done|done|]. rewrite Hz. apply walk_lost; lia.
      + pose proof (marked_set1 h nx Hr Hz).
        edestruct (IH (N.to_nat (cap + 1 - b) + marked (set1 h 0 nx))%nat) as [is His]; [lia|reflexivity|done|].
        exists (h :: is). by apply walk_pop.
  Qed.
  Lemma walk_at_bump b nx is : walk b b nx is → 1 ≤ b ≤ cap + 1 → length is = N.to_nat (cap + 1 - b).
  Proof.
    remember b as h eqn:Hh in |- * at 2. intros Hk. induction Hk as [|b h nx Hne|b nx is Hb Hwk IH|b h nx is Hne]; intros Hb'; cbn [length]; try done; [lia|].
    rewrite IH by (lia || done). lia.
  Qed.
  Lemma walk_len b h nx is : walk b h nx is → 1 ≤ b ≤ cap + 1 → (length is ≤ Nat.max (N.to_nat (cap + 1 - b)) 1 + marked nx)%nat.
  Proof.
    induction 1 as [| |b nx is Hb Hwk IH|b h nx is Hne Hr Hwk IH]; intros Hb'; cbn [length]; [lia|lia| |].
    - apply walk_at_bump in Hwk; lia.
    - destruct (decide (nx h = 0)) as [Hz|Hz].
      + rewrite Hz in Hwk. inversion Hwk; subst; cbn [length]; lia.
      + pose proof (marked_set1 h nx Hr Hz). specialize (IH Hb'). lia.
  Qed.
  Lemma walk_len_max b h nx is : walk b h nx is → 1 ≤ b ≤ cap + 1 → lengthN is ≤ 2 * cap.
  Proof.
    intros Hk Hb. pose proof (walk_len _ _ _ _ Hk Hb) as Hl. unfold lengthN. assert (marked nx ≤ N.to_nat cap)%nat.
    { unfold marked. etrans; [apply filter_length|]. unfold fresh. rewrite fmap_length, seq_length. lia. }
    destruct (decide (cap = 0)) as [->|Hc]; [|lia]. inversion Hk; subst; cbn [length]; lia.
  Qed.
  Lemma walk_rng b h nx is : walk b h nx is → Forall (λ i, 1 ≤ i ≤ cap) is.
  Proof. induction 1; by constructor. Qed.
End walk.

(** ** From the allocator to the walk *)
Section gives.
  Context `{Profile} {T : Type}.
  Implicit Types a : alloc T.
  (** register 0 of the slots *)
  Definition nxs (cap : N) a (nx : N → N) : Prop := ∀ i, 1 ≤ i ≤ cap → ∃ tl v, rd a i = Some (Node (nx i :: tl) v).
  Definition roomy (s n : N) : Prop := overflow_checks = false ∨ s + n < W64.
  Lemma inc_size s n : roomy s (n + 1) → ∃ s', u64_add s 1 = Val s' ∧ roomy s' n.
  Proof.
    unfold roomy, u64_add, u_add. intros [Ho|Hs].
    - destruct (decide (s + 1 < W64)); [eauto|]. rewrite Ho. eauto.
    - rewrite decide_True by lia. eexists. split; [done|]. right. lia.
  Qed.
  Lemma rd_out a i : ¬ (1 ≤ i ≤ MAX_SIZE a) → rd a i = None.
  Proof. intros Hi. destruct (rd a i) as [n|] eqn:Hr; [|done]. apply rd_lt in Hr. lia. Qed.
  Lemma na_get_out a i : MAX_SIZE a + 1 < W32 → ¬ (1 ≤ i ≤ MAX_SIZE a) → na_get a i = Err Panic.
  Proof.
    intros Hw Hi. unfold na_get, u32_sub, u_sub, MAX_SIZE, lengthN in *. destruct (decide (1 ≤ i)) as [Hi1|Hi1].
    - cbn. unfold lookupN. rewrite decide_False by lia. done.
    - destruct overflow_checks; [done|]. cbn. unfold lookupN. rewrite decide_False; [done|].
      replace i with 0 by lia. unfold W32 in *. rewrite N.mod_small by lia. lia.
  Qed.
  Lemma add_full a v : MAX_SIZE a + 1 < W32 → free_list_head a = bump_index a → bump_index a = MAX_SIZE a + 1 → na_add_node v a = Fail Panic a.
  Proof.
    intros Hw Hh Hb. unfold na_add_node, mbind, M_bind, mget. rewrite decide_True by done. rewrite decide_True; [done|].
    unfold as_u32. by rewrite N.mod_small by lia.
  Qed.
  Lemma add_lost a v :
    MAX_SIZE a + 1 < W32 → free_list_head a ≠ bump_index a → ¬ (1 ≤ free_list_head a ≤ MAX_SIZE a) → na_add_node v a = Fail Panic a.
  Proof.
    intros Hw Hh Hb. unfold na_add_node, mbind, M_bind, mget. rewrite decide_False by done. unfold gets. by rewrite na_get_out.
  Qed.
  Lemma add_bump a v nx n :
    MAX_SIZE a + 1 < W32 → nxs (MAX_SIZE a) a nx → free_list_head a = bump_index a → 1 ≤ bump_index a ≤ MAX_SIZE a → roomy (size a) (n + 1) →
    ∃ a', na_add_node v a = Ret (bump_index a) a' ∧ MAX_SIZE a' = MAX_SIZE a ∧ nxs (MAX_SIZE a) a' nx ∧ bump_index a' = bump_index a + 1 ∧
      free_list_head a' = bump_index a + 1 ∧ roomy (size a') n ∧
      (∀ tl v0, rd a (bump_index a) = Some (Node tl v0) → rd a' (bump_index a) = Some (Node tl v)).
  Proof.
    intros Hw Hn Hh Hb Hs. destruct (inc_size _ _ Hs) as (s' & Hs1 & Hs2). destruct (Hn (bump_index a) Hb) as (tl & v0 & Hr).
    unfold na_add_node, mbind, M_bind, mget. rewrite decide_True by done.
    rewrite decide_False by (unfold as_u32; rewrite N.mod_small by lia; lia).
    unfold lift, gets, modify, u32_add. rewrite u_add_ok by (unfold W32 in *; lia). cbn [set_bump set_fhead size bump_index free_list_head nodes].
    rewrite Hh. set (b := bump_index a) in *. set (a1 := set_fhead (b + 1) (set_bump (b + 1) a)).
    assert (rd a1 b = Some (Node (nx b :: tl) v0)) as Hr1 by exact Hr.
    erewrite na_get_mut_rd; [|exact Hr1|reflexivity]. cbn [size wr set_nodes]. change (size a1) with (size a). rewrite Hs1.
    eexists. split; [reflexivity|]. split_and!; [|intros i Hi|done|done|done|].
    - exact (MAX_SIZE_wr a1 b _).
    - rewrite rd_set_size. destruct (decide (i = b)) as [->|Hib].
      + exists tl, v. by apply (rd_wr a1).
      + rewrite rd_wr_ne by (lia || done). by apply Hn.
    - intros tl' v0' Hr'. rewrite Hr in Hr'. injection Hr' as <- <-. rewrite rd_set_size. by apply (rd_wr a1).
  Qed.
  Lemma add_pop a v nx n :
    MAX_SIZE a + 1 < W32 → nxs (MAX_SIZE a) a nx → free_list_head a ≠ bump_index a → 1 ≤ free_list_head a ≤ MAX_SIZE a → roomy (size a) (n + 1) →
    ∃ a', na_add_node v a = Ret (free_list_head a) a' ∧ MAX_SIZE a' = MAX_SIZE a ∧ nxs (MAX_SIZE a) a' (set1 (free_list_head a) 0 nx) ∧
      bump_index a' = bump_index a ∧ free_list_head a' = nx (free_list_head a) ∧ roomy (size a') n.
  Proof.
    intros Hw Hn Hh Hb Hs. destruct (inc_size _ _ Hs) as (s' & Hs1 & Hs2). set (h := free_list_head a) in *. destruct (Hn h Hb) as (tl & v0 & Hr).
    unfold na_add_node, mbind, M_bind, mget. rewrite decide_False by done. fold h.
    unfold lift, gets, modify. rewrite (na_get_rd _ _ _ Hr). cbn [res_bind mbind node_get_free_list_register regs lookup list_lookup].
    set (a1 := set_fhead (nx h) a).
    assert (rd a1 h = Some (Node (nx h :: tl) v0)) as Hr1 by exact Hr.
    erewrite na_get_mut_rd; [|exact Hr1|reflexivity].
    assert (rd (wr h (Node (0 :: tl) v0) a1) h = Some (Node (0 :: tl) v0)) as Hr2 by (by apply (rd_wr a1)).
    erewrite na_get_mut_rd; [|exact Hr2|reflexivity]. cbn [size wr set_nodes]. change (size a1) with (size a). rewrite Hs1.
    eexists. split; [reflexivity|]. split_and!; [|intros i Hi|done|done|done].
    - exact (eq_trans (MAX_SIZE_wr (wr h (Node (0 :: tl) v0) a1) h _) (MAX_SIZE_wr a1 h _)).
    - rewrite rd_set_size. unfold set1. destruct (decide (i = h)) as [->|Hib].
      + exists tl, v. apply rd_wr. by rewrite MAX_SIZE_wr.
      + rewrite !rd_wr_ne by (lia || done). by apply Hn.
  Qed.
  Lemma take_pad {A} n m (l : list A) x : (n ≤ m)%nat → take n (l ++ replicate m x) = take n (l ++ replicate n x).
  Proof.
    intros Hnm. destruct (decide (n ≤ length l)%nat) as [Hl|Hl]; [by rewrite !take_app_le|].
    rewrite !take_app_ge, !take_replicate by lia. f_equal. f_equal. lia.
  Qed.
  Lemma history_cons {S O A} (step : O → M S A) o os s :
    (history step (o :: os) s).1 = (call (step o) s).1 :: (history step os (call (step o) s).2).1.
  Proof. cbn. destruct (call (step o) s) as [r s1]. cbn. by destruct (history step os s1). Qed.
  Lemma add_ret v a i a' : na_add_node v a = Ret i a' → call (al_step (AlAdd v)) a = (Val (AlIdx i), a').
  Proof. intros He. unfold call, al_step, mbind, M_bind. by rewrite He. Qed.
  Lemma add_fail v a e a' : na_add_node v a = Fail e a' → call (al_step (AlAdd v)) a = (Err e, a').
  Proof. intros He. unfold call, al_step, mbind, M_bind. by rewrite He. Qed.
  Lemma walk_gives a nx is :
    MAX_SIZE a + 1 < W32 → nxs (MAX_SIZE a) a nx → walk (MAX_SIZE a) (bump_index a) (free_list_head a) nx is → roomy (size a) (lengthN is) →
    adds_give a is.
  Proof.
    intros Hw Hn Hwk Hs vs. revert a nx is Hw Hn Hwk Hs. induction vs as [|v vs IH]; intros a nx is Hw Hn Hwk Hs; [done|].
    rewrite fmap_cons, history_cons. inversion Hwk as [nx' E1 E2|b h nx' Hne Hout|b nx' is' Hb Hwk' E1 E2|b h nx' is' Hne Hb Hwk' E1 E2]; subst.
    - rewrite (add_fail _ _ _ _ (add_full a v Hw ltac:(congruence) ltac:(congruence))). cbn [fst snd].
      rewrite (IH a nx [] Hw Hn Hwk Hs). done.
    - rewrite (add_fail _ _ _ _ (add_lost a v Hw Hne Hout)). cbn [fst snd]. rewrite (IH a nx [] Hw Hn Hwk Hs). done.
    - destruct (add_bump a v nx (lengthN is')) as (a' & He & Hm & Hn' & Hb' & Hh' & Hs' & _); [done|done|congruence|done|..].
      { unfold lengthN in *. cbn in Hs. by replace (N.of_nat (length is') + 1) with (N.of_nat (Datatypes.S (length is'))) by lia. }
      rewrite (add_ret _ _ _ _ He). cbn [fst snd]. rewrite (IH a' nx is'); [|by rewrite ?Hm, ?Hb', ?Hh'..].
      + cbn [fmap list_fmap length app take]. f_equal. rewrite (take_pad (length vs) (Datatypes.S (length vs))) by lia. done.
    - destruct (add_pop a v nx (lengthN is')) as (a' & He & Hm & Hn' & Hb' & Hh' & Hs'); [done|done|done|done|..].
      { unfold lengthN in *. cbn in Hs. by replace (N.of_nat (length is') + 1) with (N.of_nat (Datatypes.S (length is'))) by lia. }
      rewrite (add_ret _ _ _ _ He). cbn [fst snd]. rewrite (IH a' (set1 (free_list_head a) 0 nx) is'); [|by rewrite ?Hm, ?Hb', ?Hh'..].
      + cbn [fmap list_fmap length app take]. f_equal. rewrite (take_pad (length vs) (Datatypes.S (length vs))) by lia. done.
  Qed.
  (** There is only one such list *)
  Lemma adds_give_det (d : T) a is is' : adds_give a is → adds_give a is' → is = is'.
  Proof.
    intros H1 H2. set (n := Datatypes.S (length is + length is')). specialize (H1 (replicate n d)). specialize (H2 (replicate n d)).
    rewrite H1 in H2. clear H1. rewrite replicate_length in H2. assert (n > length is ∧ n > length is')%nat as [Hn1 Hn2] by lia. clearbody n.
    assert (∀ m, m ≥ n → take n (((λ i, Val (AlIdx i)) <$> is) ++ replicate m (Err Panic)) =
      take n (((λ i, Val (AlIdx (T := T) i)) <$> is') ++ replicate m (Err Panic)))%nat as H3.
    { intros m Hm. by rewrite !(take_pad n m) by lia. }
    clear H2. revert n is' Hn1 Hn2 H3. induction is as [|i is IH]; intros n is' Hn1 Hn2 H3.
    - destruct is' as [|i' is']; [done|]. specialize (H3 n ltac:(lia)). destruct n; [lia|]. done.
    - destruct n as [|n]; [lia|]. destruct is' as [|i' is']; [by specialize (H3 (Datatypes.S n) ltac:(lia))|].
      pose proof (H3 (Datatypes.S n) ltac:(lia)) as H4. cbn in H4. injection H4 as -> _. f_equal.
      cbn in Hn1, Hn2. apply (IH n); [lia|lia|]. intros m Hm.
      specialize (H3 (Datatypes.S m) ltac:(lia)). cbn [fmap list_fmap app take] in H3. injection H3 as H3.
      change (Err Panic :: replicate m (Err Panic)) with (replicate (Datatypes.S m) (@Err (al_out T) Panic)) in H3.
      rewrite !(take_pad n (Datatypes.S m)) in H3 by lia. rewrite !(take_pad n m) by lia. exact H3.
  Qed.
End gives.

(** ** Calls with indices that are not allocated, on a pool *)
Section pool.
  Context `{Profile} {T : Type} (ms nr : nat) (d : T) (Hw : N.of_nat ms + 1 < W32).
  Local Notation cap := (N.of_nat ms).
  Implicit Types a : alloc T.

  (** What is used of the pool: the allocated slots, the freed ones in the order they will be handed out *)
  Record shape a (live fr : list N) (nx : N → N) : Prop := {
    sh_max : MAX_SIZE a = cap;
    sh_nxs : nxs cap a nx;
    sh_bump : 1 ≤ bump_index a ≤ cap + 1;
    sh_path : path nx (free_list_head a) fr (bump_index a);
    sh_nodup : NoDup (live ++ fr);
    sh_rng : ∀ i, i ∈ live ++ fr ↔ 1 ≤ i < bump_index a;
    sh_size : size a = lengthN live;
    sh_len : lengthN live ≤ cap;
  }.
  Lemma pool_shape a live : pool ms nr d a live → ∃ fr nx, shape a live fr nx.
  Proof using Hw.
    intros Hp. destruct (pool_inv ms nr d a live Hw Hp) as (cs & fr & Ho & <- & Hl & Hf).
    set (nx := λ i, match rd a i with Some (Node (n :: _) _) => n | _ => 0 end).
    pose proof (ok_nr _ _ _ _ _ Ho) as Hnr.
    assert (∀ h f, fchain a h f → path nx h f.*1 (bump_index a)) as Hpath.
    { intros h f. revert h. induction f as [|[i tl] f IH]; intros h; [done|]. intros (-> & n & v & Hr & Hc). cbn.
      split; [done|]. assert (nx i = n) as -> by (unfold nx; by rewrite Hr). by apply IH. }
    assert (∀ i, i ∈ fr.*1 → ∃ n tl v, rd a i = Some (Node (n :: tl) v)) as Hfree.
    { intros i Hi. pose proof (ok_free _ _ _ _ _ Ho) as Hc. revert Hc Hi. generalize (free_list_head a). clear.
      induction fr as [|[j tl] f IH]; intros h; cbn; [by intros _ ?%elem_of_nil|].
      intros (-> & n & v & Hr & Hc) [->|Hi]%elem_of_cons; [by eauto|by eapply IH]. }
    assert (∀ i, i ∈ cs.*1 ++ fr.*1 ↔ 1 ≤ i < bump_index a) as Hrng.
    { intros i. split; [apply (ok_rng _ _ _ _ _ Ho)|]. intros Hi.
      assert (cs.*1 ++ fr.*1 ≡ₚ N.of_nat <$> seq 1 (length (cs.*1 ++ fr.*1))) as Hpm.
      { apply submseteq_Permutation_length_eq; [by rewrite fmap_length, seq_length|].
        apply NoDup_submseteq; [apply (ok_nodup _ _ _ _ _ Ho)|]. intros j Hj. apply (ok_rng _ _ _ _ _ Ho) in Hj.
        apply elem_of_list_fmap. exists (N.to_nat j). split; [lia|]. apply elem_of_seq. rewrite app_length, !fmap_length.
        pose proof (ok_bump _ _ _ _ _ Ho) as Hb. unfold lengthN in Hb. lia. }
      rewrite Hpm. apply elem_of_list_fmap. exists (N.to_nat i). split; [lia|]. apply elem_of_seq. rewrite app_length, !fmap_length.
      pose proof (ok_bump _ _ _ _ _ Ho) as Hb. unfold lengthN in Hb. lia. }
    exists fr.*1, nx. split.
    - apply (ok_cap _ _ _ _ _ Ho).
    - intros i Hi. assert (∃ n tl v, rd a i = Some (Node (n :: tl) v)) as (n & tl & v & Hr).
      { destruct (decide (i < bump_index a)) as [Hlt|Hge].
        - assert (i ∈ cs.*1 ++ fr.*1) as [Hc|Hc]%elem_of_app by (apply Hrng; lia); [|by apply Hfree].
          apply elem_of_list_fmap in Hc as ([j n] & -> & Hc). cbn. rewrite (ok_cells _ _ _ _ _ Ho _ _ Hc).
          rewrite Forall_forall in Hl. specialize (Hl _ Hc). cbn in Hl. destruct n as [[|n tl] v]; cbn in Hl; [lia|]. eauto.
        - destruct (ok_fresh _ _ _ _ _ Ho i ltac:(lia) ltac:(lia)) as [v Hv]. rewrite Hv. destruct nr as [|k]; [lia|]. cbn. eauto. }
      unfold nx. rewrite Hr. eauto.
    - pose proof (ok_bump _ _ _ _ _ Ho). pose proof (ok_bcap _ _ _ _ _ Ho). lia.
    - apply Hpath, (ok_free _ _ _ _ _ Ho).
    - apply (ok_nodup _ _ _ _ _ Ho).
    - exact Hrng.
    - rewrite (ok_size _ _ _ _ _ Ho). unfold lengthN. by rewrite fmap_length.
    - pose proof (AOK_len_le _ _ _ _ _ Ho) as Hc. unfold lengthN in *. by rewrite fmap_length.
  Qed.

  Lemma shape_walk a live fr nx :
    shape a live fr nx → walk cap (bump_index a) (free_list_head a) nx (fr ++ fresh cap (bump_index a)).
  Proof.
    intros []. eapply walk_path; [exact sh_path0|by apply NoDup_app in sh_nodup0 as (_ & _ & ?)| |by apply walk_fresh].
    intros i Hi. assert (1 ≤ i < bump_index a) by (apply sh_rng0, elem_of_app; by right). lia.
  Qed.

  Lemma roomy_cap (s : N) (l : list N) : s ≤ cap → lengthN l ≤ 2 * cap + 2 → roomy s (lengthN l).
  Proof using Hw. intros. right. unfold W32, W64 in *. lia. Qed.
  Lemma fresh_len b : lengthN (fresh cap b) = cap + 1 - b.
  Proof. unfold lengthN, fresh. rewrite fmap_length, seq_length. lia. Qed.
  Lemma shape_len a live fr nx : shape a live fr nx → lengthN live + lengthN fr + 1 = bump_index a.
  Proof.
    intros []. assert (live ++ fr ≡ₚ N.of_nat <$> seq 1 (N.to_nat (bump_index a - 1))) as Hp.
    { apply NoDup_Permutation; [done|apply (NoDup_fmap_2 _), NoDup_seq|]. intros i. rewrite sh_rng0, elem_of_list_fmap.
      setoid_rewrite elem_of_seq. split; [intros Hi; exists (N.to_nat i); lia|]. intros (n & -> & ?). lia. }
    apply Permutation_length in Hp. rewrite app_length, fmap_length, seq_length in Hp. unfold lengthN. lia.
  Qed.
  Lemma shape_gives a live fr nx : shape a live fr nx → adds_give a (fr ++ fresh cap (bump_index a)).
  Proof using Hw.
    intros Hs. pose proof (shape_walk _ _ _ _ Hs) as Hk. pose proof (shape_len _ _ _ _ Hs). destruct Hs.
    eapply (walk_gives a nx); rewrite ?sh_max0; [done|done|done|]. apply roomy_cap; [lia|].
    unfold lengthN at 1. rewrite app_length, Nat2N.inj_add. fold (lengthN fr). fold (lengthN (fresh cap (bump_index a))). rewrite fresh_len. lia.
  Qed.
  Lemma future_fact a live : pool ms nr d a live → ∃ fut, adds_give a fut ∧ live ++ fut ≡ₚ N.of_nat <$> seq 1 ms.
  Proof using Hw.
    intros Hp. destruct (pool_shape a live Hp) as (fr & nx & Hs). eexists. split; [by eapply shape_gives|]. destruct Hs.
    apply NoDup_Permutation; [|apply (NoDup_fmap_2 _), NoDup_seq|].
    - rewrite app_assoc. apply NoDup_app. split_and!; [done| |apply NoDup_fresh]. intros i Hi%sh_rng0. rewrite elem_of_fresh. lia.
    - intros i. rewrite app_assoc, elem_of_app, sh_rng0, elem_of_fresh, elem_of_list_fmap. setoid_rewrite elem_of_seq. split.
      + intros Hi. exists (N.to_nat i). lia.
      + intros (n & -> & Hn). lia.
  Qed.

  Lemma remove_any a nx i :
    MAX_SIZE a = cap → nxs cap a nx → 1 ≤ i ≤ cap →
    ∃ v a', get_value a i = Val v ∧
      call (al_step (AlRemove i)) a = (if decide (overflow_checks = true ∧ size a = 0) then Err Panic else Val (AlVal (Some v)), a') ∧
      MAX_SIZE a' = cap ∧ nxs cap a' (set1 i (free_list_head a) nx) ∧ bump_index a' = bump_index a ∧ free_list_head a' = i ∧
      size a' = (if decide (size a = 0) then if overflow_checks then 0 else W64 - 1 else size a - 1) ∧
      (∀ j, j ≠ i → rd a' j = rd a j).
  Proof.
    intros Hm Hn Hi. destruct (Hn i Hi) as (tl & v & Hr). exists v.
    assert (get_value a i = Val v) as Hg by (unfold get_value; by rewrite (na_get_rd _ _ _ Hr)).
    unfold call, al_step, na_remove_node. rewrite decide_False by (unfold SENTINEL; lia).
    unfold mbind, M_bind, mget, modify, lift, gets.
    erewrite na_get_mut_rd; [|exact Hr|reflexivity]. cbn [node_set_free_list_register regs val].
    set (a1 := wr i (Node (free_list_head a :: tl) v) a).
    assert (<[0%nat := free_list_head a]> (nx i :: tl) = free_list_head a :: tl) as E0 by done.
    assert (MAX_SIZE a1 = cap) as Hm1 by (unfold a1; by rewrite MAX_SIZE_wr).
    assert (nxs cap a1 (set1 i (free_list_head a) nx)) as Hn1.
    { intros j Hj. unfold set1. destruct (decide (j = i)) as [->|Hji]; [exists tl, v; apply rd_wr; lia|].
      unfold a1. rewrite rd_wr_ne by (lia || done). by apply Hn. }
    assert (∀ j, j ≠ i → rd a1 j = rd a j) as Hne by (intros j Hj; apply rd_wr_ne; [lia|done]).
    rewrite E0. fold a1. cbn [set_fhead size]. change (size a1) with (size a).
    unfold u64_sub, u_sub. destruct (decide (size a = 0)) as [Hz|Hz].
    - rewrite (decide_False (P := 1 ≤ size a)) by lia. destruct overflow_checks eqn:Ho.
      + rewrite decide_True by done. eexists. split_and!; [done|reflexivity|exact Hm1|exact Hn1|done|done|exact Hz|exact Hne].
      + rewrite decide_False by (intros [? _]; done).
        assert (na_get (set_size ((size a + W64 - 1) mod W64) (set_fhead i a1)) i = Val (Node (free_list_head a :: tl) v)) as Hg1.
        { apply na_get_rd. rewrite rd_set_size, rd_set_fhead. apply rd_wr. lia. }
        rewrite Hg1. eexists. split_and!; [done|reflexivity|exact Hm1|exact Hn1|done|done| |exact Hne].
        cbn. rewrite Hz. done.
    - rewrite (decide_True (P := 1 ≤ size a)) by lia. rewrite decide_False by (intros [_ ?]; done).
      assert (na_get (set_size (size a - 1) (set_fhead i a1)) i = Val (Node (free_list_head a :: tl) v)) as Hg1.
      { apply na_get_rd. rewrite rd_set_size, rd_set_fhead. apply rd_wr. lia. }
      rewrite Hg1. eexists. split_and!; [done|reflexivity|exact Hm1|exact Hn1|done|done|done|exact Hne].
  Qed.
  Lemma removed_walk a live fr nx i is :
    shape a live fr nx → 1 ≤ i ≤ cap → walk cap (bump_index a) i (set1 i (free_list_head a) nx) is → lengthN is ≤ 2 * cap + 2 →
    adds_give (left_by (AlRemove i) a) is.
  Proof using Hw.
    intros [] Hi Hk Hl. destruct (remove_any a nx i) as (v & a' & _ & He & Hm & Hn & Hb & Hh & Hsz & _); [done..|].
    unfold left_by. rewrite He. cbn [snd]. eapply (walk_gives a'); rewrite ?Hm; [done|exact Hn|by rewrite Hb, Hh|].
    destruct (decide (size a = 0)); [|apply roomy_cap; [lia|done]].
    unfold roomy. destruct overflow_checks; [right|by left]. rewrite Hsz. unfold W32, W64 in *. lia.
  Qed.
  (** the first slot handed out is [i]; then the old free list follows, as far as [i] is not in it *)
  Lemma removed_fut_walk a live fr nx i l is :
    shape a live fr nx → 1 ≤ i ≤ cap → i ≠ bump_index a → i ∉ l → NoDup l → (∀ j, j ∈ l → j ≠ bump_index a ∧ 1 ≤ j ≤ cap) → ∀ k,
    path nx (free_list_head a) l k → walk cap (bump_index a) k (zero (i :: l) (set1 i (free_list_head a) nx)) is →
    walk cap (bump_index a) i (set1 i (free_list_head a) nx) (i :: l ++ is).
  Proof.
    intros Hs Hi Hb Hil Hnd Hl k Hp Hk. apply (walk_path cap _ _ _ (i :: l) k is).
    - split; [done|]. unfold set1 at 2. rewrite decide_True by done. eapply path_ext; [|exact Hp].
      intros j Hj. unfold set1. rewrite decide_False; [done|]. by intros ->.
    - by apply NoDup_cons.
    - intros j [->|Hj]%elem_of_cons; [by split|by apply Hl].
    - exact Hk.
  Qed.
  Lemma free_live_fact a live i fut :
    pool ms nr d a live → i ∈ live → adds_give a fut → adds_give (left_by (AlRemove i) a) (i :: fut).
  Proof using Hw.
    intros Hp Hi Hf. destruct (pool_shape a live Hp) as (fr & nx & Hs).
    rewrite (adds_give_det d _ _ _ Hf (shape_gives _ _ _ _ Hs)). pose proof (shape_len _ _ _ _ Hs) as Hlen. pose proof Hs as [].
    assert (1 ≤ i < bump_index a) as Hr by (apply sh_rng0, elem_of_app; by left).
    apply NoDup_app in sh_nodup0 as (_ & Hd & Hnd).
    eapply removed_walk; [exact Hs|lia| |].
    - eapply removed_fut_walk; [exact Hs|lia|lia|by apply Hd|done| |exact sh_path0|by apply walk_fresh].
      intros j Hj. assert (1 ≤ j < bump_index a) by (apply sh_rng0, elem_of_app; by right). lia.
    - unfold lengthN at 1. cbn [length]. rewrite app_length. fold (lengthN fr). pose proof (fresh_len (bump_index a)) as Hfl. unfold lengthN in *. lia.
  Qed.
  Lemma free_twice_fact a live i l1 l2 :
    pool ms nr d a live → adds_give a (l1 ++ i :: l2) → i < bump_index a → adds_give (left_by (AlRemove i) a) (i :: l1 ++ [i]).
  Proof using Hw.
    intros Hp Hf Hi. destruct (pool_shape a live Hp) as (fr & nx & Hs).
    pose proof (adds_give_det d _ _ _ Hf (shape_gives _ _ _ _ Hs)) as He. pose proof (shape_len _ _ _ _ Hs) as Hlen. pose proof Hs as [].
    assert (i ∉ fresh cap (bump_index a)) as Hnf by (rewrite elem_of_fresh; lia).
    assert (∃ l3, fr = l1 ++ i :: l3) as [l3 ->].
    { clear -He Hnf. revert fr He. induction l1 as [|x l1 IH]; intros [|y fr] He; cbn in *.
      - exfalso. apply Hnf. rewrite <- He. mem.
      - injection He as -> _. eauto.
      - exfalso. apply Hnf. rewrite <- He. apply elem_of_list_further, elem_of_app. right. mem.
      - injection He as -> He. apply IH in He as [l3 ->]. eauto. }
    assert (∀ j, j ∈ l1 ++ i :: l3 → 1 ≤ j < bump_index a) as Hrng.
    { intros j Hj. apply sh_rng0, elem_of_app. by right. }
    apply NoDup_app in sh_nodup0 as (_ & _ & Hnd). apply NoDup_app in Hnd as (Hnd1 & Hd & _).
    apply path_app_inv in sh_path0 as (m & Hp1 & [-> Hp2]).
    assert (1 ≤ i < bump_index a) as Hir by (apply Hrng, elem_of_app; right; mem).
    eapply removed_walk; [exact Hs|lia| |].
    - eapply removed_fut_walk; [exact Hs|lia|lia| |done| |exact Hp1|].
      + intros Hc. apply (Hd i Hc). mem.
      + intros j Hj. assert (1 ≤ j < bump_index a) by (apply Hrng, elem_of_app; by left). lia.
      + apply walk_pop; [lia|lia|]. unfold zero at 1. rewrite decide_True by mem. apply walk_lost; lia.
    - unfold lengthN in *. cbn [length]. rewrite app_length in *. cbn [length] in *. lia.
  Qed.
  Lemma free_next_fact a live i :
    pool ms nr d a live → i = bump_index a → i ≤ cap → adds_give (left_by (AlRemove i) a) (fresh cap i).
  Proof using Hw.
    intros Hp -> Hi. destruct (pool_shape a live Hp) as (fr & nx & Hs). pose proof Hs as [].
    eapply removed_walk; [exact Hs|lia|by apply walk_fresh|]. rewrite fresh_len. lia.
  Qed.
  Lemma free_fresh_fact a live i fut :
    pool ms nr d a live → bump_index a < i ≤ cap → adds_give a fut → adds_give (left_by (AlRemove i) a) (i :: fut).
  Proof using Hw.
    intros Hp Hi Hf. destruct (pool_shape a live Hp) as (fr & nx & Hs).
    rewrite (adds_give_det d _ _ _ Hf (shape_gives _ _ _ _ Hs)). pose proof (shape_len _ _ _ _ Hs) as Hlen. pose proof Hs as [].
    assert (∀ j, j ∈ fr → 1 ≤ j < bump_index a) as Hrng by (intros j Hj; apply sh_rng0, elem_of_app; by right).
    eapply removed_walk; [exact Hs|lia| |].
    - eapply removed_fut_walk; [exact Hs|lia|lia| |by apply NoDup_app in sh_nodup0 as (_ & _ & ?)| |exact sh_path0|by apply walk_fresh].
      + intros Hj%Hrng. lia.
      + intros j Hj%Hrng. lia.
    - unfold lengthN at 1. cbn [length]. rewrite app_length. pose proof (fresh_len (bump_index a)) as Hfl. unfold lengthN in *. lia.
  Qed.
  (** the answer of the removal, and [size] *)
  Lemma remove_answer_fact a live i :
    pool ms nr d a live → 1 ≤ i ≤ cap →
    ∃ v, get_value a i = Val v ∧
      (call (al_step (AlRemove i)) a).1 = (if decide (overflow_checks = true ∧ live = []) then Err Panic else Val (AlVal (Some v))) ∧
      size (left_by (AlRemove i) a) = (if decide (live = []) then if overflow_checks then 0 else W64 - 1 else lengthN live - 1).
  Proof using Hw.
    intros Hp Hi. destruct (pool_shape a live Hp) as (fr & nx & []).
    destruct (remove_any a nx i) as (v & a' & Hg & He & Hm & Hn & Hb & Hh & Hsz & _); [done..|].
    unfold left_by. rewrite He. cbn [fst snd]. exists v. split; [done|]. rewrite Hsz, sh_size0. destruct live as [|x l].
    - rewrite (decide_True (P := lengthN [] = 0)) by done. rewrite (decide_True (P := [] = [])) by done. split; [|done].
      destruct overflow_checks; [rewrite !decide_True by done; done|]. rewrite !decide_False by (intros [? _]; done). done.
    - rewrite !decide_False by (try intros [_ ?]; done). done.
  Qed.

  (** ** Writes to slots that are not allocated *)
  Lemma free_next_register_fact a live i v f fut :
    pool ms nr d a live → i = bump_index a → i ≤ cap → adds_give a (f :: fut) →
    ∃ a', na_add_node v (left_by (AlRemove i) a) = Ret i a' ∧ na_get_register a' i 0 = Val f.
  Proof using Hw.
    intros Hp -> Hi Hf. destruct (pool_shape a live Hp) as (fr & nx & Hs). pose proof (shape_walk _ _ _ _ Hs) as Hwk.
    rewrite (adds_give_det d _ _ _ (shape_gives _ _ _ _ Hs) Hf) in Hwk. pose proof Hs as [].
    destruct (remove_any a nx (bump_index a)) as (v0 & a1 & Hg & He & Hm & Hn & Hb & Hh & Hsz & Hne); [done|done|lia|].
    unfold left_by. rewrite He. cbn [snd].
    destruct (add_bump a1 v (set1 (bump_index a) (free_list_head a) nx) 0) as (a' & Ha & Hm' & Hn' & Hb' & Hh' & _ & Hrd); rewrite ?Hm, ?Hb, ?Hh; [done|done|done|lia| |].
    { unfold roomy. destruct (decide (size a = 0)); [|right; unfold W32, W64 in *; lia].
      destruct overflow_checks; [right|by left]. rewrite Hsz. unfold W64. lia. }
    rewrite Hb in Ha. exists a'. split; [done|]. rewrite Hm in Hn'. destruct (Hn' (bump_index a) ltac:(lia)) as (tl & w & Hr).
    unfold na_get_register. rewrite decide_False by (unfold SENTINEL; lia). rewrite (na_get_rd _ _ _ Hr). cbn. unfold set1. rewrite decide_True by done.
    f_equal. by inversion Hwk.
  Qed.
  Definition same_counters a a' : Prop :=
    MAX_SIZE a' = MAX_SIZE a ∧ bump_index a' = bump_index a ∧ free_list_head a' = free_list_head a ∧ size a' = size a.
  Lemma get_mut_any a nx i (g : node T → res (node T)) y :
    MAX_SIZE a = cap → nxs cap a nx → 1 ≤ i ≤ cap →
    (∀ tl v, (∃ e, g (Node (nx i :: tl) v) = Err e ∧ y = nx i) ∨ ∃ tl' v', g (Node (nx i :: tl) v) = Val (Node (y :: tl') v')) →
    let a' := (call (na_get_mut i g) a).2 in same_counters a a' ∧ nxs cap a' (set1 i y nx).
  Proof.
    intros Hm Hn Hi Hg a'. destruct (Hn i Hi) as (tl & v & Hr). destruct (Hg tl v) as [(e & He & ->)|(tl' & v' & He)].
    - assert (a' = a) as ->. { unfold a', call. by rewrite (na_get_mut_fail _ _ _ _ _ Hr He). }
      split; [done|]. intros j Hj. unfold set1. destruct (decide (j = i)) as [->|_]; by apply Hn.
    - assert (a' = wr i (Node (y :: tl') v') a) as ->. { unfold a', call. by rewrite (na_get_mut_rd _ _ _ _ _ Hr He). }
      split; [split_and!; [apply MAX_SIZE_wr|done..]|]. intros j Hj. unfold set1. destruct (decide (j = i)) as [->|Hji].
      + exists tl', v'. apply rd_wr. lia.
      + rewrite rd_wr_ne by (lia || done). by apply Hn.
  Qed.
  Lemma left_by_unit o (m : M (alloc T) ()) a : al_step o = (m;; mret AlUnit) → left_by o a = (call m a).2.
  Proof. intros He. unfold left_by, call. rewrite He. unfold mbind, M_bind. by destruct (m a). Qed.
  Lemma set_any a nx i v r :
    MAX_SIZE a = cap → nxs cap a nx → 1 ≤ i ≤ cap →
    same_counters a (left_by (AlSet i v r) a) ∧ nxs cap (left_by (AlSet i v r) a) (set1 i (if decide (r = 0) then v else nx i) nx).
  Proof.
    intros Hm Hn Hi. rewrite (left_by_unit (AlSet i v r) (na_get_mut i (node_set_register r v))).
    - apply get_mut_any; [done..|]. intros tl w. unfold node_set_register. cbn [regs val]. destruct (decide (r = 0)) as [->|Hr].
      + right. by exists tl, w.
      + destruct (lookupN (nx i :: tl) r); [right|left; by eexists]. unfold insertN. destruct (N.to_nat r) as [|k] eqn:Hk; [lia|]. cbn. by eexists _, _.
    - cbn. unfold na_set_register. by rewrite decide_False by (unfold SENTINEL; lia).
  Qed.
  Lemma write_any a nx i f :
    MAX_SIZE a = cap → nxs cap a nx → 1 ≤ i ≤ cap →
    same_counters a (left_by (AlWrite i f) a) ∧ nxs cap (left_by (AlWrite i f) a) (set1 i (nx i) nx).
  Proof.
    intros Hm Hn Hi. rewrite (left_by_unit (AlWrite i f) (na_get_mut i (λ n, Val (Node (regs n) (f (val n)))))) by done.
    apply get_mut_any; [done..|]. intros tl w. right. by eexists _, _.
  Qed.
  Lemma same_gives a a' live fr nx nx' :
    shape a live fr nx → same_counters a a' → nxs cap a' nx' → (∀ j, j ∈ fr → nx' j = nx j) →
    adds_give a' (fr ++ fresh cap (bump_index a)).
  Proof using Hw.
    intros Hs (Hm & Hb & Hh & Hz) Hn He. pose proof (shape_len _ _ _ _ Hs) as Hlen. pose proof Hs as [].
    assert (walk cap (bump_index a) (free_list_head a) nx' (fr ++ fresh cap (bump_index a))) as Hk.
    { eapply walk_path; [by eapply path_ext|by apply NoDup_app in sh_nodup0 as (_ & _ & ?)| |by apply walk_fresh].
      intros i Hi. assert (1 ≤ i < bump_index a) by (apply sh_rng0, elem_of_app; by right). lia. }
    eapply (walk_gives a' nx'); rewrite ?Hm, ?sh_max0, ?Hb, ?Hh, ?Hz; [done|done|done|]. apply roomy_cap; [lia|].
    unfold lengthN at 1. rewrite app_length, Nat2N.inj_add. fold (lengthN fr). fold (lengthN (fresh cap (bump_index a))). rewrite fresh_len. lia.
  Qed.
  Lemma harmless_set_fact a live i v r fut :
    pool ms nr d a live → 1 ≤ i ≤ cap → r ≠ 0 ∨ i ∈ live ∨ bump_index a ≤ i → adds_give a fut → adds_give (left_by (AlSet i v r) a) fut.
  Proof using Hw.
    intros Hp Hi Hr Hf. destruct (pool_shape a live Hp) as (fr & nx & Hs). rewrite (adds_give_det d _ _ _ Hf (shape_gives _ _ _ _ Hs)).
    pose proof Hs as []. destruct (set_any a nx i v r) as [Hc Hn]; [done..|]. eapply same_gives; [exact Hs|exact Hc|exact Hn|].
    intros j Hj. unfold set1. destruct (decide (j = i)) as [->|]; [|done]. destruct (decide (r = 0)) as [->|]; [|done].
    exfalso. destruct Hr as [Hr|[Hl|Hb]]; [done| |].
    - apply NoDup_app in sh_nodup0 as (_ & Hd & _). by apply (Hd i Hl).
    - assert (1 ≤ i < bump_index a) by (apply sh_rng0, elem_of_app; by right). lia.
  Qed.
  Lemma harmless_write_fact a live i f fut :
    pool ms nr d a live → 1 ≤ i ≤ cap → adds_give a fut → adds_give (left_by (AlWrite i f) a) fut.
  Proof using Hw.
    intros Hp Hi Hf. destruct (pool_shape a live Hp) as (fr & nx & Hs). rewrite (adds_give_det d _ _ _ Hf (shape_gives _ _ _ _ Hs)).
    pose proof Hs as []. destruct (write_any a nx i f) as [Hc Hn]; [done..|]. eapply same_gives; [exact Hs|exact Hc|exact Hn|].
    intros j Hj. unfold set1. by destruct (decide (j = i)) as [->|].
  Qed.
  Lemma write_freed_fact a live i v l1 l2 :
    pool ms nr d a live → adds_give a (l1 ++ i :: l2) → i < bump_index a →
    ∃ rest, adds_give (left_by (AlSet i v 0) a) (l1 ++ i :: if decide (1 ≤ v ≤ cap) then v :: rest else []).
  Proof using Hw.
    intros Hp Hf Hi. destruct (pool_shape a live Hp) as (fr & nx & Hs).
    pose proof (adds_give_det d _ _ _ Hf (shape_gives _ _ _ _ Hs)) as He. pose proof (shape_len _ _ _ _ Hs) as Hlen. pose proof Hs as [].
    assert (i ∉ fresh cap (bump_index a)) as Hnf by (rewrite elem_of_fresh; lia).
    assert (∃ l3, fr = l1 ++ i :: l3) as [l3 ->].
    { clear -He Hnf. revert fr He. induction l1 as [|x l1 IH]; intros [|y fr] He; cbn in *.
      - exfalso. apply Hnf. rewrite <- He. mem.
      - injection He as -> _. eauto.
      - exfalso. apply Hnf. rewrite <- He. apply elem_of_list_further, elem_of_app. right. mem.
      - injection He as -> He. apply IH in He as [l3 ->]. eauto. }
    assert (∀ j, j ∈ l1 ++ i :: l3 → 1 ≤ j < bump_index a) as Hrng.
    { intros j Hj. apply sh_rng0, elem_of_app. by right. }
    apply NoDup_app in sh_nodup0 as (_ & _ & Hnd).
    assert (NoDup (l1 ++ [i])) as Hnd1.
    { apply NoDup_app in Hnd as (? & Hd & ?). apply NoDup_app. split_and!; [done| |apply NoDup_singleton].
      intros x Hx ->%elem_of_list_singleton. apply (Hd i Hx). mem. }
    assert (i ∉ l1) as Hil. { apply NoDup_app in Hnd1 as (_ & Hd & _). intros Hc. apply (Hd i Hc). mem. }
    assert (1 ≤ i < bump_index a) as Hir by (apply Hrng, elem_of_app; right; mem).
    apply path_app_inv in sh_path0 as (m & Hp1 & [-> Hp2]).
    destruct (set_any a nx i v 0) as [(Hm & Hb & Hh & Hz) Hn]; [done|done|lia|]. rewrite decide_True in Hn by done.
    set (nx' := set1 i v nx) in *. set (a' := left_by (AlSet i v 0) a) in *.
    assert (path nx' (free_list_head a) (l1 ++ [i]) v) as Hp'.
    { eapply path_app; [eapply path_ext; [|exact Hp1]|].
      - intros j Hj. unfold nx', set1. rewrite decide_False; [done|]. by intros ->.
      - split; [done|]. cbn. unfold nx', set1. by rewrite decide_True. }
    assert (∃ rest, walk cap (bump_index a) v (zero (l1 ++ [i]) nx') (if decide (1 ≤ v ≤ cap) then v :: rest else [])) as [rest Hrest].
    { destruct (walk_total cap (bump_index a) v (zero (l1 ++ [i]) nx') sh_bump0) as [is His].
      assert (if decide (1 ≤ v ≤ cap) then ∃ rest, is = v :: rest else is = []) as Hc.
      { inversion His; destruct (decide _); eauto; lia. }
      destruct (decide (1 ≤ v ≤ cap)); [destruct Hc as [rest ->]; by exists rest|subst is; by exists []]. }
    exists rest. replace (l1 ++ i :: _) with ((l1 ++ [i]) ++ if decide (1 ≤ v ≤ cap) then v :: rest else []) by (by rewrite <- app_assoc).
    assert (∀ j, j ∈ l1 ++ [i] → j ≠ bump_index a ∧ 1 ≤ j ≤ cap) as Hr2.
    { intros j Hj. assert (1 ≤ j < bump_index a); [|lia]. apply Hrng. apply elem_of_app in Hj as [?| ->%elem_of_list_singleton]; apply elem_of_app; [by left|right; mem]. }
    pose proof (walk_path cap _ _ _ _ _ _ Hp' Hnd1 Hr2 Hrest) as Hk.
    eapply (walk_gives a' nx'); rewrite ?Hm, ?sh_max0, ?Hb, ?Hh, ?Hz; [done|done|exact Hk|].
    apply roomy_cap; [lia|]. pose proof (walk_len_max cap _ _ _ _ Hk sh_bump0). lia.
  Qed.

  Lemma live_below_bump a live i : pool ms nr d a live → i ∈ live → i < bump_index a.
  Proof using Hw. intros Hp Hi. destruct (pool_shape a live Hp) as (fr & nx & []). assert (1 ≤ i < bump_index a); [|lia]. apply sh_rng0, elem_of_app. by left. Qed.
  Lemma size_fact a live s fut :
    pool ms nr d a live → overflow_checks = false ∨ s + cap < W64 → adds_give a fut → adds_give (set_size s a) fut.
  Proof using Hw.
    intros Hp Hz Hf. destruct (pool_shape a live Hp) as (fr & nx & Hs). rewrite (adds_give_det d _ _ _ Hf (shape_gives _ _ _ _ Hs)).
    pose proof (shape_walk _ _ _ _ Hs) as Hk. pose proof (shape_len _ _ _ _ Hs). pose proof Hs as [].
    eapply (walk_gives (set_size s a) nx); change (MAX_SIZE (set_size s a)) with (MAX_SIZE a); rewrite ?sh_max0; [done|done|done|].
    destruct Hz as [Hz|Hz]; [by left|right]. cbn [size set_size]. pose proof (fresh_len (bump_index a)) as Hfl. unfold lengthN in *. rewrite app_length. lia.
  Qed.
End pool.

(** ** The registers of slots not in use *)
Section stale.
  Context `{Profile} {T : Type} (ms nr : nat) (d : T) (Hw : N.of_nat ms + 1 < W32).
  Implicit Types a : alloc T.
  (** registers 1.. of slot [j] *)
  Definition tail_of a (j : N) : option (list N) := (λ n, tail (regs n)) <$> rd a j.
  Lemma get_mut_cases a i (g : node T → res (node T)) :
    MAX_SIZE a + 1 < W32 →
    na_get_mut i g a = Fail Panic a ∨ ∃ n, rd a i = Some n ∧
      na_get_mut i g a = match g n with Val n' => Ret () (wr i n' a) | Err e => Fail e a end.
  Proof.
    intros Hm. destruct (rd a i) as [n|] eqn:Hr.
    - right. exists n. split; [done|]. destruct (g n) as [n'|e] eqn:Hg; [by eapply na_get_mut_rd|by eapply na_get_mut_fail].
    - left. unfold na_get_mut, mbind, M_bind, lift, gets, u32_sub, u_sub. unfold rd in Hr.
      destruct (decide (i = 0)) as [->|Hi].
      + rewrite decide_False by lia. destruct overflow_checks; [done|]. unfold lookupN. rewrite decide_False; [done|].
        unfold MAX_SIZE, lengthN, W32 in *. rewrite N.mod_small by lia. lia.
      + rewrite decide_True by lia. by rewrite Hr.
  Qed.
  Lemma tail_get_mut a i j (g : node T → res (node T)) :
    MAX_SIZE a + 1 < W32 → j ≠ i ∨ (∀ n n', g n = Val n' → tail (regs n') = tail (regs n)) →
    tail_of (call (na_get_mut i g) a).2 j = tail_of a j ∧ MAX_SIZE (call (na_get_mut i g) a).2 = MAX_SIZE a.
  Proof.
    intros Hm Hj. unfold call. destruct (get_mut_cases a i g Hm) as [->|(n & Hr & ->)]; [done|].
    destruct (g n) as [n'|e] eqn:Hg; [|done]. cbn [snd]. split; [|apply MAX_SIZE_wr]. unfold tail_of. pose proof (rd_lt _ _ _ Hr).
    destruct (decide (j = i)) as [->|Hji].
    - rewrite rd_wr, Hr by lia. cbn. f_equal. destruct Hj as [|Hj]; [done|]. by apply Hj.
    - by rewrite rd_wr_ne by (lia || done).
  Qed.
  Lemma tail_bind {A B} (m : M (alloc T) A) (f : A → M (alloc T) B) a j :
    (tail_of (call m a).2 j = tail_of a j ∧ MAX_SIZE (call m a).2 = MAX_SIZE a) →
    (∀ x a', MAX_SIZE a' = MAX_SIZE a → tail_of (call (f x) a').2 j = tail_of a' j ∧ MAX_SIZE (call (f x) a').2 = MAX_SIZE a') →
    tail_of (call (m ≫= f) a).2 j = tail_of a j ∧ MAX_SIZE (call (m ≫= f) a).2 = MAX_SIZE a.
  Proof.
    intros [Ht Hm] Hf. unfold call in *. unfold mbind, M_bind. destruct (m a) as [x a1|e a1]; [|done]. cbn [snd] in *.
    destruct (Hf x a1 Hm) as [H1 H2]. split; congruence.
  Qed.
  Lemma tail_flr n n' v : node_set_free_list_register v n = Val n' → tail (regs (T := T) n') = tail (regs n).
  Proof. unfold node_set_free_list_register. destruct n as [[|r tl] w]; [done|]. by intros [= <-]. Qed.
  Lemma tail_add a v j : MAX_SIZE a + 1 < W32 → tail_of (call (na_add_node v) a).2 j = tail_of a j ∧ MAX_SIZE (call (na_add_node v) a).2 = MAX_SIZE a.
  Proof.
    intros Hm. unfold na_add_node. apply tail_bind; [done|]. intros b a1 Hm1. apply tail_bind.
    - destruct (decide _) as [Hc1|Hc1]; [destruct (decide _) as [Hc2|Hc2]|].
      + done.
      + apply tail_bind; [unfold call, lift, gets; by destruct (u32_add _ _)|]. intros x a2 Hm2. apply tail_bind; [done|]. done.
      + apply tail_bind; [unfold call, gets; by destruct (na_get _ _ ≫= _)|]. intros x a2 Hm2. apply tail_bind; [done|]. intros y a3 Hm3.
        apply tail_get_mut; [congruence|]. right. intros n n'. apply tail_flr.
    - intros x a2 Hm2. apply tail_bind.
      + apply tail_get_mut; [congruence|]. right. by intros n n' [= <-].
      + intros y a3 Hm3. apply tail_bind; [done|]. intros z a4 Hm4. apply tail_bind; [unfold call, lift, gets; by destruct (u64_add _ _)|]. done.
  Qed.
  Lemma tail_remove a i j : MAX_SIZE a + 1 < W32 → tail_of (call (na_remove_node i) a).2 j = tail_of a j ∧ MAX_SIZE (call (na_remove_node i) a).2 = MAX_SIZE a.
  Proof.
    intros Hm. unfold na_remove_node. destruct (decide _) as [|Hnz]; [done|]. apply tail_bind; [done|]. intros b a1 Hm1. apply tail_bind.
    - apply tail_get_mut; [congruence|]. right. intros n n'. apply tail_flr.
    - intros x a2 Hm2. apply tail_bind; [done|]. intros y a3 Hm3. apply tail_bind; [done|]. intros z a4 Hm4.
      apply tail_bind; [unfold call, lift, gets; by destruct (u64_sub _ _)|]. intros s a5 Hm5. apply tail_bind; [done|]. intros u a6 Hm6.
      apply tail_bind; [unfold call, gets; by destruct (na_get _ _)|]. done.
  Qed.
  Lemma tail_set a i v r j :
    MAX_SIZE a + 1 < W32 → j ≠ i → tail_of (call (na_set_register i v r) a).2 j = tail_of a j ∧ MAX_SIZE (call (na_set_register i v r) a).2 = MAX_SIZE a.
  Proof. intros Hm Hj. unfold na_set_register. destruct (decide _); [done|]. apply tail_get_mut; [done|by left]. Qed.
  Lemma tail_step a live o j :
    MAX_SIZE a + 1 < W32 → al_pre nr live o → j ≠ 0 → j ∉ live →
    tail_of (left_by o a) j = tail_of a j ∧ MAX_SIZE (left_by o a) = MAX_SIZE a.
  Proof.
    intros Hm Ho Hj Hl. unfold left_by.
    assert (∀ i, ok_index live i → j ≠ i) as Hne by (intros i [->|Hi]; [done|by intros ->]).
    destruct o as [v|i|i v r|i r|i k ri rk|i k ri rk|i f]; cbn [al_step al_pre] in *.
    - apply tail_bind; [by apply tail_add|done].
    - apply tail_bind; [by apply tail_remove|done].
    - apply tail_bind; [apply tail_set; [done|apply Hne; naive_solver]|done].
    - apply tail_bind; [apply (tail_set a i SENTINEL r); [done|apply Hne; naive_solver]|done].
    - apply tail_bind; [|done]. destruct Ho as (Hi & Hk & _).
      apply (tail_bind (na_set_register i k ri) (λ _, na_set_register k i rk)); [apply tail_set; [done|by apply Hne]|].
      intros x a1 Hm1. apply tail_set; [congruence|by apply Hne].
    - apply tail_bind; [|done]. destruct Ho as (Hi & Hk & _). unfold call. rewrite na_disconnect_alt. fold (call (na_set_register i 0 ri;; na_set_register (T := T) k 0 rk) a).
      apply (tail_bind (na_set_register i 0 ri) (λ _, na_set_register k 0 rk)); [apply tail_set; [done|by apply Hne]|].
      intros x a1 Hm1. apply tail_set; [congruence|by apply Hne].
    - apply tail_bind; [|done]. apply tail_get_mut; [done|]. left. by intros ->.
  Qed.
  Lemma lookupN_tail {A} (l : list A) r : 1 ≤ r → lookupN (tail l) (r - 1) = lookupN l r.
  Proof.
    intros Hr. unfold lookupN. destruct l as [|x l]; [cbn; by repeat destruct (decide _)|]. cbn [tail length].
    replace (N.to_nat r) with (Datatypes.S (N.to_nat (r - 1))) by lia. cbn.
    destruct (decide (r < _)), (decide (r - 1 < _)); try done; lia.
  Qed.
  Lemma tail_register a a' j r : 1 ≤ r → tail_of a' j = tail_of a j → MAX_SIZE a' = MAX_SIZE a → MAX_SIZE a + 1 < W32 → na_get_register a' j r = na_get_register a j r.
  Proof.
    intros Hr Ht Hm Hmw. unfold na_get_register. destruct (decide (j = SENTINEL)) as [|Hj]; [done|]. unfold tail_of in Ht.
    destruct (rd a j) as [n|] eqn:Hn, (rd a' j) as [n'|] eqn:Hn'; cbn in Ht; try done.
    - rewrite (na_get_rd _ _ _ Hn), (na_get_rd _ _ _ Hn'). cbn. injection Ht as Ht. unfold node_get_register.
      by rewrite <- (lookupN_tail (regs n')), <- (lookupN_tail (regs n)), Ht.
    - assert (∀ b : alloc T, rd b j = None → ¬ (1 ≤ j ≤ MAX_SIZE b)) as Hout by (intros b Hb Hc; destruct (rd_is_Some b j Hc); congruence).
      rewrite !na_get_out; [done|done|by apply Hout|by rewrite Hm|by apply Hout].
  Qed.
  Lemma stays_free_fact a live ops j :
    MAX_SIZE a + 1 < W32 → j ≠ 0 → stays_free nr j live ops a →
    tail_of (history al_step ops a).2 j = tail_of a j ∧ MAX_SIZE (history al_step ops a).2 = MAX_SIZE a.
  Proof.
    intros Hm Hj. revert a live Hm. induction ops as [|o ops IH]; intros a live Hm Hs; [done|]. destruct Hs as (Hl & Ho & Hs).
    destruct (tail_step a live o j Hm Ho Hj Hl) as [H1 H2]. rewrite <- H2 in Hm. destruct (IH _ _ Hm Hs) as [H3 H4].
    unfold left_by in *. cbn [history]. destruct (call (al_step o) a) as [r a1]. cbn [snd] in *. destruct (history al_step ops a1) as [rs a2].
    cbn [snd] in *. split; congruence.
  Qed.
  Lemma pool_max a live : pool ms nr d a live → MAX_SIZE a = N.of_nat ms.
  Proof using Hw. intros (cs & fr & Ho & _)%(pool_inv ms nr d a live Hw). apply (ok_cap _ _ _ _ _ Ho). Qed.
  Lemma stale_fact a live i ops v a' r :
    pool ms nr d a live → i ∈ live → stays_free nr i (filter (λ j, j ≠ i) live) ops (left_by (AlRemove i) a) →
    na_add_node v (history al_step ops (left_by (AlRemove i) a)).2 = Ret i a' → 1 ≤ r →
    na_get_register a' i r = na_get_register a i r.
  Proof using Hw.
    intros Hp Hi Hs Ha Hr. pose proof (pool_max _ _ Hp) as Hm. pose proof (pool_inv ms nr d a live Hw Hp) as Hinv.
    assert (i ≠ 0) as Hi0 by (by eapply PInv_nz).
    assert (tail_of (left_by (AlRemove i) a) i = tail_of a i ∧ MAX_SIZE (left_by (AlRemove i) a) = MAX_SIZE a) as [H1 H2].
    { unfold left_by. cbn [al_step]. apply tail_bind; [apply tail_remove; by rewrite Hm|done]. }
    destruct (stays_free_fact _ _ ops i ltac:(by rewrite H2, Hm) Hi0 Hs) as [H3 H4].
    destruct (tail_add (history al_step ops (left_by (AlRemove i) a)).2 v i ltac:(by rewrite H4, H2, Hm)) as [H5 H6].
    unfold call in H5, H6. rewrite Ha in H5, H6. cbn [snd] in *. apply tail_register; [done|congruence|congruence|by rewrite Hm].
  Qed.
  Lemma fresh_registers_fact a live v i a' r :
    pool ms nr d a live → bump_index a ≤ i → na_add_node v a = Ret i a' → r < N.of_nat nr → na_get_register a' i r = Val SENTINEL.
  Proof using Hw.
    intros Hp Hb Ha Hr. pose proof (pool_max _ _ Hp) as Hm. destruct (pool_inv ms nr d a live Hw Hp) as (cs & fr & Ho & <- & Hl & Hf).
    destruct (decide (lengthN cs = N.of_nat ms)) as [Hfull|Hroom].
    { rewrite (na_add_node_full _ _ _ _ _ v Ho Hfull) in Ha. done. }
    pose proof (AOK_len_le _ _ _ _ _ Ho).
    destruct (na_add_node_ok _ _ _ _ _ v Ho ltac:(lia)) as (i' & tl & fr' & a1 & He & Ho' & Hx). rewrite He in Ha. injection Ha as -> ->.
    destruct fr as [|[j tl'] fr0]; destruct Hx as (Hi & Htl & _).
    - eapply (AOK_get_register _ _ _ _ _ _ _ r); [exact Ho'|mem|]. cbn [regs]. subst tl.
      pose proof (ok_nr _ _ _ _ _ Ho). apply lookupN_Some. change (0 :: replicate (nr - 1) 0) with (replicate (Datatypes.S (nr - 1)) 0).
      apply lookup_replicate. split; [done|]. lia.
    - exfalso. assert (1 ≤ j < bump_index a); [|lia]. apply (ok_rng _ _ _ _ _ Ho). cbn. apply elem_of_app. right. mem.
  Qed.
End stale.

(** ** Arbitrary calls *)
Section any.
  Context `{Profile} {T : Type} (ms nr : nat) (d : T) (Hw : N.of_nat ms + 1 < W32).
  Notation cap := (N.of_nat ms).
  Implicit Types a : alloc T.
  Record loose (n : N) a : Prop := {
    lo_max : MAX_SIZE a = cap;
    lo_regs : ∀ i x, rd a i = Some x → regs x ≠ [];
    lo_bump : 1 ≤ bump_index a ≤ cap + 1;
    lo_size : overflow_checks = true → size a ≤ n;
  }.
  (** running [m] from such a state leads to one, and a failure is a panic *)
  Definition keeps {A} (n n' : N) (m : M (alloc T) A) a : Prop :=
    loose n' (call m a).2 ∧ ∀ e, (call m a).1 = Err e → e = Panic.
  Lemma keeps_bind {A B} n n1 n' (m : M (alloc T) A) (f : A → M (alloc T) B) a :
    n1 ≤ n' → keeps n n1 m a → (∀ x a', m a = Ret x a' → loose n1 a' → keeps n1 n' (f x) a') → keeps n n' (m ≫= f) a.
  Proof.
    unfold keeps, call, mbind, M_bind. intros Hn [H1 H2] Hf. destruct (m a) as [x a1|e a1] eqn:E; cbn [fst snd] in *; [by apply Hf|].
    split; [|intros e' [= <-]; by apply H2]. destruct H1. split; try done. intros Ho. specialize (lo_size0 Ho). lia.
  Qed.
  Lemma keeps_gets {A} n (f : alloc T → res A) a : loose n a → (∀ e, f a = Err e → e = Panic) → keeps n n (gets f) a.
  Proof. unfold keeps, call, gets. intros Hl Hf. destruct (f a) as [x|e] eqn:E; (split; [done|]); cbn; [done|]. intros e' [= <-]. by apply Hf. Qed.
  Lemma keeps_get_mut n i g a :
    loose n a → (∀ x x', g x = Val x' → regs x ≠ [] → regs x' ≠ []) → (∀ x e, g x = Err e → e = Panic) → keeps n n (na_get_mut i g) a.
  Proof using Hw.
    intros Hl Hg He. pose proof Hl as []. unfold keeps, call.
    destruct (get_mut_cases ms Hw a i g ltac:(by rewrite lo_max0)) as [->|(x & Hr & ->)]; [split; [done|]; by intros e [= <-]|].
    destruct (g x) as [x'|e] eqn:E; cbn; [|split; [done|]; intros e' [= <-]; by eapply He]. split; [|done]. split.
    - by rewrite MAX_SIZE_wr.
    - intros j y Hj. pose proof (rd_lt _ _ _ Hr). destruct (decide (j = i)) as [->|Hji].
      + rewrite rd_wr in Hj by lia. injection Hj as <-. eapply Hg; [exact E|]. by eapply lo_regs0.
      + rewrite rd_wr_ne in Hj by (lia || done). by eapply lo_regs0.
    - done.
    - done.
  Qed.
  Lemma keeps_ret {A} n (x : A) a : loose n a → keeps n n (mret x) a.
  Proof. intros Hl. by split. Qed.
  Lemma flr_nonempty v (x x' : node T) : node_set_free_list_register v x = Val x' → regs x ≠ [] → regs x' ≠ [].
  Proof. unfold node_set_free_list_register. destruct x as [[|r tl] w]; [done|]. by intros [= <-]. Qed.
  Lemma flr_err v (x : node T) e : node_set_free_list_register v x = Err e → e = Panic.
  Proof. unfold node_set_free_list_register. destruct (regs x !! _); [done|]. by intros [= <-]. Qed.
  Lemma get_err a i e : na_get a i = Err e → e = Panic.
  Proof.
    unfold na_get, u32_sub, u_sub. destruct (decide (1 ≤ i)); cbn; [|destruct overflow_checks; cbn; [by intros [= <-]|]]; destruct (lookupN _ _); try done; by intros [= <-].
  Qed.
  Lemma keeps_mod n n' f a : loose n' (f a) → keeps n n' (modify f) a.
  Proof. intros Hl. by split. Qed.
  Lemma arith_err {w x y} e : u_add w x y = Err e ∨ u_sub w x y = Err e → e = Panic.
  Proof. unfold u_add, u_sub. intros [He|He]; destruct (decide _); try done; destruct overflow_checks; congruence. Qed.
  Lemma keeps_add n v a : loose n a → keeps n (n + 1) (na_add_node v) a.
  Proof using Hw.
    intros Hl. unfold na_add_node. eapply (keeps_bind n n); [lia|by apply (keeps_gets n Val)|]. intros ? ? [= <- <-] _.
    eapply (keeps_bind n n); [lia| |].
    - destruct (decide _) as [Hh|Hh]; [destruct (decide _) as [Hb|Hb]|].
      + split; [done|]. by intros e [= <-].
      + eapply (keeps_bind n n); [lia|apply keeps_gets; [done|intros e He; eapply arith_err; left; exact He]|]. intros b a1.
        unfold lift, gets, u32_add. pose proof Hl as []. unfold as_u32 in Hb. rewrite lo_max0, N.mod_small in Hb by lia.
        rewrite u_add_ok by lia. intros [= <- <-] _. eapply (keeps_bind n n); [lia| |].
        * apply keeps_mod. split; [done|done|cbn; lia|done].
        * intros ? a2 _ []. apply keeps_mod. by split.
      + eapply (keeps_bind n n); [lia|apply keeps_gets; [done|]|].
        * intros e. destruct (na_get a _) as [x|e'] eqn:E; cbn; [|intros [= <-]; by eapply get_err].
          unfold node_get_free_list_register. destruct (regs x !! _); [done|]. by intros [= <-].
        * intros r a1 _ Hl1. eapply (keeps_bind n n); [lia|apply keeps_mod; destruct Hl1; by split|]. intros ? a2 _ Hl2.
          apply keeps_get_mut; [done|intros y y'; apply flr_nonempty|intros y e; apply flr_err].
    - intros ? a1 _ Hl1. eapply (keeps_bind n n); [lia|apply keeps_get_mut; [done|by intros y y' [= <-]|done]|]. intros ? a2 _ Hl2.
      eapply (keeps_bind n n); [lia|by apply (keeps_gets n Val)|]. intros ? ? [= <- <-] _.
      eapply (keeps_bind n n); [lia|apply keeps_gets; [done|intros e He; eapply arith_err; left; exact He]|]. intros s a3.
      unfold lift, gets. destruct (u64_add (size a2) 1) as [s'|] eqn:Es; [|done]. intros [= -> ->] _.
      eapply (keeps_bind n (n + 1)); [lia| |intros; by apply keeps_ret]. apply keeps_mod. destruct Hl2. split; [done..|].
      intros Ho. unfold u64_add, u_add in Es. destruct (decide _); [|by rewrite Ho in Es]. injection Es as <-. cbn. specialize (lo_size0 Ho). lia.
  Qed.
  Lemma keeps_remove n i a : loose n a → keeps n (n + 1) (na_remove_node i) a.
  Proof using Hw.
    intros Hl. unfold na_remove_node. destruct (decide _) as [|Hnz].
    { split; [|done]. destruct Hl. split; try done. intros Ho. specialize (lo_size0 Ho). cbn. lia. }
    eapply (keeps_bind n n); [lia|by apply (keeps_gets n Val)|]. intros ? ? [= <- <-] _.
    eapply (keeps_bind n n); [lia|apply keeps_get_mut; [done|intros y y'; apply flr_nonempty|intros y e; apply flr_err]|]. intros ? a1 _ Hl1.
    eapply (keeps_bind n n); [lia|apply keeps_mod; destruct Hl1; by split|]. intros ? a2 _ Hl2.
    eapply (keeps_bind n n); [lia|by apply (keeps_gets n Val)|]. intros ? ? [= <- <-] _.
    eapply (keeps_bind n n); [lia|apply keeps_gets; [done|intros e He; eapply arith_err; right; exact He]|]. intros s a3.
    unfold lift, gets at 1. destruct (u64_sub (size a2) 1) as [s'|] eqn:Es; [|done]. intros [= -> ->] _.
    eapply (keeps_bind n (n + 1)); [lia| |].
    - apply keeps_mod. destruct Hl2. split; [done..|].
      intros Ho. unfold u64_sub, u_sub in Es. destruct (decide _); [|by rewrite Ho in Es]. injection Es as <-. cbn. specialize (lo_size0 Ho). lia.
    - intros ? a4 _ Hl4. eapply (keeps_bind (n + 1) (n + 1)); [lia|apply keeps_gets; [done|intros e; apply get_err]|]. intros. by apply keeps_ret.
  Qed.
  Lemma keeps_set n i v r a : loose n a → keeps n n (na_set_register i v r) a.
  Proof using Hw.
    intros Hl. unfold na_set_register. destruct (decide _) as [|Hnz]; [by apply keeps_ret|]. apply keeps_get_mut; [done| |].
    - intros x x'. unfold node_set_register. destruct (lookupN _ _) as [y|] eqn:E; [|done]. intros [= <-] Hx. cbn. unfold insertN.
      destruct (regs x); [done|]. by destruct (N.to_nat r).
    - intros x e. unfold node_set_register. destruct (lookupN _ _); [done|]. by intros [= <-].
  Qed.
  Lemma loose_mono n n' a : n ≤ n' → loose n a → loose n' a.
  Proof. intros Hn []. split; try done. intros Ho. specialize (lo_size0 Ho). lia. Qed.
  Lemma keeps_step n o a : loose n a → keeps n (n + 1) (al_step o) a.
  Proof using Hw.
    intros Hl.
    assert (∀ i j vi vj ri rj, keeps n n (na_set_register i vi ri;; na_set_register j vj rj) a) as H2.
    { intros. eapply (keeps_bind n n); [lia|by apply keeps_set|]. intros. by apply keeps_set. }
    assert (∀ m : M (alloc T) (), keeps n n m a → keeps n (n + 1) (m;; mret (AlUnit (T := T))) a) as Hu.
    { intros m Hm. eapply (keeps_bind n n); [lia|exact Hm|]. intros ? a1 _ Hl1. split; [|done]. by eapply loose_mono; [|exact Hl1]; lia. }
    destruct o as [v|i|i v r|i r|i k ri rk|i k ri rk|i f]; cbn [al_step].
    - eapply (keeps_bind n (n + 1)); [lia|by apply keeps_add|]. intros. by apply keeps_ret.
    - eapply (keeps_bind n (n + 1)); [lia|by apply keeps_remove|]. intros. by apply keeps_ret.
    - apply Hu. by apply keeps_set.
    - apply Hu. by apply (keeps_set n i SENTINEL r).
    - apply Hu. exact (H2 i k k i ri rk).
    - apply Hu. specialize (H2 i k 0 0 ri rk). unfold keeps, call in *. by rewrite na_disconnect_alt.
    - apply Hu. apply keeps_get_mut; [done|by intros y y' [= <-]|done].
  Qed.
  Lemma keeps_history n ops a : loose n a → loose (n + lengthN ops) (history al_step ops a).2 ∧ Forall (λ r, ∀ e, r = Err e → e = Panic) (history al_step ops a).1.
  Proof using Hw.
    revert n a. induction ops as [|o ops IH]; intros n a Hl.
    { split; [|constructor]. eapply loose_mono; [|exact Hl]. lia. }
    destruct (keeps_step n o a Hl) as [H1 H2]. destruct (IH _ _ H1) as [H3 H4]. cbn [history]. destruct (call (al_step o) a) as [r a1]. cbn [fst snd] in *.
    destruct (history al_step ops a1) as [rs a2]. cbn [fst snd] in *. split; [|by constructor].
    eapply loose_mono; [|exact H3]. unfold lengthN. cbn [length]. lia.
  Qed.
  Lemma any_calls_fact a0 ops :
    na_default ms nr d = Some a0 → overflow_checks = false ∨ lengthN ops + 2 * cap < W64 →
    let '(rs, a) := history al_step ops a0 in
    Forall (λ r, ∀ e, r = Err e → e = Panic) rs ∧ ∃ is, adds_give a is ∧ Forall (λ i, 1 ≤ i ≤ cap) is ∧ lengthN is ≤ 2 * cap.
  Proof using Hw.
    intros H0 Hn. assert (loose 0 a0) as Hl0.
    { unfold na_default in H0. destruct nr as [|k] eqn:E; [done|]. injection H0 as <-. split.
      - unfold MAX_SIZE, lengthN. cbn. by rewrite replicate_length.
      - intros i x. unfold rd. destruct (decide _); [done|]. intros Hx%lookupN_Some. apply lookup_replicate in Hx as [-> _]. done.
      - cbn. lia.
      - cbn. lia. }
    destruct (keeps_history 0 ops a0 Hl0) as [Hl Hf]. destruct (history al_step ops a0) as [rs a]. cbn [fst snd] in *. split; [done|]. destruct Hl.
    set (nx := λ i, match rd a i with Some (Node (n :: _) _) => n | _ => 0 end).
    destruct (walk_total cap (bump_index a) (free_list_head a) nx lo_bump0) as [is His]. exists is.
    pose proof (walk_len_max _ _ _ _ _ His lo_bump0). split_and!; [|by eapply walk_rng|done].
    eapply (walk_gives a nx); rewrite ?lo_max0; [done| |done|].
    - intros i Hi. destruct (rd_is_Some a i ltac:(lia)) as [[[|n tl] v] Hr]; [by apply lo_regs0 in Hr|]. exists tl, v. unfold nx. by rewrite Hr.
    - unfold roomy. destruct overflow_checks; [right|by left]. destruct Hn as [|Hn]; [done|]. specialize (lo_size0 eq_refl). lia.
  Qed.
End any.
