(** * Slots of the deque *)
From Verif Require Import IterProof DequeApi SlotGhost SlotProof.
From Verif Require Export DequeProof.

Section dq.
  Context `{Profile} {T : Type} (ms : nat) (v0 : T) (Hw : N.of_nat ms + 1 < W32).
  Notation cap := (N.of_nat ms).
  Notation ents := (list (N * T)).
  Implicit Types es L : ents.
  Implicit Types d : deque T.
  Implicit Types m : dslots (T:=T).
  Notation DIS L B := (DOK (G:=ghost_is L B v0) cap).

  Lemma live_dseg p es nx : live (dseg p es nx) = es.
  Proof using Type. clear. revert p. induction es as [|[i v] es IH]; intros p; simpl; [done|]. by rewrite IH. Qed.
  Lemma dis_add L B d es : DIS L B d es → DOK (G:=ghost_add L B v0) cap d es.
  Proof using Type. intros [Hh H1 H2]. constructor; [|done|done]. by apply CH_is_add. Qed.
  Lemma dis_rem L B d es : DIS L B d es → DOK (G:=ghost_rem es L B v0) cap d es.
  Proof using Type. intros [Hh H1 H2]. constructor; [|done|done]. apply CH_is_rem; [done|]. by rewrite live_dseg. Qed.
  Lemma dis_same L B d es d' es' :
    DIS L B d es → DOK (G:=ghost_add L B v0) cap d' es' → es'.*1 = es.*1 → DIS L B d' es'.
  Proof using Type.
    intros [Hh _ _] [Hh' H1 H2] He. constructor; [|done|done]. eapply pin_add; [exact Hh|exact Hh'|]. by rewrite !dseg_fst, He.
  Qed.
  Lemma dis_new L B d es d' es' i v :
    DIS L B d es → DOK (G:=ghost_add L B v0) cap d' es' → es' ≡ₚ (i, v) :: es →
    i = ds_slot (DSlots es L B) ∧ let m' := ds_take (DSlots es L B) es' in DIS (ds_left m') (ds_next m') d' es'.
  Proof using Type.
    intros [Hh _ _] [Hh' H1 H2] He.
    destruct (pin_add _ _ _ _ _ _ _ _ _ Hh Hh') as [_ Hp]. specialize (Hp i). rewrite !dseg_fst in Hp.
    specialize (Hp ltac:(by rewrite He)). destruct L as [|[j w] L]; destruct Hp as [-> Hc]; (split; [done|]; by constructor).
  Qed.
  Lemma dis_gone L B d es d' es' e :
    DIS L B d es → DOK (G:=ghost_rem es L B v0) cap d' es' → es ≡ₚ e :: es' → DIS (e :: L) B d' es'.
  Proof using Type.
    intros [Hh _ _] [Hh' H1 H2] He. constructor; [|done|done]. destruct e as [i w].
    assert (live (dseg 0 es 0) ≡ₚ es) as Hl by (by rewrite live_dseg).
    destruct (pin_rem _ _ _ _ _ _ _ _ _ _ Hh Hl Hh') as [_ Hr]. apply (Hr i w).
    - rewrite He. apply elem_of_list_here.
    - rewrite !dseg_fst. by rewrite He.
  Qed.
  Definition DI m d : Prop := DIS (ds_left m) (ds_next m) d (ds_used m).
  Lemma DI_new : DI dslots0 (dq_new ms v0).
  Proof using Hw. constructor; [|done..]. by apply CH_new_is; [|done|lia]. Qed.
  Lemma DI_step o m d : DI m d → seq_ok (dq_seqno d) → DI (dslots_step cap o m) (call (dq_step o) d).2.
  Proof using Type.
    clear Hw. intros HD Hs. unfold DI in HD. destruct m as [es L B]. simpl in HD.
    pose proof (dis_add _ _ _ _ HD) as HA. pose proof (dis_rem _ _ _ _ HD) as HM.
    pose proof (ghost_add_add L B v0) as GA. pose proof (ghost_rem_rem es L B v0) as GR.
    assert (∀ {A} (mm : M (deque T) A) (Q : A → deque T → Prop), wp mm d Q → ∃ a d', (call mm d).2 = d' ∧ Q a d') as Hcall.
    { intros A mm Q Hq. destruct (wp_elim _ _ _ Hq) as (a & d' & He & HQ). exists a, d'. split; [|done]. unfold call. by rewrite He. }
    destruct o; cbn [dslots_step dq_step ds_used].
    - destruct (decide (lengthN es < cap)) as [Hlt|Hge].
      + destruct (Hcall _ (dq_step (DPushFront v)) (λ _ d', ∃ i, DOK (G:=ghost_add L B v0) cap d' ((i, v) :: es))) as (a & d' & He & i & HA').
        2:{ unfold dq_step in He. rewrite He. destruct (dis_new _ _ _ _ _ _ i v HD HA' ltac:(done)) as [-> Hd]. unfold DI. simpl in Hd. destruct L; exact Hd. }
        apply wp_bind. apply (push_front_ok _ _ _ _ _ HA); [done|done|]. intros i d' Ho' _. apply wp_ret. by exists i.
      + destruct (push_full _ _ _ v HA) as [_ Hp]. { destruct HD as [Hh _ _]. apply CH_len_le in Hh. rewrite dseg_length in Hh. lia. }
        unfold call, mbind, M_bind. rewrite Hp. exact HD.
    - destruct (decide (lengthN es < cap)) as [Hlt|Hge].
      + destruct (Hcall _ (dq_step (DPushBack v)) (λ _ d', ∃ i, DOK (G:=ghost_add L B v0) cap d' (es ++ [(i, v)]))) as (a & d' & He & i & HA').
        2:{ unfold dq_step in He. rewrite He. destruct (dis_new _ _ _ _ _ _ i v HD HA') as [-> Hd]. { by rewrite Permutation_app_comm. } unfold DI. simpl in Hd. destruct L; exact Hd. }
        apply wp_bind. apply (push_back_ok _ _ _ _ _ HA); [done|done|]. intros i d' Ho' _. apply wp_ret. by exists i.
      + destruct (push_full _ _ _ v HA) as [Hp _]. { destruct HD as [Hh _ _]. apply CH_len_le in Hh. rewrite dseg_length in Hh. lia. }
        unfold call, mbind, M_bind. rewrite Hp. exact HD.
    - pose proof HD as [_ Hhd _]. destruct es as [|[i v] es].
      + unfold call, mbind, M_bind, dq_pop_front, mbind, M_bind, mget. rewrite Hhd. exact HD.
      + destruct (Hcall _ (dq_step DPopFront) (λ _ d', DOK (G:=ghost_rem ((i, v) :: es) L B v0) cap d' es)) as (a & d' & He & HM').
        { apply wp_bind, wp_bind, wp_mget. rewrite Hhd. simpl. rewrite decide_False by (eapply (DOK_fst_nz _ _ _ HM); done).
          apply (remove_head_ok _ _ _ _ _ _ HM); [done|]. intros d' Ho' _. by apply wp_ret. }
        change (call (dq_step DPopFront) d).2 with (call (o ← dq_pop_front; mret (DVal o)) d).2 in He. rewrite He.
        by apply (dis_gone _ _ _ _ _ _ (i, v) HD HM').
    - pose proof HD as [_ _ Htl]. destruct (unsnoc es) as [[es' [i v]]|] eqn:E.
      + apply unsnoc_Some in E as ->.
        destruct (Hcall _ (dq_step DPopBack) (λ _ d', DOK (G:=ghost_rem (es' ++ [(i, v)]) L B v0) cap d' es')) as (a & d' & He & HM').
        { apply wp_bind, wp_bind, wp_mget. rewrite Htl, lst0_snoc.
          rewrite decide_False by (rewrite <- (lst0_snoc 0 es' i v); eapply (DOK_lst_nz _ _ _ HM); by destruct es').
          apply (remove_tail_ok _ _ _ _ _ _ HM); [done|]. intros d' Ho' _. by apply wp_ret. }
        change (call (dq_step DPopBack) d).2 with (call (o ← dq_pop_back; mret (DVal o)) d).2 in He. rewrite He.
        apply (dis_gone _ _ _ _ _ _ (i, v) HD HM'). by rewrite Permutation_app_comm.
      + apply unsnoc_None in E as ->. unfold call, mbind, M_bind, dq_pop_back, mbind, M_bind, mget. rewrite Htl. exact HD.
    - unfold call, mbind, M_bind, gets. by destruct (dq_front d).
    - unfold call, mbind, M_bind, gets. by destruct (dq_back d).
    - exact HD.
    - exact HD.
    - unfold call, mbind, M_bind, gets. by destruct (dq_iterate script d).
    - destruct (Hcall _ (dq_step (DIterMut script)) (λ _ d', DOK (G:=ghost_add L B v0) cap d' (de_mut_spec uent script es).2)) as (a & d' & He & HA').
      { apply wp_bind. apply (dq_iterate_mut_ok _ _ _ _ _ HA). intros d' Ho' _. by apply wp_ret. }
      unfold dq_step in He. rewrite He. eapply dis_same; [exact HD|exact HA'|].
      change (map fst (de_mut_spec uent script es).2 = map fst es). by apply de_mut_spec_keys.
  Qed.
  Lemma seq_history o : (overflow_checks = true → lengthN o + 1 < W64) → seq_ok (dq_seqno (history dq_step o (dq_new ms v0)).2).
  Proof using Hw.
    intros Hf. destruct (dq_history_ok ms v0 o Hw) as [_ (Hs & _)]. { intros Hc. specialize (Hf Hc). lia. }
    rewrite Hs. apply seq_room_ok. intros Hc. specialize (Hf Hc).
    assert (∀ ops (s : list T * N), (spec_history (dq_spec cap) ops s).2.2 ≤ s.2 + lengthN ops) as Hcnt.
    { clear. intros ops. induction ops as [|o ops IH]; intros s; simpl; [lia|].
      pose proof (dq_spec_count cap o s). destruct (dq_spec cap o s) as [r s'].
      specialize (IH s'). destruct (spec_history (dq_spec cap) ops s'). rewrite lengthN_cons. simpl in *. lia. }
    specialize (Hcnt o ([], 0)). simpl in Hcnt. lia.
  Qed.
  Lemma DI_after o : (overflow_checks = true → lengthN o < W64) → DI (dslots_after cap o) (history dq_step o (dq_new ms v0)).2.
  Proof using Hw.
    induction o as [|x o IH] using rev_ind; intros Hf; [exact DI_new|].
    assert (∀ A (step : dq_op T → M (deque T) A) os y s, (history step (os ++ [y]) s).2 = (call (step y) (history step os s).2).2) as Hsn.
    { clear. intros A step os y. induction os as [|o' os IH]; intros s; simpl; [by destruct (call (step y) s)|].
      destruct (call (step o') s) as [r s1]. specialize (IH s1). destruct (history step (os ++ [y]) s1), (history step os s1). exact IH. }
    rewrite Hsn. unfold dslots_after. rewrite foldl_app. simpl. rewrite lengthN_app in Hf. change (lengthN [x]) with 1 in Hf. apply DI_step.
    - apply IH. intros Hc. specialize (Hf Hc). lia.
    - apply seq_history. exact Hf.
  Qed.

  (** what it says *)
  Definition dq_slots_fact o : Prop :=
    let m := dslots_after cap o in let d := (history dq_step o (dq_new ms v0)).2 in
    dq_head d = top_of SENTINEL (ds_used m) ∧ dq_tail d = top_of SENTINEL (reverse (ds_used m)) ∧
    (∀ pre i v post, ds_used m = pre ++ (i, v) :: post →
       na_get (dq_al d) i = Val (Node [top_of SENTINEL (reverse pre); top_of SENTINEL post] v)) ∧
    unused (dq_al d) 2 v0 (ds_left m) (ds_next m).
  Lemma lst0_top p es : lst0 p es = top_of p (reverse es).
  Proof using Type. clear. destruct (snoc_case es) as [->|(es' & i & v & ->)]; [done|]. by rewrite lst0_snoc, reverse_snoc. Qed.
  Lemma DI_facts m d : DI m d →
    dq_head d = top_of SENTINEL (ds_used m) ∧ dq_tail d = top_of SENTINEL (reverse (ds_used m)) ∧
    (∀ pre i v post, ds_used m = pre ++ (i, v) :: post →
       na_get (dq_al d) i = Val (Node [top_of SENTINEL (reverse pre); top_of SENTINEL post] v)) ∧
    unused (dq_al d) 2 v0 (ds_left m) (ds_next m).
  Proof using Type.
    clear Hw. intros [Hh Hhd Htl]. split_and!; [rewrite Hhd; by destruct (ds_used m) as [|[]]|by rewrite Htl, lst0_top| |by eapply CH_unused].
    intros pre i v post Hu. rewrite Hu, dseg_app in Hh. simpl in Hh.
    assert ((i, Node [lst0 0 pre; fst0 0 post] v) ∈ dseg 0 pre i ++ (i, Node [lst0 0 pre; fst0 0 post] v) :: dseg i post 0) as Hin
      by (apply elem_of_app; right; apply elem_of_list_here).
    rewrite (CH_get _ _ _ _ _ _ Hh Hin). repeat f_equal. apply lst0_top.
  Qed.
  Lemma dq_follow o : (overflow_checks = true → lengthN o < W64) → dq_slots_fact o.
  Proof using Hw. intros Hf. unfold dq_slots_fact. cbv zeta. by apply DI_facts, DI_after. Qed.

  (** a value removed by its slot *)
  Lemma dq_remove_follow o pre i v post :
    (overflow_checks = true → lengthN o + 1 < W64) → ds_used (dslots_after cap o) = pre ++ (i, v) :: post →
    let m := dslots_after cap o in let d := (call (dq_remove i) (history dq_step o (dq_new ms v0)).2).2 in
    dq_head d = top_of SENTINEL (pre ++ post) ∧ dq_tail d = top_of SENTINEL (reverse (pre ++ post)) ∧
    unused (dq_al d) 2 v0 ((i, v) :: ds_left m) (ds_next m).
  Proof using Hw.
    intros Hf Hu m d. pose proof (DI_after o ltac:(intros Hc; specialize (Hf Hc); lia)) as HD. fold m in HD. unfold DI in HD. fold m in Hu. rewrite Hu in HD.
    pose proof (dis_rem _ _ _ _ HD) as HM. pose proof (ghost_rem_rem (pre ++ (i, v) :: post) (ds_left m) (ds_next m) v0) as GR.
    assert (seq_ok (dq_seqno (history dq_step o (dq_new ms v0)).2)) as Hs by (by apply seq_history).
    destruct (wp_elim _ _ _ (remove_any_ok _ _ _ _ _ _
      (λ r d', DOK (G:=ghost_rem (pre ++ (i, v) :: post) (ds_left m) (ds_next m) v0) cap d' (pre ++ post)) HM Hs (λ d' H1 H2, H1))) as (r & d' & E & HM').
    assert (d = d') as -> by (unfold d, call; by rewrite E).
    assert (DI (DSlots (pre ++ post) ((i, v) :: ds_left m) (ds_next m)) d') as HD'.
    { unfold DI. simpl. eapply dis_gone; [exact HD|exact HM'|solve_Permutation]. }
    destruct (DI_facts _ _ HD') as (H1 & H2 & _ & H4). done.
  Qed.
End dq.

(** the values are those of the sequence *)
Section values.
  Context {T : Type} (cap : N).
  Definition seq_of (o : list (dq_op T)) : list T := (spec_history (dq_spec cap) o ([], 0)).2.1.
  Lemma spec_snoc o x : (spec_history (dq_spec cap) (o ++ [x]) ([], 0)).2 = (dq_spec cap x (spec_history (dq_spec (T:=T) cap) o ([], 0)).2).2.
  Proof.
    generalize (([], 0) : list T * N). induction o as [|y o IH]; intros s; simpl; [by destruct (dq_spec cap x s)|].
    destruct (dq_spec cap y s) as [r s1]. specialize (IH s1). destruct (spec_history (dq_spec cap) (o ++ [x]) s1), (spec_history (dq_spec cap) o s1). exact IH.
  Qed.
  Lemma dslots_snoc o x : dslots_after cap (o ++ [x]) = dslots_step (T:=T) cap x (dslots_after cap o).
  Proof. unfold dslots_after. by rewrite foldl_app. Qed.
  Lemma dslots_values o : (ds_used (dslots_after cap o)).*2 = seq_of o.
  Proof.
    unfold seq_of. induction o as [|x o IH] using rev_ind; [done|]. rewrite dslots_snoc, spec_snoc.
    destruct (spec_history (dq_spec cap) o ([], 0)).2 as [l n]. simpl in IH. destruct (dslots_after cap o) as [es L B]. simpl in IH.
    assert (lengthN es = lengthN l) as Hl by (rewrite <- IH; unfold lengthN; by rewrite fmap_length).
    destruct x; cbn [dslots_step dq_spec ds_used]; rewrite ?Hl.
    - destruct (decide (lengthN l < cap)); [|done]. unfold ds_take. cbn [snd fst]. rewrite <- IH. by destruct L.
    - destruct (decide (lengthN l < cap)); [|done]. unfold ds_take. cbn [snd fst]. rewrite <- IH. destruct L; cbn [ds_left ds_used]; by rewrite fmap_app.
    - destruct es as [|[i v] es]; simplify_eq/=; done.
    - rewrite <- IH. destruct (snoc_case es) as [->|(es' & i & v & ->)]; [done|]. rewrite fmap_app. cbn [fmap list_fmap snd]. rewrite unsnoc_snoc. by rewrite unsnoc_snoc.
    - done.
    - done.
    - done.
    - done.
    - done.
    - rewrite <- IH. change (es.*2) with (map snd es). pose proof (de_mut_spec_map snd (λ (f : T → T) (e : N * T), (e.1, f e.2)) (λ f x, f x) script es ltac:(done)) as Hm.
      destruct (de_mut_spec (λ f x, f x) script (map snd es)) as [? ?] eqn:E. simpl. rewrite Hm in E. by destruct (de_mut_spec _ script es); simplify_eq/=.
  Qed.

  (** as many slots have been used as there have been values at once *)
  Lemma dslots_step_next x m :
    ds_next m = 1 + lengthN (ds_used m) + lengthN (ds_left m) →
    let m' := dslots_step (T:=T) cap x m in
    ds_next m' = 1 + lengthN (ds_used m') + lengthN (ds_left m') ∧ ds_next m' = N.max (ds_next m) (1 + lengthN (ds_used m')).
  Proof.
    destruct m as [es L B]. simpl. intros HB. unfold lengthN in *. destruct x; cbn [dslots_step ds_used].
    - destruct (decide _); [|simpl; lia]. unfold ds_take. destruct L; simpl in *; lia.
    - destruct (decide _); [|simpl; lia]. unfold ds_take. destruct L; simpl in *; rewrite app_length; simpl; lia.
    - destruct es as [|[i v] es]; simpl in *; lia.
    - destruct (snoc_case es) as [->|(es' & i & v & ->)]; [simpl in *; lia|]. rewrite unsnoc_snoc. rewrite app_length in HB. simpl in *. lia.
    - simpl; lia.
    - simpl; lia.
    - simpl; lia.
    - simpl; lia.
    - simpl; lia.
    - simpl. pose proof (f_equal length (de_mut_spec_keys (λ (f : T → T) (e : N * T), (e.1, f e.2)) fst script es ltac:(done))) as Hk.
      rewrite !map_length in Hk. rewrite Hk. lia.
  Qed.
  Lemma dslots_next o ls : trace (λ o l, l = seq_of o) o ls →
    let m := dslots_after cap o in ds_next m = 1 + lengthN (ds_used m) + lengthN (ds_left m) ∧ ds_next m = 1 + peak ls.
  Proof.
    revert ls. induction o as [|x o IH] using rev_ind; intros ls [Hl Ht].
    - destruct ls; [|done]. done.
    - destruct ls as [|l ls' _] using rev_ind; [rewrite app_length in Hl; simpl in Hl; lia|].
      rewrite !app_length in Hl. simpl in Hl.
      assert (trace (λ o l, l = seq_of o) o ls') as Htr.
      { split; [lia|]. intros n l' Hn. pose proof (lookup_lt_Some _ _ _ Hn) as Hlt. rewrite (Ht n l') by (by rewrite lookup_app_l).
        by rewrite take_app_le by lia. }
      destruct (IH _ Htr) as [H1 H2].
      assert (l = seq_of (o ++ [x])) as ->.
      { rewrite (Ht (length ls') l); [|by rewrite lookup_app_r, Nat.sub_diag]. by rewrite firstn_all2 by (rewrite app_length; simpl; lia). }
      rewrite dslots_snoc. destruct (dslots_step_next x _ H1) as [H3 H4]. split; [exact H3|].
      rewrite H4, H2, peak_snoc, <- dslots_values, <- dslots_snoc.
      assert (∀ es : list (N * T), lengthN es.*2 = lengthN es) as -> by (intros; unfold lengthN; by rewrite fmap_length). lia.
  Qed.
End values.
