(** * Proofs about the Deque *)
From Verif Require Export IterProof DequeApi AllocProof.

Section Dq.
  Context `{Profile} {T : Type} {G : Ghost T} `{GA : !GAdd G} `{GR : !GRem G}.
  Implicit Types es : list (N * T).
  Implicit Types d : deque T.

  Definition fst0 (nx : N) es : N := match es with [] => nx | (i, _) :: _ => i end.
  Fixpoint lst0 (p : N) es : N := match es with [] => p | (i, _) :: es => lst0 i es end.
  (** The nodes of a segment with predecessor [p] and successor [nx] *)
  Fixpoint dseg (p : N) es (nx : N) : list (N * node T) :=
    match es with
    | [] => []
    | (i, v) :: es => (i, Node [p; fst0 nx es] v) :: dseg i es nx
    end.

  Record DOK (cap : N) d es : Prop := {
    d_heap : CH 2 cap (dq_al d) (dseg 0 es 0);
    d_head : dq_head d = fst0 0 es;
    d_tail : dq_tail d = lst0 0 es;
  }.

  Lemma fst0_app nx es1 es2 : fst0 nx (es1 ++ es2) = fst0 (fst0 nx es2) es1.
  Proof. clear GA GR. by destruct es1 as [|[]]. Qed.
  Lemma lst0_app p es1 es2 : lst0 p (es1 ++ es2) = lst0 (lst0 p es1) es2.
  Proof. clear GA GR. revert p. induction es1 as [|[]]; simpl; eauto. Qed.
  Lemma lst0_snoc p es i v : lst0 p (es ++ [(i, v)]) = i.
  Proof. clear GA GR. by rewrite lst0_app. Qed.
  Lemma dseg_app p es1 es2 nx : dseg p (es1 ++ es2) nx = dseg p es1 (fst0 nx es2) ++ dseg (lst0 p es1) es2 nx.
  Proof. clear GA GR.
    revert p. induction es1 as [|[i v] es1 IH]; intros p; simpl; [done|]. rewrite IH, fst0_app. done.
  Qed.
  Lemma dseg_fst p es nx : (dseg p es nx).*1 = es.*1.
  Proof. clear GA GR. revert p. induction es as [|[i v] es IH]; intros p; simpl; [done|]. by rewrite IH. Qed.
  Lemma dseg_length p es nx : lengthN (dseg p es nx) = lengthN es.
  Proof. clear GA GR.
    unfold lengthN. f_equal. rewrite <- (fmap_length fst (dseg p es nx)), dseg_fst. by rewrite fmap_length.
  Qed.
  Lemma snoc_case es : es = [] ∨ ∃ es0 i v, es = es0 ++ [(i, v)].
  Proof. clear GA GR. destruct es as [|[i v] es _] using rev_ind; [by left|right; eauto]. Qed.

  Lemma lst0_in p es : es ≠ [] → lst0 p es ∈ es.*1.
  Proof. clear GA GR.
    destruct (snoc_case es) as [->|(es0 & i & v & ->)]; [done|]. intros _. rewrite lst0_snoc, fmap_app. set_solver.
  Qed.
  Lemma fst0_in p es : es ≠ [] → fst0 p es ∈ es.*1.
  Proof. clear GA GR. destruct es as [|[i v] es]; [done|]. intros _. simpl. mem. Qed.

  Lemma DOK_fst_nz cap d es : DOK cap d es → es ≠ [] → fst0 0 es ≠ 0.
  Proof. clear GA GR.
    intros [] Hne. destruct es as [|[i v] es]; [done|]. simpl.
    eapply CH_nz'; [done|]. rewrite dseg_fst. simpl. mem.
  Qed.
  Lemma DOK_lst_nz cap d es : DOK cap d es → es ≠ [] → lst0 0 es ≠ 0.
  Proof. clear GA GR.
    intros [] Hne. destruct (snoc_case es) as [->|(es0 & i & v & ->)]; [done|]. rewrite lst0_snoc.
    eapply CH_nz'; [done|]. rewrite dseg_fst, fmap_app. set_solver.
  Qed.

  Lemma dq_on_wp {A} (m : M (alloc T) A) d Q :
    wp m (dq_al d) (λ x a, Q x (set_dal a d)) → wp (dq_on m) d Q.
  Proof. clear GA GR. apply wp_zoom. Qed.

  (** Sequence number *)
  Definition seq_ok (s : N) : Prop := s < W64 ∧ (overflow_checks = true → s + 1 < W64).
  Lemma wp_bump_seq d (Q : () → deque T → Prop) :
    seq_ok (dq_seqno d) → Q () (set_seqno ((dq_seqno d + 1) mod W64) d) → wp dq_bump_seq d Q.
  Proof. clear GA GR.
    intros [Hs Hc] HQ. unfold dq_bump_seq. apply wp_bind, wp_mget.
    apply wp_bind. eapply wp_lift; [|by apply wp_modify].
    unfold u64_add, u_add. case_decide as Hd.
    - by rewrite N.mod_small.
    - destruct overflow_checks eqn:E; [|done]. exfalso. apply Hd. by apply Hc.
  Qed.

  Lemma push_back_ok cap d es v (Q : () → deque T → Prop) :
    DOK cap d es → lengthN es < cap → seq_ok (dq_seqno d) →
    (∀ i d', DOK cap d' (es ++ [(i, v)]) → dq_seqno d' = (dq_seqno d + 1) mod W64 → Q () d') →
    wp (dq_push_back v) d Q.
  Proof. clear GR.
    intros Ho Hlen Hs HQ. pose proof Ho as [Hh Hhd Htl]. unfold dq_push_back.
    apply wp_bind, dq_on_wp. eapply CH_add_node; [exact _|done|by rewrite dseg_length|].
    intros i a Ha. simpl in Ha. apply wp_bind, wp_mget. simpl.
    destruct (snoc_case es) as [->|(es0 & j & w & ->)].
    - simpl in *. rewrite (decide_True (P := dq_head d = SENTINEL)) by done.
      apply wp_bind, wp_modify. apply wp_bind, wp_mget. simpl. rewrite Htl, decide_True by done.
      apply wp_bind, wp_ret. apply wp_bind, wp_modify. apply wp_bump_seq; [done|].
      apply (HQ i); [|done]. by constructor.
    - rewrite lst0_snoc in Htl.
      assert (fst0 0 (es0 ++ [(j, w)]) ≠ 0) as Hf by (eapply DOK_fst_nz; [done|by destruct es0]).
      assert (j ≠ 0) as Hj by (rewrite <- (lst0_snoc 0 es0 j w); eapply DOK_lst_nz; [done|by destruct es0]).
      rewrite (decide_False (P := dq_head d = SENTINEL)) by (rewrite Hhd; done). apply wp_bind, wp_ret. apply wp_bind, wp_mget. simpl.
      rewrite Htl, decide_False by done.
      apply wp_bind, dq_on_wp. simpl.
      rewrite dseg_app in Ha. simpl in Ha.
      eapply CH_connect with (cs := dseg 0 es0 j); [eapply CH_perm; [exact Ha|solve_Permutation]|done..|].
      intros a' Ha'. apply wp_bind, wp_modify. apply wp_bump_seq; [done|]. simpl.
      apply (HQ i); [|done]. constructor; simpl.
      + rewrite <- app_assoc. rewrite dseg_app. simpl. eapply CH_perm; [exact Ha'|]. simpl.
        solve_Permutation.
      + rewrite Hhd, fst0_app. rewrite fst0_app in Hf. destruct es0 as [|[]]; done.
      + by rewrite lst0_snoc.
  Qed.

  Lemma push_front_ok cap d es v (Q : () → deque T → Prop) :
    DOK cap d es → lengthN es < cap → seq_ok (dq_seqno d) →
    (∀ i d', DOK cap d' ((i, v) :: es) → dq_seqno d' = (dq_seqno d + 1) mod W64 → Q () d') →
    wp (dq_push_front v) d Q.
  Proof. clear GR.
    intros Ho Hlen Hs HQ. pose proof Ho as [Hh Hhd Htl]. unfold dq_push_front.
    apply wp_bind, dq_on_wp. eapply CH_add_node; [exact _|done|by rewrite dseg_length|].
    intros i a Ha. simpl in Ha. apply wp_bind, wp_mget. simpl.
    destruct es as [|[j w] es].
    - simpl in *. rewrite (decide_True (P := dq_tail d = SENTINEL)) by done.
      apply wp_bind, wp_modify. apply wp_bind, wp_mget. simpl. rewrite Hhd, decide_True by done.
      apply wp_bind, wp_ret. apply wp_bind, wp_modify. apply wp_bump_seq; [done|].
      apply (HQ i); [|done]. by constructor.
    - pose proof (DOK_fst_nz _ _ _ Ho ltac:(done)) as Hf. pose proof (DOK_lst_nz _ _ _ Ho ltac:(done)) as Hl.
      simpl in Hhd, Hf. rewrite (decide_False (P := dq_tail d = SENTINEL)) by (rewrite Htl; done). apply wp_bind, wp_ret. apply wp_bind, wp_mget. simpl.
      rewrite Hhd, decide_False by done.
      apply wp_bind, dq_on_wp. simpl. simpl in Ha.
      eapply CH_connect; [exact Ha|done..|].
      intros a' Ha'. apply wp_bind, wp_modify. apply wp_bump_seq; [done|]. simpl.
      apply (HQ i); [|done]. constructor; simpl; done.
  Qed.

  Lemma push_full cap d es v :
    DOK cap d es → lengthN es = cap →
    dq_push_back v d = Fail Panic d ∧ dq_push_front v d = Fail Panic d.
  Proof. clear GA GR.
    intros [Hh _ _] Hlen.
    assert (na_add_node v (dq_al d) = Fail Panic (dq_al d)) as Ha.
    { eapply CH_add_node_full; [done|]. by rewrite dseg_length. }
    unfold dq_push_back, dq_push_front, dq_on, zoom, mbind, M_bind. rewrite Ha. by destruct d.
  Qed.

  (** Reading a node of the deque *)
  Lemma dq_read cap d es1 i v es2 :
    DOK cap d (es1 ++ (i, v) :: es2) →
    dq_get_node d i = Val v ∧ dq_get_next d i = Val (fst0 0 es2) ∧ dq_get_prev d i = Val (lst0 0 es1).
  Proof. clear GA GR.
    intros [Hh _ _]. rewrite dseg_app in Hh. simpl in Hh.
    assert ((i, Node [lst0 0 es1; fst0 0 es2] v) ∈ dseg 0 es1 i ++ (i, Node [lst0 0 es1; fst0 0 es2] v) :: dseg i es2 0)
      as Hin by set_solver.
    split_and!.
    - unfold dq_get_node. by rewrite (CH_get _ _ _ _ _ _ Hh Hin).
    - unfold dq_get_next. by eapply CH_get_register.
    - unfold dq_get_prev. by eapply CH_get_register.
  Qed.

  Lemma DOK_NoDup cap d es : DOK cap d es → NoDup es.*1.
  Proof. clear GA GR. intros [Hh _ _]. apply CH_NoDup in Hh. by rewrite dseg_fst in Hh. Qed.
  Lemma DOK_nz cap d es i : DOK cap d es → i ∈ es.*1 → i ≠ 0.
  Proof. clear GA GR. intros [Hh _ _] Hi. eapply CH_nz'; [done|]. by rewrite dseg_fst. Qed.

  (** Removing the first or last element *)
  Lemma remove_head_ok cap d i v es (Q : option T → deque T → Prop) :
    DOK cap d ((i, v) :: es) → seq_ok (dq_seqno d) →
    (∀ d', DOK cap d' es → dq_seqno d' = (dq_seqno d + 1) mod W64 → Q (Some v) d') →
    wp (dq_remove i) d Q.
  Proof. clear GA.
    intros Ho Hs HQ. destruct (dq_read _ _ [] _ _ _ Ho) as (Hv & Hnx & Hpv). pose proof Ho as [Hh Hhd Htl].
    pose proof (DOK_NoDup _ _ _ Ho) as Hnd. simpl in Hpv.
    unfold dq_remove. apply wp_bind. eapply wp_gets; [exact Hv|]. apply wp_bind. eapply wp_gets; [exact Hpv|].
    apply wp_bind. eapply wp_gets; [exact Hnx|]. simpl in Hh.
    apply wp_bind, dq_on_wp. eapply CH_clear_register; [exact Hh|done|]. intros a1 H1. 
    apply wp_bind, dq_on_wp. simpl. eapply CH_clear_register; [exact H1|done|]. intros a2 H2. 
    unfold setr, insertN in H2; simpl in H2.
    apply wp_bind, wp_ret. apply wp_bind, wp_mget. simpl. simpl in Hhd.
    rewrite (decide_True (P := i = dq_head d)) by done.
    apply wp_bind, wp_bind, wp_modify. apply dq_on_wp. simpl.
    destruct es as [|[j w] es].
    - apply wp_clear_register_0. apply wp_bind, wp_mget. simpl in Htl |- *.
      rewrite (decide_True (P := i = dq_tail d)) by done.
      apply wp_bind, wp_bind, wp_modify. apply dq_on_wp, wp_clear_register_0.
      apply wp_bind, dq_on_wp. simpl. eapply CH_remove_node; [exact _|exact H2|]. intros a3 H3.
      apply wp_bind, wp_bump_seq; [done|]. apply wp_ret, HQ; [|done]. by constructor.
    - simpl in H2, Htl |- *. eapply CH_clear_register; [eapply CH_perm; [exact H2|apply Permutation_swap]|done|].
      intros a3 H3. unfold setr, insertN in H3; simpl in H3. apply wp_bind, wp_mget. simpl.
      rewrite (decide_False (P := i = dq_tail d)); cycle 1.
      { rewrite Htl. intros Hi. simpl in Hnd. apply NoDup_cons in Hnd as [Hni _].
        apply Hni. rewrite Hi. apply (lst0_in 0 ((j, w) :: es)). done. }
      apply wp_bind, wp_ret. apply wp_bind, dq_on_wp. simpl.
      eapply CH_remove_node; [exact _|eapply CH_perm; [exact H3|apply Permutation_swap]|]. intros a4 H4.
      apply wp_bind, wp_bump_seq; [done|]. apply wp_ret, HQ; [|done]. by constructor.
  Qed.

  Lemma remove_tail_ok cap d i v es (Q : option T → deque T → Prop) :
    DOK cap d (es ++ [(i, v)]) → seq_ok (dq_seqno d) →
    (∀ d', DOK cap d' es → dq_seqno d' = (dq_seqno d + 1) mod W64 → Q (Some v) d') →
    wp (dq_remove i) d Q.
  Proof. clear GA.
    intros Ho Hs HQ.
    destruct (snoc_case es) as [->|(es0 & j & w & ->)]; [by eapply remove_head_ok|].
    destruct (dq_read _ _ _ _ _ _ Ho) as (Hv & Hnx & Hpv). pose proof Ho as [Hh Hhd Htl].
    pose proof (DOK_NoDup _ _ _ Ho) as Hnd. simpl in Hnx. rewrite lst0_snoc in Hpv, Htl.
    assert (j ≠ 0) as Hj by (eapply DOK_nz; [done|rewrite !fmap_app; set_solver]).
    unfold dq_remove. apply wp_bind. eapply wp_gets; [exact Hv|]. apply wp_bind. eapply wp_gets; [exact Hpv|].
    apply wp_bind. eapply wp_gets; [exact Hnx|].
    rewrite !dseg_app, lst0_snoc in Hh. simpl in Hh.
    assert (CH 2 cap (dq_al d) ((i, Node [j; 0] v) :: (j, Node [lst0 0 es0; i] w) :: dseg 0 es0 j)) as H0
      by (eapply CH_perm; [exact Hh|solve_Permutation]).
    apply wp_bind, dq_on_wp. eapply CH_clear_register; [exact H0|done|]. intros a1 H1. 
    apply wp_bind, dq_on_wp. simpl. eapply CH_clear_register; [exact H1|done|]. intros a2 H2. 
    rewrite (decide_False (P := j ≠ SENTINEL ∧ 0 ≠ SENTINEL)) by naive_solver.
    unfold setr, insertN in H2; simpl in H2.
    apply wp_bind, wp_ret. apply wp_bind, wp_mget. simpl.
    rewrite (decide_False (P := i = dq_head d)); cycle 1.
    { rewrite Hhd. intros Hi. rewrite !fmap_app in Hnd. simpl in Hnd.
      apply NoDup_app in Hnd as (_ & Hnd & _). apply (Hnd i); [|set_solver].
      rewrite Hi, fst0_app. change [j] with [(j, w)].*1. rewrite <- fmap_app. apply fst0_in. by destruct es0. }
    apply wp_bind, wp_ret, wp_bind, wp_mget. simpl.
    rewrite (decide_True (P := i = dq_tail d)) by done.
    apply wp_bind, wp_bind, wp_modify. apply dq_on_wp. simpl.
    eapply CH_clear_register; [eapply CH_perm; [exact H2|apply Permutation_swap]|done|].
    intros a3 H3. unfold setr, insertN in H3; simpl in H3.
    apply wp_bind, dq_on_wp. simpl.
    eapply CH_remove_node; [exact _|eapply CH_perm; [exact H3|apply Permutation_swap]|]. intros a4 H4.
    apply wp_bind, wp_bump_seq; [done|]. apply wp_ret, HQ; [|done]. constructor; simpl.
    - rewrite dseg_app. simpl. eapply CH_perm; [exact H4|solve_Permutation].
    - rewrite Hhd. rewrite !fst0_app. simpl. done.
    - by rewrite lst0_snoc.
  Qed.

  Lemma remove_mid_ok cap d i v es1 j w es2 (Q : option T → deque T → Prop) :
    DOK cap d (es1 ++ (i, v) :: (j, w) :: es2) → es1 ≠ [] → seq_ok (dq_seqno d) →
    (∀ d', DOK cap d' (es1 ++ (j, w) :: es2) → dq_seqno d' = (dq_seqno d + 1) mod W64 → Q (Some v) d') →
    wp (dq_remove i) d Q.
  Proof. clear GA.
    intros Ho Hne Hs HQ. destruct (snoc_case es1) as [->|(es0 & h & u & ->)]; [done|]. clear Hne.
    destruct (dq_read _ _ _ _ _ _ Ho) as (Hv & Hnx & Hpv). pose proof Ho as [Hh Hhd Htl].
    pose proof (DOK_NoDup _ _ _ Ho) as Hnd. simpl in Hnx. rewrite lst0_snoc in Hpv.
    assert (h ≠ 0) as Hh0 by (eapply DOK_nz; [done|rewrite !fmap_app; set_solver]).
    assert (j ≠ 0) as Hj0 by (eapply DOK_nz; [done|rewrite !fmap_app; set_solver]).
    unfold dq_remove. apply wp_bind. eapply wp_gets; [exact Hv|]. apply wp_bind. eapply wp_gets; [exact Hpv|].
    apply wp_bind. eapply wp_gets; [exact Hnx|].
    rewrite !dseg_app, lst0_snoc in Hh. simpl in Hh.
    assert (CH 2 cap (dq_al d) ((i, Node [h; j] v) :: (h, Node [lst0 0 es0; i] u) :: (j, Node [i; fst0 0 es2] w) :: dseg 0 es0 h ++ dseg j es2 0)) as H0
      by (eapply CH_perm; [exact Hh|solve_Permutation]).
    apply wp_bind, dq_on_wp. eapply CH_clear_register; [exact H0|done|]. intros a1 H1.
    apply wp_bind, dq_on_wp. simpl. eapply CH_clear_register; [exact H1|done|]. intros a2 H2.
    rewrite (decide_True (P := h ≠ SENTINEL ∧ j ≠ SENTINEL)) by done.
    unfold setr, insertN in H2; simpl in H2.
    apply wp_bind, dq_on_wp. simpl.
    assert (CH 2 cap a2 ((h, Node [lst0 0 es0; i] u) :: (j, Node [i; fst0 0 es2] w) :: (i, Node [0; 0] v) :: dseg 0 es0 h ++ dseg j es2 0)) as H2'
      by (eapply CH_perm; [exact H2|solve_Permutation]).
    eapply CH_connect; [exact H2'|done..|].
    intros a3 H3. unfold setr, insertN in H3; simpl in H3.
    rewrite !fmap_app in Hnd. simpl in Hnd. rewrite <- app_assoc in Hnd. apply NoDup_app in Hnd as (_ & Hd1 & Hnd). simpl in Hnd.
    apply NoDup_cons in Hnd as [Hd2 Hnd]. apply NoDup_cons in Hnd as [Hd3 Hnd].
    apply wp_bind, wp_mget. simpl.
    rewrite (decide_False (P := i = dq_head d)); cycle 1.
    { rewrite Hhd, <- app_assoc. intros Hi. destruct es0 as [|[q z] es0]; simpl in Hi.
      - subst h. apply Hd2. set_solver.
      - subst q. apply (Hd1 i); set_solver. }
    apply wp_bind, wp_ret, wp_bind, wp_mget. simpl.
    rewrite (decide_False (P := i = dq_tail d)); cycle 1.
    { rewrite Htl, lst0_app. change (lst0 (lst0 0 (es0 ++ [(h, u)])) ((i, v) :: (j, w) :: es2)) with (lst0 i ((j, w) :: es2)).
      intros Hi. apply Hd3. change (j :: es2.*1) with (((j, w) :: es2).*1). rewrite Hi. by apply lst0_in. }
    apply wp_bind, wp_ret. apply wp_bind, dq_on_wp. simpl.
    assert (CH 2 cap a3 ((i, Node [0; 0] v) :: (h, Node [lst0 0 es0; j] u) :: (j, Node [h; fst0 0 es2] w) :: dseg 0 es0 h ++ dseg j es2 0)) as H3'
      by (eapply CH_perm; [exact H3|solve_Permutation]).
    eapply CH_remove_node; [exact _|exact H3'|]. intros a4 H4.
    apply wp_bind, wp_bump_seq; [done|]. apply wp_ret, HQ; [|done]. constructor; simpl.
    - rewrite !dseg_app, lst0_snoc. simpl. eapply CH_perm; [exact H4|solve_Permutation].
    - rewrite Hhd, <- !app_assoc. by destruct es0 as [|[]].
    - rewrite Htl, !lst0_app. done.
  Qed.
  Lemma remove_any_ok cap d i v es1 es2 (Q : option T → deque T → Prop) :
    DOK cap d (es1 ++ (i, v) :: es2) → seq_ok (dq_seqno d) →
    (∀ d', DOK cap d' (es1 ++ es2) → dq_seqno d' = (dq_seqno d + 1) mod W64 → Q (Some v) d') →
    wp (dq_remove i) d Q.
  Proof. clear GA.
    intros Ho Hs HQ. destruct es1 as [|e es1]; [by eapply remove_head_ok|].
    destruct es2 as [|[j w] es2].
    - rewrite app_nil_r in HQ. by eapply remove_tail_ok.
    - by eapply remove_mid_ok.
  Qed.

  Lemma DOK_len cap d es : DOK cap d es → dq_len d = lengthN es.
  Proof. clear GA GR. intros [Hh _ _]. unfold dq_len. rewrite (CH_size _ _ _ _ Hh). by rewrite dseg_length. Qed.
  Lemma DOK_empty cap d es : DOK cap d es → dq_is_empty d = match es with [] => true | _ => false end.
  Proof. clear GA GR.
    intros Ho%DOK_len. unfold dq_is_empty. rewrite Ho. destruct es; [done|].
    rewrite lengthN_cons. apply bool_decide_eq_false. lia.
  Qed.
  Lemma DOK_front cap d es : DOK cap d es → dq_front d = Val (snd <$> head es).
  Proof. clear GA GR.
    intros Ho. pose proof Ho as [_ Hhd _]. unfold dq_front. rewrite Hhd. destruct es as [|[i v] es]; [done|].
    pose proof (DOK_fst_nz _ _ _ Ho ltac:(done)). simpl in *. rewrite decide_False by done.
    destruct (dq_read _ _ [] _ _ _ Ho) as (Hv & _ & _). by rewrite Hv.
  Qed.
  Lemma DOK_back cap d es : DOK cap d es → dq_back d = Val (snd <$> last es).
  Proof. clear GA GR.
    intros Ho. pose proof Ho as [_ _ Htl]. unfold dq_back. rewrite Htl.
    destruct (snoc_case es) as [->|(es0 & i & v & ->)]; [done|].
    pose proof (DOK_lst_nz _ _ _ Ho ltac:(by destruct es0)) as Hnz. rewrite lst0_snoc in *.
    rewrite decide_False by done.
    destruct (dq_read _ _ _ _ _ _ Ho) as (Hv & _ & _). unfold dq_get_node in Hv.
    rewrite last_snoc. simpl. destruct (na_get (dq_al d) i); simpl in *; congruence.
  Qed.

  (** Iterators *)
  Definition IInv (it : dq_iter) (mid : list (N * T)) : Prop :=
    (mid = [] ∧ (dqi_terminated it = true ∨ (dqi_fwd_ptr it = 0 ∧ dqi_rev_ptr it = 0))) ∨
    (mid ≠ [] ∧ dqi_terminated it = false ∧ dqi_fwd_ptr it = fst0 0 mid ∧ dqi_rev_ptr it = lst0 0 mid).

  Lemma IInv_mk cap d es : DOK cap d es → IInv (dq_mk_iter d) es.
  Proof. clear GA GR. intros [_ Hhd Htl]. destruct es as [|e es]; [left; simpl; auto|right; done]. Qed.

  Lemma lst_ne cap d A i v j w mid B :
    DOK cap d (A ++ ((i, v) :: (j, w) :: mid) ++ B) → i ≠ lst0 0 ((j, w) :: mid).
  Proof. clear GA GR.
    intros Hnd%DOK_NoDup Hi. rewrite !fmap_app in Hnd.
    apply NoDup_app in Hnd as (_ & _ & Hnd). apply NoDup_app in Hnd as (Hnd & _ & _).
    simpl in Hnd. apply NoDup_cons in Hnd as [Hnd _]. apply Hnd. rewrite Hi. by apply (lst0_in 0 ((j, w) :: mid)).
  Qed.
  Lemma fst_ne cap d A i v mid B :
    mid ≠ [] → DOK cap d (A ++ (mid ++ [(i, v)]) ++ B) → i ≠ fst0 0 mid.
  Proof. clear GA GR.
    intros Hm Hnd%DOK_NoDup Hi. rewrite !fmap_app in Hnd.
    apply NoDup_app in Hnd as (_ & _ & Hnd). apply NoDup_app in Hnd as (Hnd & _ & _).
    apply NoDup_app in Hnd as (_ & Hnd & _). apply (Hnd i); [|simpl; set_solver].
    rewrite Hi. by apply fst0_in.
  Qed.

  Lemma iter_next_0 d it : IInv it [] → dq_iter_next d it = Val (None, it).
  Proof. clear GA GR.
    intros [[_ Hi]|[? _]]; [|done]. unfold dq_iter_next.
    destruct Hi as [->|[-> ->]]; [done|]. by destruct dqi_terminated.
  Qed.
  Lemma iter_back_0 d it : IInv it [] → dq_iter_next_back d it = Val (None, it).
  Proof. clear GA GR.
    intros [[_ Hi]|[? _]]; [|done]. unfold dq_iter_next_back.
    destruct Hi as [->|[-> ->]]; [done|]. by destruct dqi_terminated.
  Qed.

  (** What both kinds of iterator do on a non-empty rest *)
  Lemma IInv_front cap d it A i v mid B :
    DOK cap d (A ++ ((i, v) :: mid) ++ B) → IInv it ((i, v) :: mid) →
    dqi_terminated it = false ∧ dqi_fwd_ptr it = i ∧ i ≠ 0 ∧
    ∃ p, dq_get_next d i = Val p ∧ dq_get_node d i = Val v ∧
      IInv (DqIter p (dqi_rev_ptr it) (if decide (i = dqi_rev_ptr it) then true else dqi_terminated it)) mid.
  Proof. clear GA GR.
    intros Ho [[? _]|(_ & Ht & Hf & Hr)]; [done|]. simpl in Hf.
    assert (i ≠ 0) as Hnz by (eapply DOK_nz; [done|rewrite !fmap_app; simpl; set_solver]).
    split_and!; [done|done|done|].
    destruct (dq_read _ _ A i v (mid ++ B) Ho) as (Hv & Hnx & _).
    exists (fst0 0 (mid ++ B)). split_and!; [done|done|]. rewrite Ht.
    destruct mid as [|[j w] mid].
    - left. split; [done|]. left. simpl in *. by rewrite decide_True.
    - right. simpl. rewrite decide_False; [|rewrite Hr; exact (lst_ne _ _ _ _ _ _ _ _ _ Ho)]. split_and!; done.
  Qed.
  Lemma IInv_back cap d it A i v mid B :
    DOK cap d (A ++ (mid ++ [(i, v)]) ++ B) → IInv it (mid ++ [(i, v)]) →
    dqi_terminated it = false ∧ dqi_rev_ptr it = i ∧ i ≠ 0 ∧
    ∃ p, dq_get_prev d i = Val p ∧ dq_get_node d i = Val v ∧
      IInv (DqIter (dqi_fwd_ptr it) p (if decide (i = dqi_fwd_ptr it) then true else dqi_terminated it)) mid.
  Proof. clear GA GR.
    intros Ho [[? _]|(_ & Ht & Hf & Hr)]; [by destruct mid|]. rewrite lst0_snoc in Hr.
    assert (i ≠ 0) as Hnz by (eapply DOK_nz; [done|rewrite !fmap_app; simpl; set_solver]).
    split_and!; [done|done|done|].
    destruct (dq_read cap d (A ++ mid) i v B) as (Hv & _ & Hpv); [by rewrite <- !app_assoc in *|].
    exists (lst0 0 (A ++ mid)). split_and!; [done|done|]. rewrite Ht.
    destruct (snoc_case mid) as [->|(m0 & k & u & Hm)].
    - left. split; [done|]. left. simpl in *. by rewrite decide_True.
    - assert (mid ≠ []) as Hne by (rewrite Hm; by destruct m0).
      right. simpl. rewrite fst0_app in Hf. simpl in Hf.
      assert (fst0 i mid = fst0 0 mid) as Hfm by by destruct mid as [|[]].
      rewrite decide_False; [|rewrite Hf, Hfm; by eapply fst_ne]. split_and!; [done|done|by rewrite Hf|].
      rewrite Hm, lst0_app, !lst0_snoc. done.
  Qed.

  Lemma dq_iterate_ok cap d es sc : DOK cap d es → dq_iterate sc d = Val (de_spec sc es).
  Proof. clear GA GR.
    intros Ho. unfold dq_iterate.
    eapply (drive_ok _ _ (λ it mid, IInv it mid ∧ ∃ A B, es = A ++ mid ++ B)).
    - intros it [Hi Hs]. exists it. split; [by apply iter_next_0|done].
    - intros it [i v] mid [Hi (A & B & ->)].
      destruct (IInv_front _ _ _ _ _ _ _ _ Ho Hi) as (Ht & Hf & Hnz & p & Hp & Hv & Hi').
      eexists. split; [|split; [exact Hi'|]].
      + unfold dq_iter_next. rewrite Ht, Hf, decide_False by done. rewrite Hp. simpl. rewrite Hv. simpl. done.
      + exists (A ++ [(i, v)]), B. by rewrite <- !app_assoc.
    - intros it [Hi Hs]. exists it. split; [by apply iter_back_0|done].
    - intros it [i v] mid [Hi (A & B & ->)].
      destruct (IInv_back _ _ _ _ _ _ _ _ Ho Hi) as (Ht & Hf & Hnz & p & Hp & Hv & Hi').
      eexists. split; [|split; [exact Hi'|]].
      + unfold dq_iter_next_back. rewrite Ht, Hf, decide_False by done. rewrite Hp. simpl. rewrite Hv. simpl. done.
      + exists A, ((i, v) :: B). by rewrite <- !app_assoc.
    - split; [by eapply IInv_mk|]. exists [], []. by rewrite app_nil_r.
  Qed.

  (** Changing a value in place *)
  Lemma DOK_update cap d A i v B f (Q : T → deque T → Prop) :
    DOK cap d (A ++ (i, v) :: B) →
    (∀ d', DOK cap d' (A ++ (i, f v) :: B) → dq_seqno d' = dq_seqno d → Q v d') →
    wp (dq_on (na_raw_update i f)) d Q.
  Proof. clear GR.
    intros [Hh Hhd Htl] HQ. apply dq_on_wp. rewrite dseg_app in Hh. simpl in Hh.
    eapply CH_raw_update; [exact _|eapply CH_perm; [exact Hh|symmetry; apply Permutation_middle]|].
    intros a Ha. apply HQ; [|done]. constructor; simpl.
    - rewrite dseg_app. simpl. eapply CH_perm; [exact Ha|]. apply Permutation_middle.
    - rewrite Hhd, !fst0_app. done.
    - rewrite Htl, !lst0_app. done.
  Qed.

  Definition uent (f : T → T) (e : N * T) : N * T := (e.1, f e.2).
  Definition JInv cap sq (st : deque T * dq_iter) (P l B : list (N * T)) : Prop :=
    DOK cap st.1 (P ++ l ++ B) ∧ dq_seqno st.1 = sq ∧ IInv st.2 l.

  Lemma dq_iterate_mut_ok cap d es sc (Q : list (option (N * T)) → deque T → Prop) :
    DOK cap d es →
    (∀ d', DOK cap d' (de_mut_spec uent sc es).2 → dq_seqno d' = dq_seqno d → Q (de_mut_spec uent sc es).1 d') →
    wp (dq_iterate_mut sc) d Q.
  Proof. clear GR.
    intros Ho HQ.
    assert (wp (drive_mut dq_iter_mut_next dq_iter_mut_next_back sc) (d, dq_mk_iter d)
      (λ o s', o = (de_mut_spec uent sc es).1 ∧
      ∃ P' l' B', JInv cap (dq_seqno d) s' P' l' B' ∧ P' ++ l' ++ B' = [] ++ (de_mut_spec uent sc es).2 ++ [])) as Hw.
    { apply drive_mut_ok; clear Q HQ.
      - intros [d' it] P B f (Ho' & Hs & Hi). simpl in *. apply wp_bind, wp_mget. simpl.
        pose proof Hi as [[_ Hx]|[? _]]; [|done].
        destruct Hx as [->|[-> ->]]; [by apply wp_ret|]. destruct dqi_terminated; by apply wp_ret.
      - intros [d' it] P [i v] l B f (Ho' & Hs & Hi). simpl in *. apply wp_bind, wp_mget.
        destruct (IInv_front _ _ _ _ _ _ _ _ Ho' Hi) as (Ht & Hf & Hnz & p & Hp & Hv & Hi').
        rewrite Ht, Hf, decide_False by done. rewrite Ht in Hi'.
        apply wp_bind. eapply wp_lift; [exact Hp|]. apply wp_bind, wp_modify. simpl.
        apply wp_bind, wp_zoom. simpl. eapply DOK_update; [exact Ho'|]. intros d2 Ho2 Hs2. apply wp_ret.
        split; [done|]. split_and!; simpl; [|congruence|done]. by rewrite <- !app_assoc.
      - intros [d' it] P B f (Ho' & Hs & Hi). simpl in *. apply wp_bind, wp_mget. simpl.
        pose proof Hi as [[_ Hx]|[? _]]; [|done].
        destruct Hx as [->|[-> ->]]; [by apply wp_ret|]. destruct dqi_terminated; by apply wp_ret.
      - intros [d' it] P [i v] l B f (Ho' & Hs & Hi). simpl in *. apply wp_bind, wp_mget.
        destruct (IInv_back _ _ _ _ _ _ _ _ Ho' Hi) as (Ht & Hf & Hnz & p & Hp & Hv & Hi').
        rewrite Ht, Hf, decide_False by done. rewrite Ht in Hi'.
        apply wp_bind. eapply wp_lift; [exact Hp|]. apply wp_bind, wp_modify. simpl.
        apply wp_bind, wp_zoom. simpl.
        eapply (DOK_update cap d' (P ++ l) i v B); [by rewrite <- !app_assoc in *|].
        intros d2 Ho2 Hs2. apply wp_ret.
        split; [done|]. split_and!; simpl; [|congruence|done]. by rewrite <- !app_assoc in Ho2.
      - split_and!; simpl; [by rewrite app_nil_r|done|by eapply IInv_mk]. }
    apply wp_elim in Hw as (o & [d' it'] & He & -> & P' & l' & B' & (Ho' & Hs' & _) & Hl).
    unfold wp, dq_iterate_mut. rewrite He. apply HQ; [|done].
    simpl in Hl, Ho'. rewrite app_nil_r in Hl. by rewrite <- Hl.
  Qed.

End Dq.

Section Dqh.
  Context `{Profile} {T : Type}.
  Implicit Types es : list (N * T).
  Implicit Types d : deque T.

  Lemma dq_new_ok ms (v : T) : N.of_nat ms + 1 < W32 → DOK (N.of_nat ms) (dq_new ms v) [].
  Proof. intros. constructor; [|done..]. by apply CH_new; [|done|lia]. Qed.

  (** ** The simulation *)
  Definition DSim cap (s : list T * N) d : Prop :=
    dq_seqno d = s.2 mod W64 ∧ ∃ es, DOK cap d es ∧ map snd es = s.1.
  (** The pushes and pops that succeed must not overflow the sequence number, or overflow must wrap *)
  Definition seq_room (n : N) : Prop := overflow_checks = true → n + 1 < W64.

  Lemma seq_room_ok n : seq_room n → seq_ok (n mod W64).
  Proof.
    intros Hr. split; [by apply N.mod_lt|]. intros Hc. specialize (Hr Hc). rewrite N.mod_small; lia.
  Qed.
  Lemma seq_next n : (n mod W64 + 1) mod W64 = (n + 1) mod W64.
  Proof. by rewrite N.add_mod_idemp_l. Qed.

  Lemma dq_step_sim cap o s d :
    DSim cap s d → seq_room s.2 →
    (call (dq_step o) d).1 = (dq_spec cap o s).1 ∧ DSim cap (dq_spec cap o s).2 (call (dq_step o) d).2.
  Proof.
    destruct s as [l n]. intros (Hsq & es & Ho & He) Hr. simpl in Hsq, He, Hr.
    assert (lengthN l = lengthN es) as Hlen by (rewrite <- He; unfold lengthN; by rewrite map_length).
    pose proof (seq_room_ok _ Hr) as Hso. rewrite <- Hsq in Hso.
    assert (∀ x (Q : deque T → Prop), wp (dq_step o) d (λ y d', y = x ∧ Q d') →
      (call (dq_step o) d).1 = Val x ∧ Q (call (dq_step o) d).2) as Hcall.
    { intros x Q Hw. destruct (call_wp _ _ _ Hw) as (? & ? & -> & -> & ?). done. }
    destruct o; simpl.
    - case_decide as Hc.
      + apply (Hcall DUnit (DSim cap (v :: l, n + 1))). apply wp_bind.
        eapply push_front_ok; [done|lia|done|]. intros i d' Ho' Hs'. apply wp_ret. split; [done|].
        split; simpl; [by rewrite Hs', Hsq, seq_next|]. exists ((i, v) :: es). simpl. by rewrite He.
      + destruct (push_full cap d es v) as [_ Hp]; [done| |].
        { destruct Ho as [Hh _ _]. apply CH_len_le in Hh. rewrite dseg_length in Hh. lia. }
        rewrite (call_fail _ _ Panic d); [simpl; split; [done|split; eauto]|].
        unfold mbind, M_bind. by rewrite Hp.
    - case_decide as Hc.
      + apply (Hcall DUnit (DSim cap (l ++ [v], n + 1))). apply wp_bind.
        eapply push_back_ok; [done|lia|done|]. intros i d' Ho' Hs'. apply wp_ret. split; [done|].
        split; simpl; [by rewrite Hs', Hsq, seq_next|]. exists (es ++ [(i, v)]). split; [done|].
        rewrite map_app, He. done.
      + destruct (push_full cap d es v) as [Hp _]; [done| |].
        { destruct Ho as [Hh _ _]. apply CH_len_le in Hh. rewrite dseg_length in Hh. lia. }
        rewrite (call_fail _ _ Panic d); [simpl; split; [done|split; eauto]|].
        unfold mbind, M_bind. by rewrite Hp.
    - pose proof Ho as [_ Hhd _]. destruct es as [|[i v] es]; simpl in He; subst l.
      + apply (Hcall (DVal None) (DSim cap ([], n))). apply wp_bind, wp_bind, wp_mget.
        rewrite Hhd, decide_True by done. apply wp_ret, wp_ret. split; [done|]. split; eauto.
      + apply (Hcall (DVal (Some v)) (DSim cap (map snd es, n + 1))). apply wp_bind, wp_bind, wp_mget.
        rewrite Hhd. simpl. rewrite decide_False by (eapply (DOK_fst_nz _ _ _ Ho); done).
        eapply remove_head_ok; [done|done|]. intros d' Ho' Hs'. apply wp_ret. split; [done|].
        split; simpl; [by rewrite Hs', Hsq, seq_next|]. eauto.
    - pose proof Ho as [_ _ Htl]. rewrite <- He, unsnoc_map.
      destruct (unsnoc es) as [[es' [i v]]|] eqn:E.
      + apply unsnoc_Some in E as ->. simpl.
        apply (Hcall (DVal (Some v)) (DSim cap (map snd es', n + 1))). apply wp_bind, wp_bind, wp_mget.
        rewrite Htl, lst0_snoc.
        rewrite decide_False by (rewrite <- (lst0_snoc 0 es' i v); eapply (DOK_lst_nz _ _ _ Ho); by destruct es').
        eapply remove_tail_ok; [done|done|]. intros d' Ho' Hs'. apply wp_ret. split; [done|].
        split; simpl; [by rewrite Hs', Hsq, seq_next|]. eauto.
      + apply unsnoc_None in E as ->. simpl.
        apply (Hcall (DVal None) (DSim cap ([], n))). apply wp_bind, wp_bind, wp_mget.
        rewrite Htl, decide_True by done. apply wp_ret, wp_ret. split; [done|]. split; eauto.
    - apply (Hcall (DVal (head l)) (DSim cap (l, n))). apply wp_bind.
      eapply wp_gets; [by eapply DOK_front|]. apply wp_ret. split; [|split; eauto].
      rewrite <- He. by destruct es.
    - apply (Hcall (DVal (last l)) (DSim cap (l, n))). apply wp_bind.
      eapply wp_gets; [by eapply DOK_back|]. apply wp_ret. split; [|split; eauto].
      rewrite <- He. by rewrite <- fmap_last.
    - apply (Hcall (DNum (lengthN l)) (DSim cap (l, n))). apply wp_bind, wp_mget, wp_ret.
      rewrite (DOK_len _ _ _ Ho), Hlen. split; [done|]. split; eauto.
    - apply (Hcall (DBool _) (DSim cap (l, n))). apply wp_bind, wp_mget, wp_ret.
      rewrite (DOK_empty _ _ _ Ho), <- He. split; [by destruct es|]. split; eauto.
    - apply (Hcall (DList _) (DSim cap (l, n))). apply wp_bind. eapply wp_gets; [by eapply dq_iterate_ok|].
      apply wp_ret. unfold no_index. rewrite de_spec_map, He. split; [done|]. split; eauto.
    - rewrite <- He, (de_mut_spec_map snd uent (λ f x, f x)) by done. simpl.
      apply (Hcall (DList _) (DSim cap (_, n))). apply wp_bind. eapply dq_iterate_mut_ok; [done|].
      intros d' Ho' Hs'. apply wp_ret. split; [done|]. split; simpl; [congruence|]. eauto.
  Qed.

  (** The hypothesis on the sequence number, along a history *)
  Lemma dq_spec_count cap o (s : list T * N) : (dq_spec cap o s).2.2 ≤ s.2 + 1.
  Proof.
    destruct s as [l n], o; simpl; repeat case_decide; simpl; try lia.
    - destruct l; simpl; lia.
    - destruct (unsnoc l) as [[]|]; simpl; lia.
    - destruct (de_mut_spec _ script l); simpl; lia.
  Qed.
  Lemma dq_allowed cap ops (s : list T * N) :
    (overflow_checks = true → s.2 + lengthN ops < W64) → allowed (dq_spec cap) (λ _ s, seq_room s.2) ops s.
  Proof.
    revert s. induction ops as [|o ops IH]; intros s Hs; simpl; [done|]. split.
    - intros Hc. specialize (Hs Hc). rewrite lengthN_cons in Hs. lia.
    - apply IH. intros Hc. specialize (Hs Hc). pose proof (dq_spec_count cap o s). rewrite lengthN_cons in Hs. lia.
  Qed.
  Lemma dq_history_ok ms v ops :
    N.of_nat ms + 1 < W32 → (overflow_checks = true → lengthN ops < W64) →
    (history dq_step ops (dq_new ms v)).1 = (spec_history (dq_spec (N.of_nat ms)) ops ([], 0)).1 ∧
    DSim (N.of_nat ms) (spec_history (dq_spec (N.of_nat ms)) ops ([], 0)).2 (history dq_step ops (dq_new ms v)).2.
  Proof.
    intros Hw Hc. apply (sim_history dq_step (dq_spec (N.of_nat ms)) (DSim (N.of_nat ms)) (λ _ s, seq_room s.2)).
    - intros o a s. apply dq_step_sim.
    - split; [done|]. exists []. split; [by apply dq_new_ok|done].
    - apply dq_allowed. done.
  Qed.

  (** ** The statements used in DequeProps *)
  Lemma DOK_links cap d es k i v :
    DOK cap d es → es !! k = Some (i, v) →
    dq_get_node d i = Val v ∧ dq_get_next d i = Val (default SENTINEL (es.*1 !! S k)) ∧
    dq_get_prev d i = Val (match k with O => SENTINEL | S k' => default SENTINEL (es.*1 !! k') end).
  Proof.
    intros Ho Hk. apply take_drop_middle in Hk as Hsplit.
    assert (length (take k es) = k) as Hlk by (apply take_length_le; apply lookup_lt_Some in Hk; lia).
    rewrite <- Hsplit in Ho. destruct (dq_read _ _ _ _ _ _ Ho) as (Hv & Hn & Hp).
    split_and!; [done|..].
    - rewrite Hn. f_equal. rewrite list_lookup_fmap. rewrite <- (Nat.add_0_r (S k)) at 2. rewrite <- lookup_drop. by destruct (drop (S k) es) as [|[]].
    - rewrite Hp. f_equal. destruct k as [|k]; [done|]. rewrite list_lookup_fmap.
      assert (∃ e, es !! k = Some e) as [[j w] Hj] by (apply lookup_lt_is_Some; apply lookup_lt_Some in Hk; lia).
      rewrite Hj. simpl. erewrite take_S_r by done. by rewrite lst0_snoc.
  Qed.
  Lemma fst0_head es : fst0 0 es = default SENTINEL (head es.*1).
  Proof. by destruct es as [|[]]. Qed.
  Lemma lst0_last es : lst0 0 es = default SENTINEL (last es.*1).
  Proof.
    destruct (snoc_case es) as [->|(es0 & i & v & ->)]; [done|]. rewrite lst0_snoc, fmap_app. simpl. by rewrite last_snoc.
  Qed.

  (** Facts about the state after a history *)
  Section after.
    Context (ms : nat) (v : T) (ops : list (dq_op T)).
    Hypothesis Hw : N.of_nat ms + 1 < W32.
    Let d := (history dq_step ops (dq_new ms v)).2.
    Let st := (spec_history (dq_spec (N.of_nat ms)) ops ([], 0)).2.
    Hypothesis Hf : overflow_checks = true → lengthN ops < W64.

    Lemma after_inv : ∃ es, DOK (N.of_nat ms) d es ∧ es.*2 = st.1.
    Proof using Hw Hf. destruct (dq_history_ok ms v ops Hw Hf) as [_ (_ & es & Ho & He)]. eauto. Qed.

    Lemma iter_entries :
      ∃ es : list (N * T), es.*2 = st.1 ∧ NoDup es.*1 ∧
        (∀ i x, (i, x) ∈ es → dq_get_node d i = Val x) ∧
        ∀ script, dq_iterate script d = Val (de_spec script es).
    Proof using Hw Hf.
      destruct after_inv as (es & Ho & He). exists es. split_and!; [done|by eapply DOK_NoDup| |].
      - intros i x Hin. apply elem_of_list_split in Hin as (e1 & e2 & ->).
        by destruct (dq_read _ _ _ _ _ _ Ho) as (? & _ & _).
      - intros sc. by eapply dq_iterate_ok.
    Qed.

    Lemma iter_mut_entries script :
      ∃ (es : list (N * T)) d', es.*2 = st.1 ∧ NoDup es.*1 ∧
        let '(out, es') := de_mut_spec (λ f e, (e.1, f e.2)) script es in
        dq_iterate_mut script d = Ret out d' ∧
        NoDup (map fst (omap id out)) ∧ es'.*1 = es.*1 ∧
        dq_seqno d' = dq_seqno d ∧ dq_len d' = dq_len d ∧
        ∀ script', dq_iterate script' d' = Val (de_spec script' es').
    Proof using Hw Hf.
      destruct after_inv as (es & Ho & He).
      pose proof (dq_iterate_mut_ok _ _ _ script (λ o d', o = (de_mut_spec uent script es).1 ∧
        DOK (N.of_nat ms) d' (de_mut_spec uent script es).2 ∧ dq_seqno d' = dq_seqno d) Ho) as Hm.
      destruct (wp_elim _ _ _ (Hm ltac:(done))) as (o & d' & Heq & -> & Ho' & Hs').
      exists es, d'. split_and!; [done|by eapply DOK_NoDup|].
      change (λ (f : T → T) (e : N * T), (e.1, f e.2)) with (uent (T:=T)).
      pose proof (de_mut_spec_out uent script es) as Hout.
      pose proof (de_mut_spec_keys uent fst script es ltac:(done)) as Hk.
      destruct (de_mut_spec uent script es) as [out es'] eqn:E. simpl in *. subst out.
      split_and!; [done| |done|done| |].
      - apply de_spec_NoDup. by eapply DOK_NoDup.
      - rewrite (DOK_len _ _ _ Ho), (DOK_len _ _ _ Ho'). unfold lengthN.
        rewrite <- (map_length fst es), <- Hk. by rewrite map_length.
      - intros sc. by eapply dq_iterate_ok.
    Qed.

    Lemma links_entries :
      ∃ is : list N,
        NoDup is ∧ SENTINEL ∉ is ∧ length is = length st.1 ∧
        dq_head d = default SENTINEL (head is) ∧ dq_tail d = default SENTINEL (last is) ∧
        ∀ k i, is !! k = Some i →
          (∃ x, st.1 !! k = Some x ∧ dq_get_node d i = Val x) ∧
          dq_get_next d i = Val (default SENTINEL (is !! S k)) ∧
          dq_get_prev d i = Val (match k with O => SENTINEL | S k' => default SENTINEL (is !! k') end).
    Proof using Hw Hf.
      destruct after_inv as (es & Ho & He). exists es.*1. split_and!.
      - by eapply DOK_NoDup.
      - intros Hin. by eapply DOK_nz in Hin.
      - rewrite <- He. by rewrite !fmap_length.
      - rewrite (d_head _ _ _ Ho). apply fst0_head.
      - rewrite (d_tail _ _ _ Ho). apply lst0_last.
      - intros k i Hi. rewrite list_lookup_fmap in Hi. destruct (es !! k) as [[i' x]|] eqn:Hk; [|done].
        simpl in Hi. injection Hi as <-.
        destruct (DOK_links _ _ _ _ _ _ Ho Hk) as (Hn & Hx & Hp). simpl. split_and!; [|done|done].
        exists x. split; [|done]. by rewrite <- He, list_lookup_fmap, Hk.
    Qed.

    Lemma head_tail_empty :
      (dq_head d = SENTINEL ↔ st.1 = []) ∧ (dq_tail d = SENTINEL ↔ st.1 = []) ∧
      (dq_is_empty d = true ↔ st.1 = []).
    Proof using Hw Hf.
      destruct after_inv as (es & Ho & He). rewrite (DOK_empty _ _ _ Ho), (d_head _ _ _ Ho), (d_tail _ _ _ Ho), <- He.
      destruct es as [|e es]; [done|].
      pose proof (DOK_fst_nz _ _ _ Ho ltac:(done)). pose proof (DOK_lst_nz _ _ _ Ho ltac:(done)).
      naive_solver.
    Qed.
  End after.

  Lemma push_room ms (v : T) ops x :
    N.of_nat ms + 1 < W32 → (overflow_checks = true → lengthN (ops ++ [DPushBack x]) < W64) →
    let d := (history dq_step ops (dq_new ms v)).2 in
    dq_len d < N.of_nat ms →
    (∃ d', dq_push_back x d = Ret () d' ∧ dq_len d' = dq_len d + 1) ∧
    (∃ d', dq_push_front x d = Ret () d' ∧ dq_len d' = dq_len d + 1).
  Proof.
    intros Hw Hf d Hlen.
    assert (overflow_checks = true → lengthN ops + 1 < W64) as Hf'.
    { intros Hc. specialize (Hf Hc). rewrite lengthN_app in Hf. exact Hf. }
    destruct (dq_history_ok ms v ops Hw) as [_ (Hs & es & Ho & He)]; [intros Hc; specialize (Hf' Hc); lia|].
    fold d in Hs, Ho. rewrite (DOK_len _ _ _ Ho) in *.
    assert (∀ cap ops (s : list T * N), (spec_history (dq_spec cap) ops s).2.2 ≤ s.2 + lengthN ops) as Hcnt.
    { clear. intros cap ops. induction ops as [|o ops IH]; intros s; simpl; [lia|].
      pose proof (dq_spec_count cap o s). destruct (dq_spec cap o s) as [r s'].
      specialize (IH s'). destruct (spec_history (dq_spec cap) ops s'). rewrite lengthN_cons. simpl in *. lia. }
    assert (seq_ok (dq_seqno d)) as Hso.
    { rewrite Hs. apply seq_room_ok. intros Hc. specialize (Hf' Hc).
      specialize (Hcnt (N.of_nat ms) ops ([], 0)). simpl in Hcnt. lia. }
    split.
    - edestruct (wp_elim (dq_push_back x) d (λ _ d', dq_len d' = lengthN es + 1)) as ([] & d' & ? & ?); [|by eauto].
      eapply push_back_ok; [done|done|done|]. intros i d' Ho' _. rewrite (DOK_len _ _ _ Ho').
      by rewrite lengthN_app.
    - edestruct (wp_elim (dq_push_front x) d (λ _ d', dq_len d' = lengthN es + 1)) as ([] & d' & ? & ?); [|by eauto].
      eapply push_front_ok; [done|done|done|]. intros i d' Ho' _. rewrite (DOK_len _ _ _ Ho').
      by rewrite lengthN_cons.
  Qed.
  Lemma remove_any_history ms (v : T) ops :
    N.of_nat ms + 1 < W32 → (overflow_checks = true → lengthN ops + 1 < W64) →
    let d := (history dq_step ops (dq_new ms v)).2 in
    let '(l, n) := (spec_history (dq_spec (N.of_nat ms)) ops ([], 0)).2 in
    ∃ es : list (N * T), es.*2 = l ∧
      (∀ script, dq_iterate script d = Val (de_spec script es)) ∧
      ∀ k i x, es !! k = Some (i, x) → ∃ d', dq_remove i d = Ret (Some x) d' ∧
        (∀ script, dq_iterate script d' = Val (de_spec script (delete k es))) ∧
        ∀ ops', (overflow_checks = true → lengthN ops + 1 + lengthN ops' < W64) →
          (history dq_step ops' d').1 = (spec_history (dq_spec (N.of_nat ms)) ops' (delete k l, n + 1)).1.
  Proof.
    intros Hw Hf.
    destruct (dq_history_ok ms v ops Hw ltac:(intros Hc; specialize (Hf Hc); lia)) as [_ Hd].
    assert ((spec_history (dq_spec (N.of_nat ms)) ops ([], 0)).2.2 ≤ lengthN ops) as Hn.
    { assert (∀ ops s, (spec_history (dq_spec (T:=T) (N.of_nat ms)) ops s).2.2 ≤ s.2 + lengthN ops) as Hg.
      { clear. induction ops as [|o ops IH]; intros s; [simpl; lia|]. rewrite lengthN_cons. simpl.
        specialize (IH (dq_spec (N.of_nat ms) o s).2). pose proof (dq_spec_count (N.of_nat ms) o s).
        destruct (dq_spec _ o s) as [r s']; simpl in *. destruct (spec_history _ ops s') as [rs s'']; simpl in *. lia. }
      apply (Hg ops ([], 0)). }
    cbn zeta. destruct (spec_history _ ops _).2 as [l n]. simpl in Hn. set (d := (history _ _ _).2) in *.
    destruct Hd as (Hsq & es & Ho & He). simpl in *. exists es. split; [done|]. split; [intros; by eapply dq_iterate_ok|].
    intros k i x Hk. pose proof (take_drop_middle _ _ _ Hk) as Hsp.
    assert (seq_ok (dq_seqno d)) as Hso.
    { rewrite Hsq. split; [by apply N.mod_lt|]. intros Hc. specialize (Hf Hc). rewrite N.mod_small by lia. lia. }
    rewrite <- Hsp in Ho.
    destruct (wp_elim _ _ _ (remove_any_ok _ _ _ _ _ _
      (λ r d', r = Some x ∧ DOK (N.of_nat ms) d' (take k es ++ drop (S k) es) ∧ dq_seqno d' = (dq_seqno d + 1) mod W64) Ho Hso
      (λ d' H1 H2, conj eq_refl (conj H1 H2)))) as (r & d' & E & -> & Ho' & Hs').
    rewrite <- delete_take_drop in Ho'.
    exists d'. split; [done|]. split; [intros; by eapply dq_iterate_ok|].
    intros ops' Hf'. refine (proj1 (sim_history dq_step (dq_spec (N.of_nat ms)) (DSim (N.of_nat ms)) (λ _ s, seq_room s.2) _ ops' _ _ _ _)).
    - intros o a s. apply dq_step_sim.
    - split; simpl.
      + rewrite Hs', Hsq. by rewrite N.add_mod_idemp_l.
      + exists (delete k es). split; [done|]. rewrite <- He. by rewrite !delete_take_drop, fmap_app, fmap_take, fmap_drop.
    - apply dq_allowed. simpl. intros Hc. specialize (Hf' Hc). lia.
  Qed.
End Dqh.
