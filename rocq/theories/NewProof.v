(** * When exactly [new_from_slice] succeeds: proofs *)
From Verif Require Export BytesMain.
Local Open Scope nat_scope.

Section exact.
  Context `{Profile}.
  Lemma on_bytes_ret {A B} (c : codec A) addr (m : M A B) data r :
    (∃ d', on_bytes c addr m data = Ret r d') ↔
      size_of c ≤ length data ∧ addr mod align_of c = 0 ∧ ∃ s', m (held c data) = Ret r s'.
  Proof.
    unfold on_bytes, load, held. destruct (decide (length data < l_size (c_lay c))) as [Hd|Hd].
    { split; [by intros [??]|]. lia. }
    destruct (decide (addr mod l_align (c_lay c) = 0)) as [Ha|Ha].
    - destruct (m _) as [r' s'|e s'] eqn:Em.
      + split; [intros [d' E]; injection E as -> _; eauto with lia|]. intros (_ & _ & s'' & E). injection E as -> _. eauto.
      + split; [by intros [??]|]. by intros (_ & _ & ? & ?).
    - split; [by intros [??]|]. tauto.
  Qed.
  Lemma massert_ret {S B} b (m : M S B) s r :
    (∃ s', (massert b;; m) s = Ret r s') ↔ b = true ∧ ∃ s', m s = Ret r s'.
  Proof. destruct b; cbn; [by split; [|intros [_ ?]]|]. split; [by intros [??]|by intros [??]]. Qed.
  Lemma initialize_ret {T} (a : alloc T) : (∃ a', na_initialize a = Ret () a') ↔ virgin a.
  Proof.
    unfold na_initialize, virgin, mbind, M_bind, mget. destruct (decide _) as [Hd|Hd]; cbn; [by split; eauto|]. split; [by intros [??]|done].
  Qed.
  Lemma zoom_ret {S U A} (g : S → U) u (m : M U A) s r : (∃ s', zoom g u m s = Ret r s') ↔ ∃ x, m (g s) = Ret r x.
  Proof.
    unfold zoom. destruct (m (g s)) as [r' x|]; [|by split; intros [??]].
    split; intros [? E]; injection E as -> _; eauto.
  Qed.
  Lemma inner_proper_iff {T} ms nr (ct : codec T) ls ls' addr :
    lay_ok (c_lay ct) → Forall (λ l, al_ok (l_align l)) (ls ++ ls') →
    addr mod l_align (struct_lay (ls ++ c_lay (c_alloc ms nr ct) :: ls')) = 0 →
    na_proper nr (c_lay ct) (addr + off_after ls (c_lay (c_alloc ms nr ct))) = true ↔ alloc_fits nr (c_lay ct).
  Proof.
    intros Hl Ha Hd. apply na_proper_fits; [done|]. rewrite <- (alloc_align' ms nr ct) by done.
    eapply inner_aligned; [|exact Hd]. apply Forall_app in Ha as [Ha1 Ha2]. apply Forall_app. split; [done|]. constructor; [|done].
    by apply alloc_lay_ok.
  Qed.

  Lemma nfs_generic {A T} (c : codec A) (g : A → alloc T) u b (P : Prop) addr data :
    (addr mod align_of c = 0 → b = true ↔ P) →
    (∃ data', on_bytes c addr (massert b;; zoom g u na_initialize) data = Ret () data') ↔
      size_of c ≤ length data ∧ addr mod align_of c = 0 ∧ P ∧ virgin (g (held c data)).
  Proof.
    intros Hp. rewrite on_bytes_ret, massert_ret, zoom_ret, initialize_ret. apply and_iff_compat_l. split.
    - intros (Ha & Hb & Hv). split_and!; [done|by apply Hp|done..].
    - intros (Ha & Hb & Hv). split_and!; [done|by apply Hp|done..].
  Qed.

  Lemma nfs_generic2 {A T U} (c : codec A) (g : A → alloc T) u (g' : A → alloc U) u' b b' (P P' : Prop) addr data :
    (∀ x s, g' (u x s) = g' s) →
    (addr mod align_of c = 0 → (b = true ↔ P) ∧ (b' = true ↔ P')) →
    (∃ data', on_bytes c addr (massert b;; zoom g u na_initialize;; massert b';; zoom g' u' na_initialize) data = Ret () data') ↔
      size_of c ≤ length data ∧ addr mod align_of c = 0 ∧ P ∧ P' ∧ virgin (g (held c data)) ∧ virgin (g' (held c data)).
  Proof.
    intros Hu Hp. rewrite on_bytes_ret, massert_ret. apply and_iff_compat_l.
    generalize (held c data). intros s.
    assert ((∃ s', (zoom g u na_initialize;; massert b';; zoom g' u' na_initialize) s = Ret () s') ↔ virgin (g s) ∧ b' = true ∧ virgin (g' s)) as ->.
    { rewrite <- initialize_ret. unfold mbind at 1, M_bind at 1, zoom at 1. destruct (na_initialize (g s)) as [[] x|].
      - rewrite massert_ret, zoom_ret, initialize_ret, Hu. split; [intros [??]; split; [by eexists|done]|tauto].
      - split; [by intros [??]|]. by intros [[??] _]. }
    split.
    - intros (Ha & Hb & Hv & Hb' & Hv'). destruct (Hp Ha) as [H1 H2]. tauto.
    - intros (Ha & Hb & Hb' & Hv & Hv'). destruct (Hp Ha) as [H1 H2]. tauto.
  Qed.

  Context {T K V : Type} (ct : codec T) (ck : codec K) (cv : codec V).
  Context (Lt : lay_ok (c_lay ct)) (Lk : lay_ok (c_lay ck)) (Lv : lay_ok (c_lay cv)) (ms addr : nat) (data : bytes).
  Lemma dq_inner :
    addr mod align_of (c_deque ms ct) = 0 → na_proper 2 (c_lay ct) (addr + dq_al_off ms ct) = true ↔ alloc_fits 2 (c_lay ct).
  Proof using Lt.
    intros Ha. apply (inner_proper_iff ms 2 ct [Lay 8 8; Lay 4 4; Lay 4 4] [] addr); [done|al|exact Ha].
  Qed.
  Lemma dq_nfs_exact :
    (∃ data', dq_new_from_slice ms ct addr data = Ret () data') ↔
      size_of (c_deque ms ct) ≤ length data ∧ addr mod align_of (c_deque ms ct) = 0 ∧
      alloc_fits 2 (c_lay ct) ∧ virgin (dq_al (held (c_deque ms ct) data)).
  Proof using Lt.
    unfold dq_new_from_slice. 
    refine (nfs_generic _ _ _ _ _ addr data _). exact (dq_inner ).
  Qed.
  Lemma ht_inner nb :
    addr mod align_of (c_hash nb ms ck cv) = 0 → na_proper 4 (c_lay (c_pair ck cv)) (addr + ht_al_off nb ms ck cv) = true ↔ alloc_fits 4 (c_lay (c_pair ck cv)).
  Proof using Lk Lv.
    intros Ha. apply (inner_proper_iff ms 4 (c_pair ck cv) [array_lay nb (Lay 4 4)] [] addr); [by apply pair_lay_ok|al|exact Ha].
  Qed.
  Lemma ht_nfs_exact nb :
    (∃ data', ht_new_from_slice nb ms ck cv addr data = Ret () data') ↔
      nb mod 2 = 0 ∧ size_of (c_hash nb ms ck cv) ≤ length data ∧ addr mod align_of (c_hash nb ms ck cv) = 0 ∧
      alloc_fits 4 (c_lay (c_pair ck cv)) ∧ virgin (ht_al (held (c_hash nb ms ck cv) data)).
  Proof using Lk Lv.
    unfold ht_new_from_slice. rewrite massert_ret, bool_decide_eq_true. apply and_iff_compat_l.
    refine (nfs_generic _ _ _ _ _ addr data _). exact (ht_inner nb ).
  Qed.
  Lemma rb_inner :
    addr mod align_of (c_rb ms ck cv) = 0 → na_proper 4 (c_lay (c_pair ck cv)) (addr + rb_al_off ms ck cv) = true ↔ alloc_fits 4 (c_lay (c_pair ck cv)).
  Proof using Lk Lv.
    intros Ha. apply (inner_proper_iff ms 4 (c_pair ck cv) [Lay 4 4; array_lay 3 (Lay 4 4)] [] addr); [by apply pair_lay_ok|al|exact Ha].
  Qed.
  Lemma rb_nfs_exact :
    (∃ data', rb_new_from_slice ms ck cv addr data = Ret () data') ↔
      rb_fits (c_lay ck) (c_lay cv) ∧ size_of (c_rb ms ck cv) ≤ length data ∧ addr mod align_of (c_rb ms ck cv) = 0 ∧
      alloc_fits 4 (c_lay (c_pair ck cv)) ∧ virgin (rb_al (held (c_rb ms ck cv) data)).
  Proof using Lk Lv.
    unfold rb_new_from_slice. rewrite massert_ret, rb_proper_fits by done. apply and_iff_compat_l.
    refine (nfs_generic _ _ _ _ _ addr data _). exact (rb_inner ).
  Qed.
  Lemma av_inner :
    addr mod align_of (c_avl ms ck cv) = 0 → na_proper 4 (c_lay (c_pair ck cv)) (addr + av_al_off ms ck cv) = true ↔ alloc_fits 4 (c_lay (c_pair ck cv)).
  Proof using Lk Lv.
    intros Ha. apply (inner_proper_iff ms 4 (c_pair ck cv) [Lay 8 8] [] addr); [by apply pair_lay_ok|al|exact Ha].
  Qed.
  Lemma av_nfs_exact :
    (∃ data', av_new_from_slice ms ck cv addr data = Ret () data') ↔
      size_of (c_avl ms ck cv) ≤ length data ∧ addr mod align_of (c_avl ms ck cv) = 0 ∧
      alloc_fits 4 (c_lay (c_pair ck cv)) ∧ virgin (av_al (held (c_avl ms ck cv) data)).
  Proof using Lk Lv.
    unfold av_new_from_slice. 
    refine (nfs_generic _ _ _ _ _ addr data _). exact (av_inner ).
  Qed.
  Lemma cb_nfs_exact a128 nn :
    a128 = 8 ∨ a128 = 16 →
    (∃ data', cb_new_from_slice a128 nn ms cv addr data = Ret () data') ↔
      2 * ms ≤ nn ∧ size_of (c_crit a128 nn ms cv) ≤ length data ∧ addr mod align_of (c_crit a128 nn ms cv) = 0 ∧
      alloc_fits 4 (c_lay cv) ∧
      virgin (cb_nodes (held (c_crit a128 nn ms cv) data)) ∧ virgin (cb_leaves (held (c_crit a128 nn ms cv) data)).
  Proof using Lv.
    intros H128. destruct (cnode_lay_ok _ H128) as [Hc1 Hc2].
    unfold cb_new_from_slice. rewrite massert_ret, bool_decide_eq_true. apply and_iff_compat_l.
    rewrite (nfs_generic2 (c_crit a128 nn ms cv) cb_nodes set_cnodes cb_leaves set_cleaves _ _ True (alloc_fits 4 (c_lay cv)) addr data);
      [tauto|done|].
    intros Ha. split.
    - split; [done|]. intros _.
      apply (inner_proper_iff nn 4 (c_cnode a128) [Lay 8 8; Lay 4 4; Lay 4 4] [c_lay (c_alloc ms 4 cv)] addr); [done| |exact Ha|done].
      repeat constructor; simpl; [by exists 3|by exists 2|by exists 2|by apply (alloc_lay_ok ms 4 cv)].
    - apply (inner_proper_iff ms 4 cv [Lay 8 8; Lay 4 4; Lay 4 4; c_lay (c_alloc nn 4 (c_cnode a128))] [] addr); [done| |exact Ha].
      repeat constructor; simpl; [by exists 3|by exists 2|by exists 2|by apply (alloc_lay_ok nn 4 (c_cnode a128))].
  Qed.
End exact.
