(** * Reloading, initialising and laying out structures in bytes *)
From Verif Require Export BytesProof.
Local Open Scope nat_scope.


(** ** Structures within their Rust types have encodings *)
Section wf.
  Context `{Profile}.
  Lemma ta_wf {T} `{Ty T} (ct : codec T) nr ms a :
    (∀ x, ty x → c_wf ct x) → (N.of_nat ms + 1 < W32)%N → TA nr ms a → c_wf (c_alloc ms nr ct) a.
  Proof.
    intros Hx Hw [Hl Hb Hf Hs Hn]. split; [split; [split|]|]; cbn [f_one f_wf c_wf c_u32 c_u64 c_uint fst snd c_array].
    - by rewrite pow_W64.
    - rewrite pow_W32. lia.
    - by rewrite pow_W32.
    - split; [done|]. eapply Forall_impl; [exact Hn|]. intros [rs v] (Hl' & Hr & Hv). split; cbn [f_one f_wf c_wf fst snd c_array].
      + split; [done|]. exact Hr.
      + by apply Hx.
  Qed.
  Lemma elt_pair {K V} (ck : codec K) (cv : codec V) : elt_ok ck → elt_ok cv → elt_ok (c_pair ck cv).
  Proof. intros [Hk Hk'] [Hv Hv']. split; [by apply c_pair_ok|]. intros [k v]. split; [apply Hk'|apply Hv']. Qed.
  Lemma td_wf {T} (ct : codec T) ms d : elt_ok ct → (N.of_nat ms + 1 < W32)%N → TD ms d → c_wf (c_deque ms ct) d.
  Proof.
    intros [_ He] Hw [Ha Hh Ht Hs]. split; [split; [split|]|].
    - exact Hs.
    - exact Hh.
    - exact Ht.
    - eapply ta_wf; [|done|exact Ha]. intros x _. apply He.
  Qed.
  Lemma th_wf {K V} (ck : codec K) (cv : codec V) nb ms h :
    elt_ok ck → elt_ok cv → (N.of_nat ms + 1 < W32)%N → TH nb ms h → c_wf (c_hash nb ms ck cv) h.
  Proof.
    intros Hk Hv Hw [Ha Hl Hb]. split.
    - split; [exact Hl|exact Hb].
    - eapply ta_wf; [|done|exact Ha]. intros x _. by apply (elt_pair ck cv).
  Qed.
  Lemma tr_wf {K V} (ck : codec K) (cv : codec V) ms t :
    elt_ok ck → elt_ok cv → (N.of_nat ms + 1 < W32)%N → TR ms t → c_wf (c_rb ms ck cv) t.
  Proof.
    intros Hk Hv Hw [Ha Hr]. split; [split|].
    - exact Hr.
    - split; [done|]. by repeat constructor.
    - eapply ta_wf; [|done|exact Ha]. intros x _. by apply (elt_pair ck cv).
  Qed.
  Lemma tv_wf {K V} (ck : codec K) (cv : codec V) ms t :
    elt_ok ck → elt_ok cv → (N.of_nat ms + 1 < W32)%N → TV ms t → c_wf (c_avl ms ck cv) t.
  Proof.
    intros Hk Hv Hw [Ha Hr]. split.
    - change (av_root t < W64)%N. eapply N.lt_trans; [exact Hr|reflexivity].
    - eapply ta_wf; [|done|exact Ha]. intros x _. by apply (elt_pair ck cv).
  Qed.
  Lemma tc_wf {V} (cv : codec V) a128 nn ms t :
    elt_ok cv → (N.of_nat nn + 1 < W32)%N → (N.of_nat ms + 1 < W32)%N → TC nn ms t → c_wf (c_crit a128 nn ms cv) t.
  Proof.
    intros Hv Hn Hw [Hx Ha Hr]. split; [split; [split; [split|]|]|].
    - exact I.
    - exact Hr.
    - exact I.
    - eapply ta_wf; [|done|exact Hx]. intros [k p] [Hk Hp]. split; [split|]; [exact Hk|exact Hp|exact I].
    - eapply ta_wf; [|done|exact Ha]. intros x _. apply Hv.
  Qed.
End wf.

(** ** Calls on a structure living in a buffer *)
Section load.
  Context {A : Type} (c : codec A) (Hc : codec_ok c).
  Lemma load_enc addr s rest :
    addr mod l_align (c_lay c) = 0 → c_wf c s → load c addr (c_enc c s ++ rest) = Val (Some s).
  Proof using Hc.
    intros Ha Hs. unfold load. rewrite decide_False by (rewrite app_length, (co_len _ Hc) by done; lia).
    rewrite decide_True by done. rewrite take_app_alt by (by rewrite (co_len _ Hc)). by rewrite (co_dec _ Hc).
  Qed.
  Lemma on_bytes_enc {B} addr (m : M A B) s rest :
    addr mod l_align (c_lay c) = 0 → c_wf c s →
    on_bytes c addr m (c_enc c s ++ rest) =
      match m s with Ret r s => Ret r (c_enc c s ++ rest) | Fail e s => Fail e (c_enc c s ++ rest) end.
  Proof using Hc.
    intros Ha Hs. unfold on_bytes. rewrite load_enc by done. rewrite drop_app_alt by (by rewrite (co_len _ Hc)). done.
  Qed.
  Lemma on_bytes_history {O B} (I : A → Prop) (step : O → M A B) (ops : list (nat * O)) s rest :
    (∀ s, I s → c_wf c s) → Forall (λ ao, ao.1 mod l_align (c_lay c) = 0) ops → Forall (λ o, keeps I (step o)) ops.*2 → I s →
    history (λ ao, on_bytes c ao.1 (step ao.2)) ops (c_enc c s ++ rest) =
      ((history step ops.*2 s).1, c_enc c (history step ops.*2 s).2 ++ rest).
  Proof using Hc.
    intros Hi Ha. revert s. induction Ha as [|[addr o] ops Ha Has IH]; intros s Hk Hs; [done|].
    rewrite fmap_cons in Hk. apply Forall_cons in Hk as [Ho Hk]. rewrite fmap_cons. cbn [history]. unfold call.
    cbn [fst snd] in *. rewrite on_bytes_enc by auto. specialize (Ho s Hs).
    destruct (step o s) as [r s1|e s1]; rewrite IH by done; by destruct (history step ops.*2 s1).
  Qed.
  Lemma load_zeros addr rest :
    addr mod l_align (c_lay c) = 0 → load c addr (zeros (l_size (c_lay c)) ++ rest) = Val (Some (c_zero c)).
  Proof.
    intros Ha. unfold load. rewrite decide_False by (rewrite app_length, zeros_length; lia). rewrite decide_True by done.
    by rewrite take_app_alt by (by rewrite zeros_length).
  Qed.
  Lemma on_bytes_zeros {B} addr (m : M A B) rest :
    addr mod l_align (c_lay c) = 0 →
    on_bytes c addr m (zeros (l_size (c_lay c)) ++ rest) =
      match m (c_zero c) with Ret r s => Ret r (c_enc c s ++ rest) | Fail e s => Fail e (c_enc c s ++ rest) end.
  Proof.
    intros Ha. unfold on_bytes. rewrite load_zeros by done. by rewrite drop_app_alt by (by rewrite zeros_length).
  Qed.
  Lemma on_bytes_short {B} addr (m : M A B) data : length data < l_size (c_lay c) → on_bytes c addr m data = Fail Panic data.
  Proof. intros Hd. unfold on_bytes, load. by rewrite decide_True. Qed.
  Lemma on_bytes_misaligned {B} addr (m : M A B) data :
    l_size (c_lay c) ≤ length data → addr mod l_align (c_lay c) ≠ 0 → on_bytes c addr m data = Fail Panic data.
  Proof. intros Hd Ha. unfold on_bytes, load. rewrite decide_False by lia. by rewrite decide_False. Qed.
  (** a panic of the structure's method that leaves the structure as it was leaves the buffer as it was *)
  Lemma on_bytes_refuse {B} addr (m : M A B) s rest :
    c_wf c s → m s = Fail Panic s → on_bytes c addr m (c_enc c s ++ rest) = Fail Panic (c_enc c s ++ rest).
  Proof using Hc.
    intros Hs Hm. destruct (decide (addr mod l_align (c_lay c) = 0)) as [Ha|Ha].
    - rewrite on_bytes_enc by done. by rewrite Hm.
    - apply on_bytes_misaligned; [|done]. rewrite app_length, (co_len _ Hc) by done. lia.
  Qed.
End load.
Lemma massert_fail {S A} b (m : M S A) s : m s = Fail Panic s → (massert b;; m) s = Fail Panic s.
Proof. intros Hm. unfold mbind, M_bind. by destruct b. Qed.
Lemma massert_true {S A} b (m : M S A) s : b = true → (massert b;; m) s = m s.
Proof. by intros ->. Qed.

(** ** Layouts *)

Lemma pow2_pos k : 0 < 2 ^ k.
Proof. pose proof (Nat.pow_nonzero 2 k). lia. Qed.
Lemma pow2_le_divide j k : 2 ^ j ≤ 2 ^ k → (2 ^ j | 2 ^ k).
Proof.
  intros Hl. apply Nat.pow_le_mono_r_iff in Hl; [|lia]. exists (2 ^ (k - j)). rewrite <- Nat.pow_add_r. f_equal. lia.
Qed.
Lemma pow2_max j k : Nat.max (2 ^ j) (2 ^ k) = 2 ^ Nat.max j k.
Proof.
  destruct (Nat.le_ge_cases j k) as [Hl|Hl].
  - rewrite !Nat.max_r; [done|done|]. apply Nat.pow_le_mono_r; lia.
  - rewrite !Nat.max_l; [done|done|]. apply Nat.pow_le_mono_r; lia.
Qed.
Definition al_ok (a : nat) : Prop := ∃ k, a = 2 ^ k.
Lemma al_ok_max a b : al_ok a → al_ok b → al_ok (Nat.max a b).
Proof. intros [j ->] [k ->]. exists (Nat.max j k). apply pow2_max. Qed.
Lemma al_ok_pos a : al_ok a → 0 < a.
Proof. intros [k ->]. apply pow2_pos. Qed.
Lemma al_ok_divide a b : al_ok a → al_ok b → a ≤ b → (a | b).
Proof. intros [j ->] [k ->]. apply pow2_le_divide. Qed.
Lemma struct_align_ok ls : Forall (λ l, al_ok (l_align l)) ls → al_ok (struct_align ls).
Proof. induction 1; simpl; [by exists 0|]. by apply al_ok_max. Qed.
Lemma struct_align_ge ls l : l ∈ ls → l_align l ≤ struct_align ls.
Proof. induction 1; simpl; lia. Qed.
Lemma struct_lay_ok ls : Forall (λ l, al_ok (l_align l)) ls → lay_ok (struct_lay ls).
Proof. intros Hl. split; simpl; [by apply struct_align_ok|]. apply round_up_mod. apply struct_align_pos. Qed.
Lemma mod0_divide a b : 0 < a → b mod a = 0 ↔ (a | b).
Proof. intros Ha. apply Nat.mod_divide. lia. Qed.

(** an allocator inside a struct at an aligned address is aligned *)
Lemma inner_aligned ls l ls' addr :
  Forall (λ l, al_ok (l_align l)) (ls ++ l :: ls') → addr mod l_align (struct_lay (ls ++ l :: ls')) = 0 →
  (addr + off_after ls l) mod l_align l = 0.
Proof.
  intros Hl Ha. assert (al_ok (l_align l)) as Hl1 by (apply Forall_app in Hl as [_ Hl]; by inversion Hl).
  pose proof (al_ok_pos _ Hl1) as Hp. apply mod0_divide; [done|]. apply Nat.divide_add_r.
  - etrans; [|apply mod0_divide in Ha; [exact Ha|apply struct_align_pos]]. apply al_ok_divide; [done|by apply struct_align_ok|].
    apply struct_align_ge. apply elem_of_app. right. by left.
  - apply mod0_divide; [done|]. by apply round_up_mod.
Qed.


Lemma al_ok_16 a : al_ok a → a ≤ 16 → (a | 16).
Proof. intros Ha Hl. apply al_ok_divide; [done|by exists 4|done]. Qed.
Lemma round_up_16 a : al_ok a → round_up 16 a = 16 ↔ a ≤ 16.
Proof.
  intros Ha. pose proof (al_ok_pos _ Ha). split.
  - intros E. pose proof (round_up_mod 16 a) as Hm. rewrite E in Hm. apply mod0_divide in Hm; [|done|done]. by apply Nat.divide_pos_le in Hm; [|lia].
  - intros Hl. apply round_up_id; [done|]. apply mod0_divide; [done|]. by apply al_ok_16.
Qed.
Lemma node_align nr l : al_ok (l_align l) → l_align (struct_lay [array_lay nr (Lay 4 4); l]) = Nat.max 4 (l_align l).
Proof. intros Hl. pose proof (al_ok_pos _ Hl). simpl. lia. Qed.
Lemma alloc_align nr l : al_ok (l_align l) → struct_align [Lay 8 8; Lay 4 4; Lay 4 4; struct_lay [array_lay nr (Lay 4 4); l]] = Nat.max 8 (l_align l).
Proof. intros Hl. pose proof (al_ok_pos _ Hl). cbn -[Nat.max]. lia. Qed.

Lemma na_proper_fits nr l self_ptr :
  lay_ok l → self_ptr mod Nat.max 8 (l_align l) = 0 → na_proper nr l self_ptr = true ↔ alloc_fits nr l.
Proof.
  intros [Hp Hs] Ha. change (al_ok (l_align l)) in Hp. pose proof (al_ok_pos _ Hp) as Hp0. unfold na_proper.
  rewrite alloc_align, node_align by done. rewrite !andb_true_iff. unfold alloc_fits. rewrite !bool_decide_eq_true.
  assert (al_ok (Nat.max 4 (l_align l))) as Hn by (apply al_ok_max; [by exists 2|done]).
  assert (self_ptr + round_up 16 (Nat.max 4 (l_align l)) = self_ptr + 16 ↔ l_align l ≤ 16) as E1.
  { pose proof (round_up_16 _ Hn). lia. }
  assert ((l_align l | self_ptr)) as Hd.
  { etrans; [|apply mod0_divide; [|exact Ha]; lia]. apply al_ok_divide; [done|apply al_ok_max; [by exists 3|done]|lia]. }
  split.
  - intros (((((_ & _) & H3) & H4) & H5) & _). split; [done|]. split; [tauto|]. rewrite H4 in H5. apply E1 in H4.
    apply mod0_divide in H5; [|done]. apply mod0_divide; [done|].
    apply (Nat.divide_add_cancel_r _ (self_ptr + 16)); [|done]. apply Nat.divide_add_r; [done|]. by apply al_ok_16.
  - intros (H3 & H4 & H5). pose proof (proj2 E1 H4) as H6. rewrite H6. apply mod0_divide in H5; [|done]. apply mod0_divide in Hs; [|done].
    assert ((l_align l | self_ptr + 16 + 4 * nr)) as Hx by (apply Nat.divide_add_r; [apply Nat.divide_add_r; [done|by apply al_ok_16]|done]).
    split_and!; [done|by apply mod0_divide|done|done|by apply mod0_divide|]. apply mod0_divide; [done|]. apply Nat.divide_add_r; [by apply Nat.divide_add_r|done].
Qed.

Lemma rb_proper_fits lk lv : lay_ok lk → lay_ok lv → rb_proper lk lv = true ↔ rb_fits lk lv.
Proof.
  intros Hk Hv. unfold rb_proper, rb_fits. rewrite !andb_true_iff, !bool_decide_eq_true.
  assert (l_size (struct_lay [lk; lv]) mod l_align (struct_lay [lk; lv]) = 0) as Hp.
  { apply struct_lay_ok. repeat constructor; [apply Hk|apply Hv]. }
  tauto.
Qed.

(** ** new_from_slice *)
Lemma alloc_lay_ok {T} ms nr (ct : codec T) : lay_ok (c_lay ct) → al_ok (align_of (c_alloc ms nr ct)).
Proof.
  intros [Hl _]. simpl. repeat apply al_ok_max; try done; first [by exists 3|by exists 2|by exists 0].
Qed.
Lemma alloc_align' {T} ms nr (ct : codec T) : lay_ok (c_lay ct) → align_of (c_alloc ms nr ct) = Nat.max 8 (align_of ct).
Proof. intros [Hl _]. pose proof (al_ok_pos _ Hl). cbn -[Nat.max]. lia. Qed.
Lemma inner_proper {T} ms nr (ct : codec T) ls ls' addr :
  lay_ok (c_lay ct) → alloc_fits nr (c_lay ct) → Forall (λ l, al_ok (l_align l)) (ls ++ ls') →
  addr mod l_align (struct_lay (ls ++ c_lay (c_alloc ms nr ct) :: ls')) = 0 →
  na_proper nr (c_lay ct) (addr + off_after ls (c_lay (c_alloc ms nr ct))) = true.
Proof.
  intros Hl Hf Ha Hd. apply na_proper_fits; [done| |done]. rewrite <- (alloc_align' ms nr ct) by done.
  eapply inner_aligned; [|exact Hd]. apply Forall_app in Ha as [Ha1 Ha2]. apply Forall_app. split; [done|]. constructor; [|done].
  by apply alloc_lay_ok.
Qed.
Lemma pair_lay_ok {K V} (ck : codec K) (cv : codec V) : lay_ok (c_lay ck) → lay_ok (c_lay cv) → lay_ok (c_lay (c_pair ck cv)).
Proof. intros Hk Hv. apply (struct_lay_ok [c_lay ck; c_lay cv]). repeat constructor; [apply Hk|apply Hv]. Qed.
Lemma cnode_lay_ok a128 : a128 = 8 ∨ a128 = 16 → lay_ok (c_lay (c_cnode a128)) ∧ alloc_fits 4 (c_lay (c_cnode a128)).
Proof. intros [-> | ->]; (split; [split; [|done]|split_and!; [right|..]; done || (cbv; lia)]); [by exists 3|by exists 4]. Qed.

Ltac al := repeat constructor; simpl; first [by exists 3|by exists 2|by exists 4|by exists 0].
Section nfs.
  Context `{Profile} {T K V : Type} (ct : codec T) (ck : codec K) (cv : codec V).
  Context (Ht : elt_ok ct) (Hk : elt_ok ck) (Hv : elt_ok cv).
  Context (Lt : lay_ok (c_lay ct)) (Lk : lay_ok (c_lay ck)) (Lv : lay_ok (c_lay cv)).
  Lemma dq_nfs_zeros ms addr rest :
    alloc_fits 2 (c_lay ct) → addr mod align_of (c_deque ms ct) = 0 →
    dq_new_from_slice ms ct addr (zeros (size_of (c_deque ms ct)) ++ rest) = Ret () (c_enc (c_deque ms ct) (dq_new ms (c_zero ct)) ++ rest).
  Proof using Ht Lt.
    intros Hf Ha. unfold dq_new_from_slice. rewrite on_bytes_zeros by done.
    rewrite massert_true; [|by apply (inner_proper ms 2 ct [Lay 8 8; Lay 4 4; Lay 4 4] []); [..|al|]].
    rewrite c_deque_zero by apply Ht. done.
  Qed.
  Lemma ht_nfs_zeros nb ms addr rest h0 :
    alloc_fits 4 (c_lay (c_pair ck cv)) → addr mod align_of (c_hash nb ms ck cv) = 0 → ht_new nb ms (c_zero ck, c_zero cv) = Some h0 →
    ht_new_from_slice nb ms ck cv addr (zeros (size_of (c_hash nb ms ck cv)) ++ rest) = Ret () (c_enc (c_hash nb ms ck cv) h0 ++ rest).
  Proof using Hk Hv Lk Lv.
    intros Hf Ha Hn. unfold ht_new_from_slice. unfold ht_new in Hn. destruct (decide _) as [Hd|Hd]; [|done]. injection Hn as <-.
    rewrite massert_true by (apply bool_decide_eq_true; done). rewrite on_bytes_zeros by done.
    rewrite massert_true; [|by apply (inner_proper ms 4 (c_pair ck cv) [array_lay nb (Lay 4 4)] []); [apply pair_lay_ok|..|al|]].
    rewrite c_hash_zero by (apply Hk || apply Hv). done.
  Qed.
  Lemma rb_nfs_zeros ms addr rest :
    rb_fits (c_lay ck) (c_lay cv) → alloc_fits 4 (c_lay (c_pair ck cv)) → addr mod align_of (c_rb ms ck cv) = 0 →
    rb_new_from_slice ms ck cv addr (zeros (size_of (c_rb ms ck cv)) ++ rest) = Ret () (c_enc (c_rb ms ck cv) (rb_new ms (c_zero ck, c_zero cv)) ++ rest).
  Proof using Hk Hv Lk Lv.
    intros Hr Hf Ha. unfold rb_new_from_slice. rewrite massert_true by (by apply rb_proper_fits). rewrite on_bytes_zeros by done.
    rewrite massert_true; [|by apply (inner_proper ms 4 (c_pair ck cv) [Lay 4 4; array_lay 3 (Lay 4 4)] []); [apply pair_lay_ok|..|al|]].
    rewrite c_rb_zero by (apply Hk || apply Hv). done.
  Qed.
  Lemma av_nfs_zeros ms addr rest :
    alloc_fits 4 (c_lay (c_pair ck cv)) → addr mod align_of (c_avl ms ck cv) = 0 →
    av_new_from_slice ms ck cv addr (zeros (size_of (c_avl ms ck cv)) ++ rest) = Ret () (c_enc (c_avl ms ck cv) (av_new ms (c_zero ck, c_zero cv)) ++ rest).
  Proof using Hk Hv Lk Lv.
    intros Hf Ha. unfold av_new_from_slice. rewrite on_bytes_zeros by done.
    rewrite massert_true; [|by apply (inner_proper ms 4 (c_pair ck cv) [Lay 8 8] []); [apply pair_lay_ok|..|al|]].
    rewrite c_avl_zero by (apply Hk || apply Hv). done.
  Qed.
  Lemma cb_nfs_zeros a128 nn ms addr rest t0 :
    a128 = 8 ∨ a128 = 16 → alloc_fits 4 (c_lay cv) → addr mod align_of (c_crit a128 nn ms cv) = 0 → cb_new nn ms (c_zero cv) = Some t0 →
    cb_new_from_slice a128 nn ms cv addr (zeros (size_of (c_crit a128 nn ms cv)) ++ rest) = Ret () (c_enc (c_crit a128 nn ms cv) t0 ++ rest).
  Proof using Hv Lv.
    intros H128 Hf Ha Hn. unfold cb_new_from_slice. unfold cb_new in Hn. destruct (decide _) as [Hd|Hd]; [|done]. injection Hn as <-.
    destruct (cnode_lay_ok _ H128) as [Hc1 Hc2].
    rewrite massert_true by (apply bool_decide_eq_true; lia). rewrite on_bytes_zeros by done.
    rewrite massert_true; cycle 1.
    { apply (inner_proper nn 4 (c_cnode a128) [Lay 8 8; Lay 4 4; Lay 4 4] [c_lay (c_alloc ms 4 cv)]); [done..| |exact Ha].
      repeat constructor; simpl; [by exists 3|by exists 2|by exists 2|by apply (alloc_lay_ok ms 4 cv)]. }
    rewrite c_crit_zero by (apply Hv || lia). unfold mbind, M_bind, cb_onn, zoom at 1.
    rewrite (inner_proper ms 4 cv [Lay 8 8; Lay 4 4; Lay 4 4; c_lay (c_alloc nn 4 (c_cnode a128))] []); [done..| |exact Ha].
    repeat constructor; simpl; [by exists 3|by exists 2|by exists 2|by apply (alloc_lay_ok nn 4 (c_cnode a128))].
  Qed.
End nfs.

Section again.
  Context `{Profile} {T K V : Type} (ct : codec T) (ck : codec K) (cv : codec V).
  Context (Ht : elt_ok ct) (Hk : elt_ok ck) (Hv : elt_ok cv) (ms : nat) (Hw : (N.of_nat ms + 1 < W32)%N).
  Lemma dq_nfs_again addr q rest :
    TD ms q → dq_new_from_slice ms ct addr (c_enc (c_deque ms ct) q ++ rest) = Fail Panic (c_enc (c_deque ms ct) q ++ rest).
  Proof using Ht Hw.
    intros Hq. apply on_bytes_refuse; [apply c_deque_ok, Ht|by apply td_wf|]. apply massert_fail. by apply (td_again ms Hw).
  Qed.
  Lemma ht_nfs_again nb addr h rest :
    TH nb ms h → ht_new_from_slice nb ms ck cv addr (c_enc (c_hash nb ms ck cv) h ++ rest) = Fail Panic (c_enc (c_hash nb ms ck cv) h ++ rest).
  Proof using Hk Hv Hw.
    intros Hq. unfold ht_new_from_slice. apply massert_fail. apply on_bytes_refuse; [apply c_hash_ok; [apply Hk|apply Hv]|by apply th_wf|].
    apply massert_fail. by apply (th_again nb ms Hw).
  Qed.
  Lemma rb_nfs_again addr t rest :
    TR ms t → rb_new_from_slice ms ck cv addr (c_enc (c_rb ms ck cv) t ++ rest) = Fail Panic (c_enc (c_rb ms ck cv) t ++ rest).
  Proof using Hk Hv Hw.
    intros Hq. unfold rb_new_from_slice. apply massert_fail. apply on_bytes_refuse; [apply c_rb_ok; [apply Hk|apply Hv]|by apply tr_wf|].
    apply massert_fail. by apply (tr_again ms Hw).
  Qed.
  Lemma av_nfs_again addr t rest :
    TV ms t → av_new_from_slice ms ck cv addr (c_enc (c_avl ms ck cv) t ++ rest) = Fail Panic (c_enc (c_avl ms ck cv) t ++ rest).
  Proof using Hk Hv Hw.
    intros Hq. apply on_bytes_refuse; [apply c_avl_ok; [apply Hk|apply Hv]|by apply tv_wf|]. apply massert_fail. by apply (tv_again ms Hw).
  Qed.
  Lemma cb_nfs_again a128 nn addr t rest :
    0 < a128 → (N.of_nat nn + 1 < W32)%N → TC nn ms t →
    cb_new_from_slice a128 nn ms cv addr (c_enc (c_crit a128 nn ms cv) t ++ rest) = Fail Panic (c_enc (c_crit a128 nn ms cv) t ++ rest).
  Proof using Hv Hw.
    intros H128 Hn Hq. unfold cb_new_from_slice. apply massert_fail. apply on_bytes_refuse; [apply c_crit_ok; [apply Hv|done]|by apply tc_wf|].
    apply massert_fail. unfold mbind, M_bind, cb_onn, zoom. rewrite (ty_init_again 4 nn) by first [exact Hn|apply Hq]. by destruct t.
  Qed.
End again.

(** ** Sizes: when there are no padding bytes *)
Lemma al_ok_max_divide a b x : al_ok a → al_ok b → (a | x) → (b | x) → (Nat.max a b | x).
Proof. intros Ha Hb Hx Hy. by destruct (Nat.max_spec a b) as [[_ ->]|[_ ->]]. Qed.
Lemma alloc_size {T} (ct : codec T) ms nr :
  lay_ok (c_lay ct) → alloc_fits nr (c_lay ct) → (4 * nr + size_of ct) mod 8 = 0 → size_of (c_alloc ms nr ct) = 16 + ms * (4 * nr + size_of ct).
Proof.
  intros [Hp Hs] (H1 & H2 & H3) H8. change (al_ok (align_of ct)) in Hp. pose proof (al_ok_pos _ Hp) as Hp0.
  set (l := c_lay ct) in *. assert (al_ok 4 ∧ al_ok 8) as [H4' H8'] by (split; [by exists 2|by exists 3]).
  change (size_of (c_alloc ms nr ct)) with (l_size (struct_lay [Lay 8 8; Lay 4 4; Lay 4 4; array_lay ms (struct_lay [array_lay nr (Lay 4 4); l])])).
  apply mod0_divide in H3; [|done]. apply mod0_divide in Hs; [|done]. apply mod0_divide in H8; [|lia].
  assert ((l_align l | 4 * nr + l_size l)) as Hd by (by apply Nat.divide_add_r).
  assert ((4 | 4 * nr + l_size l)) as Hd4 by (etrans; [|exact H8]; by exists 2).
  assert (l_size (struct_lay [array_lay nr (Lay 4 4); l]) = 4 * nr + l_size l) as En.
  { cbn [struct_lay l_size struct_end l_align array_lay]. rewrite (round_up_id 0 4) by (done || lia). rewrite (round_up_id (0 + nr * 4) (l_align l)); [|done|apply mod0_divide; [done|]; by replace (0 + nr * 4) with (4 * nr) by lia].
    change (struct_align _) with (l_align (struct_lay [array_lay nr (Lay 4 4); l])). rewrite node_align by done.
    rewrite round_up_id; [lia|lia|]. apply mod0_divide; [lia|]. replace (0 + nr * 4 + l_size l) with (4 * nr + l_size l) by lia. by apply al_ok_max_divide. }
  assert (struct_end 0 [Lay 8 8; Lay 4 4; Lay 4 4; array_lay ms (struct_lay [array_lay nr (Lay 4 4); l])] = 16 + ms * (4 * nr + l_size l)) as Ee.
  { rewrite <- En. cbn -[round_up struct_lay Nat.mul Nat.add]. change (round_up (round_up (round_up 0 8 + 8) 4 + 4) 4 + 4) with 16.
    rewrite node_align by done. by rewrite (proj2 (round_up_16 _ (al_ok_max _ _ H4' Hp))) by lia. }
  unfold struct_lay at 1. cbn [l_size]. rewrite Ee.
  assert (struct_align [Lay 8 8; Lay 4 4; Lay 4 4; array_lay ms (struct_lay [array_lay nr (Lay 4 4); l])] = Nat.max 8 (l_align l)) as -> by (apply (alloc_align nr l Hp)).
  rewrite round_up_id; [done|lia|]. apply mod0_divide; [lia|]. apply al_ok_max_divide; [done|done| |].
  - apply Nat.divide_add_r; [by exists 2|]. by apply Nat.divide_mul_r.
  - apply Nat.divide_add_r; [by apply al_ok_16|]. by apply Nat.divide_mul_r.
Qed.
Lemma outer_size ls l :
  struct_align (ls ++ [l]) = l_align l → l_size l mod l_align l = 0 → 0 < l_align l → struct_end 0 ls mod l_align l = 0 →
  l_size (struct_lay (ls ++ [l])) = struct_end 0 ls + l_size l.
Proof.
  intros Ha Hs Hp He. unfold struct_lay. cbn [l_size]. rewrite Ha, struct_end_app. cbn [struct_end].
  rewrite (round_up_id _ _ Hp He). apply round_up_id; [done|]. apply mod0_divide; [done|].
  apply Nat.divide_add_r; by apply mod0_divide.
Qed.
Lemma pair_size lk lv :
  lay_ok lk → lay_ok lv → l_size lk mod l_align lv = 0 → (l_size lk + l_size lv) mod l_align lk = 0 →
  l_size (struct_lay [lk; lv]) = l_size lk + l_size lv.
Proof.
  intros [Hk Hk'] [Hv Hv'] H1 H2. change (al_ok (l_align lk)) in Hk. change (al_ok (l_align lv)) in Hv.
  pose proof (al_ok_pos _ Hk). pose proof (al_ok_pos _ Hv). unfold struct_lay. cbn [l_size struct_end].
  rewrite (round_up_id 0 (l_align lk)) by (done || (apply Nat.mod_0_l; lia)). cbn [Nat.add]. rewrite (round_up_id (l_size lk) (l_align lv)) by done.
  apply round_up_id; [apply struct_align_pos|]. assert (struct_align [lk; lv] = Nat.max (l_align lk) (l_align lv)) as -> by (simpl; lia).
  apply mod0_divide; [lia|]. apply al_ok_max_divide; [done|done|by apply mod0_divide|].
  apply Nat.divide_add_r; [by apply mod0_divide|by apply mod0_divide].
Qed.
Lemma alloc_size_mod {T} (ct : codec T) ms nr : size_of (c_alloc ms nr ct) mod align_of (c_alloc ms nr ct) = 0.
Proof. apply round_up_mod, struct_align_pos. Qed.
Lemma max8_mod16 a : al_ok a → a ≤ 16 → 16 mod Nat.max 8 a = 0.
Proof. intros Ha Hl. apply mod0_divide; [lia|]. apply al_ok_max_divide; [by exists 3|done|by exists 2|by apply al_ok_16]. Qed.

Section sizes.
  Context {T K V : Type} (ct : codec T) (ck : codec K) (cv : codec V) (ms : nat).
  Context (Lt : lay_ok (c_lay ct)) (Lk : lay_ok (c_lay ck)) (Lv : lay_ok (c_lay cv)).
  Lemma deque_size : alloc_fits 2 (c_lay ct) → size_of ct mod 8 = 0 → size_of (c_deque ms ct) = 32 + ms * (8 + size_of ct).
  Proof using Lt.
    intros Hf H8. pose proof (al_ok_pos _ (proj1 Lt)).
    assert ((4 * 2 + size_of ct) mod 8 = 0) as H8'.
    { apply mod0_divide; [lia|]. apply Nat.divide_add_r; [by exists 1|]. by apply mod0_divide; [lia|]. }
    etrans; [apply (outer_size [Lay 8 8; Lay 4 4; Lay 4 4] (c_lay (c_alloc ms 2 ct)))|].
    - cbn [app]. change (Nat.max 8 (Nat.max 4 (Nat.max 4 (Nat.max (align_of (c_alloc ms 2 ct)) 1))) = align_of (c_alloc ms 2 ct)).
      rewrite alloc_align' by done. lia.
    - apply alloc_size_mod.
    - rewrite alloc_align' by done. lia.
    - rewrite alloc_align' by done. apply max8_mod16; [apply Lt|apply Hf].
    - rewrite alloc_size by done. change (struct_end 0 _) with 16. lia.
  Qed.
  Context (Hg : size_of ck mod align_of cv = 0) (Ht : (size_of ck + size_of cv) mod align_of ck = 0).
  Context (Hf : alloc_fits 4 (c_lay (c_pair ck cv))) (H8 : (size_of ck + size_of cv) mod 8 = 0).
  Lemma pair_alloc_size : size_of (c_alloc ms 4 (c_pair ck cv)) = 16 + ms * (16 + (size_of ck + size_of cv)).
  Proof using Lk Lv Hg Ht Hf H8.
    rewrite alloc_size; [|by apply pair_lay_ok|done|].
    - change (size_of (c_pair ck cv)) with (l_size (struct_lay [c_lay ck; c_lay cv])). by rewrite pair_size.
    - change (size_of (c_pair ck cv)) with (l_size (struct_lay [c_lay ck; c_lay cv])). rewrite pair_size by done.
      apply mod0_divide; [lia|]. apply Nat.divide_add_r; [by exists 2|]. by apply mod0_divide; [lia|].
  Qed.
  Lemma pair_align : align_of (c_pair ck cv) = Nat.max (align_of ck) (align_of cv).
  Proof using Lv. clear -Lv. pose proof (al_ok_pos _ (proj1 Lv)). simpl. lia. Qed.
  Lemma hash_size nb : (4 * nb) mod Nat.max 8 (Nat.max (align_of ck) (align_of cv)) = 0 → size_of (c_hash nb ms ck cv) = 4 * nb + 16 + ms * (16 + (size_of ck + size_of cv)).
  Proof using Lk Lv Hg Ht Hf H8.
    intros Hn. etrans; [apply (outer_size [array_lay nb (Lay 4 4)] (c_lay (c_alloc ms 4 (c_pair ck cv))))|].
    - cbn [app]. change (Nat.max 4 (Nat.max (align_of (c_alloc ms 4 (c_pair ck cv))) 1) = align_of (c_alloc ms 4 (c_pair ck cv))).
      rewrite alloc_align' by (by apply pair_lay_ok). lia.
    - apply alloc_size_mod.
    - rewrite alloc_align' by (by apply pair_lay_ok). lia.
    - rewrite alloc_align' by (by apply pair_lay_ok). rewrite pair_align. cbn [struct_end array_lay l_size l_align].
      rewrite (round_up_id 0 4) by (done || lia). by replace (0 + nb * 4) with (4 * nb) by lia.
    - rewrite pair_alloc_size. cbn [struct_end array_lay l_size l_align]. rewrite (round_up_id 0 4) by (done || lia). lia.
  Qed.
  Lemma rb_size : size_of (c_rb ms ck cv) = 32 + ms * (16 + (size_of ck + size_of cv)).
  Proof using Lk Lv Hg Ht Hf H8.
    etrans; [apply (outer_size [Lay 4 4; array_lay 3 (Lay 4 4)] (c_lay (c_alloc ms 4 (c_pair ck cv))))|].
    - cbn [app]. change (Nat.max 4 (Nat.max 4 (Nat.max (align_of (c_alloc ms 4 (c_pair ck cv))) 1)) = align_of (c_alloc ms 4 (c_pair ck cv))).
      rewrite alloc_align' by (by apply pair_lay_ok). lia.
    - apply alloc_size_mod.
    - rewrite alloc_align' by (by apply pair_lay_ok). lia.
    - rewrite alloc_align' by (by apply pair_lay_ok). apply max8_mod16; [by apply pair_lay_ok|apply Hf].
    - rewrite pair_alloc_size. change (struct_end 0 _) with 16. lia.
  Qed.
  Lemma avl_size : align_of ck ≤ 8 → align_of cv ≤ 8 → size_of (c_avl ms ck cv) = 24 + ms * (16 + (size_of ck + size_of cv)).
  Proof using Lk Lv Hg Ht Hf H8.
    intros Ha Hb. etrans; [apply (outer_size [Lay 8 8] (c_lay (c_alloc ms 4 (c_pair ck cv))))|].
    - cbn [app]. change (Nat.max 8 (Nat.max (align_of (c_alloc ms 4 (c_pair ck cv))) 1) = align_of (c_alloc ms 4 (c_pair ck cv))).
      rewrite alloc_align' by (by apply pair_lay_ok). lia.
    - apply alloc_size_mod.
    - rewrite alloc_align' by (by apply pair_lay_ok). lia.
    - rewrite alloc_align' by (by apply pair_lay_ok). rewrite pair_align. by rewrite Nat.max_l by lia.
    - rewrite pair_alloc_size. change (struct_end 0 _) with 8. lia.
  Qed.
End sizes.
Lemma crit_size {V} (cv : codec V) a128 nn ms :
  a128 = 8 ∨ a128 = 16 → lay_ok (c_lay cv) → alloc_fits 4 (c_lay cv) → size_of cv mod 8 = 0 → (ms * size_of cv) mod a128 = 0 →
  size_of (c_crit a128 nn ms cv) = 48 + nn * 48 + ms * (16 + size_of cv).
Proof.
  intros H128 Lv Hf H8 Hm. destruct (cnode_lay_ok _ H128) as [Hc1 Hc2].
  assert (size_of (c_cnode a128) = 32 ∧ align_of (c_cnode a128) = a128) as [E1 E2] by (by destruct H128 as [-> | ->]).
  assert (size_of (c_alloc nn 4 (c_cnode a128)) = 16 + nn * 48) as En by (rewrite alloc_size; [by rewrite E1|done|done|by rewrite E1]).
  assert (align_of (c_alloc nn 4 (c_cnode a128)) = a128) as En' by (rewrite alloc_align' by done; rewrite E2; destruct H128; lia).
  assert (size_of (c_alloc ms 4 cv) = 16 + ms * (16 + size_of cv)) as El.
  { rewrite alloc_size; [lia|done|done|]. apply mod0_divide; [lia|]. apply Nat.divide_add_r; [by exists 2|]. by apply mod0_divide; [lia|]. }
  assert (align_of (c_alloc ms 4 cv) = Nat.max 8 (align_of cv)) as El' by (by rewrite alloc_align').
  change (c_lay (c_crit a128 nn ms cv)) with (struct_lay [Lay 8 8; Lay 4 4; Lay 4 4; c_lay (c_alloc nn 4 (c_cnode a128)); c_lay (c_alloc ms 4 cv)]).
  unfold struct_lay. cbn [l_size].
  assert (al_ok a128) as Ha by (destruct H128 as [-> | ->]; [by exists 3|by exists 4]).
  assert (struct_align [Lay 8 8; Lay 4 4; Lay 4 4; c_lay (c_alloc nn 4 (c_cnode a128)); c_lay (c_alloc ms 4 cv)] = Nat.max a128 (Nat.max 8 (align_of cv))) as ->.
  { cbn [struct_align foldr l_align]. rewrite El', En'. lia. }
  assert (struct_end 0 [Lay 8 8; Lay 4 4; Lay 4 4; c_lay (c_alloc nn 4 (c_cnode a128)); c_lay (c_alloc ms 4 cv)] = 48 + nn * 48 + ms * (16 + size_of cv)) as ->.
  { cbn [struct_end l_size l_align]. change (round_up (round_up (round_up 0 8 + 8) 4 + 4) 4 + 4) with 16.
    rewrite El', En', El, En. rewrite (round_up_id 16 a128) by (destruct H128 as [-> | ->]; done || lia).
    rewrite round_up_id; [lia|lia|]. apply mod0_divide; [lia|].
    etrans; [apply mod0_divide; [|apply (max8_mod16 (align_of cv)); [apply Lv|apply Hf]]; lia|]. exists (2 + nn * 3). lia. }
  apply round_up_id; [lia|]. assert ((8 | size_of cv)) as H8' by (by apply mod0_divide; [lia|]).
  destruct Lv as [Lv1 Lv2]. change (al_ok (align_of cv)) in Lv1. pose proof (al_ok_pos _ Lv1).
  apply mod0_divide; [lia|]. repeat apply al_ok_max_divide; try done; try by exists 3.
  - by apply al_ok_max; [exists 3|].
  - apply mod0_divide in Hm; [|lia]. rewrite Nat.mul_add_distr_l.
    assert ((a128 | 16)) as H16 by (destruct H128 as [-> | ->]; [by exists 2|by exists 1]).
    apply Nat.divide_add_r; [|apply Nat.divide_add_r; [by apply Nat.divide_mul_r|done]].
    etrans; [exact H16|]. exists (3 + nn * 3). lia.
  - apply Nat.divide_add_r; [exists (6 + nn * 6); lia|]. apply Nat.divide_mul_r. apply Nat.divide_add_r; [by exists 2|done].
  - apply Nat.divide_add_r; [|apply Nat.divide_mul_r; apply Nat.divide_add_r; [by apply al_ok_16; [|apply Hf]|by apply mod0_divide]].
    etrans; [apply al_ok_16; [done|apply Hf]|]. exists (3 + nn * 3). lia.
Qed.
