(** * C41-C43, C49, C50: structures in byte buffers

    [c_deque ms ct], [c_hash nb ms ck cv], ... say how the structures lie in memory ([size_of], [align_of], [c_enc] value to bytes, [c_dec]
    bytes to value), given that of the type parameters ([ct], [ck], [cv]); see BytesModel.v. A buffer is a list of bytes at an address. *)
From Verif Require Import BytesMain.
From Verif Require Import InitProps.
Local Open Scope nat_scope.

Section props.
  Context `{Profile} {T K V : Type} (ct : codec T) (ck : codec K) (cv : codec V).
  Context (Ht : elt_ok ct) (Hk : elt_ok ck) (Hv : elt_ok cv) (ms : nat) (Hw : (N.of_nat ms + 1 < W32)%N).

  (** ** C41: dropping the reference and reloading the structure from its bytes before each call, at whatever (aligned) address the bytes
      lie then, makes no difference: same answers, the buffer then holds the structure the same calls lead to in place, and the bytes
      behind the structure ([rest]) are not touched *)
  Theorem C41_alloc_reload nr d aops rest :
    let c := c_alloc ms nr ct in let a0 := Alloc 0 1 1 (replicate ms (node_default nr d)) in
    Forall al_u32 aops.*2 → Forall (λ ao, ao.1 mod align_of c = 0) aops →
    history (reloaded c al_step) aops (c_enc c a0 ++ rest) =
      ((history al_step aops.*2 a0).1, c_enc c (history al_step aops.*2 a0).2 ++ rest).
  Proof.
    intros c a0 Ho Ha. set (I := λ _ : T, True). apply (on_bytes_history c (c_alloc_ok _ (proj1 Ht) ms nr) (TA (H0:=I) nr ms)).
    - intros s Hs. eapply ta_wf; [|done|exact Hs]. intros x _. apply Ht.
    - done.
    - eapply Forall_impl; [exact Ho|]. intros o Hu. apply keeps_al_step; [done|]. by destruct o.
    - by apply ty_new.
  Qed.
  Theorem C41_dq_reload d aops rest :
    let c := c_deque ms ct in
    Forall (λ ao, ao.1 mod align_of c = 0) aops →
    history (reloaded c dq_step) aops (c_enc c (dq_new ms d) ++ rest) =
      ((history dq_step aops.*2 (dq_new ms d)).1, c_enc c (history dq_step aops.*2 (dq_new ms d)).2 ++ rest).
  Proof.
    intros c Ha. apply (on_bytes_history c (c_deque_ok _ (proj1 Ht) ms) (TD ms)); [intros; by apply td_wf|done| |by apply td_new].
    apply Forall_forall. intros o _. by apply td_step.
  Qed.
  Theorem C41_ht_reload keq hash nb d h0 aops rest :
    let c := c_hash nb ms ck cv in
    ht_new nb ms d = Some h0 → Forall (λ ao, ao.1 mod align_of c = 0) aops →
    history (reloaded c (ht_step keq hash)) aops (c_enc c h0 ++ rest) =
      ((history (ht_step keq hash) aops.*2 h0).1, c_enc c (history (ht_step keq hash) aops.*2 h0).2 ++ rest).
  Proof.
    intros c Hn Ha. apply (on_bytes_history c (c_hash_ok _ _ (proj1 Hk) (proj1 Hv) nb ms) (TH nb ms)); [intros; by apply th_wf|done| |by eapply th_new].
    apply Forall_forall. intros o _. by apply th_step.
  Qed.
  Theorem C41_rb_reload cmp d aops rest :
    let c := c_rb ms ck cv in
    Forall (λ ao, ao.1 mod align_of c = 0) aops →
    history (reloaded c (rb_step cmp)) aops (c_enc c (rb_new ms d) ++ rest) =
      ((history (rb_step cmp) aops.*2 (rb_new ms d)).1, c_enc c (history (rb_step cmp) aops.*2 (rb_new ms d)).2 ++ rest).
  Proof.
    intros c Ha. apply (on_bytes_history c (c_rb_ok _ _ (proj1 Hk) (proj1 Hv) ms) (TR ms)); [intros; by apply tr_wf|done| |by apply tr_new].
    apply Forall_forall. intros o _. by apply tr_step.
  Qed.
  Theorem C41_av_reload pcmp d aops rest :
    let c := c_avl ms ck cv in
    Forall (λ ao, ao.1 mod align_of c = 0) aops →
    history (reloaded c (av_step pcmp)) aops (c_enc c (av_new ms d) ++ rest) =
      ((history (av_step pcmp) aops.*2 (av_new ms d)).1, c_enc c (history (av_step pcmp) aops.*2 (av_new ms d)).2 ++ rest).
  Proof.
    intros c Ha. apply (on_bytes_history c (c_avl_ok _ _ (proj1 Hk) (proj1 Hv) ms) (TV ms)); [intros; by apply tv_wf|done| |by apply tv_new].
    apply Forall_forall. intros o _. by apply tv_step.
  Qed.
  Theorem C41_cb_reload a128 nn d t0 aops rest :
    let c := c_crit a128 nn ms cv in
    0 < a128 → (N.of_nat nn + 1 < W32)%N → cb_new nn ms d = Some t0 → Forall u128_op aops.*2 → Forall (λ ao, ao.1 mod align_of c = 0) aops →
    history (reloaded c cb_step) aops (c_enc c t0 ++ rest) =
      ((history cb_step aops.*2 t0).1, c_enc c (history cb_step aops.*2 t0).2 ++ rest).
  Proof.
    intros c H128 Hn Ht0 Ho Ha. apply (on_bytes_history c (c_crit_ok _ (proj1 Hv) a128 H128 nn ms) (TC nn ms)); [intros; by apply tc_wf|done| |by eapply tc_new].
    eapply Forall_impl; [exact Ho|]. intros o Hu. by apply tc_step.
  Qed.
  (** ... and what [load_bytes] shows is the structure itself, in every state the calls lead to *)
  Theorem C41_dq_view d ops addr rest :
    let c := c_deque ms ct in let q := (history dq_step ops (dq_new ms d)).2 in
    addr mod align_of c = 0 → load c addr (c_enc c q ++ rest) = Val (Some q).
  Proof. intros c q Ha. apply load_enc; [apply c_deque_ok, Ht|done|]. by apply td_wf, td_history. Qed.
  Theorem C41_ht_view keq hash nb d h0 ops addr rest :
    let c := c_hash nb ms ck cv in let h := (history (ht_step keq hash) ops h0).2 in
    ht_new nb ms d = Some h0 → addr mod align_of c = 0 → load c addr (c_enc c h ++ rest) = Val (Some h).
  Proof. intros c h Hn Ha. apply load_enc; [apply c_hash_ok; [apply Hk|apply Hv]|done|]. apply th_wf; [done..|]. by eapply th_history. Qed.
  Theorem C41_rb_view cmp d ops addr rest :
    let c := c_rb ms ck cv in let t := (history (rb_step cmp) ops (rb_new ms d)).2 in
    addr mod align_of c = 0 → load c addr (c_enc c t ++ rest) = Val (Some t).
  Proof. intros c t Ha. apply load_enc; [apply c_rb_ok; [apply Hk|apply Hv]|done|]. by apply tr_wf, tr_history. Qed.
  Theorem C41_av_view pcmp d ops addr rest :
    let c := c_avl ms ck cv in let t := (history (av_step pcmp) ops (av_new ms d)).2 in
    addr mod align_of c = 0 → load c addr (c_enc c t ++ rest) = Val (Some t).
  Proof. intros c t Ha. apply load_enc; [apply c_avl_ok; [apply Hk|apply Hv]|done|]. by apply tv_wf, tv_history. Qed.
  Theorem C41_cb_view a128 nn d t0 ops addr rest :
    let c := c_crit a128 nn ms cv in let t := (history cb_step ops t0).2 in
    0 < a128 → (N.of_nat nn + 1 < W32)%N → cb_new nn ms d = Some t0 → Forall u128_op ops →
    addr mod align_of c = 0 → load c addr (c_enc c t ++ rest) = Val (Some t).
  Proof.
    intros c t H128 Hn Ht0 Ho Ha. apply load_enc; [apply c_crit_ok; [apply Hv|done]|done|]. apply tc_wf; [done..|]. by eapply tc_history.
  Qed.

  (** ** C43: [new_from_slice] on a buffer of zeros gives the structure of [new()] (for a type whose default value is the one with zero
      bytes, [c_zero]; see C05_*_default for others) and leaves the bytes behind it alone *)
  Context (Lt : lay_ok (c_lay ct)) (Lk : lay_ok (c_lay ck)) (Lv : lay_ok (c_lay cv)).
  Theorem C43_dq_zeroed addr rest :
    let c := c_deque ms ct in
    alloc_fits 2 (c_lay ct) → addr mod align_of c = 0 →
    dq_new_from_slice ms ct addr (zeros (size_of c) ++ rest) = Ret () (c_enc c (dq_new ms (c_zero ct)) ++ rest).
  Proof. by apply dq_nfs_zeros. Qed.
  Theorem C43_ht_zeroed nb addr rest h0 :
    let c := c_hash nb ms ck cv in
    alloc_fits 4 (c_lay (c_pair ck cv)) → addr mod align_of c = 0 → ht_new nb ms (c_zero ck, c_zero cv) = Some h0 →
    ht_new_from_slice nb ms ck cv addr (zeros (size_of c) ++ rest) = Ret () (c_enc c h0 ++ rest).
  Proof. by apply ht_nfs_zeros. Qed.
  Theorem C43_rb_zeroed addr rest :
    let c := c_rb ms ck cv in
    rb_fits (c_lay ck) (c_lay cv) → alloc_fits 4 (c_lay (c_pair ck cv)) → addr mod align_of c = 0 →
    rb_new_from_slice ms ck cv addr (zeros (size_of c) ++ rest) = Ret () (c_enc c (rb_new ms (c_zero ck, c_zero cv)) ++ rest).
  Proof. by apply rb_nfs_zeros. Qed.
  Theorem C43_av_zeroed addr rest :
    let c := c_avl ms ck cv in
    alloc_fits 4 (c_lay (c_pair ck cv)) → addr mod align_of c = 0 →
    av_new_from_slice ms ck cv addr (zeros (size_of c) ++ rest) = Ret () (c_enc c (av_new ms (c_zero ck, c_zero cv)) ++ rest).
  Proof. by apply av_nfs_zeros. Qed.
  Theorem C43_cb_zeroed a128 nn addr rest t0 :
    let c := c_crit a128 nn ms cv in
    a128 = 8 ∨ a128 = 16 → alloc_fits 4 (c_lay cv) → addr mod align_of c = 0 → cb_new nn ms (c_zero cv) = Some t0 →
    cb_new_from_slice a128 nn ms cv addr (zeros (size_of c) ++ rest) = Ret () (c_enc c t0 ++ rest).
  Proof. by apply cb_nfs_zeros. Qed.

  (** On a buffer holding a structure built by [new] and any calls, [new_from_slice] panics and changes no byte, at every address *)
  Theorem C43_dq_again d ops addr rest :
    let data := c_enc (c_deque ms ct) (history dq_step ops (dq_new ms d)).2 ++ rest in
    dq_new_from_slice ms ct addr data = Fail Panic data.
  Proof. apply dq_nfs_again; [done|done|by apply td_history]. Qed.
  Theorem C43_ht_again keq hash nb d h0 ops addr rest :
    let data := c_enc (c_hash nb ms ck cv) (history (ht_step keq hash) ops h0).2 ++ rest in
    ht_new nb ms d = Some h0 → ht_new_from_slice nb ms ck cv addr data = Fail Panic data.
  Proof. intros data Hn. apply ht_nfs_again; [done..|by eapply th_history]. Qed.
  Theorem C43_rb_again cmp d ops addr rest :
    let data := c_enc (c_rb ms ck cv) (history (rb_step cmp) ops (rb_new ms d)).2 ++ rest in
    rb_new_from_slice ms ck cv addr data = Fail Panic data.
  Proof. apply rb_nfs_again; [done..|by apply tr_history]. Qed.
  Theorem C43_av_again pcmp d ops addr rest :
    let data := c_enc (c_avl ms ck cv) (history (av_step pcmp) ops (av_new ms d)).2 ++ rest in
    av_new_from_slice ms ck cv addr data = Fail Panic data.
  Proof. apply av_nfs_again; [done..|by apply tv_history]. Qed.
  Theorem C43_cb_again a128 nn d t0 ops addr rest :
    let data := c_enc (c_crit a128 nn ms cv) (history cb_step ops t0).2 ++ rest in
    0 < a128 → (N.of_nat nn + 1 < W32)%N → cb_new nn ms d = Some t0 → Forall u128_op ops →
    cb_new_from_slice a128 nn ms cv addr data = Fail Panic data.
  Proof. intros data H128 Hn Ht0 Ho. apply cb_nfs_again; [done..|by eapply tc_history]. Qed.
End props.

(** ** C42: a slice that is too short makes [load_bytes] and [load_mut_bytes] panic; otherwise exactly the first [size_of] bytes are used,
    and the answer is [None] just if the address is misaligned *)
Section load.
  Context {A : Type} (c : codec A).
  Theorem C42_load_long addr data rest :
    length data = size_of c →
    load c addr (data ++ rest) = Val (if decide (addr mod align_of c = 0) then Some (c_dec c data) else None).
  Proof.
    intros Hl. unfold load. rewrite decide_False by (rewrite app_length; lia). rewrite take_app_alt by done. by destruct (decide _).
  Qed.
  Theorem C42_load_short addr data : length data < size_of c → load c addr data = Err Panic.
  Proof. intros Hl. unfold load. by rewrite decide_True. Qed.
End load.
(** The claim "[None] for short slices" is false of the code, for every structure (here the deque of 2 u64) *)
Theorem C42_short_refuted : ∃ data, length data < size_of (c_deque 2 c_u64) ∧ load (c_deque 2 c_u64) 0 data ≠ Val None.
Proof. exists []. split; [cbv; lia|by vm_compute]. Qed.

(** Too short or misaligned slices make [new_from_slice] panic, without changing a byte *)
Section refuse.
  Context `{Profile} {T K V : Type} (ct : codec T) (ck : codec K) (cv : codec V) (ms addr : nat) (data : bytes).
  Definition unfit {A} (c : codec A) : Prop := length data < size_of c ∨ addr mod align_of c ≠ 0.
  Lemma unfit_panics {A B} (c : codec A) (m : M A B) : unfit c → on_bytes c addr m data = Fail Panic data.
  Proof.
    intros Hu. destruct (decide (length data < size_of c)) as [Hd|Hd]; [by apply on_bytes_short|].
    destruct Hu as [Hu|Hu]; [lia|]. apply on_bytes_misaligned; [lia|done].
  Qed.
  Theorem C43_dq_unfit : unfit (c_deque ms ct) → dq_new_from_slice ms ct addr data = Fail Panic data.
  Proof. apply unfit_panics. Qed.
  Theorem C43_ht_unfit nb : unfit (c_hash nb ms ck cv) → ht_new_from_slice nb ms ck cv addr data = Fail Panic data.
  Proof. intros Hu. by apply massert_fail, unfit_panics. Qed.
  Theorem C43_rb_unfit : unfit (c_rb ms ck cv) → rb_new_from_slice ms ck cv addr data = Fail Panic data.
  Proof. intros Hu. by apply massert_fail, unfit_panics. Qed.
  Theorem C43_av_unfit : unfit (c_avl ms ck cv) → av_new_from_slice ms ck cv addr data = Fail Panic data.
  Proof. apply unfit_panics. Qed.
  Theorem C43_cb_unfit a128 nn : unfit (c_crit a128 nn ms cv) → cb_new_from_slice a128 nn ms cv addr data = Fail Panic data.
  Proof. intros Hu. by apply massert_fail, unfit_panics. Qed.
End refuse.

(** ** C49: the layout assertions depend on the type parameters only: at every properly aligned address they amount to [alloc_fits] (and
    [rb_fits]), so construction with given types either always panics there or never *)
Theorem C49_alloc_assert nr l self_ptr :
  lay_ok l → self_ptr mod Nat.max 8 (l_align l) = 0 → na_proper nr l self_ptr = true ↔ alloc_fits nr l.
Proof. exact (na_proper_fits nr l self_ptr). Qed.
Theorem C49_rb_assert lk lv : lay_ok lk → lay_ok lv → rb_proper lk lv = true ↔ rb_fits lk lv.
Proof. exact (rb_proper_fits lk lv). Qed.

(** ** C50: no padding. [unsafe impl Pod] promises that the structs have no padding bytes, i.e. that [size_of] is the sum of the sizes of
    the fields, for all type parameters that pass the assertions. This is false for each of the five containers: *)
Theorem C50_dq_refuted : ∃ (T : Type) (ct : codec T) ms,
  lay_ok (c_lay ct) ∧ alloc_fits 2 (c_lay ct) ∧ size_of (c_deque ms ct) ≠ (8 + 4 + 4) + (8 + 4 + 4) + ms * (2 * 4 + size_of ct).
Proof.
  (* T = [u32; 3] *)
  exists _, (c_array 3 c_u32), 1. split; [split; [by exists 2|done]|]. split; [split_and!; [right|..]; cbv; lia|by vm_compute].
Qed.
Theorem C50_rb_refuted : ∃ (K V : Type) (ck : codec K) (cv : codec V) ms,
  lay_ok (c_lay ck) ∧ lay_ok (c_lay cv) ∧ rb_fits (c_lay ck) (c_lay cv) ∧ alloc_fits 4 (c_lay (c_pair ck cv)) ∧
  size_of (c_rb ms ck cv) ≠ (4 + 12) + (8 + 4 + 4) + ms * (4 * 4 + (size_of ck + size_of cv)).
Proof.
  (* K = u8, V = u64 *)
  exists _, _, (c_uint 1 1), c_u64, 1. split; [split; [by exists 0|done]|]. split; [split; [by exists 3|done]|].
  split; [done|]. split; [split_and!; [right|..]; cbv; lia|by vm_compute].
Qed.
Theorem C50_ht_refuted : ∃ (K V : Type) (ck : codec K) (cv : codec V) nb ms,
  lay_ok (c_lay ck) ∧ lay_ok (c_lay cv) ∧ nb mod 2 = 0 ∧ alloc_fits 4 (c_lay (c_pair ck cv)) ∧
  size_of (c_hash nb ms ck cv) ≠ 4 * nb + (8 + 4 + 4) + ms * (4 * 4 + (size_of ck + size_of cv)).
Proof.
  (* K = u64, V = u8 *)
  exists _, _, c_u64, (c_uint 1 1), 2, 1. split; [split; [by exists 3|done]|]. split; [split; [by exists 0|done]|].
  split; [done|]. split; [split_and!; [right|..]; cbv; lia|by vm_compute].
Qed.
Theorem C50_av_refuted : ∃ (K V : Type) (ck : codec K) (cv : codec V) ms,
  lay_ok (c_lay ck) ∧ lay_ok (c_lay cv) ∧ alloc_fits 4 (c_lay (c_pair ck cv)) ∧
  size_of (c_avl ms ck cv) ≠ 8 + (8 + 4 + 4) + ms * (4 * 4 + (size_of ck + size_of cv)).
Proof.
  (* K = u64, V = u8 *)
  exists _, _, c_u64, (c_uint 1 1), 1. split; [split; [by exists 3|done]|]. split; [split; [by exists 0|done]|].
  split; [split_and!; [right|..]; cbv; lia|by vm_compute].
Qed.
(** also with a tight node type: keys of alignment 16 leave a gap after the 8-byte root of AVLTree and after 2 buckets of HashTable *)
Theorem C50_align16_refuted : ∃ (K V : Type) (ck : codec K) (cv : codec V) nb ms,
  lay_ok (c_lay ck) ∧ lay_ok (c_lay cv) ∧ nb mod 2 = 0 ∧ alloc_fits 4 (c_lay (c_pair ck cv)) ∧
  size_of (c_pair ck cv) = size_of ck + size_of cv ∧
  size_of (c_avl ms ck cv) ≠ 8 + (8 + 4 + 4) + ms * (4 * 4 + (size_of ck + size_of cv)) ∧
  size_of (c_hash nb ms ck cv) ≠ 4 * nb + (8 + 4 + 4) + ms * (4 * 4 + (size_of ck + size_of cv)).
Proof.
  (* K = V = u128 with 16-byte alignment *)
  exists _, _, (c_u128 16), (c_u128 16), 2, 1. split; [split; [by exists 4|done]|]. split; [split; [by exists 4|done]|].
  split; [done|]. split; [split_and!; [right|..]; cbv; lia|]. split_and!; by vm_compute.
Qed.
(** Critbit, where u128 has 16-byte alignment: V = u64 and an odd MAX_SIZE *)
Theorem C50_cb_refuted : ∃ (V : Type) (cv : codec V) nn ms,
  lay_ok (c_lay cv) ∧ alloc_fits 4 (c_lay cv) ∧ 2 * ms ≤ nn ∧
  size_of (c_crit 16 nn ms cv) ≠ (8 + 4 + 4) + ((8 + 4 + 4) + nn * (4 * 4 + (16 + 8 + 8))) + ((8 + 4 + 4) + ms * (4 * 4 + size_of cv)).
Proof.
  exists _, c_u64, 2, 1. split; [split; [by exists 3|done]|]. split; [split_and!; [right|..]; cbv; lia|]. split; [done|by vm_compute].
Qed.
(** Conditions under which it holds *)
Section tight.
  Context {T K V : Type} (ct : codec T) (ck : codec K) (cv : codec V) (ms : nat).
  Context (Lt : lay_ok (c_lay ct)) (Lk : lay_ok (c_lay ck)) (Lv : lay_ok (c_lay cv)).
  Theorem C50_dq_tight :
    alloc_fits 2 (c_lay ct) → size_of ct mod 8 = 0 →
    size_of (c_deque ms ct) = (8 + 4 + 4) + (8 + 4 + 4) + ms * (2 * 4 + size_of ct).
  Proof. exact (deque_size ct ms Lt). Qed.
  (** no gap between key and value, none after the value, and a multiple of 8 bytes per pair *)
  Definition pair_tight : Prop :=
    size_of ck mod align_of cv = 0 ∧ (size_of ck + size_of cv) mod align_of ck = 0 ∧ (size_of ck + size_of cv) mod 8 = 0.
  Theorem C50_rb_tight :
    alloc_fits 4 (c_lay (c_pair ck cv)) → pair_tight →
    size_of (c_rb ms ck cv) = (4 + 12) + (8 + 4 + 4) + ms * (4 * 4 + (size_of ck + size_of cv)).
  Proof. intros Hf (H1 & H2 & H3). by apply rb_size. Qed.
  Theorem C50_ht_tight nb :
    alloc_fits 4 (c_lay (c_pair ck cv)) → pair_tight → (4 * nb) mod Nat.max 8 (Nat.max (align_of ck) (align_of cv)) = 0 →
    size_of (c_hash nb ms ck cv) = 4 * nb + (8 + 4 + 4) + ms * (4 * 4 + (size_of ck + size_of cv)).
  Proof. intros Hf (H1 & H2 & H3). by apply hash_size. Qed.
  Theorem C50_av_tight :
    alloc_fits 4 (c_lay (c_pair ck cv)) → pair_tight → align_of ck ≤ 8 → align_of cv ≤ 8 →
    size_of (c_avl ms ck cv) = 8 + (8 + 4 + 4) + ms * (4 * 4 + (size_of ck + size_of cv)).
  Proof. intros Hf (H1 & H2 & H3). by apply avl_size. Qed.
  Theorem C50_cb_tight a128 nn :
    a128 = 8 ∨ a128 = 16 → alloc_fits 4 (c_lay cv) → size_of cv mod 8 = 0 → (ms * size_of cv) mod a128 = 0 →
    size_of (c_crit a128 nn ms cv) = (8 + 4 + 4) + ((8 + 4 + 4) + nn * (4 * 4 + (16 + 8 + 8))) + ((8 + 4 + 4) + ms * (4 * 4 + size_of cv)).
  Proof. intros H1 H2 H3 H4. rewrite crit_size by done. lia. Qed.
End tight.
Print Assumptions C41_alloc_reload.
Print Assumptions C41_dq_reload.
Print Assumptions C41_ht_reload.
Print Assumptions C41_rb_reload.
Print Assumptions C41_av_reload.
Print Assumptions C41_cb_reload.
Print Assumptions C41_dq_view.
Print Assumptions C41_ht_view.
Print Assumptions C41_rb_view.
Print Assumptions C41_av_view.
Print Assumptions C41_cb_view.
Print Assumptions C43_dq_zeroed.
Print Assumptions C43_ht_zeroed.
Print Assumptions C43_rb_zeroed.
Print Assumptions C43_av_zeroed.
Print Assumptions C43_cb_zeroed.
Print Assumptions C43_dq_again.
Print Assumptions C43_ht_again.
Print Assumptions C43_rb_again.
Print Assumptions C43_av_again.
Print Assumptions C43_cb_again.
Print Assumptions C42_load_long.
Print Assumptions C42_load_short.
Print Assumptions C42_short_refuted.
Print Assumptions C43_dq_unfit.
Print Assumptions C43_ht_unfit.
Print Assumptions C43_rb_unfit.
Print Assumptions C43_av_unfit.
Print Assumptions C43_cb_unfit.
Print Assumptions C49_alloc_assert.
Print Assumptions C49_rb_assert.
Print Assumptions C50_dq_refuted.
Print Assumptions C50_rb_refuted.
Print Assumptions C50_ht_refuted.
Print Assumptions C50_av_refuted.
Print Assumptions C50_align16_refuted.
Print Assumptions C50_cb_refuted.
Print Assumptions C50_dq_tight.
Print Assumptions C50_rb_tight.
Print Assumptions C50_ht_tight.
Print Assumptions C50_av_tight.
Print Assumptions C50_cb_tight.

(** ** Concrete cases *)
(** The type u64: numbers below 2^64, 8 bytes with alignment 8 *)
Record u64 := U64 { u64_v : N; u64_lt : (u64_v <? W64)%N = true }.
Definition to_u64 (x : N) : u64 := U64 (x mod W64) (proj2 (N.ltb_lt _ _) (N.mod_lt x W64 ltac:(done))).
Definition c_u64t : codec u64 := Codec (Lay 8 8) (λ _, True) (λ x, le_enc 8 (u64_v x)) (λ b, to_u64 (le_dec b)).
Lemma u64_eq (x y : u64) : u64_v x = u64_v y → x = y.
Proof. destruct x as [x Hx], y as [y Hy]. simpl. intros ->. f_equal. apply proof_irrel. Qed.
Example ex_u64 : elt_ok c_u64t ∧ lay_ok (c_lay c_u64t) ∧ alloc_fits 2 (c_lay c_u64t) ∧ alloc_fits 4 (c_lay c_u64t).
Proof.
  split; [split; [split|done]|].
  - simpl. lia.
  - intros. apply le_enc_length.
  - intros [x Hx] _. apply u64_eq. change ((le_dec (le_enc 8 x) mod W64)%N = x).
    apply N.ltb_lt in Hx. rewrite le_dec_enc by done. by apply N.mod_small.
  - split; [split; [by exists 3|done]|]. split; (split_and!; [right|..]; cbv; lia).
Qed.
Example ex_fits :
  rb_fits (c_lay c_u64t) (c_lay c_u64t) ∧ alloc_fits 4 (c_lay (c_pair c_u64t c_u64t)) ∧ pair_tight c_u64t c_u64t ∧
  size_of (c_deque 2 c_u64t) = 64 ∧ align_of (c_deque 2 c_u64t) = 8.
Proof. split; [done|]. split; [split_and!; [right|..]; cbv; lia|done]. Qed.
(** A deque of two u64 in the first 64 of 67 zero bytes at address 8; then the bytes are moved to address 24, loaded and pushed to, moved to
    address 40 and read; bytes 40 and 41 hold the value 0x0102 = 258; initialising again is refused; a misaligned view is [None] *)
Example ex_C41_C43_dq `{Profile} :
  match dq_new_from_slice 2 c_u64 8 (zeros 67) with
  | Ret _ b =>
      let '(rs, b') := history (reloaded (c_deque 2 c_u64) dq_step) [(24, DPushBack 258%N); (40, DFront)] b in
      rs = [Val DUnit; Val (DVal (Some 258%N))] ∧ take 2 (drop 40 b') = [x02; x01] ∧ length b' = 67 ∧
      dq_new_from_slice 2 c_u64 40 b' = Fail Panic b' ∧
      load (c_deque 2 c_u64) 41 b' = Val None ∧ load (c_deque 2 c_u64) 0 (take 63 b') = Err Panic
  | Fail _ _ => False
  end.
Proof. destruct H as [[]]; vm_compute; split_and!; reflexivity. Qed.
(** The hypotheses of C41_cb_reload and C43_cb_zeroed *)
Example ex_C41_cb `{Profile} :
  ∃ t0, cb_new 4 2 (c_zero c_u64t) = Some t0 ∧ align_of (c_crit 16 4 2 c_u64t) = 16 ∧ Forall u128_op [MInsert 3%N (to_u64 7); MLen] ∧
  cb_new_from_slice 16 4 2 c_u64t 32 (zeros (size_of (c_crit 16 4 2 c_u64t)) ++ [x07]) = Ret () (c_enc (c_crit 16 4 2 c_u64t) t0 ++ [x07]) ∧
  (history (reloaded (c_crit 16 4 2 c_u64t) cb_step) [(16, MInsert 3%N (to_u64 7)); (48, MLen)] (c_enc (c_crit 16 4 2 c_u64t) t0 ++ [x07])).1 =
    (history cb_step [MInsert 3%N (to_u64 7); MLen] t0).1.
Proof.
  destruct ex_u64 as (He & Hl & _ & Hf). eexists. split; [done|]. split; [done|]. split; [by repeat constructor|].
  split; [apply C43_cb_zeroed; [done..|by right|done|done|done]|].
  erewrite (C41_cb_reload c_u64t He 2 ltac:(done) 16 4); [done|lia|done|done|by repeat constructor|by repeat constructor].
Qed.
(** The default of a red-black tree of u64 pairs *)
Example ex_C43_rb `{Profile} :
  let c := c_rb 2 c_u64t c_u64t in
  rb_new_from_slice 2 c_u64t c_u64t 8 (zeros 96 ++ [x01]) = Ret () (c_enc c (rb_new 2 (c_zero c_u64t, c_zero c_u64t)) ++ [x01]) ∧ size_of c = 96.
Proof.
  destruct ex_u64 as (He & Hl & _ & _). destruct ex_fits as (Hr & Hp & _). split; [|done].
  exact (C43_rb_zeroed c_u64t c_u64t He He 2 Hl Hl 8 [x01] Hr Hp eq_refl).
Qed.
(** Types rejected by the allocator's assertions: T = u32 (too small) and, in a Deque, T = u128 of alignment 16 *)
Example ex_C49 : ¬ alloc_fits 2 (Lay 4 4) ∧ na_proper 2 (Lay 4 4) 16 = false ∧ ¬ alloc_fits 2 (Lay 16 16) ∧ alloc_fits 4 (Lay 16 16).
Proof.
  split; [intros [[|] _]; cbv in *; lia|]. split; [done|]. split; [intros (_ & _ & ?); cbv in *; lia|].
  split_and!; [right|..]; cbv; lia.
Qed.
