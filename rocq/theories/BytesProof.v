(** * Proofs about the byte layer: decoding undoes encoding for every value within its Rust type *)
From Verif Require Export TypedTree TypedCrit BytesSpec.
Local Open Scope nat_scope.

Lemma round_up_ge x a : 0 < a → x ≤ round_up x a.
Proof.
  intros Ha. unfold round_up. pose proof (Nat.div_mod (x + (a - 1)) a ltac:(lia)).
  pose proof (Nat.mod_upper_bound (x + (a - 1)) a ltac:(lia)). lia.
Qed.
Lemma round_up_mod x a : 0 < a → round_up x a mod a = 0.
Proof. intros Ha. unfold round_up. apply Nat.mod_mul. lia. Qed.
Lemma round_up_id x a : 0 < a → x mod a = 0 → round_up x a = x.
Proof.
  intros Ha Hx. unfold round_up. apply Nat.mod_divides in Hx as [k ->]; [|lia].
  rewrite (Nat.mul_comm a k), Nat.add_comm, Nat.div_add by lia. rewrite (Nat.div_small (a - 1)) by lia. lia.
Qed.
Lemma struct_end_ge off ls : Forall (λ l, 0 < l_align l) ls → off ≤ struct_end off ls.
Proof.
  intros Hl. revert off. induction Hl as [|l ls Ha Hl IH]; intros off; simpl; [done|].
  pose proof (round_up_ge off (l_align l) Ha). pose proof (IH (round_up off (l_align l) + l_size l)). lia.
Qed.
Lemma struct_end_app off ks ls : struct_end off (ks ++ ls) = struct_end (struct_end off ks) ls.
Proof. revert off. induction ks as [|k ks IH]; intros off; simpl; [done|]. by rewrite IH. Qed.
Lemma struct_align_pos ls : 0 < struct_align ls.
Proof. induction ls; simpl; lia. Qed.

(** ** Lawful codecs *)
Record fields_ok {A} (f : fields A) : Prop := {
  fo_align : Forall (λ l, 0 < l_align l) (f_lays f);
  fo_len off a : f_wf f a → length (f_enc f off a) = struct_end off (f_lays f) - off;
  fo_dec off a rest : f_wf f a → f_dec f off (f_enc f off a ++ rest) = a }.

Lemma zeros_length n : length (zeros n) = n.
Proof. apply replicate_length. Qed.
Lemma drop_zeros k n : drop k (zeros n) = zeros (n - k).
Proof. apply drop_replicate. Qed.
Lemma f_one_ok {A} (c : codec A) : codec_ok c → fields_ok (f_one c).
Proof.
  intros [Ha Hl Hd]. split; simpl.
  - by repeat constructor.
  - intros off a Hw. rewrite app_length, zeros_length, Hl by done. pose proof (round_up_ge off _ Ha). lia.
  - intros off a rest Hw. rewrite <- app_assoc. rewrite drop_app_alt by (by rewrite zeros_length).
    rewrite take_app_alt by (by rewrite Hl). by apply Hd.
Qed.
Lemma f_two_ok {A B} (f : fields A) (g : fields B) : fields_ok f → fields_ok g → fields_ok (f_two f g).
Proof.
  intros [Ha Hl Hd] [Ha' Hl' Hd']. split; simpl.
  - by apply Forall_app.
  - intros off [a b] [Hw Hw']. simpl in *. rewrite app_length, Hl, Hl', struct_end_app by done.
    pose proof (struct_end_ge off _ Ha). pose proof (struct_end_ge (struct_end off (f_lays f)) _ Ha'). lia.
  - intros off [a b] rest [Hw Hw']. simpl in *. rewrite <- app_assoc, Hd by done.
    rewrite drop_app_alt by (by rewrite Hl). by rewrite Hd'.
Qed.
Lemma c_struct_ok {A B} (mk : A → B) un (f : fields A) : (∀ b, mk (un b) = b) → fields_ok f → codec_ok (c_struct mk un f).
Proof.
  intros Hm [Ha Hl Hd]. split; simpl.
  - apply struct_align_pos.
  - intros b Hw. rewrite app_length, zeros_length, Hl by done.
    pose proof (round_up_ge (struct_end 0 (f_lays f)) (struct_align (f_lays f)) (struct_align_pos _)). lia.
  - intros b Hw. by rewrite Hd.
Qed.
Lemma c_array_ok {A} n (c : codec A) : codec_ok c → codec_ok (c_array n c).
Proof.
  intros [Ha Hl Hd]. split; simpl; [done| |].
  - intros l [<- Hw]. induction Hw as [|a l Hw Hws IH]; [done|]. rewrite fmap_cons. cbn [concat length]. rewrite app_length, Hl, IH; [lia|done].
  - intros l [<- Hw]. induction Hw as [|a l Hw Hws IH]; [done|]. rewrite fmap_cons. cbn [concat length dec_array].
    rewrite take_app_alt by (by rewrite Hl). rewrite drop_app_alt by (by rewrite Hl). by rewrite Hd, IH.
Qed.

Lemma byte_of_lt x : (x < 256)%N → Byte.to_N (byte_of x) = x.
Proof.
  intros Hx. unfold byte_of. destruct (Byte.of_N x) as [b|] eqn:E; simpl; [by apply to_of_N|].
  apply of_N_None_iff in E. lia.
Qed.
Lemma le_enc_length n x : length (le_enc n x) = n.
Proof. revert x. induction n as [|n IH]; intros x; simpl; [done|]. by rewrite IH. Qed.
Lemma le_dec_enc n x : (x < 256 ^ N.of_nat n)%N → le_dec (le_enc n x) = x.
Proof.
  revert x. induction n as [|n IH]; intros x Hx; [simpl in *; lia|]. cbn [le_enc le_dec].
  rewrite byte_of_lt by (apply N.mod_lt; lia). rewrite IH.
  - pose proof (N.div_mod' x 256). lia.
  - rewrite Nat2N.inj_succ, N.pow_succ_r' in Hx. apply N.div_lt_upper_bound; lia.
Qed.
Lemma le_dec_zeros n : le_dec (zeros n) = 0%N.
Proof. induction n as [|n IH]; [done|]. unfold zeros in *. cbn [replicate le_dec]. by rewrite IH. Qed.
Lemma c_uint_ok n a : 0 < a → codec_ok (c_uint n a).
Proof. intros Ha. split; simpl; [done|intros; apply le_enc_length|apply le_dec_enc]. Qed.
Lemma c_pad_ok n a : 0 < a → codec_ok (c_pad (c_uint n a)).
Proof. intros Ha. split; simpl; [done|intros; apply le_enc_length|by intros []]. Qed.

Lemma pow_W32 : (256 ^ N.of_nat 4 = W32)%N.
Proof. reflexivity. Qed.
Lemma pow_W64 : (256 ^ N.of_nat 8 = W64)%N.
Proof. reflexivity. Qed.
Lemma pow_W128 : (256 ^ N.of_nat 16 = W128)%N.
Proof. reflexivity. Qed.

(** ** The value whose bytes are all zero *)
Lemma f_one_zero {A} (c : codec A) off n :
  0 < l_align (c_lay c) → struct_end off (f_lays (f_one c)) - off ≤ n → f_dec (f_one c) off (zeros n) = c_zero c.
Proof.
  intros Ha Hn. simpl in *. pose proof (round_up_ge off _ Ha). unfold zeros. rewrite drop_replicate, take_replicate.
  unfold c_zero, zeros. f_equal. f_equal. lia.
Qed.
Lemma f_two_zero {A B} (f : fields A) (g : fields B) off n a b :
  Forall (λ l, 0 < l_align l) (f_lays f) → Forall (λ l, 0 < l_align l) (f_lays g) →
  (∀ off n, struct_end off (f_lays f) - off ≤ n → f_dec f off (zeros n) = a) →
  (∀ off n, struct_end off (f_lays g) - off ≤ n → f_dec g off (zeros n) = b) →
  struct_end off (f_lays (f_two f g)) - off ≤ n → f_dec (f_two f g) off (zeros n) = (a, b).
Proof.
  intros Hf Hg Ha Hb Hn. simpl in *. rewrite struct_end_app in Hn.
  pose proof (struct_end_ge off _ Hf). pose proof (struct_end_ge (struct_end off (f_lays f)) _ Hg).
  rewrite Ha by lia. rewrite drop_zeros. rewrite Hb by lia. done.
Qed.
Lemma c_struct_zero {A B} (mk : A → B) un (f : fields A) a :
  (∀ off n, struct_end off (f_lays f) - off ≤ n → f_dec f off (zeros n) = a) → c_zero (c_struct mk un f) = mk a.
Proof.
  intros Ha. unfold c_zero. simpl. rewrite Ha; [done|].
  pose proof (round_up_ge (struct_end 0 (f_lays f)) (struct_align (f_lays f)) (struct_align_pos _)). lia.
Qed.
Lemma c_array_zero {A} n (c : codec A) : c_zero (c_array n c) = replicate n (c_zero c).
Proof.
  unfold c_zero. simpl. unfold zeros. induction n as [|n IH]; simpl; [done|].
  rewrite take_replicate, drop_replicate. rewrite Nat.min_l by lia. f_equal.
  replace (l_size (c_lay c) + n * l_size (c_lay c) - l_size (c_lay c)) with (n * l_size (c_lay c)) by lia. done.
Qed.
Lemma c_uint_zero n a : c_zero (c_uint n a) = 0%N.
Proof. apply le_dec_zeros. Qed.

Ltac c_ok := repeat first
  [ apply c_struct_ok; [by intros []|] | apply f_two_ok | apply f_one_ok | apply c_array_ok | apply c_uint_ok | apply c_pad_ok
  | assumption | lia ].
Ltac c_al := first [ exact (Nat.lt_0_succ _) | apply co_align; assumption | apply struct_align_pos ].
Ltac c_als := repeat first [ apply Forall_app; split | apply Forall_cons; split | apply Forall_nil; done | c_al ].
Ltac c_z := intros ? ? ?; first
  [ apply f_one_zero; [c_al|done] | (eapply f_two_zero; [c_als|c_als| | |done]; c_z) ].

Section structs.
  Context {T K V : Type} (ct : codec T) (ck : codec K) (cv : codec V).
  Context (Ht : codec_ok ct) (Hk : codec_ok ck) (Hv : codec_ok cv).
  Lemma c_node_ok nr : codec_ok (c_node nr ct).
  Proof using Ht. unfold c_node. c_ok. Qed.
  Lemma c_alloc_ok ms nr : codec_ok (c_alloc ms nr ct).
  Proof using Ht. unfold c_alloc. c_ok. Qed.
  Lemma c_pair_ok : codec_ok (c_pair ck cv).
  Proof using Hk Hv. unfold c_pair. c_ok. Qed.
  Lemma c_node_zero nr : c_zero (c_node nr ct) = node_default nr (c_zero ct).
  Proof using Ht. unfold c_node. erewrite c_struct_zero by c_z. rewrite c_array_zero. unfold c_u32. by rewrite c_uint_zero. Qed.
  Lemma c_pair_zero : c_zero (c_pair ck cv) = (c_zero ck, c_zero cv).
  Proof using Hk Hv. unfold c_pair. by erewrite c_struct_zero by c_z. Qed.
  Lemma c_alloc_zero ms nr : c_zero (c_alloc ms nr ct) = na_zeroed ms nr (c_zero ct).
  Proof using Ht.
    unfold c_alloc. erewrite c_struct_zero by c_z. rewrite c_array_zero, c_node_zero. unfold c_u32, c_u64. by rewrite !c_uint_zero.
  Qed.
  Lemma c_deque_ok ms : codec_ok (c_deque ms ct).
  Proof using Ht. unfold c_deque. c_ok. Qed.
  Lemma c_deque_zero ms : c_zero (c_deque ms ct) = dq_zeroed ms (c_zero ct).
  Proof using Ht. unfold c_deque. erewrite c_struct_zero by c_z. rewrite c_alloc_zero. unfold c_u32, c_u64. by rewrite !c_uint_zero. Qed.
End structs.

Section maps.
  Context {K V : Type} (ck : codec K) (cv : codec V) (Hk : codec_ok ck) (Hv : codec_ok cv).
  Lemma c_hash_ok nb ms : codec_ok (c_hash nb ms ck cv).
  Proof using Hk Hv. pose proof (c_alloc_ok _ (c_pair_ok _ _ Hk Hv) ms 4). unfold c_hash. c_ok. Qed.
  Lemma c_hash_zero nb ms : c_zero (c_hash nb ms ck cv) = ht_zeroed nb ms (c_zero ck, c_zero cv).
  Proof using Hk Hv.
    unfold c_hash. erewrite c_struct_zero by c_z. rewrite c_alloc_zero by (by apply c_pair_ok). rewrite c_array_zero, c_pair_zero by done.
    unfold c_u32, c_u64. by rewrite !c_uint_zero.
  Qed.
  Lemma c_rb_ok ms : codec_ok (c_rb ms ck cv).
  Proof using Hk Hv. pose proof (c_alloc_ok _ (c_pair_ok _ _ Hk Hv) ms 4). unfold c_rb. c_ok. Qed.
  Lemma c_rb_zero ms : c_zero (c_rb ms ck cv) = rb_zeroed ms (c_zero ck, c_zero cv).
  Proof using Hk Hv.
    unfold c_rb. erewrite c_struct_zero by c_z. rewrite c_alloc_zero by (by apply c_pair_ok). rewrite c_pair_zero by done.
    unfold c_u32, c_u64. by rewrite !c_uint_zero.
  Qed.
  Lemma c_avl_ok ms : codec_ok (c_avl ms ck cv).
  Proof using Hk Hv. pose proof (c_alloc_ok _ (c_pair_ok _ _ Hk Hv) ms 4). unfold c_avl. c_ok. Qed.
  Lemma c_avl_zero ms : c_zero (c_avl ms ck cv) = av_zeroed ms (c_zero ck, c_zero cv).
  Proof using Hk Hv.
    unfold c_avl. erewrite c_struct_zero by c_z. rewrite c_alloc_zero by (by apply c_pair_ok). rewrite c_pair_zero by done.
    unfold c_u32, c_u64. by rewrite !c_uint_zero.
  Qed.
End maps.

Section crit.
  Context {V : Type} (cv : codec V) (Hv : codec_ok cv) (a128 : nat) (Ha : 0 < a128).
  Lemma c_cnode_ok : codec_ok (c_cnode a128).
  Proof using Ha. unfold c_cnode. c_ok. Qed.
  Lemma c_crit_ok nn ms : codec_ok (c_crit a128 nn ms cv).
  Proof using Ha Hv.
    pose proof (c_alloc_ok _ c_cnode_ok nn 4). pose proof (c_alloc_ok _ Hv ms 4). unfold c_crit. c_ok.
  Qed.
  Lemma c_cnode_zero : c_zero (c_cnode a128) = CNode 0 0.
  Proof using Ha.
    pose proof (c_uint_ok 16 a128 Ha). unfold c_cnode. erewrite c_struct_zero by c_z. unfold c_u128, c_u64. by rewrite !c_uint_zero.
  Qed.
  Lemma c_crit_zero nn ms : c_zero (c_crit a128 nn ms cv) = cb_zeroed nn ms (c_zero cv).
  Proof using Ha Hv.
    unfold c_crit. erewrite c_struct_zero by c_z. rewrite !c_alloc_zero by (by first [apply c_cnode_ok|done]). rewrite c_cnode_zero.
    unfold c_u32, c_u64. by rewrite !c_uint_zero.
  Qed.
End crit.
