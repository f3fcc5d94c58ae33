(** * The byte format: structs without padding are the concatenation of their fields *)
From Verif Require Import BytesMain LayoutSpec.
Local Open Scope nat_scope.

Definition sum_size (ls : list layout) : nat := sum_list_with l_size ls.
Lemma sum_size_app ks ls : sum_size (ks ++ ls) = sum_size ks + sum_size ls.
Proof. unfold sum_size. induction ks as [|k ks IH]; simpl; [done|]. rewrite IH. lia. Qed.
Lemma struct_end_sum off ls : Forall (λ l, 0 < l_align l) ls → off + sum_size ls ≤ struct_end off ls.
Proof.
  intros Ha. revert off. induction Ha as [|l ls Hl Ha IH]; intros off; [unfold sum_size; simpl; lia|].
  unfold sum_size in *. cbn [sum_list_with struct_end]. specialize (IH (round_up off (l_align l) + l_size l)). pose proof (round_up_ge off _ Hl). lia.
Qed.
Definition tight (off : nat) (ls : list layout) : Prop := Forall (λ l, 0 < l_align l) ls ∧ struct_end off ls = off + sum_size ls.
Lemma tight_app off ks ls : tight off (ks ++ ls) → tight off ks ∧ tight (off + sum_size ks) ls.
Proof.
  intros [[Hk Hl]%Forall_app He]. rewrite struct_end_app, sum_size_app in He.
  pose proof (struct_end_sum off ks Hk) as H1. pose proof (struct_end_sum (struct_end off ks) ls Hl) as H2.
  assert (struct_end off ks = off + sum_size ks) as E by lia. split; split; [done|done|done|]. rewrite E in He. lia.
Qed.
Lemma one_raw {A} (c : codec A) off a : tight off (f_lays (f_one c)) → f_enc (f_one c) off a = c_enc c a.
Proof.
  intros [Ha He]. unfold sum_size in He. simpl in *. replace (round_up off (align_of c) - off) with 0 by lia. done.
Qed.
Lemma two_raw {A B} (f : fields A) (g : fields B) off x : tight off (f_lays (f_two f g)) →
  tight off (f_lays f) ∧ tight (off + sum_size (f_lays f)) (f_lays g) ∧
  f_enc (f_two f g) off x = f_enc f off x.1 ++ f_enc g (off + sum_size (f_lays f)) x.2.
Proof.
  intros [Hf Hg]%tight_app. split; [done|]. split; [done|]. destruct Hf as [_ He]. simpl. by rewrite He.
Qed.
Lemma struct_raw {A B} (mk : A → B) un (f : fields A) b :
  Forall (λ l, 0 < l_align l) (f_lays f) → size_of (c_struct mk un f) = sum_size (f_lays f) →
  tight 0 (f_lays f) ∧ c_enc (c_struct mk un f) b = f_enc f 0 (un b).
Proof.
  intros Ha Hs. simpl in Hs. pose proof (struct_end_sum 0 _ Ha) as H1.
  pose proof (round_up_ge (struct_end 0 (f_lays f)) (struct_align (f_lays f)) (struct_align_pos _)) as H2.
  split; [split; [done|lia]|]. simpl. replace (_ - _) with 0 by lia. by rewrite app_nil_r.
Qed.
Lemma enc_pads : c_enc (c_array 3 (c_pad c_u32)) (replicate 3 ()) = zeros 12.
Proof. done. Qed.

Ltac raw := repeat first [rewrite one_raw by done | (let H1 := fresh in let H2 := fresh in let E := fresh in
  match goal with Ht : tight ?off (f_lays (f_two ?f ?g)) |- context [f_enc (f_two ?f ?g) ?off ?x] => destruct (two_raw f g off x Ht) as (H1 & H2 & E); rewrite E; clear E end)].

Section alloc.
  Context {T : Type} (ct : codec T) (Lt : lay_ok (c_lay ct)) (nr : nat) (Hf : alloc_fits nr (c_lay ct)) (H8 : (4 * nr + size_of ct) mod 8 = 0).
  Lemma node_size : size_of (c_node nr ct) = 4 * nr + size_of ct.
  Proof using Lt Hf H8.
    pose proof (alloc_size ct 1 nr Lt Hf H8) as Hs. pose proof (al_ok_pos _ (proj1 Lt)) as Hp.
    assert (size_of (c_alloc 1 nr ct) ≥ 16 + size_of (c_node nr ct)) as H1.
    { change (c_lay (c_alloc 1 nr ct)) with (struct_lay [Lay 8 8; Lay 4 4; Lay 4 4; array_lay 1 (c_lay (c_node nr ct))]). unfold struct_lay. cbn [l_size].
      assert (Forall (λ l, 0 < l_align l) [Lay 8 8; Lay 4 4; Lay 4 4; array_lay 1 (c_lay (c_node nr ct))]) as Ha.
      { repeat constructor; simpl; try lia. }
      pose proof (struct_end_sum 0 _ Ha) as H1. unfold sum_size in H1. cbn [sum_list_with l_size array_lay] in H1.
      pose proof (round_up_ge (struct_end 0 [Lay 8 8; Lay 4 4; Lay 4 4; array_lay 1 (c_lay (c_node nr ct))]) _ (struct_align_pos [Lay 8 8; Lay 4 4; Lay 4 4; array_lay 1 (c_lay (c_node nr ct))])). lia. }
    assert (size_of (c_node nr ct) ≥ 4 * nr + size_of ct) as H2; [|lia].
    change (c_lay (c_node nr ct)) with (struct_lay [array_lay nr (Lay 4 4); c_lay ct]). unfold struct_lay. cbn [l_size].
    assert (Forall (λ l, 0 < l_align l) [array_lay nr (Lay 4 4); c_lay ct]) as Ha by (constructor; [simpl; lia|constructor; [done|by apply Forall_nil]]).
    pose proof (struct_end_sum 0 _ Ha) as H2. unfold sum_size in H2. cbn [sum_list_with l_size array_lay] in H2.
    pose proof (round_up_ge (struct_end 0 [array_lay nr (Lay 4 4); c_lay ct]) _ (struct_align_pos [array_lay nr (Lay 4 4); c_lay ct])). lia.
  Qed.
  Lemma node_wire n : c_enc (c_node nr ct) n = wire_node (c_enc ct) n.
  Proof using Lt Hf H8.
    pose proof (al_ok_pos _ (proj1 Lt)) as Hp. unfold c_node.
    edestruct @struct_raw as [Ht ->]; [| |]; [constructor; [simpl; lia|constructor; [done|by apply Forall_nil]]| |].
    { etrans; [exact node_size|]. unfold sum_size. simpl. lia. }
    raw. done.
  Qed.
  Lemma alloc_wire ms a : c_enc (c_alloc ms nr ct) a = wire_alloc (c_enc ct) a.
  Proof using Lt Hf H8.
    unfold c_alloc. edestruct @struct_raw as [Ht ->]; [| |]; [repeat constructor; simpl; lia| |].
    { etrans; [exact (alloc_size ct ms nr Lt Hf H8)|]. unfold sum_size. cbn [f_lays f_two f_one app sum_list_with c_array c_lay array_lay l_size c_uint c_u32 c_u64].
      rewrite node_size. lia. }
    raw. unfold wire_alloc. rewrite <- !app_assoc. repeat f_equal. cbn [c_array c_enc snd]. f_equal. apply list_fmap_ext. intros _ n _. apply node_wire.
  Qed.
End alloc.

(** ** The containers *)
Section wires.
  Context {T K V : Type} (ct : codec T) (ck : codec K) (cv : codec V) (ms : nat).
  Context (Lt : lay_ok (c_lay ct)) (Lk : lay_ok (c_lay ck)) (Lv : lay_ok (c_lay cv)).
  Lemma mod8_add n x : (8 | n) → x mod 8 = 0 → (n + x) mod 8 = 0.
  Proof. intros Hn Hx. apply mod0_divide; [lia|]. apply Nat.divide_add_r; [done|]. by apply mod0_divide; [lia|]. Qed.
  Lemma dq_wire d : alloc_fits 2 (c_lay ct) → size_of ct mod 8 = 0 → c_enc (c_deque ms ct) d = wire_dq (c_enc ct) d.
  Proof using Lt.
    intros Hf H8. assert ((4 * 2 + size_of ct) mod 8 = 0) as H8' by (apply mod8_add; [by exists 1|done]).
    unfold c_deque. edestruct @struct_raw as [Ht ->]; [| |]; [repeat constructor; cbn [c_lay c_uint c_u32 c_u64 l_align]; try lia| |].
    { apply struct_align_pos. }
    { etrans; [exact (deque_size ct ms Lt Hf H8)|]. unfold sum_size. cbn [f_lays f_two f_one app sum_list_with c_lay l_size c_uint c_u32 c_u64].
      rewrite alloc_size by done. lia. }
    raw. unfold wire_dq. rewrite <- !app_assoc. repeat f_equal. by apply alloc_wire.
  Qed.
  Context (Hf : alloc_fits 4 (c_lay (c_pair ck cv))) (Htt : tight_pair ck cv).
  Lemma pair_sz : size_of (c_pair ck cv) = size_of ck + size_of cv.
  Proof using Lk Lv Htt. destruct Htt as (? & ? & ?). by apply pair_size. Qed.
  Lemma pair_wire x : c_enc (c_pair ck cv) x = wire_pair (c_enc ck) (c_enc cv) x.
  Proof using Lk Lv Htt.
    pose proof (al_ok_pos _ (proj1 Lk)). pose proof (al_ok_pos _ (proj1 Lv)).
    unfold c_pair. edestruct @struct_raw as [Ht ->]; [| |]; [constructor; [done|constructor; [done|by apply Forall_nil]]| |].
    { etrans; [exact pair_sz|]. unfold sum_size. simpl. lia. }
    raw. done.
  Qed.
  Lemma pair_mod8 : (4 * 4 + size_of (c_pair ck cv)) mod 8 = 0.
  Proof using Lk Lv Htt. rewrite pair_sz. apply mod8_add; [by exists 2|]. apply Htt. Qed.
  Lemma pair_alloc_wire a : c_enc (c_alloc ms 4 (c_pair ck cv)) a = wire_alloc (wire_pair (c_enc ck) (c_enc cv)) a.
  Proof using Lk Lv Htt Hf.
    rewrite alloc_wire; [|by apply pair_lay_ok|done|exact pair_mod8]. unfold wire_alloc. do 4 f_equal. apply list_fmap_ext. intros _ n _.
    unfold wire_node. f_equal. apply pair_wire.
  Qed.
  Lemma pair_alloc_sz : size_of (c_alloc ms 4 (c_pair ck cv)) = 16 + ms * (16 + (size_of ck + size_of cv)).
  Proof using Lk Lv Htt Hf. destruct Htt as (? & ? & ?). by apply pair_alloc_size. Qed.
  Lemma ht_wire nb h : (4 * nb) mod Nat.max 8 (Nat.max (align_of ck) (align_of cv)) = 0 → c_enc (c_hash nb ms ck cv) h = wire_ht (c_enc ck) (c_enc cv) h.
  Proof using Lk Lv Htt Hf.
    intros Hn. unfold c_hash. edestruct @struct_raw as [Ht ->]; [| |]; [constructor; [simpl; lia|constructor; [apply struct_align_pos|by apply Forall_nil]]| |].
    { destruct Htt as (H1 & H2 & H3). etrans; [by apply (hash_size ck cv ms)|]. unfold sum_size.
      cbn [f_lays f_two f_one app sum_list_with c_lay l_size c_array array_lay c_uint c_u32 c_u64]. rewrite pair_alloc_sz. lia. }
    raw. unfold wire_ht. f_equal. apply pair_alloc_wire.
  Qed.
  Lemma rb_wire t : c_enc (c_rb ms ck cv) t = wire_rb (c_enc ck) (c_enc cv) t.
  Proof using Lk Lv Htt Hf.
    unfold c_rb. edestruct @struct_raw as [Ht ->]; [| |];
      [constructor; [simpl; lia|constructor; [simpl; lia|constructor; [apply struct_align_pos|by apply Forall_nil]]]| |].
    { destruct Htt as (H1 & H2 & H3). etrans; [by apply (rb_size ck cv ms)|]. unfold sum_size.
      cbn [f_lays f_two f_one app sum_list_with c_lay l_size c_array array_lay c_uint c_u32 c_u64 c_pad]. rewrite pair_alloc_sz. lia. }
    raw. cbn [fst snd]. rewrite enc_pads. unfold wire_rb. rewrite <- app_assoc. repeat f_equal. apply pair_alloc_wire.
  Qed.
  Lemma av_wire t : align_of ck ≤ 8 → align_of cv ≤ 8 → c_enc (c_avl ms ck cv) t = wire_av (c_enc ck) (c_enc cv) t.
  Proof using Lk Lv Htt Hf.
    intros H8k H8v. unfold c_avl. edestruct @struct_raw as [Ht ->]; [| |]; [constructor; [simpl; lia|constructor; [apply struct_align_pos|by apply Forall_nil]]| |].
    { destruct Htt as (H1 & H2 & H3). etrans; [by apply (avl_size ck cv ms)|]. unfold sum_size.
      cbn [f_lays f_two f_one app sum_list_with c_lay l_size c_array array_lay c_uint c_u32 c_u64]. rewrite pair_alloc_sz. lia. }
    raw. unfold wire_av. f_equal. apply pair_alloc_wire.
  Qed.
End wires.
Section crit.
  Context {V : Type} (cv : codec V) (Lv : lay_ok (c_lay cv)) (a128 : nat) (H128 : a128 = 8 ∨ a128 = 16).
  Lemma cnode_wire c : c_enc (c_cnode a128) c = wire_cnode c.
  Proof using H128.
    unfold c_cnode. edestruct @struct_raw as [Ht ->]; [| |]; [repeat constructor; simpl; lia|by destruct H128 as [-> | ->]|]. raw.
    unfold wire_cnode. rewrite <- app_assoc. done.
  Qed.
  Lemma cnode_sz : size_of (c_cnode a128) = 32.
  Proof using H128. by destruct H128 as [-> | ->]. Qed.
  Lemma cb_wire nn ms t : alloc_fits 4 (c_lay cv) → size_of cv mod 8 = 0 → (ms * size_of cv) mod a128 = 0 →
    c_enc (c_crit a128 nn ms cv) t = wire_cb (c_enc cv) t.
  Proof using Lv H128.
    intros Hf H8 Hm. destruct (cnode_lay_ok _ H128) as [Hc1 Hc2].
    assert ((4 * 4 + size_of cv) mod 8 = 0) as H8' by (apply mod8_add; [by exists 2|done]).
    unfold c_crit. edestruct @struct_raw as [Ht ->]; [| |];
      [do 3 (constructor; [simpl; lia|]); do 2 (constructor; [apply struct_align_pos|]); by apply Forall_nil| |].
    { etrans; [by apply crit_size|]. unfold sum_size.
      cbn [f_lays f_two f_one app sum_list_with c_lay l_size c_array array_lay c_uint c_u32 c_u64 c_pad].
      rewrite !alloc_size by (done || by rewrite cnode_sz). rewrite cnode_sz. lia. }
    raw. cbn [fst snd]. unfold wire_cb. rewrite <- !app_assoc. do 3 f_equal. f_equal; [|by apply alloc_wire].
    rewrite alloc_wire by (done || by rewrite cnode_sz). unfold wire_alloc. do 4 f_equal. apply list_fmap_ext. intros _ n _.
    unfold wire_node. f_equal. apply cnode_wire.
  Qed.
End crit.

(** ** Where a slot lies *)
Definition at_off (off : nat) (x b : bytes) : Prop := ∃ pre post, b = pre ++ x ++ post ∧ length pre = off.
Lemma at_off_trans o1 o2 x y z : at_off o1 x y → at_off o2 y z → at_off (o2 + o1) x z.
Proof.
  intros (p1 & q1 & -> & <-) (p2 & q2 & -> & <-). exists (p2 ++ p1), (q1 ++ q2). rewrite <- !app_assoc. split; [done|]. apply app_length.
Qed.
Lemma at_off_app pre x post : at_off (length pre) x (pre ++ x ++ post).
Proof. by exists pre, post. Qed.
Lemma at_off_end pre x : at_off (length pre) x (pre ++ x).
Proof. exists pre, []. by rewrite app_nil_r. Qed.
Lemma at_off_rest off x b rest : at_off off x b → at_off off x (b ++ rest).
Proof. intros (p & q & -> & Hp). exists p, (q ++ rest). by rewrite <- !app_assoc. Qed.
Lemma at_off_bytes off n x b : at_off off x b → length x = n → bytes_at off n b = x.
Proof. intros (p & q & -> & <-) <-. unfold bytes_at. by rewrite drop_app, take_app. Qed.
Lemma at_off_concat {A} (f : A → bytes) w l j x : Forall (λ a, length (f a) = w) l → l !! j = Some x → at_off (j * w) (f x) (concat (f <$> l)).
Proof.
  intros Hl. revert j. induction Hl as [|a l Ha Hl IH]; intros j Hj; [done|]. rewrite fmap_cons. cbn [concat]. destruct j as [|j].
  - injection Hj as ->. exists [], (concat (f <$> l)). done.
  - destruct (IH j Hj) as (p & q & -> & Hp). exists (f a ++ p), q. rewrite <- !app_assoc. split; [done|]. rewrite app_length, Ha, Hp. lia.
Qed.
Lemma concat_le4_length l : length (concat (le32 <$> l)) = 4 * length l.
Proof. induction l as [|x l IH]; [done|]. rewrite fmap_cons. cbn [concat length]. rewrite app_length, le_enc_length, IH. lia. Qed.
Lemma na_get_lookup `{Profile} {T} (a : alloc T) i n : (lengthN (nodes a) + 1 < W32)%N → na_get a i = Val n → (1 ≤ i)%N ∧ nodes a !! (N.to_nat i - 1) = Some n.
Proof.
  intros Hw. unfold na_get, u32_sub, u_sub, mbind, res_bind. destruct (decide (1 ≤ i)%N) as [Hi|Hi].
  - unfold lookupN. destruct (decide (i - 1 < N.of_nat (length (nodes a)))%N); [|done]. destruct (nodes a !! N.to_nat (i - 1)) eqn:E; [|done].
    intros [= ->]. split; [done|]. rewrite <- E. f_equal. lia.
  - destruct overflow_checks; [done|]. assert (i = 0%N) as -> by lia. replace ((0 + W32 - 1) mod W32)%N with (W32 - 1)%N by done.
    unfold lookupN, lengthN in *. rewrite decide_False by lia. done.
Qed.
Section slot.
  Context `{Profile} {T : Type} (ct : codec T) (Hc : codec_ok ct) (ms nr : nat) (Hw : (N.of_nat ms + 1 < W32)%N).
  Lemma alloc_slot (enc : T → bytes) a i n : (∀ x, enc x = c_enc ct x) → c_wf (c_alloc ms nr ct) a → na_get a i = Val n →
    at_off (16 + (N.to_nat i - 1) * (4 * nr + size_of ct) + 4 * nr) (enc (val n)) (wire_alloc enc a) ∧
    at_off (16 + (N.to_nat i - 1) * (4 * nr + size_of ct)) (concat (le32 <$> regs n)) (wire_alloc enc a) ∧
    length (enc (val n)) = size_of ct ∧ length (regs n) = nr.
  Proof using Hw Hc.
    intros He Hwf Hg. destruct Hwf as [_ [Hl Hn]]. cbn [fst snd f_one f_wf] in Hl, Hn. apply na_get_lookup in Hg as [H1 Hg]; [|unfold lengthN; by rewrite Hl].
    assert (Forall (λ n, length (regs n) = nr ∧ c_wf ct (val n)) (nodes a)) as Hn' by (eapply Forall_impl; [exact Hn|]; intros [rs v] [[Hr _] Hv]; done).
    assert (Forall (λ n, length (wire_node enc n) = 4 * nr + size_of ct) (nodes a)) as Hlen.
    { eapply Forall_impl; [exact Hn'|]. intros x [Hr Hv]. unfold wire_node. rewrite app_length, concat_le4_length, Hr, He, (co_len _ Hc) by done. lia. }
    pose proof (at_off_concat (wire_node enc) _ _ _ _ Hlen Hg) as Hat. destruct (proj1 (Forall_lookup _ _) Hn' _ _ Hg) as [Hr Hv].
    assert (at_off 16 (concat (wire_node enc <$> nodes a)) (wire_alloc enc a)) as Ha.
    { exists (le64 (size a) ++ le32 (bump_index a) ++ le32 (free_list_head a)), []. unfold wire_alloc. rewrite app_nil_r, <- !app_assoc. split; [done|].
      rewrite !app_length, !le_enc_length. done. }
    pose proof (at_off_trans _ _ _ _ _ Hat Ha) as Hb. split_and!; [..|by rewrite He, (co_len _ Hc)|done].
    - eapply at_off_trans; [|exact Hb]. unfold wire_node. replace (4 * nr) with (length (concat (le32 <$> regs n))) by (by rewrite concat_le4_length, Hr). apply at_off_end.
    - rewrite <- (Nat.add_0_r (16 + _)). eapply at_off_trans; [|exact Hb]. exists [], (enc (val n)). done.
  Qed.
End slot.
