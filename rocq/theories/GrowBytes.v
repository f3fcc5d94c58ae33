(** * Growing in bytes *)
From Verif Require Import BytesMain GrowBytesSpec GrowMain.
From Verif Require Import InitProps.
Local Open Scope nat_scope.

(** ** Encodings with more at the end *)
Record cgrows {A} (c c' : codec A) (g : A → A) : Prop := {
  cg_align : align_of c' = align_of c;
  cg_size : size_of c ≤ size_of c';
  cg_enc a : c_wf c a → c_enc c' (g a) = c_enc c a ++ zeros (size_of c' - size_of c) }.
Record fgrows {A} (f f' : fields A) (g : A → A) : Prop := {
  fg_align : l_align <$> f_lays f' = l_align <$> f_lays f;
  fg_end off : struct_end off (f_lays f) ≤ struct_end off (f_lays f');
  fg_enc off a : f_wf f a → f_enc f' off (g a) = f_enc f off a ++ zeros (struct_end off (f_lays f') - struct_end off (f_lays f)) }.
Lemma zeros_app m n : zeros m ++ zeros n = zeros (m + n).
Proof. unfold zeros. by rewrite replicate_add. Qed.
Lemma cg_array {A} n e (c : codec A) : zero_ok c → cgrows (c_array n c) (c_array (n + e) c) (λ l, l ++ replicate e (c_zero c)).
Proof.
  intros Hz. split; simpl; [done|lia|]. intros l _. rewrite fmap_app, concat_app, fmap_replicate, Hz. f_equal.
  replace ((n + e) * size_of c - n * size_of c) with (e * size_of c) by lia. clear. induction e as [|e IH]; simpl; [done|]. by rewrite IH, zeros_app.
Qed.
Lemma fg_one {A} (c c' : codec A) g : cgrows c c' g → fgrows (f_one c) (f_one c') g.
Proof.
  intros [Ha Hs He]. split; simpl; [by rewrite Ha|intros off; rewrite Ha; lia|]. intros off a Hw. rewrite Ha, He, <- app_assoc by done. do 3 f_equal. lia.
Qed.
Lemma fg_two {A B} (f : fields A) (h h' : fields B) g : fgrows h h' g → fgrows (f_two f h) (f_two f h') (λ x, (x.1, g x.2)).
Proof.
  intros [Ha Hs He]. split; simpl.
  - by rewrite !fmap_app, Ha.
  - intros off. by rewrite !struct_end_app.
  - intros off [a b] [_ Hw]. simpl in *. by rewrite He, !struct_end_app, app_assoc.
Qed.
Lemma fmap_align ls ls' : l_align <$> ls' = l_align <$> ls → struct_align ls' = struct_align ls.
Proof.
  revert ls. induction ls' as [|l' ls' IH]; intros [|l ls]; [done|done|done|]. rewrite !fmap_cons. intros [= E E']. cbn [struct_align foldr].
  rewrite E. f_equal. by apply IH.
Qed.
Lemma round_up_mono x y a : 0 < a → x ≤ y → round_up x a ≤ round_up y a.
Proof. intros Ha Hxy. unfold round_up. apply Nat.mul_le_mono_r, Nat.div_le_mono; lia. Qed.
Lemma cg_struct {A B} (mk : A → B) un (f f' : fields A) g gb :
  (∀ b, un (gb b) = g (un b)) → fgrows f f' g → cgrows (c_struct mk un f) (c_struct mk un f') gb.
Proof.
  intros Hu [Ha Hs He]. apply fmap_align in Ha. pose proof (struct_align_pos (f_lays f)) as Hp. specialize (Hs 0).
  pose proof (round_up_mono _ _ _ Hp Hs). pose proof (round_up_ge (struct_end 0 (f_lays f)) _ Hp). pose proof (round_up_ge (struct_end 0 (f_lays f')) _ Hp).
  split; simpl; rewrite ?Ha; [done|done|]. intros b Hw. rewrite Hu, He by done. rewrite <- !app_assoc, !zeros_app. do 2 f_equal. lia.
Qed.
Lemma zo_struct {A B} (mk : A → B) un (f : fields A) a :
  (∀ off n, struct_end off (f_lays f) - off ≤ n → f_dec f off (zeros n) = a) → un (mk a) = a →
  f_enc f 0 a = zeros (struct_end 0 (f_lays f)) → zero_ok (c_struct mk un f).
Proof.
  intros Hd Hu He. unfold zero_ok. rewrite (c_struct_zero mk un f a Hd). simpl. rewrite Hu, He, zeros_app. f_equal.
  pose proof (round_up_ge (struct_end 0 (f_lays f)) (struct_align (f_lays f)) (struct_align_pos _)). lia.
Qed.
Lemma zo_uint n a : zero_ok (c_uint n a).
Proof.
  unfold zero_ok. rewrite c_uint_zero. simpl. induction n as [|n IH]; [done|]. cbn [le_enc]. rewrite N.div_0_l by done. rewrite IH. done.
Qed.
Lemma zo_array {A} n (c : codec A) : zero_ok c → zero_ok (c_array n c).
Proof.
  intros Hz. unfold zero_ok. rewrite c_array_zero. simpl. rewrite fmap_replicate, Hz. induction n as [|n IH]; simpl; [done|]. by rewrite IH, zeros_app.
Qed.
Lemma enc_two {A B} (ca : codec A) (cb : codec B) : 0 < align_of ca → 0 < align_of cb → zero_ok ca → zero_ok cb →
  f_enc (f_two (f_one ca) (f_one cb)) 0 (c_zero ca, c_zero cb) = zeros (struct_end 0 (f_lays (f_two (f_one ca) (f_one cb)))).
Proof.
  intros Pa Pb Ha Hb. simpl. rewrite Ha, Hb, !zeros_app. f_equal. pose proof (round_up_ge 0 _ Pa).
  pose proof (round_up_ge (round_up 0 (align_of ca) + size_of ca) _ Pb). lia.
Qed.

Section zero.
  Context {T K V : Type} (ct : codec T) (ck : codec K) (cv : codec V).
  Context (Ht : codec_ok ct) (Hk : codec_ok ck) (Hv : codec_ok cv) (Zt : zero_ok ct) (Zk : zero_ok ck) (Zv : zero_ok cv).
  Lemma zo_node nr : zero_ok (c_node nr ct).
  Proof using Ht Zt.
    unfold c_node. eapply zo_struct; [c_z|done|]. apply enc_two; [exact (Nat.lt_0_succ 3)|by apply co_align|apply zo_array, zo_uint|done].
  Qed.
  Lemma zo_pair : zero_ok (c_pair ck cv).
  Proof using Hk Hv Zk Zv. unfold c_pair. eapply zo_struct; [c_z|done|]. apply enc_two; [by apply co_align|by apply co_align|done|done]. Qed.
  Lemma cg_alloc ms e nr : cgrows (c_alloc ms nr ct) (c_alloc (ms + e) nr ct) (al_grow (replicate e (node_default nr (c_zero ct)))).
  Proof using Ht Zt.
    rewrite <- c_node_zero by done. unfold c_alloc. eapply cg_struct; [|eapply fg_two, fg_one, cg_array; by apply zo_node]. done.
  Qed.
  Lemma cg_deque ms e : cgrows (c_deque ms ct) (c_deque (ms + e) ct) (dq_grow (replicate e (node_default 2 (c_zero ct)))).
  Proof using Ht Zt. unfold c_deque. eapply cg_struct; [|eapply fg_two, fg_one, cg_alloc]. done. Qed.
End zero.
Section maps.
  Context {K V : Type} (ck : codec K) (cv : codec V) (Hk : codec_ok ck) (Hv : codec_ok cv) (Zk : zero_ok ck) (Zv : zero_ok cv).
  Notation zn e := (replicate e (node_default 4 (c_zero ck, c_zero cv))).
  Lemma cg_palloc ms e : cgrows (c_alloc ms 4 (c_pair ck cv)) (c_alloc (ms + e) 4 (c_pair ck cv)) (al_grow (zn e)).
  Proof using Hk Hv Zk Zv. rewrite <- c_pair_zero by done. apply cg_alloc; [by apply c_pair_ok|by apply zo_pair]. Qed.
  Lemma cg_hash nb ms e : cgrows (c_hash nb ms ck cv) (c_hash nb (ms + e) ck cv) (ht_grow (zn e)).
  Proof using Hk Hv Zk Zv. unfold c_hash. eapply cg_struct; [|eapply fg_two, fg_one, cg_palloc]. done. Qed.
  Lemma cg_rb ms e : cgrows (c_rb ms ck cv) (c_rb (ms + e) ck cv) (rb_grow (zn e)).
  Proof using Hk Hv Zk Zv. unfold c_rb. eapply cg_struct; [|eapply fg_two, fg_one, cg_palloc]. done. Qed.
  Lemma cg_avl ms e : cgrows (c_avl ms ck cv) (c_avl (ms + e) ck cv) (av_grow (zn e)).
  Proof using Hk Hv Zk Zv. unfold c_avl. eapply cg_struct; [|eapply fg_two, fg_one, cg_palloc]. done. Qed.
  Lemma cg_crit a128 nn ms e : cgrows (c_crit a128 nn ms cv) (c_crit a128 nn (ms + e) cv) (cb_grow [] (replicate e (node_default 4 (c_zero cv)))).
  Proof using Hv Zv.
    unfold c_crit. eapply cg_struct; [|eapply fg_two, fg_one, cg_alloc; done]. intros t. simpl. unfold al_grow, set_nodes. rewrite app_nil_r.
    by destruct (cb_nodes t).
  Qed.
End maps.

(** ** The programs *)
Section run.
  Context {A O B T : Type} (c : nat → codec A) (step : O → M A B) (grow : list (node T) → A → A) (z : T) (nr : nat).
  Context (I : nat → A → Prop) (okop : O → Prop) (lim : nat → Prop).
  Context (Hlim : ∀ m n, m ≤ n → lim n → lim m).
  Context (Hc : ∀ ms, codec_ok (c ms)) (Hg : ∀ ms e, cgrows (c ms) (c (ms + e)) (grow (replicate e (node_default nr z)))).
  Context (Hwf : ∀ ms s, lim ms → I ms s → c_wf (c ms) s) (Hk : ∀ ms o, lim ms → okop o → keeps (I ms) (step o)).
  Context (Hgr : ∀ ms e s, lim (ms + e) → I ms s → I (ms + e) (grow (replicate e (node_default nr z)) s)).
  Lemma regrown_ok segs ms s :
    lim (final_size ms segs) → all_aligned c segs → Forall (λ s, Forall (λ ao, okop ao.2) s.1) segs → I ms s →
    regrown c step ms segs (c_enc (c ms) s) =
      ((grown step grow (in_place nr z segs) s).1, c_enc (c (final_size ms segs)) (grown step grow (in_place nr z segs) s).2) ∧
    I (final_size ms segs) (grown step grow (in_place nr z segs) s).2.
  Proof using Hlim Hc Hg Hwf Hk Hgr.
    intros Hl Ha. revert ms s Hl. induction Ha as [|[aops e] segs Ha1 Ha IH]; intros ms s Hl Ho Hs.
    { unfold final_size in *. simpl. rewrite Nat.add_0_r. done. }
    apply Forall_cons_1 in Ho as [Ho1 Ho]. cbn [fst] in *.
    assert (final_size ms ((aops, e) :: segs) = final_size (ms + e) segs) as Ef by (unfold final_size; rewrite fmap_cons; cbn [sum_list_with snd id]; unfold id; lia). rewrite Ef in *.
    assert (lim (ms + e)) as Hl1 by (eapply Hlim; [|exact Hl]; unfold final_size; lia).
    assert (lim ms) as Hl0 by (eapply Hlim; [|exact Hl1]; lia).
    assert (Forall (λ o, keeps (I ms) (step o)) aops.*2) as Hkeeps.
    { apply Forall_fmap. eapply Forall_impl; [exact Ho1|]. intros [? o] Hoo. by apply Hk. }
    cbn [regrown grown in_place]. unfold in_place. rewrite fmap_cons. cbn [grown fst snd]. fold (in_place nr z segs).
    pose proof (on_bytes_history (c ms) (Hc ms) (I ms) step aops s [] (λ s, Hwf ms s Hl0)) as Hh. rewrite !app_nil_r in Hh.
    change (λ ao, on_bytes (c ms) ao.1 (step ao.2)) with (reloaded (c ms) step) in Hh. rewrite Hh; [|..|done|done]; cycle 1.
    { eapply Forall_impl; [exact Ha1|]. intros ao. simpl. replace (align_of (c ms)) with (align_of (c 0)); [done|].
      symmetry. apply (cg_align _ _ _ (Hg 0 ms)). }
    assert (I ms (history step aops.*2 s).2) as Hs1 by (by apply keeps_history).
    destruct (history step aops.*2 s) as [rs s1]. cbn [fst snd] in *.
    assert (realloc (size_of (c (ms + e))) (c_enc (c ms) s1) = c_enc (c (ms + e)) (grow (replicate e (node_default nr z)) s1)) as Er.
    { rewrite (cg_enc _ _ _ (Hg ms e)) by (by apply Hwf). unfold realloc. by rewrite (co_len _ (Hc ms)) by (by apply Hwf). }
    rewrite Er. destruct (IH (ms + e) (grow (replicate e (node_default nr z)) s1) Hl Ho) as [E Hfin]; [by apply Hgr|].
    rewrite E. by destruct (grown step grow (in_place nr z segs) _) as [rss s2].
  Qed.
End run.
Lemma ta_grow {T} `{Ty T} nr ms e (a : alloc T) z : ty z → (N.of_nat (ms + e) + 1 < W32)%N → TA nr ms a → TA nr (ms + e) (al_grow (replicate e (node_default nr z)) a).
Proof.
  intros Hz Hw []. constructor; simpl; [by rewrite app_length, replicate_length; f_equal|lia|done|done|].
  apply Forall_app. split; [done|]. apply Forall_replicate. split; [apply replicate_length|]. split; [by apply Forall_replicate|done].
Qed.

Section facts.
  Context `{Profile} {T K V : Type} (ct : codec T) (ck : codec K) (cv : codec V).
  Context (Ht : elt_ok ct) (Hk : elt_ok ck) (Hv : elt_ok cv) (Zt : zero_ok ct) (Zk : zero_ok ck) (Zv : zero_ok cv) (ms : nat).
  Notation lim := (λ m, N.of_nat m + 1 < W32)%N.
  Lemma lim_le m n : m ≤ n → lim n → lim m.
  Proof. intros Hle Hn. cbv beta in *. lia. Qed.
  Lemma dq_regrown segs d :
    (N.of_nat (final_size ms segs) + 1 < W32)%N → all_aligned (λ m, c_deque m ct) segs →
    regrown (λ m, c_deque m ct) dq_step ms segs (c_enc (c_deque ms ct) (dq_new ms d)) =
      ((grown dq_step dq_grow (in_place 2 (c_zero ct) segs) (dq_new ms d)).1,
       c_enc (c_deque (final_size ms segs) ct) (grown dq_step dq_grow (in_place 2 (c_zero ct) segs) (dq_new ms d)).2).
  Proof using Ht Zt.
    intros Hw Ha. refine (proj1 (regrown_ok (λ m, c_deque m ct) dq_step dq_grow (c_zero ct) 2 (λ m, TD m) (λ _, True) lim lim_le _ _ _ _ _ segs ms _ Hw Ha _ _)).
    - intros m. apply c_deque_ok, Ht.
    - intros m e. by apply cg_deque; [apply Ht|].
    - intros m s Hm Hs. by apply td_wf.
    - intros m o Hm _. by apply td_step.
    - intros m e s Hm []. constructor; [|done..]. by apply ta_grow.
    - by do 2 (apply Forall_forall; intros ? _).
    - apply td_new. eapply lim_le; [|exact Hw]. unfold final_size. lia.
  Qed.
  Lemma ht_regrown keq hash nb segs d h0 :
    ht_new nb ms d = Some h0 → (N.of_nat (final_size ms segs) + 1 < W32)%N → all_aligned (λ m, c_hash nb m ck cv) segs →
    regrown (λ m, c_hash nb m ck cv) (ht_step keq hash) ms segs (c_enc (c_hash nb ms ck cv) h0) =
      ((grown (ht_step keq hash) ht_grow (in_place 4 (c_zero ck, c_zero cv) segs) h0).1,
       c_enc (c_hash nb (final_size ms segs) ck cv) (grown (ht_step keq hash) ht_grow (in_place 4 (c_zero ck, c_zero cv) segs) h0).2).
  Proof using Hk Hv Zk Zv.
    intros Hn Hw Ha. refine (proj1 (regrown_ok (λ m, c_hash nb m ck cv) (ht_step keq hash) ht_grow (c_zero ck, c_zero cv) 4 (λ m, TH nb m) (λ _, True) lim lim_le _ _ _ _ _ segs ms _ Hw Ha _ _)).
    - intros m. apply c_hash_ok; [apply Hk|apply Hv].
    - intros m e. by apply cg_hash; [apply Hk|apply Hv|..].
    - intros m s Hm Hs. by apply th_wf.
    - intros m o Hm _. by apply th_step.
    - intros m e s Hm []. constructor; [|done..]. by apply ta_grow.
    - by do 2 (apply Forall_forall; intros ? _).
    - eapply th_new; [|exact Hn]. eapply lim_le; [|exact Hw]. unfold final_size. lia.
  Qed.
  Lemma rb_regrown cmp segs d :
    (N.of_nat (final_size ms segs) + 1 < W32)%N → all_aligned (λ m, c_rb m ck cv) segs →
    regrown (λ m, c_rb m ck cv) (rb_step cmp) ms segs (c_enc (c_rb ms ck cv) (rb_new ms d)) =
      ((grown (rb_step cmp) rb_grow (in_place 4 (c_zero ck, c_zero cv) segs) (rb_new ms d)).1,
       c_enc (c_rb (final_size ms segs) ck cv) (grown (rb_step cmp) rb_grow (in_place 4 (c_zero ck, c_zero cv) segs) (rb_new ms d)).2).
  Proof using Hk Hv Zk Zv.
    intros Hw Ha. refine (proj1 (regrown_ok (λ m, c_rb m ck cv) (rb_step cmp) rb_grow (c_zero ck, c_zero cv) 4 (λ m, TR m) (λ _, True) lim lim_le _ _ _ _ _ segs ms _ Hw Ha _ _)).
    - intros m. apply c_rb_ok; [apply Hk|apply Hv].
    - intros m e. by apply cg_rb; [apply Hk|apply Hv|..].
    - intros m s Hm Hs. by apply tr_wf.
    - intros m o Hm _. by apply tr_step.
    - intros m e s Hm []. constructor; [|done..]. by apply ta_grow.
    - by do 2 (apply Forall_forall; intros ? _).
    - apply tr_new. eapply lim_le; [|exact Hw]. unfold final_size. lia.
  Qed.
  Lemma av_regrown pcmp segs d :
    (N.of_nat (final_size ms segs) + 1 < W32)%N → all_aligned (λ m, c_avl m ck cv) segs →
    regrown (λ m, c_avl m ck cv) (av_step pcmp) ms segs (c_enc (c_avl ms ck cv) (av_new ms d)) =
      ((grown (av_step pcmp) av_grow (in_place 4 (c_zero ck, c_zero cv) segs) (av_new ms d)).1,
       c_enc (c_avl (final_size ms segs) ck cv) (grown (av_step pcmp) av_grow (in_place 4 (c_zero ck, c_zero cv) segs) (av_new ms d)).2).
  Proof using Hk Hv Zk Zv.
    intros Hw Ha. refine (proj1 (regrown_ok (λ m, c_avl m ck cv) (av_step pcmp) av_grow (c_zero ck, c_zero cv) 4 (λ m, TV m) (λ _, True) lim lim_le _ _ _ _ _ segs ms _ Hw Ha _ _)).
    - intros m. apply c_avl_ok; [apply Hk|apply Hv].
    - intros m e. by apply cg_avl; [apply Hk|apply Hv|..].
    - intros m s Hm Hs. by apply tv_wf.
    - intros m o Hm _. by apply tv_step.
    - intros m e s Hm []. constructor; [|done..]. by apply ta_grow.
    - by do 2 (apply Forall_forall; intros ? _).
    - apply tv_new. eapply lim_le; [|exact Hw]. unfold final_size. lia.
  Qed.
  (** Critbit: the leaves lie last, so MAX_SIZE can grow while NUM_NODES stays *)
  Lemma cb_regrown a128 nn segs d t0 :
    0 < a128 → (N.of_nat nn + 1 < W32)%N → cb_new nn ms d = Some t0 → Forall (λ s, Forall u128_op s.1.*2) segs →
    (N.of_nat (final_size ms segs) + 1 < W32)%N → all_aligned (λ m, c_crit a128 nn m cv) segs →
    regrown (λ m, c_crit a128 nn m cv) cb_step ms segs (c_enc (c_crit a128 nn ms cv) t0) =
      ((grown cb_step (cb_grow []) (in_place 4 (c_zero cv) segs) t0).1,
       c_enc (c_crit a128 nn (final_size ms segs) cv) (grown cb_step (cb_grow []) (in_place 4 (c_zero cv) segs) t0).2).
  Proof using Hv Zv.
    intros H128 Hnn Hn Hu Hw Ha. refine (proj1 (regrown_ok (λ m, c_crit a128 nn m cv) cb_step (cb_grow []) (c_zero cv) 4 (λ m, TC nn m) u128_op lim lim_le _ _ _ _ _ segs ms _ Hw Ha _ _)).
    - intros m. apply c_crit_ok; [apply Hv|done].
    - intros m e. by apply cg_crit; [apply Hv|].
    - intros m s Hm Hs. by apply tc_wf.
    - intros m o Hm Ho. by apply tc_step.
    - intros m e s Hm []. constructor; [|by apply ta_grow|done]. simpl. unfold al_grow, set_nodes. rewrite app_nil_r. by destruct (cb_nodes s).
    - eapply Forall_impl; [exact Hu|]. intros s Hs. cbv beta in Hs. rewrite Forall_fmap in Hs. exact Hs.
    - eapply tc_new; [..|exact Hn]; [done|]. eapply lim_le; [|exact Hw]. unfold final_size. lia.
  Qed.
End facts.
