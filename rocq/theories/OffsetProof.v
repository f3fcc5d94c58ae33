(** * The byte format: where the allocators lie within the containers *)
From Verif Require Import BytesMain LayoutSpec.
Local Open Scope nat_scope.

Lemma last_at {A B} (f : fields A) (c : codec B) x y z :
  fields_ok f → codec_ok c → f_wf f x → c_wf c y →
  bytes_at (off_after (f_lays f) (c_lay c)) (size_of c) (f_enc (f_two f (f_one c)) 0 (x, y) ++ z) = c_enc c y.
Proof.
  intros Hf Hc Hx Hy. pose proof (fo_len _ Hf 0 x Hx) as Hl. pose proof (co_len _ Hc y Hy) as Hl'. pose proof (co_align _ Hc) as Ha.
  unfold bytes_at, off_after. cbn [f_enc f_two f_one fst snd]. pose proof (round_up_ge (struct_end 0 (f_lays f)) _ Ha) as Hr.
  rewrite <- !app_assoc, app_assoc. rewrite drop_app_alt.
  - by rewrite take_app_alt.
  - rewrite app_length, zeros_length, Hl. lia.
Qed.
Lemma struct_last {A B C} (mk : A * B → C) un (f : fields A) (c : codec B) b :
  fields_ok f → codec_ok c → c_wf (c_struct mk un (f_two f (f_one c))) b →
  bytes_at (off_after (f_lays f) (c_lay c)) (size_of c) (c_enc (c_struct mk un (f_two f (f_one c))) b) = c_enc c (un b).2.
Proof. intros Hf Hc [H1 H2]. cbn [c_enc c_struct]. destruct (un b) as [x y]. by apply last_at. Qed.
Lemma struct_mid {A B D C} (mk : A * B * D → C) un (f : fields A) (c : codec B) (g : codec D) b :
  fields_ok f → codec_ok c → c_wf (c_struct mk un (f_two (f_two f (f_one c)) (f_one g))) b →
  bytes_at (off_after (f_lays f) (c_lay c)) (size_of c) (c_enc (c_struct mk un (f_two (f_two f (f_one c)) (f_one g))) b) = c_enc c (un b).1.2.
Proof.
  intros Hf Hc [[H1 H2] _]. cbn [c_enc c_struct]. destruct (un b) as [[x y] w]. cbn [f_enc f_two fst snd]. rewrite <- (app_assoc (_ ++ _)).
  by apply (last_at f c x y).
Qed.

Section offsets.
  Context {T K V : Type} (ct : codec T) (ck : codec K) (cv : codec V) (ms : nat).
  Context (Ht : codec_ok ct) (Hk : codec_ok ck) (Hv : codec_ok cv).
  Lemma dq_at d : c_wf (c_deque ms ct) d →
    bytes_at (dq_al_off ms ct) (size_of (c_alloc ms 2 ct)) (c_enc (c_deque ms ct) d) = c_enc (c_alloc ms 2 ct) (dq_al d).
  Proof using Ht. refine (struct_last _ _ (f_two (f_two (f_one c_u64) (f_one c_u32)) (f_one c_u32)) (c_alloc ms 2 ct) d _ (c_alloc_ok _ Ht _ _)). by c_ok. Qed.
  Lemma ht_at nb h : c_wf (c_hash nb ms ck cv) h →
    bytes_at (ht_al_off nb ms ck cv) (size_of (c_alloc ms 4 (c_pair ck cv))) (c_enc (c_hash nb ms ck cv) h) = c_enc (c_alloc ms 4 (c_pair ck cv)) (ht_al h).
  Proof using Hk Hv. refine (struct_last _ _ (f_one (c_array nb c_u32)) (c_alloc ms 4 (c_pair ck cv)) h _ (c_alloc_ok _ (c_pair_ok _ _ Hk Hv) _ _)). by c_ok. Qed.
  Lemma rb_at t : c_wf (c_rb ms ck cv) t →
    bytes_at (rb_al_off ms ck cv) (size_of (c_alloc ms 4 (c_pair ck cv))) (c_enc (c_rb ms ck cv) t) = c_enc (c_alloc ms 4 (c_pair ck cv)) (rb_al t).
  Proof using Hk Hv.
    refine (struct_last _ _ (f_two (f_one c_u32) (f_one (c_array 3 (c_pad c_u32)))) (c_alloc ms 4 (c_pair ck cv)) t _ (c_alloc_ok _ (c_pair_ok _ _ Hk Hv) _ _)). by c_ok.
  Qed.
  Lemma av_at t : c_wf (c_avl ms ck cv) t →
    bytes_at (av_al_off ms ck cv) (size_of (c_alloc ms 4 (c_pair ck cv))) (c_enc (c_avl ms ck cv) t) = c_enc (c_alloc ms 4 (c_pair ck cv)) (av_al t).
  Proof using Hk Hv. refine (struct_last _ _ (f_one c_u64) (c_alloc ms 4 (c_pair ck cv)) t _ (c_alloc_ok _ (c_pair_ok _ _ Hk Hv) _ _)). by c_ok. Qed.
  Lemma cb_nodes_at a128 nn t : 0 < a128 → c_wf (c_crit a128 nn ms cv) t →
    bytes_at (cb_nodes_off a128 nn) (size_of (c_alloc nn 4 (c_cnode a128))) (c_enc (c_crit a128 nn ms cv) t) = c_enc (c_alloc nn 4 (c_cnode a128)) (cb_nodes t).
  Proof using Hv.
    intros Ha. refine (struct_mid _ _ (f_two (f_two (f_one (c_pad c_u64)) (f_one c_u32)) (f_one (c_pad c_u32))) (c_alloc nn 4 (c_cnode a128)) (c_alloc ms 4 cv) t _ (c_alloc_ok _ (c_cnode_ok _ Ha) _ _)).
    by c_ok.
  Qed.
  Lemma cb_leaves_at a128 nn t : 0 < a128 → c_wf (c_crit a128 nn ms cv) t →
    bytes_at (cb_leaves_off a128 nn ms cv) (size_of (c_alloc ms 4 cv)) (c_enc (c_crit a128 nn ms cv) t) = c_enc (c_alloc ms 4 cv) (cb_leaves t).
  Proof using Hv.
    intros Ha. refine (struct_last _ _ (f_two (f_two (f_two (f_one (c_pad c_u64)) (f_one c_u32)) (f_one (c_pad c_u32))) (f_one (c_alloc nn 4 (c_cnode a128)))) (c_alloc ms 4 cv) t _ (c_alloc_ok _ Hv _ _)).
    apply f_two_ok; [by c_ok|by apply f_one_ok, c_alloc_ok, c_cnode_ok].
  Qed.
End offsets.
