(** * The iterator of the hash table: rounds of its loop *)
From Verif Require Import IterMeter IterRoomCb.

Section ht.
  Context `{Profile} {K V : Type}.
  Implicit Types h : htable K V.

  Lemma skip_mle fuel rds h it :
    hti_bucket it < lengthN (buckets h) → lengthN (buckets h) - hti_bucket it ≤ N.of_nat fuel → mle (htim_skip rds h it) (ht_skip fuel h it).
  Proof using Type.
    revert rds it. induction fuel as [|fuel IH]; intros rds it Hb Hf; [lia|]. cbn [ht_skip].
    destruct rds as [|rds]; cbn [htim_skip]; (destruct (decide (hti_node it = SENTINEL)); [|by right]); [by left|].
    destruct (decide (hti_bucket it + 1 = lengthN (buckets h))); [by right|].
    destruct (ht_bucket h (hti_bucket it + 1)); cbn [mbind res_bind]; [|by right]. apply IH; simpl; lia.
  Qed.
  Lemma skip_within rds h it :
    hti_bucket it < lengthN (buckets h) → lengthN (buckets h) - hti_bucket it ≤ N.of_nat rds →
    match htim_skip rds h it with
    | Val (_, (it', rds')) => lengthN (buckets h) - hti_bucket it' ≤ N.of_nat rds' | Err e => e ≠ OutOfFuel end.
  Proof using Type.
    revert it. induction rds as [|rds IH]; intros it Hb Hf; [lia|]. cbn [htim_skip].
    destruct (decide (hti_node it = SENTINEL)); [|done]. destruct (decide (hti_bucket it + 1 = lengthN (buckets h))); [simpl; lia|].
    unfold ht_bucket. destruct (lookupN (buckets h) (hti_bucket it + 1)); cbn [mbind res_bind]; [|done]. apply IH; simpl; lia.
  Qed.
  Lemma hnext_mle h st : mle (htim_next h st) (ht_iter_next h st.1).
  Proof using Type.
    unfold htim_next, ht_iter_next. destruct st as [it rds]. cbn [fst snd]. destruct (decide (hti_bucket it < lengthN (buckets h))) as [Hb|]; [|by right].
    destruct (skip_mle (S (length (buckets h))) rds h it) as [->| ->]; [done|unfold lengthN; lia|by left|].
    destruct (htim_skip rds h it) as [[[x|] [it' rds']]|e]; cbn [mbind res_bind fst snd]; [|by right|by right].
    destruct (ht_get_node h x); cbn [mbind res_bind]; [|by right]. destruct (ht_get_next h x); by right.
  Qed.
  Lemma hback_mle h st : mle (htim_next_back h st) (ht_iter_next_back h st.1).
  Proof using Type. by right. Qed.
  Lemma hmut_next_mle f : mlem (htim_mut_next (K := K) (V := V) f) (ht_iter_mut_next f).
  Proof using Type.
    intros h [it rds]. unfold htim_mut_next, ht_iter_mut_next, mbind, M_bind, mget. cbn [fst snd].
    destruct (decide (hti_bucket it < lengthN (buckets h))) as [Hb|]; [|by right]. unfold lift, gets.
    destruct (skip_mle (S (length (buckets h))) rds h it) as [->| ->]; [done|unfold lengthN; lia|left; by eexists|].
    destruct (htim_skip rds h it) as [[[x|] [it' rds']]|e]; cbn [fst snd]; [|by right|by right].
    destruct (ht_get_next h x); [|by right]. unfold modify, zoom. cbn [fst snd].
    match goal with |- context [ht_on ?g h] => destruct (ht_on g h) end; by right.
  Qed.
  Lemma hmut_back_mle f : mlem (htim_mut_next_back (K := K) (V := V) f) (ht_iter_mut_next_back f).
  Proof using Type. intros h st. by right. Qed.

  Definition hwithin (nb : N) (st : htable K V * (ht_iter * nat)) : Prop :=
    lengthN (buckets st.1) = nb ∧ nb - hti_bucket st.2.1 ≤ N.of_nat st.2.2.
  Lemma hnext_within nb h st : hwithin nb (h, st) →
    match htim_next h st with Val (_, st') => hwithin nb (h, st') | Err e => e ≠ OutOfFuel end.
  Proof using Type.
    destruct st as [it rds]. intros [Hb Hw]. cbn [fst snd] in *. unfold htim_next. cbn [fst snd].
    destruct (decide (hti_bucket it < lengthN (buckets h))) as [Hlt|]; [|done].
    pose proof (skip_within rds h it Hlt ltac:(lia)) as Hs.
    destruct (htim_skip rds h it) as [[[x|] [it' rds']]|e]; cbn [mbind res_bind fst snd]; [|split; simpl; lia|done].
    unfold ht_get_node, ht_get_next. pose proof (cget_nof (ht_al h) x). pose proof (cregister_nof (ht_al h) x Right).
    destruct (na_get (ht_al h) x); cbn [mbind res_bind]; [|congruence].
    destruct (na_get_register (ht_al h) x Right); cbn [mbind res_bind]; [|congruence]. split; simpl; lia.
  Qed.
  Lemma hmut_next_within nb f s : hwithin nb s →
    match htim_mut_next f s with Ret _ s' => hwithin nb s' | Fail e _ => e ≠ OutOfFuel end.
  Proof using Type.
    destruct s as [h [it rds]]. intros [Hb Hw]. cbn [fst snd] in *. unfold htim_mut_next, mbind, M_bind, mget. cbn [fst snd].
    destruct (decide (hti_bucket it < lengthN (buckets h))) as [Hlt|]; [|done]. unfold lift, gets.
    pose proof (skip_within rds h it Hlt ltac:(lia)) as Hs.
    destruct (htim_skip rds h it) as [[[x|] [it' rds']]|e]; cbn [fst snd]; [|split; simpl; lia|done].
    unfold ht_get_next. pose proof (cregister_nof (ht_al h) x Right).
    destruct (na_get_register (ht_al h) x Right); [|congruence]. unfold modify, zoom, ht_on, zoom. cbn [fst snd].
    pose proof (raw_update_nof (ht_al h) x (λ n : K * V, (n.1, f n.2))) as Hr.
    destruct (na_raw_update x _ (ht_al h)); [|done]. split; simpl; [done|lia].
  Qed.

  Lemma htm_mle m h :
    (∀ sc, htm_iterate m h sc = Err OutOfFuel ∨ htm_iterate m h sc = ht_iterate h sc) ∧
    (∀ sc, (∃ h', htm_iterate_mut m sc h = Fail OutOfFuel h') ∨ htm_iterate_mut m sc h = ht_iterate_mut sc h).
  Proof using Type.
    split; intros sc.
    - unfold htm_iterate, ht_iterate. destruct (ht_mk_iter h) as [it|]; cbn [mbind res_bind]; [|by right].
      apply (drive_mle _ _ _ _ (hnext_mle h) (hback_mle h)).
    - unfold htm_iterate_mut, ht_iterate_mut. destruct (ht_mk_iter h) as [it|]; [|by right].
      destruct (drive_mut_mle _ _ _ _ hmut_next_mle hmut_back_mle sc h (it, m)) as [[[h' ?] ->]|Hx].
      + left. by eexists.
      + right. by apply cdrop_end.
  Qed.
  Lemma htm_within h :
    (∀ sc, htm_iterate (length (buckets h)) h sc = ht_iterate h sc) ∧
    (∀ sc, htm_iterate_mut (length (buckets h)) sc h = ht_iterate_mut sc h).
  Proof using Type.
    assert (∀ x : N, hwithin (lengthN (buckets h)) (h, (HtIter 0 x, length (buckets h)))) as HJ by (intros x; split; unfold lengthN; simpl; lia).
    split; intros sc.
    - unfold htm_iterate, ht_iterate, ht_mk_iter. destruct (ht_bucket h 0) as [x|]; cbn [mbind res_bind]; [|done].
      apply (drive_within _ _ _ _ (hnext_mle h) (hback_mle h)) with (J := λ st, hwithin (lengthN (buckets h)) (h, st)); [..|done].
      + intros st Hs. by apply hnext_within. + by intros st Hs.
    - unfold htm_iterate_mut, ht_iterate_mut, ht_mk_iter. destruct (ht_bucket h 0) as [x|]; cbn [mbind res_bind]; [|done]. apply cdrop_end.
      apply (drive_mut_within _ _ _ _ hmut_next_mle hmut_back_mle) with (J := hwithin (lengthN (buckets h))); [..|done].
      + intros f s Hs. by apply hmut_next_within. + by intros f s Hs.
  Qed.
End ht.
