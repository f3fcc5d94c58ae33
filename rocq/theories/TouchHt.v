(** * The slots written by the operations of the hash table and the deque *)
From Verif Require Import TouchProof HashModel DequeModel.

Section ht.
  Context `{Profile} {K V : Type} (keq : K → K → bool) (hash : K → N).
  Notation tpr := (tp (ht_al (K:=K) (V:=V))).
  Notation wrr := (wr (ht_al (K:=K) (V:=V))).
  Lemma ht_gu (a : alloc (K * V)) (t : htable K V) : ht_al (set_hal a t) = a.
  Proof. done. Qed.
  Lemma wrh_on {A} L (m : M (alloc (K * V)) A) : wr id L m → wrr L (ht_on m).
  Proof. apply wr_zoom, ht_gu. Qed.
  Lemma wrr_set_bucket b x : wrr [] (ht_set_bucket b x).
  Proof. unfold ht_set_bucket. apply wr_bind; [apply wr_pure; t_pure|intros ?]. by apply wr_modify. Qed.
  Lemma wrr_ht_set_value i v : wrr [wi i] (ht_set_node_value i v).
  Proof. apply wrh_on, wr_get_mut. Qed.
  Ltac wp_ := idtac; first
    [ apply wrr_set_bucket | apply wrr_ht_set_value
    | apply wrh_on; first [apply wr_get_mut | apply wr_set_register | apply wr_clear_register | apply wr_connect | apply wr_remove_node]
    | apply wr_modify; intros; reflexivity ].
  Ltac ad_ := idtac; lazymatch goal with |- tp _ _ _ (ht_on (na_add_node _) ≫= _) => eapply (tr_add_bind ht_al set_hal); [apply ht_gu|..] end.
  Ltac tl0 := idtac; fail.
  Ltac st tl := t_step wp_ tl ad_.
  Lemma tp_ht_insert k v : tpr [] 2 (ht_insert keq hash k v).
  Proof.
    assert (∀ fuel b h i, tpr [] 2 (ht_insert_loop keq fuel k v b h i)) as Hl.
    { induction fuel as [|fuel IH]; intros b h i; [by apply tp_pure|]. cbn [ht_insert_loop]. unfold ht_insert_new_node. repeat st ltac:(idtac; apply IH). }
    unfold ht_insert. repeat st ltac:(idtac; apply Hl).
  Qed.
  Lemma tp_ht_remove k : tpr [] 3 (ht_remove keq hash k).
  Proof.
    assert (∀ fuel b h i, tpr [] 3 (ht_remove_loop keq fuel k b h i)) as Hl.
    { induction fuel as [|fuel IH]; intros b h i; [by apply tp_pure|]. cbn [ht_remove_loop]. repeat st ltac:(idtac; apply IH). }
    unfold ht_remove. repeat st ltac:(idtac; apply Hl).
  Qed.
  Lemma tp_ht_get_mut k f : tpr [] 4 (ht_get_mut keq hash k f).
  Proof.
    assert (∀ fuel b h i, tpr [] 4 (ht_get_mut_loop keq fuel k f b h i)) as Hl.
    { induction fuel as [|fuel IH]; intros b h i; [by apply tp_pure|]. cbn [ht_get_mut_loop]. repeat st ltac:(idtac; apply IH). }
    unfold ht_get_mut. repeat st ltac:(idtac; apply Hl).
  Qed.

  (** the buckets *)
  Definition bkeep (b : N) (h h' : htable K V) : Prop :=
    length (buckets h') = length (buckets h) ∧ ∀ j, N.of_nat j ≠ b → buckets h' !! j = buckets h !! j.
  Definition bpres {A} (b : N) (m : M (htable K V) A) : Prop := ∀ h, bkeep b h (after m h).
  Lemma bkeep_trans b h1 h2 h3 : bkeep b h1 h2 → bkeep b h2 h3 → bkeep b h1 h3.
  Proof. intros [H1 H2] [H3 H4]. split; [congruence|]. intros j Hj. by rewrite H4, H2. Qed.
  Lemma bp_bind {A B} b (m : M (htable K V) A) (f : A → M (htable K V) B) : bpres b m → (∀ a, bpres b (f a)) → bpres b (m ≫= f).
  Proof.
    intros Hm Hf s. rewrite after_bind. specialize (Hm s). unfold after in Hm at 1. destruct (m s) as [a s'|]; [|done].
    eapply bkeep_trans; [exact Hm|]. apply Hf.
  Qed.
  Lemma bp_pure {A} b (m : M (htable K V) A) : (∀ h, buckets (after m h) = buckets h) → bpres b m.
  Proof. intros Hm h. unfold bkeep. by rewrite Hm. Qed.
  Lemma bp_on {A} b (m : M (alloc (K * V)) A) : bpres b (ht_on m).
  Proof. apply bp_pure. intros h. unfold after, ht_on, zoom. by destruct (m (ht_al h)). Qed.
  Lemma bp_set b x : bpres b (ht_set_bucket b x).
  Proof.
    unfold ht_set_bucket. apply bp_bind; [apply bp_pure; intros h; by rewrite after_gets|intros _ h].
    unfold bkeep, after, modify. cbn [buckets set_buckets]. unfold insertN. rewrite insert_length. split; [done|].
    intros j Hj. apply list_lookup_insert_ne. lia.
  Qed.
  Ltac bst tl := lazymatch goal with
    | |- bpres _ (?m ≫= _) =>
        lazymatch m with
        | if ?b then _ else _ => destruct b
        | _ => apply bp_bind; [|intros ?]
        end
    | |- bpres _ (if ?b then _ else _) => destruct b
    | |- bpres _ _ => first [apply bp_on|apply bp_set|tl|apply bp_pure; intros; by rewrite ?after_gets, ?after_massert]
    end.
  Lemma bp_insert_loop fuel k v b : ∀ h i, bpres b (ht_insert_loop keq fuel k v b h i).
  Proof.
    induction fuel as [|fuel IH]; intros h i; [by apply bp_pure|]. cbn [ht_insert_loop]. unfold ht_insert_new_node, ht_set_node_value.
    repeat bst ltac:(idtac; apply IH).
  Qed.
  Lemma bp_remove_loop fuel k b : ∀ h i, bpres b (ht_remove_loop keq fuel k b h i).
  Proof.
    induction fuel as [|fuel IH]; intros h i; [by apply bp_pure|]. cbn [ht_remove_loop]. repeat bst ltac:(idtac; apply IH).
  Qed.
  Lemma bp_get_mut_loop fuel k f b : ∀ h i, bpres b (ht_get_mut_loop keq fuel k f b h i).
  Proof.
    induction fuel as [|fuel IH]; intros h i; [by apply bp_pure|]. cbn [ht_get_mut_loop]. unfold ht_set_node_value.
    repeat bst ltac:(idtac; apply IH).
  Qed.
  Lemma bp_top {A} k (f : N → N → nat → M (htable K V) A) h :
    (∀ b hd fl, bpres b (f b hd fl)) →
    bkeep (hash k mod lengthN (buckets h)) h
      (after (bucket_index ← gets (λ h, ht_bucket_index hash h k); head ← gets (λ h, ht_bucket h bucket_index); h ← mget; f bucket_index head (ht_fuel h)) h).
  Proof.
    intros Hf. unfold mbind, M_bind, gets, mget, after, ht_bucket_index. destruct (decide _); [done|].
    destruct (ht_bucket h _) as [hd|e]; [|done]. exact (Hf _ hd (ht_fuel h) h).
  Qed.
  Lemma bk_insert k v h : bkeep (hash k mod lengthN (buckets h)) h (after (ht_insert keq hash k v) h).
  Proof. apply (bp_top k (λ b hd fl, ht_insert_loop keq fl k v b hd hd)). intros. apply bp_insert_loop. Qed.
  Lemma bk_remove k h : bkeep (hash k mod lengthN (buckets h)) h (after (ht_remove keq hash k) h).
  Proof. apply (bp_top k (λ b hd fl, ht_remove_loop keq fl k b hd hd)). intros. apply bp_remove_loop. Qed.
  Lemma bk_get_mut k f h : bkeep (hash k mod lengthN (buckets h)) h (after (ht_get_mut keq hash k f) h).
  Proof. apply (bp_top k (λ b hd fl, ht_get_mut_loop keq fl k f b hd hd)). intros. apply bp_get_mut_loop. Qed.
End ht.

Section dq.
  Context `{Profile} {T : Type}.
  Notation tpr := (tp (dq_al (T:=T))).
  Notation wrr := (wr (dq_al (T:=T))).
  Lemma dq_gu (a : alloc T) (t : deque T) : dq_al (set_dal a t) = a.
  Proof. done. Qed.
  Lemma wrd_on {A} L (m : M (alloc T) A) : wr id L m → wrr L (dq_on m).
  Proof. apply wr_zoom, dq_gu. Qed.
  Lemma wrr_seq : wrr [] dq_bump_seq.
  Proof. unfold dq_bump_seq. do 2 (apply wr_bind; [apply wr_pure; t_pure|intros ?]). by apply wr_modify. Qed.
  Ltac wp_ := idtac; first
    [ apply wrr_seq
    | apply wrd_on; first [apply wr_get_mut | apply wr_set_register | apply wr_clear_register | apply wr_connect | apply wr_remove_node]
    | apply wr_modify; intros; reflexivity ].
  Ltac ad_ := idtac; lazymatch goal with |- tp _ _ _ (dq_on (na_add_node _) ≫= _) => eapply (tr_add_bind dq_al set_dal); [apply dq_gu|..] end.
  Ltac tl0 := idtac; fail.
  Ltac st tl := t_step wp_ tl ad_.
  Lemma tp_dq_push_back v : tpr [] 2 (dq_push_back v).
  Proof. unfold dq_push_back. repeat st tl0. Qed.
  Lemma tp_dq_push_front v : tpr [] 2 (dq_push_front v).
  Proof. unfold dq_push_front. repeat st tl0. Qed.
  Lemma tp_dq_remove L i : tpr L 3 (dq_remove i).
  Proof. unfold dq_remove. repeat st tl0. Qed.
End dq.

(** ** The deque: which slots *)
Section dqn.
  Context `{Profile} {T : Type}.
  Implicit Types d : deque T.
  Lemma same_but_wi (L : list N) (a a' : alloc T) : lengthN (nodes a) < W32 → same_but (wi <$> L) a a' → same_but L a a'.
  Proof.
    intros Hl [Hlen Hn]. split; [done|]. intros j Hj. unfold lengthN in *.
    destruct (decide (j < length (nodes a))%nat) as [Hlt|Hge]; [|by rewrite !lookup_ge_None_2 by lia].
    apply Hn. intros (i & Ei & Hi)%elem_of_list_fmap. unfold wi in Ei. destruct (decide (i = 0)); [lia|]. by subst.
  Qed.
  Lemma after_seq d : dq_al (after dq_bump_seq d) = dq_al d.
  Proof. unfold after, dq_bump_seq, mbind, M_bind, mget, lift, gets, modify. by destruct (u64_add _ _). Qed.
  Lemma dq_push_slots (c : bool) v d : lengthN (nodes (dq_al d)) < W32 →
    same_but [free_list_head (dq_al d); if c then dq_head d else dq_tail d] (dq_al d)
      (dq_al (after (if c then dq_push_front v else dq_push_back v) d)).
  Proof.
    intros Hl. apply same_but_wi; [done|]. rewrite fmap_cons, fmap_cons, fmap_nil.
    pose proof (wr_add_node v (dq_al d)) as Hw. pose proof (add_node_idx v (dq_al d)) as Hi. unfold after in Hw.
    assert (∀ (a : alloc T) i j r r', after (na_connect i j r r') a = match na_connect i j r r' a with Ret _ s | Fail _ s => s end) as Hc by done.
    destruct c.
    - unfold dq_push_front. rewrite after_bind. unfold dq_on at 1, zoom at 1.
      destruct (na_add_node v (dq_al d)) as [i a|e a]; [|eapply same_but_mono, Hw; set_solver].
      rewrite (Hi i a eq_refl) in *. set (i0 := free_list_head (dq_al d)) in *. clearbody i0.
      rewrite after_bind. unfold mget at 1. rewrite after_bind.
      assert (∃ t, (if decide (dq_tail (set_dal a d) = SENTINEL) then modify (set_tail i0) else mret ()) (set_dal a d) = Ret () (Deque (dq_seqno d) (dq_head d) t a)) as [t ->].
      { destruct (decide _); by eexists. }
      cbv beta. rewrite after_bind. unfold mget at 1. cbn [dq_head].
      destruct (decide _).
      + rewrite after_bind. unfold mret at 1, M_ret at 1. rewrite after_bind. unfold modify at 1. rewrite after_seq. cbn [dq_al set_head].
        eapply same_but_mono, Hw. set_solver.
      + rewrite after_bind. unfold dq_on, zoom. cbn [dq_al].
        pose proof (wr_connect i0 (dq_head d) NEXT PREV a) as Hcn. unfold after in Hcn. cbn [id] in Hcn.
        destruct (na_connect i0 (dq_head d) NEXT PREV a) as [[] a'|e a'].
        * rewrite after_bind. unfold modify at 1. rewrite after_seq. cbn [dq_al set_head set_dal].
          eapply same_but_trans; [eapply same_but_mono, Hw; set_solver|done].
        * cbn [dq_al set_dal]. eapply same_but_trans; [eapply same_but_mono, Hw; set_solver|done].
    - unfold dq_push_back. rewrite after_bind. unfold dq_on at 1, zoom at 1.
      destruct (na_add_node v (dq_al d)) as [i a|e a]; [|eapply same_but_mono, Hw; set_solver].
      rewrite (Hi i a eq_refl) in *. set (i0 := free_list_head (dq_al d)) in *. clearbody i0.
      rewrite after_bind. unfold mget at 1. rewrite after_bind.
      assert (∃ t, (if decide (dq_head (set_dal a d) = SENTINEL) then modify (set_head i0) else mret ()) (set_dal a d) = Ret () (Deque (dq_seqno d) t (dq_tail d) a)) as [t ->].
      { destruct (decide _); by eexists. }
      cbv beta. rewrite after_bind. unfold mget at 1. cbn [dq_tail].
      destruct (decide _).
      + rewrite after_bind. unfold mret at 1, M_ret at 1. rewrite after_bind. unfold modify at 1. rewrite after_seq. cbn [dq_al set_tail].
        eapply same_but_mono, Hw. set_solver.
      + rewrite after_bind. unfold dq_on, zoom. cbn [dq_al].
        pose proof (wr_connect i0 (dq_tail d) PREV NEXT a) as Hcn. unfold after in Hcn. cbn [id] in Hcn.
        destruct (na_connect i0 (dq_tail d) PREV NEXT a) as [[] a'|e a'].
        * rewrite after_bind. unfold modify at 1. rewrite after_seq. cbn [dq_al set_tail set_dal].
          eapply same_but_trans; [eapply same_but_mono, Hw; set_solver|done].
        * cbn [dq_al set_dal]. eapply same_but_trans; [eapply same_but_mono, Hw; set_solver|done].
  Qed.
  Ltac dst := lazymatch goal with
    | |- wr _ _ (?m ≫= _) => lazymatch m with if ?b then _ else _ => apply wr_bind; [destruct b|intros ?] | _ => apply wr_bind; [|intros ?] end
    | |- wr _ _ _ => first
        [ apply wr_ret | apply wr_pure; t_pure | by apply wr_modify | eapply wr_mono; [apply wrr_seq|set_solver]
        | eapply wr_mono; [apply wrd_on, wr_clear_register|set_solver] | eapply wr_mono; [apply wrd_on, wr_connect|set_solver]
        | eapply wr_mono; [apply wrd_on, wr_remove_node|set_solver] ] end.
  Lemma dq_remove_slots i l r d : lengthN (nodes (dq_al d)) < W32 → dq_get_prev d i = Val l → dq_get_next d i = Val r →
    same_but [i; l; r] (dq_al d) (dq_al (after (dq_remove i) d)).
  Proof.
    intros Hlen Hp Hn. apply same_but_wi; [done|]. rewrite !fmap_cons, fmap_nil. unfold dq_remove.
    rewrite after_bind. unfold gets at 1. destruct (dq_get_node d i) as [v|e]; [|done].
    rewrite after_bind. unfold gets at 1. rewrite Hp. rewrite after_bind. unfold gets at 1. rewrite Hn.
    match goal with |- same_but ?L _ (dq_al (after ?m d)) => enough (wr dq_al L m) as Hw by exact (Hw d) end.
    repeat dst.
  Qed.
End dqn.
