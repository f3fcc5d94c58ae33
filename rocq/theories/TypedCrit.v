(** * Critbit: every number stays within its Rust type *)
From Verif Require Export TypedProof.

Section crit.
  Context `{Profile} {V : Type} (nn ms : nat) (Hn : N.of_nat nn + 1 < W32) (Hm : N.of_nat ms + 1 < W32).
  Local Instance TyV : Ty V := λ _, True.
  Implicit Types t : critbit V.
  Record TC t : Prop := { tc_nodes : TA 4 nn (cb_nodes t); tc_leaves : TA 4 ms (cb_leaves t); tc_root : ty (cb_root t) }.
  Lemma tc_onn {A} `{Ty A} (m : M (alloc cnode) A) : typed (TA 4 nn) m → typed TC (cb_onn m).
  Proof. apply typed_zoom; [by intros s []|intros s t []; by constructor]. Qed.
  Lemma tc_onl {A} `{Ty A} (m : M (alloc V) A) : typed (TA 4 ms) m → typed TC (cb_onl m).
  Proof. apply typed_zoom; [by intros s []|intros s t []; by constructor]. Qed.
  Hint Resolve tc_onn tc_onl tc_nodes tc_leaves tc_root ty_add_node ty_connect ty_disconnect ty_remove_node ty_clear_register ty_set_register ty_get ty_get_register ty_find_dir : ty.
  Lemma tc_set_root i : ty i → typed TC (modify (set_croot i)).
  Proof. intros Hi. apply typed_modify. intros s []. by constructor. Qed.
  Lemma tc_val (n : node V) : ty (val n).
  Proof. done. Qed.
  Lemma tc_valc (n : node cnode) : ty n → ty (val n).
  Proof. by intros []. Qed.
  Hint Resolve tc_set_root tc_val tc_valc : ty.
  Lemma tc_get_leaf t i : TC t → rtyped (cb_get_leaf t i).
  Proof. intros Ht. unfold cb_get_leaf. repeat ty_step. Qed.
  Lemma tc_replace_leaf i v : typed TC (cb_replace_leaf i v).
  Proof. apply tc_onl, ty_get_mut. intros n (Hl & Hr & Ht). split; [done|]. by split. Qed.
  Lemma tc_set_node i c : ty c → typed TC (cb_onn (na_get_mut i (node_set_value c))).
  Proof. intros Hc. apply tc_onn, ty_get_mut. intros n (Hl & Hr & Ht). split; [done|]. by split. Qed.
  Lemma tc_get_leaf_index t i : TC t → rtyped (cb_get_leaf_index t i).
  Proof. intros Ht. unfold cb_get_leaf_index. repeat ty_step. Qed.
  Lemma tc_is_inner_node t i : TC t → rtyped (cb_is_inner_node t i).
  Proof. intros Ht. unfold cb_is_inner_node. repeat ty_step. Qed.
  Lemma tc_get_node t i : TC t → rtyped (cb_get_node t i).
  Proof. intros Ht. unfold cb_get_node. repeat ty_step. Qed.
  Lemma tc_get_left t i : TC t → rtyped (cb_get_left t i).
  Proof. intros Ht. unfold cb_get_left. repeat ty_step. Qed.
  Lemma tc_get_right t i : TC t → rtyped (cb_get_right t i).
  Proof. intros Ht. unfold cb_get_right. repeat ty_step. Qed.
  Lemma tc_get_parent t i : TC t → rtyped (cb_get_parent t i).
  Proof. intros Ht. unfold cb_get_parent. repeat ty_step. Qed.
  Hint Resolve tc_get_leaf tc_replace_leaf tc_set_node tc_get_leaf_index tc_is_inner_node tc_get_node tc_get_left tc_get_right tc_get_parent : ty.
  Lemma tc_cnode k p : k < W128 → p < W64 → ty (CNode k p).
  Proof. by split. Qed.
  Lemma tc_add_leaf k v : k < W128 → typed TC (cb_add_leaf k v).
  Proof using Hn Hm. intros Hk. assert (ty (CNode k 128)) by by split. unfold cb_add_leaf. repeat ty_step; apply tc_replace_leaf. Qed.
  Lemma tc_get_child t p i k : TC t → rtyped (cb_get_child t p i k).
  Proof.
    intros Ht. unfold cb_get_child. destruct (crit_bit_mask p) as [m|]; [|done]. cbn [mbind res_bind]. repeat ty_step.
  Qed.
  Hint Resolve tc_get_child : ty.
  Lemma tc_duplicate i : typed TC (cb_duplicate i).
  Proof using Hn Hm. unfold cb_duplicate. repeat ty_step. Qed.
  Lemma tc_replace_node i c l r : ty i → ty c → ty l → ty r → typed TC (cb_replace_node i c l r).
  Proof. intros Hi Hc Hl Hr. unfold cb_replace_node. repeat ty_step. Qed.
  Lemma tc_migrate i j : ty i → ty j → typed TC (cb_migrate i j).
  Proof. intros Hi Hj. unfold cb_migrate. repeat ty_step. Qed.
  Lemma tc_remove_leaf i : ty i → typed TC (cb_remove_leaf i).
  Proof. intros Hi. unfold cb_remove_leaf. repeat ty_step. Qed.
  Hint Resolve tc_add_leaf tc_duplicate tc_replace_node tc_migrate tc_remove_leaf : ty.
  Lemma tc_walk fuel t k i : TC t → ty i → rtyped (cb_walk fuel t k i).
  Proof.
    intros Ht. revert i. induction fuel as [|fuel IH]; intros i Hi; cbn [cb_walk]; cbv zeta; [done|].
    do 10 try ty_step. all: try ty_step. apply IH. by destruct H2.
  Qed.
  Hint Resolve tc_walk : ty.
  Lemma tc_lz x : leading_zeros128 x < W64.
  Proof. unfold leading_zeros128, W64. lia. Qed.
  Lemma tc_fst {A B} `{Ty A, Ty B} (x : A * B) : ty x → ty x.1.
  Proof. by intros []. Qed.
  Hint Resolve tc_fst : ty.
  Lemma tc_insert_loop fuel k v i : k < W128 → ty i → typed TC (cb_insert_loop fuel k v i).
  Proof using Hn Hm.
    intros Hk. revert i. induction fuel as [|fuel IH]; intros i Hi; cbn [cb_insert_loop]; cbv zeta; [apply typed_fail|].
    eapply typed_bind; [repeat ty_step|intros c Hc]. eapply typed_bind; [repeat ty_step|intros same _]. destruct same; [repeat ty_step|].
    destruct (decide _) as [Hd|Hd]; [eapply typed_bind; [repeat ty_step|intros x Hx]; apply IH; by destruct Hx|].
    intros s Hs. unfold mbind, M_bind at 1. unfold lift, gets. destruct (crit_bit_mask _) as [m|]; [|done]. revert s Hs.
    change (typed TC (nl ← cb_add_leaf k v; moved ← cb_duplicate i;
      (if bool_decide (N.land m k ≠ 0)
       then cb_replace_node i (CNode k (leading_zeros128 (N.lxor (cn_key c) k))) moved nl.1
       else cb_replace_node i (CNode k (leading_zeros128 (N.lxor (cn_key c) k))) nl.1 moved);; mret (Some nl.1))).
    eapply typed_bind; [by apply tc_add_leaf|intros nl Hnl]. eapply typed_bind; [apply tc_duplicate|intros mv Hmv].
    assert (ty (CNode k (leading_zeros128 (N.lxor (cn_key c) k)))) by (split; [done|apply tc_lz]).
    eapply typed_bind; [|intros _ _; apply typed_ret; eauto with ty]. destruct (bool_decide _); apply tc_replace_node; eauto with ty.
  Qed.
  Hint Resolve tc_insert_loop : ty.
  Lemma tc_insert k v : k < W128 → typed TC (cb_insert k v).
  Proof using Hn Hm. intros Hk. unfold cb_insert. repeat ty_step. Qed.
  Lemma tc_remove_walk fuel t k p c b : TC t → ty p → ty c → rtyped (cb_remove_walk fuel t k p c b).
  Proof.
    intros Ht. revert p c b. induction fuel as [|fuel IH]; intros p c b Hp Hc; cbn [cb_remove_walk]; cbv zeta; [done|].
    eapply rtyped_bind; [repeat ty_step|intros n Hn']. eapply rtyped_bind; [repeat ty_step|intros inner _]. destruct inner.
    - eapply rtyped_bind; [by apply tc_get_child|intros x Hx]. apply IH; [done|]. by destruct Hx.
    - repeat ty_step.
  Qed.
  Hint Resolve tc_remove_walk : ty.
  Lemma tc_remove k : keeps TC (cb_remove k).
  Proof using Hn Hm. unfold cb_remove. repeat ty_step. Qed.
  Lemma tc_get_mut_loop fuel k f i : ty i → typed TC (cb_get_mut_loop fuel k f i).
  Proof.
    revert i. induction fuel as [|fuel IH]; intros i Hi; cbn [cb_get_mut_loop]; cbv zeta; [apply typed_fail|].
    do 4 try ty_step. all: repeat ty_step.
  Qed.
  Hint Resolve tc_get_mut_loop : ty.
  Lemma tc_get_mut k f : typed TC (cb_get_mut k f).
  Proof. unfold cb_get_mut. repeat ty_step. Qed.
  Hint Resolve tc_insert tc_get_mut : ty.
  Lemma tc_iterate_mut sc : keeps TC (cb_iterate_mut sc).
  Proof using Hn Hm.
    set (J := λ st : critbit V * citer, TC st.1).
    assert (keeps J (drive_mut cb_iter_mut_next cb_iter_mut_next_back sc)) as Hk.
    { apply keeps_drive_mut; intros f; unfold cb_iter_mut_next, cb_iter_mut_next_back; (apply keeps_mget; intros st Hs); (apply keeps_bind; [apply keeps_lift|intros [o it]]);
      (apply keeps_bind; [eapply typed_keeps, typed_modify; by intros []|intros _]); (destruct o as [[c i]|]; simpl; [|apply keeps_ret]);
      (apply keeps_bind; [apply keeps_gets|intros ?]);
      (apply keeps_bind; [|intros; apply keeps_ret]); (apply (keeps_zoom J TC); [done|done|]); eapply typed_keeps, tc_onl, ty_raw_update; done. }
    intros t Ht. specialize (Hk (t, cb_iter t) Ht). unfold cb_iterate_mut. by destruct (drive_mut _ _ _ _) as [a [? ?]|e [? ?]].
  Qed.
  Lemma tc_step o : u128_op o → keeps TC (cb_step o).
  Proof using Hn Hm.
    destruct o; intros Ho; simpl in Ho; unfold cb_step, om_step, cb_api, a_insert, a_remove, a_get_mut, a_index_mut, a_iter_mut, cb_index_mut; try solve [repeat ty_step].
    - apply keeps_bind; [apply tc_remove|intros; apply keeps_ret].
    - apply keeps_bind; [apply tc_iterate_mut|intros; apply keeps_ret].
  Qed.
  Lemma tc_new z t0 : cb_new nn ms z = Some t0 → TC t0.
  Proof using Hn Hm.
    unfold cb_new. destruct (decide _) as [Hd|Hd]; [|done]. intros [= <-]. constructor; simpl; [by apply ty_new|by apply ty_new|done].
  Qed.
  Theorem tc_history z t0 ops : cb_new nn ms z = Some t0 → Forall u128_op ops → TC (history cb_step ops t0).2.
  Proof using Hn Hm.
    intros Ht Ho. apply keeps_history; [|by eapply tc_new]. eapply Forall_impl; [exact Ho|]. intros o. apply tc_step.
  Qed.
  Lemma tc_again t : TC t → cb_initialize t = Fail Panic t.
  Proof using Hn Hm.
    intros Hd. unfold cb_initialize, cb_onn, zoom, mbind, M_bind. rewrite (ty_init_again 4 nn) by first [exact Hn|apply Hd]. by destruct t.
  Qed.
End crit.
