(** * RedBlackTree and AVLTree: every number stays within its Rust type *)
From Verif Require Export TypedProof.

(** ** Shared walks *)
Section walk.
  Context `{Profile} {K V : Type} (ms : nat).
  Local Instance TyK : Ty K := λ _, True.
  Local Instance TyV : Ty V := λ _, True.
  Lemma ty_walk (cmp : K → K → comparison) fuel (a : alloc (K * V)) k i : TA 4 ms a → ty i → rtyped (bst_walk cmp fuel a k i).
  Proof.
    intros Ha. revert i. induction fuel as [|fuel IH]; intros i Hi; simpl; [done|]. eapply rtyped_bind; [by apply (ty_get 4 ms)|intros n _].
    destruct (cmp k (val n).1); [done| |]; (eapply rtyped_bind; [by apply (ty_get_register 4 ms)|intros t Ht]); destruct (decide _) as [Hd|Hd]; auto; done.
  Qed.
  Lemma ty_get_addr (cmp : K → K → comparison) fuel (a : alloc (K * V)) r k : TA 4 ms a → ty r → rtyped (bst_get_addr cmp fuel a r k).
  Proof. intros Ha Hr. unfold bst_get_addr. destruct (decide _) as [Hd|Hd]; [done|by apply ty_walk]. Qed.
  Lemma ty_ti_mut (J := λ st : alloc (K * V) * titer, TA 4 ms st.1) : (∀ f, keeps J (ti_mut_next f)) ∧ (∀ f, keeps J (ti_mut_next_back f)).
  Proof.
    split; intros f; unfold ti_mut_next, ti_mut_next_back; (apply keeps_mget; intros st Hs); (apply keeps_bind; [apply keeps_lift|intros [o it]]);
      (apply keeps_bind; [eapply typed_keeps, typed_modify; by intros []|intros _]); (destruct o as [c|]; simpl; [|apply keeps_ret]);
      (apply keeps_bind; [|intros; apply keeps_ret]); (apply (keeps_zoom J (TA 4 ms)); [done|done|]); eapply typed_keeps, ty_raw_update; done.
  Qed.
End walk.

(** ** RedBlackTree *)
Section rb.
  Context `{Profile} {K V : Type} (cmp : K → K → comparison) (ms : nat) (Hw : N.of_nat ms + 1 < W32).
  Local Instance TyK1 : Ty K := λ _, True.
  Local Instance TyV1 : Ty V := λ _, True.
  Implicit Types t : rbt K V.
  Record TR t : Prop := { tr_al : TA 4 ms (rb_al t); tr_root : ty (rb_root t) }.
  Lemma tr_on {A} `{Ty A} (m : M (alloc (K * V)) A) : typed (TA 4 ms) m → typed TR (rb_on m).
  Proof. apply typed_zoom; [by intros s []|intros s t []; by constructor]. Qed.
  Lemma ty_kv1 (x : K * V) : ty x.
  Proof. by split. Qed.
  Hint Resolve tr_on tr_al tr_root ty_add_node ty_connect ty_remove_node ty_clear_register ty_set_register ty_get ty_get_register ty_kv1 ty_find_dir ty_get_addr : ty.
  Lemma tr_set_root i : ty i → typed TR (modify (set_rroot i)).
  Proof. intros Hi. apply typed_modify. intros s []. by constructor. Qed.
  Hint Resolve tr_set_root : ty.
  Lemma tr_connect p c d : ty p → ty c → typed TR (rb_connect p c d).
  Proof. unfold rb_connect. eauto with ty. Qed.
  Lemma tr_color_red i : typed TR (rb_color_red i).
  Proof. unfold rb_color_red. repeat ty_step. Qed.
  Lemma tr_color_black i : typed TR (rb_color_black i).
  Proof. unfold rb_color_black. repeat ty_step. Qed.
  Lemma tr_color_node i c : ty c → typed TR (rb_color_node i c).
  Proof. intros Hc. unfold rb_color_node. repeat ty_step. Qed.
  Lemma tr_get_node t i : TR t → rtyped (rb_get_node t i).
  Proof. intros Ht. unfold rb_get_node. repeat ty_step. Qed.
  Lemma tr_is_red t i : TR t → rtyped (rb_is_red t i).
  Proof. intros Ht. unfold rb_is_red. repeat ty_step. Qed.
  Lemma tr_is_black t i : TR t → rtyped (rb_is_black t i).
  Proof. intros Ht. unfold rb_is_black. repeat ty_step. Qed.
  Lemma tr_get_child t i d : TR t → rtyped (rb_get_child t i d).
  Proof. intros Ht. unfold rb_get_child. repeat ty_step. Qed.
  Lemma tr_get_left t i : TR t → rtyped (rb_get_left t i).
  Proof. intros Ht. unfold rb_get_left. repeat ty_step. Qed.
  Lemma tr_get_right t i : TR t → rtyped (rb_get_right t i).
  Proof. intros Ht. unfold rb_get_right. repeat ty_step. Qed.
  Lemma tr_get_color t i : TR t → rtyped (rb_get_color t i).
  Proof. intros Ht. unfold rb_get_color. repeat ty_step. Qed.
  Lemma tr_get_parent t i : TR t → rtyped (rb_get_parent t i).
  Proof. intros Ht. unfold rb_get_parent. repeat ty_step. Qed.
  Hint Resolve tr_connect tr_color_red tr_color_black tr_color_node tr_is_red tr_is_black tr_get_child tr_get_left tr_get_right tr_get_color tr_get_parent tr_get_node : ty.
  Lemma tr_get_dir t i d : TR t → rtyped (rb_get_dir t i d).
  Proof. intros Ht. unfold rb_get_dir. repeat ty_step. Qed.
  Lemma tr_is_leaf t i : TR t → rtyped (rb_is_leaf t i).
  Proof. intros Ht. unfold rb_is_leaf. repeat ty_step. Qed.
  Lemma tr_child_dir t p c : TR t → rtyped (rb_child_dir t p c).
  Proof. intros Ht. unfold rb_child_dir. repeat ty_step. Qed.
  Hint Resolve tr_get_dir tr_is_leaf tr_child_dir : ty.
  Lemma tr_set_node_value i v : typed TR (rb_set_node_value i v).
  Proof. apply tr_on, ty_get_mut. intros n (Hl & Hr & Ht). split; [done|]. by split. Qed.
  Lemma tr_remove_allocator_node i : ty i → typed TR (rb_remove_allocator_node i).
  Proof. intros Hi. unfold rb_remove_allocator_node. repeat ty_step. Qed.
  Lemma tr_rotate_dir i d : ty i → typed TR (rb_rotate_dir i d).
  Proof. intros Hi. unfold rb_rotate_dir. repeat ty_step. Qed.
  Hint Resolve tr_set_node_value tr_remove_allocator_node tr_rotate_dir : ty.
  Lemma tr_fix_insert_loop fuel i : ty i → typed TR (rb_fix_insert_loop fuel i).
  Proof. revert i. induction fuel as [|fuel IH]; intros i Hi; simpl; [apply typed_fail|]. repeat ty_step. Qed.
  Hint Resolve tr_fix_insert_loop : ty.
  Lemma tr_fix_insert i : ty i → typed TR (rb_fix_insert i).
  Proof. intros Hi. unfold rb_fix_insert. repeat ty_step. Qed.
  Hint Resolve tr_fix_insert : ty.
  Lemma tr_insert_loop fuel k v i : ty i → typed TR (rb_insert_loop cmp fuel k v i).
  Proof using Hw. revert i. induction fuel as [|fuel IH]; intros i Hi; cbn [rb_insert_loop]; cbv zeta; [apply typed_fail|]. repeat ty_step. Qed.
  Hint Resolve tr_insert_loop : ty.
  Lemma tr_insert k v : typed TR (rb_insert cmp k v).
  Proof using Hw. unfold rb_insert. repeat ty_step. Qed.
  Lemma tr_transplant i j : ty i → ty j → typed TR (rb_transplant i j).
  Proof. intros Hi Hj. unfold rb_transplant. repeat ty_step. Qed.
  Lemma tr_fix_remove_loop fuel i d : ty i → typed TR (rb_fix_remove_loop fuel i d).
  Proof. revert i d. induction fuel as [|fuel IH]; intros i d Hi; simpl; [apply typed_fail|]. repeat ty_step. Qed.
  Hint Resolve tr_transplant tr_fix_remove_loop : ty.
  Lemma tr_fix_remove i pd : ty i → ty pd → typed TR (rb_fix_remove i pd).
  Proof. intros Hi Hp. unfold rb_fix_remove. destruct pd as [[p d]|]; ty_hyps; repeat ty_step; eauto with ty. Qed.
  Hint Resolve tr_fix_remove : ty.
  Lemma tr_remove_tree_node i : ty i → typed TR (rb_remove_tree_node i).
  Proof. intros Hi. unfold rb_remove_tree_node, rb_find_max. repeat ty_step. Qed.
  Hint Resolve tr_remove_tree_node : ty.
  Lemma tr_remove_loop fuel k i : ty i → typed TR (rb_remove_loop cmp fuel k i).
  Proof. revert i. induction fuel as [|fuel IH]; intros i Hi; simpl; [apply typed_fail|]. repeat ty_step. Qed.
  Hint Resolve tr_remove_loop : ty.
  Lemma tr_remove k : typed TR (rb_remove cmp k).
  Proof. unfold rb_remove. repeat ty_step. Qed.
  Lemma tr_remove_root : typed TR rb_remove_root.
  Proof. unfold rb_remove_root. repeat ty_step. Qed.
  Lemma tr_get_mut k f : typed TR (rb_get_mut cmp k f).
  Proof. unfold rb_get_mut, rb_get_addr. repeat ty_step. Qed.
  Hint Resolve tr_insert tr_remove tr_remove_root tr_get_mut : ty.
  Lemma tr_iterate_mut sc : keeps TR (rb_iterate_mut sc).
  Proof.
    set (J := λ st : rbt K V * titer, TR st.1). destruct (ty_ti_mut (K:=K) (V:=V) ms) as [H1 H2].
    assert (keeps J (drive_mut rb_iter_mut_next rb_iter_mut_next_back sc)) as Hk.
    { apply keeps_drive_mut; intros f; (eapply keeps_zoom; [| |first [apply H1|apply H2]]); first [by intros s []|by intros s [] []]. }
    intros t Ht. specialize (Hk (t, rb_iter t) Ht). unfold rb_iterate_mut. by destruct (drive_mut _ _ _ _) as [a [? ?]|e [? ?]].
  Qed.
  Lemma tr_step o : keeps TR (rb_step cmp o).
  Proof using Hw.
    destruct o as [[]|]; unfold rb_step, om_step, rb_api, a_insert, a_remove, a_get_mut, a_index_mut, a_iter_mut, rb_index_mut; try solve [repeat ty_step].
    apply keeps_bind; [apply tr_iterate_mut|intros; apply keeps_ret].
  Qed.
  Lemma tr_new z : TR (rb_new ms z).
  Proof using Hw. constructor; simpl; [by apply ty_new|done]. Qed.
  Theorem tr_history z ops : TR (history (rb_step cmp) ops (rb_new ms z)).2.
  Proof using Hw. apply keeps_history; [|apply tr_new]. apply Forall_forall. intros o _. apply tr_step. Qed.
  Lemma tr_again t : TR t → rb_initialize t = Fail Panic t.
  Proof using Hw.
    intros Hd. unfold rb_initialize, rb_on, zoom. rewrite (ty_init_again 4 ms) by first [exact Hw|apply Hd]. by destruct t.
  Qed.
End rb.

(** ** AVLTree *)
Section avl.
  Context `{Profile} {K V : Type} (pcmp : K → K → option comparison) (ms : nat) (Hw : N.of_nat ms + 1 < W32).
  Local Instance TyK2 : Ty K := λ _, True.
  Local Instance TyV2 : Ty V := λ _, True.
  Implicit Types t : avlt K V.
  Record TV t : Prop := { tv_al : TA 4 ms (av_al t); tv_root : ty (av_root t) }.
  Lemma tv_on {A} `{Ty A} (m : M (alloc (K * V)) A) : typed (TA 4 ms) m → typed TV (av_on m).
  Proof. apply typed_zoom; [by intros s []|intros s t []; by constructor]. Qed.
  Lemma ty_kv2 (x : K * V) : ty x.
  Proof. by split. Qed.
  Lemma ty_as_u32 x : ty (as_u32 x).
  Proof. by apply N.mod_lt. Qed.
  Lemma ty_i32 z : rtyped (i32_chk z).
  Proof. unfold i32_chk. destruct (decide _) as [Hd|Hd]; [done|]. by destruct overflow_checks. Qed.
  Hint Resolve tv_on tv_al tv_root ty_add_node ty_connect ty_remove_node ty_clear_register ty_set_register ty_get ty_get_register ty_kv2 ty_find_dir ty_get_addr ty_as_u32 ty_i32 : ty.
  Lemma tv_set_root i : ty i → typed TV (modify (set_aroot i)).
  Proof. intros Hi. apply typed_modify. intros s []. by constructor. Qed.
  Lemma tv_get_node t i : TV t → rtyped (av_get_node t i).
  Proof. intros Ht. unfold av_get_node. repeat ty_step. Qed.
  Lemma tv_get_field t i r : TV t → rtyped (av_get_field t i r).
  Proof. intros Ht. unfold av_get_field. repeat ty_step. Qed.
  Lemma tv_set_node_value i v : typed TV (av_set_node_value i v).
  Proof. apply tv_on, ty_get_mut. intros n (Hl & Hr & Ht). split; [done|]. by split. Qed.
  Hint Resolve tv_set_root tv_get_node tv_get_field tv_set_node_value : ty.
  Lemma tv_update_height i : typed TV (av_update_height i).
  Proof. unfold av_update_height. repeat ty_step. Qed.
  Hint Resolve tv_update_height : ty.
  Lemma tv_set_field i r v : ty v → typed TV (av_set_field i r v).
  Proof. intros Hv. unfold av_set_field. repeat ty_step. Qed.
  Lemma tv_balance_factor t l r : TV t → rtyped (av_balance_factor t l r).
  Proof. intros Ht. unfold av_balance_factor. repeat ty_step. Qed.
  Hint Resolve tv_set_field tv_balance_factor : ty.
  Lemma tv_left_rotate i : ty i → typed TV (av_left_rotate i).
  Proof. intros Hi. unfold av_left_rotate. repeat ty_step. Qed.
  Lemma tv_right_rotate i : ty i → typed TV (av_right_rotate i).
  Proof. intros Hi. unfold av_right_rotate. repeat ty_step. Qed.
  Lemma tv_delete i : ty i → typed TV (av_delete i).
  Proof. intros Hi. unfold av_delete. repeat ty_step. Qed.
  Hint Resolve tv_left_rotate tv_right_rotate tv_delete : ty.
  Lemma tv_rebalance_step e : ty e → typed TV (av_rebalance_step e).
  Proof. intros He. unfold av_rebalance_step. destruct e as [[[p b]|] c]; ty_hyps; repeat ty_step. Qed.
  Lemma tv_rebalance rp : ty rp → typed TV (av_rebalance rp).
  Proof.
    induction rp as [|e rp IH]; intros Hp; [by apply typed_ret|]. ty_hyps. cbn [av_rebalance]. eapply typed_bind; [by apply tv_rebalance_step|intros _ _]. auto.
  Qed.
  Hint Resolve tv_rebalance : ty.
  Lemma tv_insert_loop fuel k v rp i : ty rp → ty i → typed TV (av_insert_loop pcmp fuel k v rp i).
  Proof using Hw. revert rp i. induction fuel as [|fuel IH]; intros rp i Hp Hi; cbn [av_insert_loop]; cbv zeta; [apply typed_fail|]. repeat ty_step. Qed.
  Hint Resolve tv_insert_loop : ty.
  Lemma tv_insert k v : typed TV (av_insert pcmp k v).
  Proof using Hw. unfold av_insert. repeat ty_step. Qed.
  Lemma tv_remove_walk fuel t k rp i : TV t → ty rp → ty i → rtyped (av_remove_walk pcmp fuel t k rp i).
  Proof.
    intros Ht. revert rp i. induction fuel as [|fuel IH]; intros rp i Hp Hi; cbn [av_remove_walk]; cbv zeta; [done|]. repeat ty_step.
  Qed.
  Lemma tv_leftmost_walk fuel t i p inner : TV t → ty i → ty p → ty inner → rtyped (av_leftmost_walk fuel t i p inner).
  Proof.
    intros Ht. revert i p inner. induction fuel as [|fuel IH]; intros i p inner Hi Hp Hn; cbn [av_leftmost_walk]; cbv zeta; [done|]. repeat ty_step.
  Qed.
  Hint Resolve tv_remove_walk tv_leftmost_walk : ty.
  Lemma tv_remove k : typed TV (av_remove pcmp k).
  Proof. unfold av_remove. repeat ty_step. Qed.
  Lemma tv_get_mut_loop fuel k f i : ty i → typed TV (av_get_mut_loop pcmp fuel k f i).
  Proof.
    revert i. induction fuel as [|fuel IH]; intros i Hi; cbn [av_get_mut_loop]; [apply typed_fail|]. repeat ty_step.
  Qed.
  Hint Resolve tv_get_mut_loop : ty.
  Lemma tv_get_mut k f : typed TV (av_get_mut pcmp k f).
  Proof. unfold av_get_mut. repeat ty_step. Qed.
  Hint Resolve tv_insert tv_remove tv_get_mut : ty.
  Lemma tv_iterate_mut sc : keeps TV (av_iterate_mut sc).
  Proof.
    set (J := λ st : avlt K V * titer, TV st.1). destruct (ty_ti_mut (K:=K) (V:=V) ms) as [H1 H2].
    assert (keeps J (drive_mut av_iter_mut_next av_iter_mut_next_back sc)) as Hk.
    { apply keeps_drive_mut; intros f; (eapply keeps_zoom; [| |first [apply H1|apply H2]]); first [by intros s []|by intros s [] []]. }
    intros t Ht. specialize (Hk (t, av_iter t) Ht). unfold av_iterate_mut. by destruct (drive_mut _ _ _ _) as [a [? ?]|e [? ?]].
  Qed.
  Lemma tv_step o : keeps TV (av_step pcmp o).
  Proof using Hw.
    destruct o; unfold av_step, om_step, av_api, a_insert, a_remove, a_get_mut, a_index_mut, a_iter_mut, av_index_mut; try solve [repeat ty_step].
    apply keeps_bind; [apply tv_iterate_mut|intros; apply keeps_ret].
  Qed.
  Lemma tv_new z : TV (av_new ms z).
  Proof using Hw. constructor; simpl; [by apply ty_new|done]. Qed.
  Theorem tv_history z ops : TV (history (av_step pcmp) ops (av_new ms z)).2.
  Proof using Hw. apply keeps_history; [|apply tv_new]. apply Forall_forall. intros o _. apply tv_step. Qed.
  Lemma tv_again t : TV t → av_initialize t = Fail Panic t.
  Proof using Hw.
    intros Hd. unfold av_initialize, av_on, zoom. rewrite (ty_init_again 4 ms) by first [exact Hw|apply Hd]. by destruct t.
  Qed.
End avl.
