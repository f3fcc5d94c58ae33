(** * Proofs about containers whose const parameters are 0 (C71) *)
From Verif Require Import DegenSpec RBApi AVLApi CritApi HashApi.

Lemma history_fixed {S O A} (step : O → M S A) (ans : O → res A) s :
  (∀ o, call (step o) s = (ans o, s)) → ∀ ops, history step ops s = (map ans ops, s).
Proof. intros Hs ops. induction ops as [|o ops IH]; [done|]. cbn [history map]. rewrite Hs. by rewrite IH. Qed.

Lemma drive_none {IT A} (next next_back : IT → res (option A * IT)) it :
  next it = Val (None, it) → next_back it = Val (None, it) → ∀ sc, drive next next_back sc it = Val (map (λ _, None) sc).
Proof.
  intros Hn Hb sc. induction sc as [|e sc IH]; [done|]. cbn [drive map].
  replace (match e with Fwd => next it | Bwd => next_back it end) with (@Val (option A * IT) (None, it)) by (by destruct e). 
  cbn. by rewrite IH.
Qed.
Lemma drive_mut_none {S A V} (next next_back : (V → V) → M S (option A)) s :
  (∀ f, next f s = Ret None s) → (∀ f, next_back f s = Ret None s) → ∀ sc, drive_mut next next_back sc s = Ret (map (λ _, None) sc) s.
Proof.
  intros Hn Hb sc. induction sc as [|[e f] sc IH]; [done|]. cbn [drive_mut map].
  assert (He : (match e with Fwd => next f | Bwd => next_back f end) s = Ret None s) by (by destruct e).
  unfold mbind, M_bind. rewrite He. by rewrite IH.
Qed.
Lemma no_index_none {A B} (l : list A) : no_index (map (λ _, None) l) = map (λ _, @None B) l.
Proof. induction l as [|x l IH]; [done|]. cbn. by f_equal. Qed.

Section rb.
  Context `{Profile} {K V : Type} (cmp : K → K → comparison) (d : K * V).
  Lemma rb0_iter sc : rb_iterate (rb_new 0 d) sc = Val (map (λ _, None) sc).
  Proof. unfold rb_iterate. by apply drive_none. Qed.
  Lemma rb0_iter_mut sc : rb_iterate_mut sc (rb_new 0 d) = Ret (map (λ _, None) sc) (rb_new 0 d).
  Proof. unfold rb_iterate_mut. rewrite drive_mut_none; [done|by intros f..]. Qed.
  Lemma rb0_step o : call (rb_step cmp o) (rb_new 0 d) = (zero_answer_rb o, rb_new 0 d).
  Proof.
    destruct o as [o|]; [|done]. destruct o; try done; cbn [rb_step om_step a_iter a_iter_mut rb_api zero_answer_rb zero_answer].
    - unfold call, mbind, M_bind, gets. by rewrite rb0_iter.
    - unfold call, mbind, M_bind, gets. rewrite rb0_iter_mut. cbn. by rewrite no_index_none.
  Qed.
End rb.

Section av.
  Context `{Profile} {K V : Type} (pcmp : K → K → option comparison) (d : K * V).
  Lemma av0_iter sc : av_iterate (av_new 0 d) sc = Val (map (λ _, None) sc).
  Proof. unfold av_iterate. by apply drive_none. Qed.
  Lemma av0_iter_mut sc : av_iterate_mut sc (av_new 0 d) = Ret (map (λ _, None) sc) (av_new 0 d).
  Proof. unfold av_iterate_mut. rewrite drive_mut_none; [done|by intros f..]. Qed.
  Lemma av0_step o : call (av_step pcmp o) (av_new 0 d) = (zero_answer o, av_new 0 d).
  Proof.
    destruct o; try done; cbn [av_step om_step a_iter a_iter_mut av_api zero_answer].
    - unfold av_step, call, om_step, mbind, M_bind, gets. cbn [a_iter av_api]. by rewrite av0_iter.
    - unfold av_step, call, om_step, mbind, M_bind, gets. cbn [a_iter_mut av_api]. rewrite av0_iter_mut. cbn. by rewrite no_index_none.
  Qed.
End av.

Section ht.
  Context `{Profile} {K V : Type} (keq : K → K → bool) (hash : K → N) (ms : nat) (d : K * V) (h0 : htable K V).
  Context (Hnew : ht_new 0 ms d = Some h0).
  Lemma ht0_eq : h0 = HT [] (Alloc 0 1 1 (replicate ms (node_default 4 d))).
  Proof using Hnew. unfold ht_new in Hnew. rewrite decide_True in Hnew by done. by injection Hnew as <-. Qed.
  Lemma ht0_step o : call (ht_step keq hash o) h0 = (no_bucket_answer (N.of_nat ms) o, h0).
  Proof using Hnew.
    rewrite ht0_eq. destruct o; try done.
    set (a := Alloc 0 1 1 (replicate ms (node_default 4 d))).
    change ((Val (HNum (lengthN (nodes a))), HT [] a) = (Val (HNum (N.of_nat ms) : hm_out K V), HT [] a)). cbn [a nodes].
    unfold lengthN. by rewrite replicate_length.
  Qed.
End ht.

Section add.
  Context `{Profile} {T : Type}.
  Lemma add_node_full j ns (x : T) :
    lengthN ns = j → j + 1 < W32 → na_add_node x (Alloc j (j + 1) (j + 1) ns) = Fail Panic (Alloc j (j + 1) (j + 1) ns).
  Proof.
    intros <- Hw. unfold na_add_node, mbind, M_bind, mget. cbn [free_list_head bump_index]. rewrite decide_True by done.
    rewrite decide_True; [done|]. unfold MAX_SIZE. cbn [nodes]. unfold as_u32. by rewrite N.mod_small.
  Qed.
  Lemma add_node_bump j ns (x : T) :
    j < lengthN ns → lengthN ns + 1 < W32 →
    ∃ ns', na_add_node x (Alloc j (j + 1) (j + 1) ns) = Ret (j + 1) (Alloc (j + 1) (j + 1 + 1) (j + 1 + 1) ns') ∧ length ns' = length ns.
  Proof.
    intros Hj Hw. unfold na_add_node, mbind, M_bind, mget. cbn [free_list_head bump_index]. rewrite decide_True by done.
    rewrite decide_False; cycle 1. { unfold MAX_SIZE. cbn [nodes]. unfold as_u32. rewrite N.mod_small by done. lia. }
    unfold lift, gets, modify, u32_add. rewrite u_add_ok by lia. cbn [set_bump set_fhead free_list_head bump_index nodes size].
    unfold na_get_mut, mbind, M_bind, lift, gets, modify, u32_sub. rewrite u_sub_ok by lia. replace (j + 1 - 1) with j by lia.
    cbn [set_bump set_fhead nodes].
    destruct (lookupN ns j) as [n|] eqn:Hns; cycle 1.
    { unfold lookupN in Hns. rewrite decide_True in Hns by done. apply lookup_ge_None in Hns. unfold lengthN in Hj. lia. }
    cbn [node_set_value set_nodes set_bump set_fhead size nodes free_list_head bump_index].
    unfold u64_add. rewrite u_add_ok by (unfold W64, W32 in *; lia).
    eexists. split; [done|]. cbn [set_nodes nodes]. unfold insertN. by rewrite insert_length.
  Qed.
End add.

Section cb.
  Context `{Profile} {V : Type} (nn : nat) (d : V) (Hn : N.of_nat nn + 1 < W32).
  (** [j] nodes have been taken from the node array, and nothing else has happened *)
  Definition cb0 (j : N) (t : critbit V) : Prop :=
    j ≤ N.of_nat nn ∧ cb_root t = SENTINEL ∧ cb_leaves t = Alloc 0 1 1 [] ∧
    ∃ ns, cb_nodes t = Alloc j (j + 1) (j + 1) ns ∧ length ns = nn.
  Lemma cb0_new t0 : cb_new nn 0 d = Some t0 → cb0 0 t0.
  Proof using.
    unfold cb_new. destruct (decide _) as [_|]; [|done]. intros [= <-]. split_and!; [apply N.le_0_l|done|done|].
    eexists. split; [done|]. by rewrite replicate_length.
  Qed.
  Lemma cb0_iter j t sc : cb0 j t → cb_iterate t sc = Val (map (λ _, None) sc).
  Proof using.
    destruct t as [r na la]. intros (Hj & Hr & Hl & ns & Ha & Hlen). cbn in Hr, Hl, Ha. subst r na la. unfold cb_iterate. by apply drive_none.
  Qed.
  Lemma cb0_iter_mut j t sc : cb0 j t → cb_iterate_mut sc t = Ret (map (λ _, None) sc) t.
  Proof using.
    destruct t as [r na la]. intros (Hj & Hr & Hl & ns & Ha & Hlen). cbn in Hr, Hl, Ha. subst r na la.
    unfold cb_iterate_mut. rewrite drive_mut_none; [done|by intros f..].
  Qed.
  Lemma cb0_step j t o :
    cb0 j t → ∃ t', call (cb_step o) t = (zero_answer o, t') ∧ cb0 (N.min (if is_insertion o then j + 1 else j) (N.of_nat nn)) t'.
  Proof using Hn.
    intros Ht. destruct (is_insertion o) eqn:Ho.
    - destruct o as [k v| | | | | | | | | | | | |]; try done. cbn [zero_answer].
      destruct t as [r na la]. destruct Ht as (Hj & Hr & Hl & ns & Ha & Hlen). cbn in Hr, Hl, Ha. subst r la na.
      unfold call, cb_step, om_step. cbn [a_insert cb_api]. unfold cb_insert, mbind, M_bind, mget. cbn [cb_root].
      rewrite decide_True by done. unfold cb_add_leaf, mbind, M_bind, cb_onn, zoom. cbn [cb_nodes].
      destruct (decide (j = N.of_nat nn)) as [->|Hne].
      + rewrite add_node_full by (unfold lengthN; lia). eexists. split; [done|].
        split_and!; [lia|done|done|]. exists ns. rewrite N.min_r by lia. by split.
      + destruct (add_node_bump j ns (CNode k 128)) as (ns' & -> & Hl'); [unfold lengthN; lia..|]. eexists. split; [done|].
        rewrite N.min_l by lia. split_and!; [lia|done|done|]. exists ns'. split; [done|congruence].

    - exists t. rewrite N.min_l by apply Ht. split; [|done].
      destruct o; try done;
        lazymatch goal with
        | |- call (cb_step (MIter _)) _ = _ =>
            unfold cb_step, om_step, call, mbind, M_bind, gets; cbn [a_iter cb_api]; by rewrite (cb0_iter j)
        | |- call (cb_step (MIterMut _)) _ = _ =>
            unfold cb_step, om_step, call, mbind, M_bind, gets; cbn [a_iter_mut cb_api]; rewrite (cb0_iter_mut j) by done; cbn;
            by rewrite no_index_none
        | _ => destruct t as [r na la]; destruct Ht as (Hj & Hr & Hl & ns & Ha & Hlen); cbn in Hr, Hl, Ha; subst r na la; done
        end.
  Qed.
  Lemma cb0_history t0 : cb_new nn 0 d = Some t0 → ∀ ops,
    (history cb_step ops t0).1 = map zero_answer ops ∧ cb0 (N.min (insertions ops) (N.of_nat nn)) (history cb_step ops t0).2.
  Proof using Hn.
    intros H0. apply cb0_new in H0. rewrite <- (N.min_l 0 (N.of_nat nn)) in H0 by apply N.le_0_l.
    assert (Hgen : ∀ ops n t, cb0 (N.min n (N.of_nat nn)) t →
      (history cb_step ops t).1 = map zero_answer ops ∧ cb0 (N.min (n + insertions ops) (N.of_nat nn)) (history cb_step ops t).2).
    { clear H0. intros ops. induction ops as [|o ops IH]; intros n t Ht.
      { split; [done|]. by rewrite N.add_0_r. }
      destruct (cb0_step _ _ o Ht) as (t' & Ho & Ht'). cbn [history map]. rewrite Ho.
      assert (Ht2 : cb0 (N.min (n + if is_insertion o then 1 else 0) (N.of_nat nn)) t').
      { replace (N.min (n + _) _) with (N.min (if is_insertion o then N.min n (N.of_nat nn) + 1 else N.min n (N.of_nat nn)) (N.of_nat nn)); [done|].
        destruct (is_insertion o); lia. }
      destruct (IH _ _ Ht2) as [Ha Hc]. destruct (history cb_step ops t') as [rs t2] eqn:E. cbn [fst snd] in *. split; [by f_equal|].
      replace (n + insertions (o :: ops)) with (n + (if is_insertion o then 1 else 0) + insertions ops); [done|].
      unfold insertions. cbn [List.filter]. destruct (is_insertion o); rewrite ?lengthN_cons; lia. }
    intros ops. by apply (Hgen ops 0).
  Qed.
End cb.
