(** * No call reads or writes outside the node arrays: histories, and bytes that may be anything *)
From Verif Require Import IterProof.
From Verif Require Export SafeProof BytesSpec.

Lemma mok_call {S A} (m : M S A) s : mok m → (call m s).1 ≠ Err UB.
Proof. intros Hm. unfold call. specialize (Hm s). destruct (m s) as [a s'|e s']; [done|]. intros [=->]. by apply (Hm s'). Qed.
Lemma mok_history {S O A} (step : O → M S A) (R : O → Prop) ops s :
  (∀ o, R o → mok (step o)) → Forall R ops → Err UB ∉ (history step ops s).1.
Proof.
  intros Hs Hr. revert s. induction Hr as [|o ops Ho Hr IH]; intros s; cbn [history]; [apply not_elem_of_nil|].
  pose proof (mok_call (step o) s (Hs o Ho)) as Hc. destruct (call (step o) s) as [r s1].
  specialize (IH s1). destruct (history step ops s1) as [rs s2]. cbn [fst] in *. rewrite not_elem_of_cons. split; [congruence|done].
Qed.
Lemma mok_on_bytes {A B} (c : codec A) addr (m : M A B) : mok m → mok (on_bytes c addr m).
Proof.
  intros Hm data data' He. unfold on_bytes, load in He.
  destruct (decide _) as [?|?]; [done|]. destruct (decide _) as [?|?]; [|done].
  specialize (Hm (c_dec c (take (l_size (c_lay c)) data))). destruct (m _) as [a s|er s]; [done|].
  injection He as -> _. by apply (Hm s).
Qed.
(** Both at once *)
Lemma mok_both {A O B} (c : codec A) (step : O → M A B) (R : O → Prop) :
  (∀ o, R o → mok (step o)) →
  (∀ s ops, Forall R ops → Err UB ∉ (history step ops s).1) ∧
  (∀ data aops, Forall (λ ao, R ao.2) aops → Err UB ∉ (history (reloaded c step) aops data).1).
Proof.
  intros Hs. split.
  - intros s ops Hr. by eapply mok_history.
  - intros data aops Hr. eapply mok_history; [|exact Hr]. intros [ad o] Ho. apply mok_on_bytes. by apply Hs.
Qed.

Section steps.
  Context `{Q : Profile}.
  Local Hint Resolve s_rb_insert s_rb_remove s_rb_get s_rb_get_mut s_rb_contains s_rb_get_min s_rb_get_max s_rb_index s_rb_index_mut s_rb_iterate
    s_rb_iterate_mut s_rb_remove_root s_av_insert s_av_remove s_av_get s_av_get_mut s_av_contains s_av_get_min s_av_get_max s_av_index s_av_index_mut
    s_av_iterate s_av_iterate_mut s_cb_insert s_cb_remove s_cb_get s_cb_get_mut s_cb_contains s_cb_get_min s_cb_get_max s_cb_index s_cb_index_mut
    s_cb_iterate : safe.
  Ltac om_safe := cbn [a_insert a_remove a_get a_get_mut a_contains a_len a_capacity a_min a_max a_index a_index_mut a_iter a_iter_mut].
  Lemma s_rb_step {K V} cmp (o : option (om_op K V)) : mok (rb_step cmp o).
  Proof. destruct o as [o|]; unfold rb_step; [destruct o; unfold om_step, rb_api; om_safe|]; repeat sstep. Qed.
  Lemma s_av_step {K V} pcmp (o : om_op K V) : mok (av_step pcmp o).
  Proof. destruct o; unfold av_step, om_step, av_api; om_safe; repeat sstep. Qed.
  Lemma s_cb_step {V} (o : om_op N V) : (∀ sc, o ≠ MIterMut sc) → mok (cb_step o).
  Proof. intros Ho. destruct o; try (by edestruct Ho); unfold cb_step, om_step, cb_api; om_safe; repeat sstep. Qed.
End steps.

(** ** Critbit's mutable iterator: the leaf registers decide *)
Section cbit.
  Context `{Q : Profile} {V : Type}.
  Implicit Types t : critbit V.
  Definition leaves_ok t : Prop := ∀ n li, cb_get_leaf_index t n = Val li → li ≤ lengthN (nodes (cb_leaves t)).
  Lemma leaf_in t n : leaves_ok t → cb_is_inner_node t n = Val false → ∀ i, cb_get_leaf_index t n = Val i →
    in_array (cb_nodes t) n ∧ in_array (cb_leaves t) i.
  Proof.
    intros Hl Hin i Hi. pose proof (Hl _ _ Hi) as Hle. unfold cb_is_inner_node, mbind, res_bind in Hin. unfold cb_get_leaf_index in Hi.
    rewrite Hi in Hin. injection Hin as Hin. apply bool_decide_eq_false in Hin. split.
    - eapply na_get_register_in_array; [exact Hi|]. intros ->. unfold na_get_register in Hi. rewrite decide_True in Hi by done. injection Hi as <-. done.
    - unfold SENTINEL in Hin. unfold in_array, u32_sub, u_sub. rewrite decide_True by lia. exists (i - 1). split; [done|].
      unfold lookupN. unfold lengthN in Hle. rewrite decide_True by lia. apply lookup_lt_is_Some. lia.
  Qed.
  Lemma ci_fwd_ok fuel t it r : leaves_ok t → ci_fwd fuel t it = Val r →
    ∀ n i, r.1 = Some (n, i) → in_array (cb_nodes t) n ∧ in_array (cb_leaves t) i.
  Proof.
    intros Hl. revert it. induction fuel as [|fuel IH]; intros it; [done|]. destruct it as [fs fn rs rn tm]. cbn [ci_fwd].
    destruct tm; [intros [= <-]; done|]. destruct fs as [|n fs]; [intros [= <-]; done|]. unfold mbind, res_bind.
    destruct (cb_is_inner_node t n) as [inner|] eqn:Ei; [|done]. destruct inner; cbn [negb].
    - destruct (cb_get_right t n) as [x|]; [|done]. destruct (cb_get_left t n) as [y|]; [|done]. apply IH.
    - destruct (cb_get_leaf_index t n) as [i|] eqn:El; [|done].
      destruct (decide (Some i = rn)); [intros [= <-]; done|]. intros [= <-] n' i' [= <- <-]. by eapply leaf_in.
  Qed.
  Lemma ci_rev_ok fuel t it r : leaves_ok t → ci_rev fuel t it = Val r →
    ∀ n i, r.1 = Some (n, i) → in_array (cb_nodes t) n ∧ in_array (cb_leaves t) i.
  Proof.
    intros Hl. revert it. induction fuel as [|fuel IH]; intros it; [done|]. destruct it as [fs fn rs rn tm]. cbn [ci_rev].
    destruct tm; [intros [= <-]; done|]. destruct rs as [|n rs]; [intros [= <-]; done|]. unfold mbind, res_bind.
    destruct (cb_is_inner_node t n) as [inner|] eqn:Ei; [|done]. destruct inner; cbn [negb].
    - destruct (cb_get_left t n) as [y|]; [|done]. destruct (cb_get_right t n) as [x|]; [|done]. apply IH.
    - destruct (cb_get_leaf_index t n) as [i|] eqn:El; [|done].
      destruct (decide (Some i = fn)); [intros [= <-]; done|]. intros [= <-] n' i' [= <- <-]. by eapply leaf_in.
  Qed.
  Lemma raw_key_ok t n : in_array (cb_nodes t) n → ∃ k, cb_raw_key t n = Val k.
  Proof. intros (j & Hj & [c Hc]). unfold cb_raw_key, mbind, res_bind. rewrite Hj, Hc. eauto. Qed.
  Lemma raw_leaf_ok t i f : leaves_ok t → in_array (cb_leaves t) i →
    ∃ v t', cb_onl (na_raw_update i f) t = Ret v t' ∧ leaves_ok t'.
  Proof.
    intros Hl (j & Hj & [n Hn]). unfold cb_onl, zoom, na_raw_update, mbind, M_bind, lift, gets, modify, mret, M_ret. rewrite Hj, Hn.
    do 2 eexists. split; [done|]. intros m li Hm. specialize (Hl m li Hm). cbn. unfold lengthN, insertN in *. by rewrite insert_length.
  Qed.
  Lemma s_cb_iter_mut_next f : mokI (S:=critbit V * citer) (λ st, leaves_ok st.1) (cb_iter_mut_next f).
  Proof.
    intros [t it] Hl. cbn [fst] in Hl. unfold cb_iter_mut_next. unfold mbind, M_bind, mget at 1. cbv beta iota. unfold lift, gets. cbn [fst snd].
    pose proof (s_ci_fwd (cb_fuel t) t it) as Hs. destruct (ci_fwd (cb_fuel t) t it) as [r|e] eqn:E; [|intros ->; by apply Hs].
    unfold modify. cbn [fst snd]. destruct r.1 as [[n i]|] eqn:Er; [|done]. cbn [fst snd].
    destruct (ci_fwd_ok _ _ _ _ Hl E n i Er) as [Hn Hi].
    destruct (raw_key_ok _ _ Hn) as [k ->]. unfold zoom at 1. cbn [fst snd].
    destruct (raw_leaf_ok t i f Hl Hi) as (v & t' & -> & Hl'). done.
  Qed.
  Lemma s_cb_iter_mut_next_back f : mokI (S:=critbit V * citer) (λ st, leaves_ok st.1) (cb_iter_mut_next_back f).
  Proof.
    intros [t it] Hl. cbn [fst] in Hl. unfold cb_iter_mut_next_back. unfold mbind, M_bind, mget at 1. cbv beta iota. unfold lift, gets. cbn [fst snd].
    pose proof (s_ci_rev (cb_fuel t) t it) as Hs. destruct (ci_rev (cb_fuel t) t it) as [r|e] eqn:E; [|intros ->; by apply Hs].
    unfold modify. cbn [fst snd]. destruct r.1 as [[n i]|] eqn:Er; [|done]. cbn [fst snd].
    destruct (ci_rev_ok _ _ _ _ Hl E n i Er) as [Hn Hi].
    destruct (raw_key_ok _ _ Hn) as [k ->]. unfold zoom at 1. cbn [fst snd].
    destruct (raw_leaf_ok t i f Hl Hi) as (v & t' & -> & Hl'). done.
  Qed.
  Lemma cb_iterate_mut_safe t sc : leaves_ok t → (call (cb_iterate_mut sc) t).1 ≠ Err UB.
  Proof.
    intros Hl. unfold call, cb_iterate_mut.
    pose proof (mokI_drive_mut (λ st, leaves_ok st.1) _ _ sc s_cb_iter_mut_next s_cb_iter_mut_next_back (t, cb_iter t) Hl) as Hx.
    destruct (drive_mut _ _ _ _) as [x [y z]|e [y z]]; [done|]. intros [= ->]; by apply Hx.
  Qed.
End cbit.

