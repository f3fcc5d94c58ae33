(** * Structures used before [initialize] *)
From Verif Require Import IterProof AllocProof UninitSpec.

Section generic.
  Context {S O A : Type} (step : O → M S A) (ins : O → bool) (z n : S) (ans : O → res A).
  Context (Hz : ∀ o, ins o = false → call (step o) z = (ans o, z)) (Hn : ∀ o, ins o = false → call (step o) n = (ans o, n)).
  Lemma reads_as_new reads : Forall (λ o, ins o = false) reads → as_new step z n reads.
  Proof using Hz Hn.
    assert (∀ s, (∀ o, ins o = false → call (step o) s = (ans o, s)) → ∀ l, Forall (λ o, ins o = false) l → history step l s = (ans <$> l, s)) as Hg.
    { intros s Hs l Hl. induction Hl as [|o l Ho Hl IH]; [done|]. cbn [history]. by rewrite Hs, IH by done. }
    intros Hr. unfold as_new. by rewrite !Hg by done.
  Qed.
  Context (Hi : ∀ o, ins o = true → call (step o) z = (Err Panic, n)).
  Lemma first_insert reads o ops : Forall (λ o, ins o = false) reads → ins o = true →
    history step (reads ++ o :: ops) z = ((history step reads n).1 ++ Err Panic :: (history step ops n).1, (history step ops n).2).
  Proof using Hz Hn Hi.
    intros Hr Ho. destruct (reads_as_new reads Hr) as [H1 H2]. revert H1. generalize (history step reads n).1. intros rs H1.
    assert (∀ l l' s, history step (l ++ l') s = let '(r, s1) := history step l s in let '(r', s2) := history step l' s1 in (r ++ r', s2)) as Happ.
    { clear. induction l as [|o l IH]; intros l' s; cbn [app history]; [by destruct (history step l' s)|]. destruct (call (step o) s) as [r s1]. rewrite IH.
      destruct (history step l s1) as [r1 s2]. by destruct (history step l' s2). }
    rewrite Happ, H1. cbn [history]. rewrite (Hi o Ho). by destruct (history step ops n).
  Qed.
End generic.

Lemma drive_none {IT A} (next next_back : IT → res (option A * IT)) (P : IT → Prop) sc it :
  (∀ it, P it → ∃ it', next it = Val (None, it') ∧ P it') → (∀ it, P it → ∃ it', next_back it = Val (None, it') ∧ P it') →
  P it → drive next next_back sc it = Val (replicate (length sc) None).
Proof.
  intros H1 H2. revert it. induction sc as [|e sc IH]; intros it Hp; [done|]. cbn [drive length replicate].
  assert (∃ it', (match e with Fwd => next it | Bwd => next_back it end) = Val (None, it') ∧ P it') as (it' & -> & Hp').
  { destruct e; [by apply H1|by apply H2]. }
  cbn [mbind res_bind]. cbn. by rewrite IH.
Qed.
Lemma drive_mut_none {S A V} (next next_back : (V → V) → M S (option A)) (P : S → Prop) sc st :
  (∀ f st, P st → ∃ st', next f st = Ret None st' ∧ P st') → (∀ f st, P st → ∃ st', next_back f st = Ret None st' ∧ P st') →
  P st → ∃ st', drive_mut next next_back sc st = Ret (replicate (length sc) None) st' ∧ P st'.
Proof.
  intros H1 H2. revert st. induction sc as [|[e f] sc IH]; intros st Hp; [by exists st|]. cbn [drive_mut length replicate].
  assert (∃ st', (match e with Fwd => next f | Bwd => next_back f end) st = Ret None st' ∧ P st') as (st1 & He & Hp1).
  { destruct e; [by apply H1|by apply H2]. }
  destruct (IH st1 Hp1) as (st2 & He2 & Hp2). exists st2. split; [|done]. unfold mbind, M_bind. by rewrite He, He2.
Qed.

Section bump.
  Context `{Profile} {T : Type}.
  Lemma bump_add (v : T) b s x ns :
    lengthN ns + 1 < W32 → 1 ≤ b ≤ lengthN ns → s + 1 < W64 → ns !! N.to_nat (b - 1) = Some x →
    na_add_node v (Alloc s b b ns) = Ret b (Alloc (s + 1) (b + 1) (b + 1) (<[N.to_nat (b - 1) := Node (regs x) v]> ns)).
  Proof.
    intros Hl Hb Hs Hx. unfold na_add_node, MAX_SIZE, as_u32, mbind, M_bind, mget. cbn [free_list_head bump_index size nodes].
    rewrite decide_True by done. rewrite decide_False by (rewrite N.mod_small by lia; lia). unfold lift, gets, u32_add. rewrite u_add_ok by lia. unfold modify. cbv beta iota.
    unfold na_get_mut, mbind, M_bind, lift, gets, u32_sub, u_sub. rewrite decide_True by lia. cbn [nodes set_fhead set_bump]. unfold lookupN.
    rewrite decide_True by (unfold lengthN in Hl, Hb; lia). rewrite Hx. cbn. unfold u64_add. by rewrite u_add_ok by lia.
  Qed.
End bump.
Section alloc.
  Context `{Profile} {T : Type} (ms nr : nat) (Hw : N.of_nat ms + 1 < W32).
  Lemma zeroed_add (z v : T) : na_add_node v (na_zeroed ms nr z) = Fail Panic (Alloc 0 1 1 (replicate ms (node_default nr z))).
  Proof using Hw.
    unfold na_add_node, na_zeroed, MAX_SIZE, as_u32, mbind, M_bind, mget. cbn [free_list_head bump_index size nodes].
    rewrite decide_True by done. unfold lengthN. rewrite replicate_length. rewrite decide_False by (rewrite N.mod_small by lia; lia).
    unfold lift, gets, u32_add. rewrite u_add_ok by done. unfold modify. cbv beta iota. unfold na_get_mut, mbind, M_bind, lift, gets, u32_sub, u_sub. rewrite decide_False by lia.
    destruct overflow_checks; [done|]. cbn [nodes set_fhead set_bump]. destruct (lookupN _ _) eqn:E; [|done]. exfalso. apply lookupN_Some in E.
    apply lookup_replicate in E as [_ E]. rewrite N.mod_small in E by (unfold W32; lia). unfold W32 in *. lia.
  Qed.
End alloc.

Lemma no_index_none {A} n : no_index (replicate n (None : option (N * A))) = replicate n None.
Proof. unfold no_index. induction n as [|n IH]; [done|]. cbn. by rewrite IH. Qed.

Section deque.
  Context `{Profile} {T : Type} (ms : nat) (Hw : N.of_nat ms + 1 < W32) (z : T).
  Definition dq_none (o : dq_op T) : res (dq_out T) :=
    match o with
    | DPushFront _ | DPushBack _ => Val DUnit
    | DPopFront | DPopBack | DFront | DBack => Val (DVal None)
    | DLen => Val (DNum 0)
    | DIsEmpty => Val (DBool true)
    | DIter sc => Val (DList (replicate (length sc) None))
    | DIterMut sc => Val (DList (replicate (length sc) None))
    end.
  Lemma dq_empty_reads d o : dq_head d = 0 → dq_tail d = 0 → size (dq_al d) = 0 → dq_inserts o = false → call (dq_step o) d = (dq_none o, d).
  Proof.
    destruct d as [q h t a]. cbn. intros -> -> Hs. destruct o as [| | | | | | | |sc|sc]; try done; intros _; unfold call; cbn [dq_step].
    - unfold mbind, M_bind, mget, mret, M_ret, dq_len. cbn. by rewrite Hs.
    - unfold mbind, M_bind, mget, mret, M_ret, dq_is_empty, dq_len. cbn. by rewrite Hs.
    - unfold mbind, M_bind, gets, dq_iterate.
      rewrite (drive_none _ _ (λ it, it = DqIter 0 0 false)); [|by intros ? ->; eexists|by intros ? ->; eexists|done]. cbn. by rewrite no_index_none.
    - unfold mbind, M_bind, dq_iterate_mut. set (d := Deque _ _ _ _).
      destruct (drive_mut_none dq_iter_mut_next dq_iter_mut_next_back (λ st, st = (d, DqIter 0 0 false)) sc (d, dq_mk_iter d)) as (st & -> & ->);
        [by intros f ? ->; eexists|by intros f ? ->; eexists|done|]. cbn. by rewrite no_index_none.
  Qed.
  Lemma dq_zeroed_insert o : dq_inserts o = true → call (dq_step o) (dq_zeroed ms z) = (Err Panic, dq_new ms z).
  Proof using Hw.
    destruct o; try done; intros _; unfold call; cbn [dq_step]; unfold dq_push_back, dq_push_front, dq_on, zoom, mbind, M_bind; cbn [dq_al dq_zeroed]; by rewrite zeroed_add by done.
  Qed.
End deque.

Section hash.
  Context `{Profile} {K V : Type} (keq : K → K → bool) (hash : K → N) (nb ms : nat) (Hb : (0 < nb)%nat) (z : K * V).
  Implicit Types h : htable K V.
  Definition ht_void h : Prop := buckets h = replicate nb 0 ∧ size (ht_al h) = 0 ∧ MAX_SIZE (ht_al h) = N.of_nat ms.
  Definition hm_none (o : hm_op K V) : res (hm_out K V) :=
    match o with
    | HInsert _ _ => Val (HBool true)
    | HRemove _ | HGet _ | HGetMut _ _ => Val (HVal None)
    | HContains _ | HContainsInherent _ => Val (HBool false)
    | HLen => Val (HNum 0)
    | HIsEmpty => Val (HBool true)
    | HCapacity => Val (HNum (N.of_nat ms))
    | HIndex _ | HIndexMut _ _ => Err Panic
    | HIter n => Val (HList (replicate n None))
    | HIterMut fs => Val (HList (replicate (length fs) None))
    end.
  Lemma void_index h k : ht_void h → ht_bucket_index hash h k = Val (hash k mod N.of_nat nb).
  Proof using Hb. intros (Hh & _). unfold ht_bucket_index. rewrite Hh. unfold lengthN. rewrite replicate_length. by rewrite decide_False by lia. Qed.
  Lemma void_bucket h b : ht_void h → b < N.of_nat nb → ht_bucket h b = Val 0.
  Proof.
    intros (Hh & _) Hl. unfold ht_bucket. rewrite Hh. assert (lookupN (replicate nb 0) b = Some 0) as ->; [|done].
    apply lookupN_Some, lookup_replicate. split; [done|]. lia.
  Qed.
  Lemma void_skip h fuel b : ht_void h → b < N.of_nat nb → (nb < fuel + N.to_nat b)%nat → ht_skip fuel h (HtIter b 0) = Val (None, HtIter (N.of_nat nb) 0).
  Proof.
    intros Hv. revert b. induction fuel as [|fuel IH]; intros b Hl Hf; [lia|]. cbn [ht_skip hti_node hti_bucket]. rewrite decide_True by done.
    assert (lengthN (buckets h) = N.of_nat nb) as -> by (destruct Hv as (-> & _); unfold lengthN; by rewrite replicate_length).
    destruct (decide _) as [->|Hn]; [done|]. rewrite void_bucket by (done || lia). cbn. apply IH; lia.
  Qed.
  Lemma void_next h it : ht_void h → it = HtIter 0 0 ∨ it = HtIter (N.of_nat nb) 0 → ht_iter_next h it = Val (None, HtIter (N.of_nat nb) 0).
  Proof using Hb.
    intros Hv Hit. assert (lengthN (buckets h) = N.of_nat nb) as Hl by (destruct Hv as (-> & _); unfold lengthN; by rewrite replicate_length).
    unfold ht_iter_next. rewrite Hl. destruct Hit as [->| ->]; cbn [hti_bucket].
    - rewrite decide_True by lia. unfold lengthN in Hl. rewrite (void_skip h) by (done || lia). done.
    - rewrite decide_False by lia. done.
  Qed.
  Lemma void_mut_next h f it : ht_void h → it = HtIter 0 0 ∨ it = HtIter (N.of_nat nb) 0 → ht_iter_mut_next f (h, it) = Ret None (h, HtIter (N.of_nat nb) 0).
  Proof using Hb.
    intros Hv Hit. assert (lengthN (buckets h) = N.of_nat nb) as Hl by (destruct Hv as (-> & _); unfold lengthN; by rewrite replicate_length).
    unfold ht_iter_mut_next, mbind, M_bind, mget. rewrite Hl. destruct Hit as [->| ->]; cbn [hti_bucket].
    - rewrite decide_True by lia. unfold lengthN in Hl. unfold lift, gets. rewrite (void_skip h) by (done || lia). done.
    - rewrite decide_False by lia. done.
  Qed.
  Lemma ht_empty_reads h o : ht_void h → hm_inserts o = false → call (ht_step keq hash o) h = (hm_none o, h).
  Proof using Hb.
    intros Hv. pose proof Hv as (Hh & Hs & Hm). assert (∀ k, hash k mod N.of_nat nb < N.of_nat nb) as Hlt by (intros k; apply N.mod_lt; lia).
    destruct o as [|k|k|k f|k|k| | | |k|k f|n|fs]; try done; intros _; unfold call; cbn [ht_step].
    - unfold ht_remove, mbind, M_bind, gets, mget. rewrite void_index, void_bucket by done. done.
    - unfold ht_get, mbind, M_bind, gets, res_bind. rewrite void_index by done. unfold res_bind. rewrite void_bucket by done. done.
    - unfold ht_get_mut, mbind, M_bind, gets, mget. rewrite void_index, void_bucket by done. done.
    - unfold ht_contains_trait, ht_get, mbind, M_bind, gets, res_bind. rewrite void_index by done. rewrite void_bucket by done. done.
    - unfold ht_contains, mbind, M_bind, gets, res_bind. rewrite void_index by done. rewrite void_bucket by done. done.
    - unfold mbind, M_bind, mget, ht_len. cbn. by rewrite Hs.
    - unfold mbind, M_bind, mget, ht_len. cbn. by rewrite Hs.
    - unfold mbind, M_bind, mget, ht_capacity. cbn. by rewrite Hm.
    - unfold ht_index, ht_get, mbind, M_bind, gets, res_bind. rewrite void_index by done. rewrite void_bucket by done. done.
    - unfold ht_index_mut, ht_get_mut, mbind, M_bind, gets, mget. rewrite void_index, void_bucket by done. done.
    - unfold mbind, M_bind, gets, ht_iterate, ht_mk_iter. rewrite void_bucket by (done || lia). cbn.
      rewrite (drive_none _ _ (λ it, it = HtIter 0 0 ∨ it = HtIter (N.of_nat nb) 0)); [by rewrite replicate_length| | |by left].
      + intros it Hit. rewrite void_next by done. eexists. split; [done|by right].
      + intros it Hit. by exists it.
    - unfold mbind, M_bind, gets, ht_iterate_mut, ht_mk_iter. rewrite void_bucket by (done || lia). cbn.
      destruct (drive_mut_none ht_iter_mut_next ht_iter_mut_next_back (λ st, st.1 = h ∧ (st.2 = HtIter 0 0 ∨ st.2 = HtIter (N.of_nat nb) 0)) (map (λ f, (Fwd, f)) fs) (h, HtIter 0 0)) as ([h' it'] & -> & [Heq _]).
      + intros f [h1 it] [Hh1 Hit]. cbn in Hh1, Hit. subst h1. rewrite void_mut_next by done. eexists. split; [done|]. split; [done|by right].
      + intros f st Hst. by exists st.
      + split; [done|by left].
      + cbn in Heq. subst h'. cbn. by rewrite no_index_none, map_length.
  Qed.
  Lemma void_zeroed : ht_void (ht_zeroed nb ms z).
  Proof. split; [done|]. split; [done|]. unfold MAX_SIZE, lengthN. cbn. by rewrite replicate_length. Qed.
  Lemma void_new h0 : ht_new nb ms z = Some h0 → ht_void h0.
  Proof. unfold ht_new. destruct (decide _); [|done]. intros [= <-]. split; [done|]. split; [done|]. unfold MAX_SIZE, lengthN. cbn. by rewrite replicate_length. Qed.
  Context (H0 : (0 < ms)%nat) (Hw : N.of_nat ms + 1 < W32).
  Lemma ht_zeroed_insert h0 o : ht_new nb ms z = Some h0 → hm_inserts o = true → call (ht_step keq hash o) (ht_zeroed nb ms z) = (Err Panic, h0).
  Proof using Hb H0 Hw.
    intros Hn. destruct o as [k v| | | | | | | | | | | |]; try done; intros _. unfold call; cbn [ht_step]. assert (hash k mod N.of_nat nb < N.of_nat nb) by (apply N.mod_lt; lia).
    unfold ht_insert, mbind, M_bind, gets, mget. rewrite void_index, void_bucket by (done || apply void_zeroed). unfold ht_fuel. cbn [ht_insert_loop]. rewrite decide_True by done.
    unfold ht_insert_new_node, mbind, M_bind, mget. rewrite decide_False.
    2: { destruct void_zeroed as (_ & Hs & Hm). unfold ht_capacity, ht_len. rewrite Hs, Hm. lia. }
    unfold ht_on, zoom. cbn [ht_al ht_zeroed]. rewrite zeroed_add by done. cbn. unfold ht_new in Hn. destruct (decide _); [|done]. by injection Hn as <-.
  Qed.
End hash.

(** ** Trees *)
Definition om_none {K V} (ms : nat) (o : om_op K V) : res (om_out K V) :=
  match o with
  | MInsert _ _ => Val (MBool true)
  | MRemove _ | MGet _ | MGetMut _ _ => Val (MVal None)
  | MContains _ => Val (MBool false)
  | MLen => Val (MNum 0)
  | MIsEmpty => Val (MBool true)
  | MCapacity => Val (MNum (N.of_nat ms))
  | MGetMin | MGetMax => Val (MPair None)
  | MIndex _ | MIndexMut _ _ => Err Panic
  | MIter sc => Val (MList (replicate (length sc) None))
  | MIterMut sc => Val (MList (replicate (length sc) None))
  end.
Definition rb_none {K V} (ms : nat) (o : option (om_op K V)) : res (om_out K V) := match o with Some o => om_none ms o | None => Val (MPair None) end.

Section rb.
  Context `{Profile} {K V : Type} (cmp : K → K → comparison) (ms : nat) (Hw : N.of_nat ms + 1 < W32) (z : K * V).
  Lemma rb_empty_reads t (o : option (om_op K V)) : rb_root t = 0 → size (rb_al t) = 0 → MAX_SIZE (rb_al t) = N.of_nat ms → rb_inserts o = false → call (rb_step cmp o) t = (rb_none ms o, t).
  Proof.
    destruct t as [r a]. cbn. intros -> Hs Hm. destruct o as [o|]; [|done]. destruct o as [| | | | | | | | | | | |sc|sc]; try done; intros _; unfold call; cbn [rb_step om_step rb_api a_len a_capacity a_iter a_iter_mut].
    - unfold mbind, M_bind, mget, rb_len. cbn. by rewrite Hs.
    - unfold mbind, M_bind, mget, rb_len. cbn. by rewrite Hs.
    - unfold mbind, M_bind, mget, rb_capacity. cbn. by rewrite Hm.
    - unfold mbind, M_bind, gets, rb_iterate.
      by rewrite (drive_none _ _ (λ it, it = ti_new 0)); [|intros ? ->; eexists|intros ? ->; eexists|].
    - unfold mbind, M_bind, rb_iterate_mut. set (t := RBT _ _).
      destruct (drive_mut_none rb_iter_mut_next rb_iter_mut_next_back (λ st, st = (t, ti_new 0)) sc (t, rb_iter t)) as (st & -> & ->);
        [by intros f ? ->; eexists|by intros f ? ->; eexists|done|]. cbn. by rewrite no_index_none.
  Qed.
  Lemma rb_zeroed_insert (o : option (om_op K V)) : rb_inserts o = true → call (rb_step cmp o) (rb_zeroed ms z) = (Err Panic, rb_new ms z).
  Proof using Hw.
    destruct o as [[]|]; try done; intros _. unfold call; cbn [rb_step om_step rb_api a_insert]. unfold rb_insert, mbind, M_bind, mget. rewrite decide_True by done.
    unfold rb_on, zoom. cbn [rb_al rb_zeroed]. by rewrite zeroed_add by done.
  Qed.
End rb.

Section av.
  Context `{Profile} {K V : Type} (pcmp : K → K → option comparison) (ms : nat) (Hw : N.of_nat ms + 1 < W32) (z : K * V).
  Lemma av_empty_reads t (o : om_op K V) : av_root t = 0 → size (av_al t) = 0 → MAX_SIZE (av_al t) = N.of_nat ms → om_inserts o = false → call (av_step pcmp o) t = (om_none ms o, t).
  Proof.
    destruct t as [r a]. cbn. intros -> Hs Hm. destruct o as [| | | | | | | | | | | |sc|sc]; try done; intros _; unfold call; cbn [av_step om_step av_api a_len a_capacity a_iter a_iter_mut].
    - unfold mbind, M_bind, mget, av_len. cbn. by rewrite Hs.
    - unfold mbind, M_bind, mget, av_len. cbn. by rewrite Hs.
    - unfold mbind, M_bind, mget, av_capacity. cbn. by rewrite Hm.
    - unfold mbind, M_bind, gets, av_iterate.
      by rewrite (drive_none _ _ (λ it, it = ti_new 0)); [|intros ? ->; eexists|intros ? ->; eexists|].
    - unfold mbind, M_bind, av_iterate_mut. set (t := AVLT _ _).
      destruct (drive_mut_none av_iter_mut_next av_iter_mut_next_back (λ st, st = (t, ti_new 0)) sc (t, av_iter t)) as (st & -> & ->);
        [by intros f ? ->; eexists|by intros f ? ->; eexists|done|]. cbn. by rewrite no_index_none.
  Qed.
  Lemma av_zeroed_insert (o : om_op K V) : om_inserts o = true → call (av_step pcmp o) (av_zeroed ms z) = (Err Panic, av_new ms z).
  Proof using Hw.
    destruct o; try done; intros _. unfold call, av_step; cbn [om_step av_api a_insert]. unfold av_insert, mbind, M_bind, mget. rewrite decide_True by done.
    unfold av_on, zoom. cbn [av_al av_zeroed]. by rewrite zeroed_add by done.
  Qed.
End av.
Section cb.
  Context `{Profile} {V : Type} (nn ms : nat) (Hn : N.of_nat nn + 1 < W32) (Hw : N.of_nat ms + 1 < W32) (z : V).
  Lemma cb_empty_reads t (o : om_op N V) : cb_root t = 0 → size (cb_leaves t) = 0 → MAX_SIZE (cb_leaves t) = N.of_nat ms → om_inserts o = false → call (cb_step o) t = (om_none ms o, t).
  Proof.
    destruct t as [r a [sz b fh ns]]. cbn. intros -> -> Hm. destruct o as [| | | | | | | | | | | |sc|sc]; try done; intros _; unfold call, cb_step; cbn [om_step cb_api a_len a_capacity a_iter a_iter_mut].
    - unfold mbind, M_bind, mget, cb_capacity. cbn [cb_leaves]. by rewrite Hm.
    - unfold mbind, M_bind, gets, cb_iterate.
      by rewrite (drive_none _ _ (λ it, it = CIter [] None [] None false)); [|intros ? ->; eexists|intros ? ->; eexists|].
    - unfold mbind, M_bind, cb_iterate_mut. set (t := Crit _ _ _).
      destruct (drive_mut_none cb_iter_mut_next cb_iter_mut_next_back (λ st, st = (t, CIter [] None [] None false)) sc (t, cb_iter t)) as (st & -> & ->);
        [by intros f ? ->; eexists|by intros f ? ->; eexists|done|]. cbn. by rewrite no_index_none.
  Qed.
  Notation nodes0 := (Alloc 0 1 1 (replicate nn (node_default 4 (CNode 0 0)))).
  Notation leaves0 := (Alloc 0 1 1 (replicate ms (node_default 4 z))).
  Lemma cb_first k v : call (cb_step (MInsert k v)) (cb_zeroed nn ms z) = (Err Panic, Crit 0 nodes0 (na_zeroed ms 4 z)).
  Proof using Hn.
    unfold call, cb_step. cbn [om_step cb_api a_insert]. unfold cb_insert, mbind, M_bind, mget. rewrite decide_True by done. unfold cb_add_leaf, cb_onn, zoom, mbind, M_bind.
    cbn [cb_nodes cb_zeroed]. by rewrite zeroed_add by done.
  Qed.
  Notation x0 := (node_default 4 (CNode 0 0)).
  Lemma cb_second k v n' : nn = S n' →
    call (cb_step (MInsert k v)) (Crit 0 nodes0 (na_zeroed ms 4 z)) = (Err Panic, Crit 0 (Alloc 1 2 2 (Node [0; 0; 0; 0] (CNode k 128) :: replicate n' x0)) leaves0).
  Proof using Hn Hw.
    intros ->. unfold call, cb_step. cbn [om_step cb_api a_insert]. unfold cb_insert, mbind, M_bind, mget. rewrite decide_True by done. unfold cb_add_leaf, cb_onn, zoom, mbind, M_bind.
    cbn [cb_nodes]. rewrite (bump_add _ 1 0 x0); [|unfold lengthN; rewrite replicate_length; lia..|done|done]. unfold cb_onl, zoom. cbn [cb_leaves set_cnodes]. by rewrite zeroed_add by done.
  Qed.
  Lemma cb_third k k' v n' m' : nn = S (S n') → ms = S m' →
    ∃ t, cb_insert k v (Crit 0 (Alloc 1 2 2 (Node [0; 0; 0; 0] (CNode k' 128) :: replicate (S n') x0)) leaves0) = Ret (Some 2) t ∧ cb_get t k = Val (Some v) ∧ cb_len t = 1.
  Proof using Hn Hw.
    intros -> ->. unfold cb_insert, mbind, M_bind, mget. rewrite decide_True by done. unfold cb_add_leaf, cb_onn, zoom, mbind, M_bind.
    cbn [cb_nodes]. rewrite (bump_add _ 2 1 x0); [|unfold lengthN; cbn [length]; rewrite ?replicate_length; lia..|done|done]. unfold cb_onl, zoom. cbn [cb_leaves set_cnodes].
    rewrite (bump_add _ 1 0 (node_default 4 z)); [|unfold lengthN; rewrite replicate_length; lia..|done|done].
    cbn [size cb_nodes cb_leaves set_cnodes set_cleaves]. set (Ln := Alloc _ _ _ _). set (L := Alloc _ _ _ _).
    assert (Hrn : rd Ln 2 = Some (Node [0; 0; 0; 0] (CNode k 128))).
    { unfold rd, Ln. rewrite decide_False by done. by apply lookupN_Some. }
    assert (Hrl : rd L 1 = Some (Node [0; 0; 0; 0] v)).
    { unfold rd, L. rewrite decide_False by done. by apply lookupN_Some. }
    unfold na_set_register. rewrite decide_False by done. 
    rewrite (na_get_mut_rd _ _ _ _ _ Hrn (eq_refl : _ = Val (Node [0; 0; 0; 1] (CNode k 128)))). cbn [cb_nodes cb_leaves set_cnodes set_cleaves].
    rewrite (na_get_mut_rd _ _ _ _ _ Hrl (eq_refl : _ = Val (Node [0; 0; 0; 0] v))).
    eexists. split; [reflexivity|]. split; [|done]. 
    assert (Hgn : rd (wr 2 (Node [0; 0; 0; 1] (CNode k 128)) Ln) 2 = Some (Node [0; 0; 0; 1] (CNode k 128))).
    { apply rd_wr. by apply rd_lt in Hrn. }
    assert (Hgl : rd (wr 1 (Node [0; 0; 0; 0] v) L) 1 = Some (Node [0; 0; 0; 0] v)).
    { apply rd_wr. by apply rd_lt in Hrl. }
    apply na_get_rd in Hgn, Hgl. unfold cb_get, cb_is_empty, cb_len, cb_fuel. cbn [cb_leaves set_croot].
    rewrite bool_decide_false by done. cbn [cb_get_loop]. unfold cb_get_node, cb_is_inner_node, cb_get_leaf_index, cb_get_leaf, na_get_register. cbn [cb_nodes cb_leaves set_croot set_cnodes set_cleaves cb_root fst].
    rewrite decide_False by done. rewrite Hgn. cbn -[na_get L wr]. rewrite decide_True by done.
    change (node_get_register FValue _) with (Val 1). cbn -[na_get L wr]. by rewrite Hgl.
  Qed.
End cb.
