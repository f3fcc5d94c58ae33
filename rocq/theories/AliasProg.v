(** * Programs that hold a mutable iterator: the traces they make *)
From Verif Require Import AliasModel AliasProof.
Local Open Scope nat_scope.

(** ** What one call of the iterator does *)
(** Reading registers and buckets *)
Inductive walk : nat → trace → Prop :=
  | walk_nil n : walk n []
  | walk_hdr n w : walk (S n) w → walk n (Read [] Hdr :: w)
  | walk_shr n w : walk (S n) w → walk n (Reborrow KShr [] Whole :: w)
  | walk_get n b i w : walk (S (S n)) w → walk n (Reborrow KShr [] Whole :: Read [(KShr, n)] (RegsOf b i) :: w).
Lemma walk_app n w1 w2 : walk n w1 → walk (n + length w1) w2 → walk n (w1 ++ w2).
Proof.
  intros H1. revert w2. induction H1 as [n|n w H1 IH|n w H1 IH|n b i w H1 IH]; intros w2; cbn [length app].
  - by rewrite Nat.add_0_r.
  - rewrite <- Nat.add_succ_comm. intros H2. by apply walk_hdr, IH.
  - rewrite <- Nat.add_succ_comm. intros H2. by apply walk_shr, IH.
  - rewrite <- !Nat.add_succ_comm. intros H2. by apply walk_get, IH.
Qed.

(** The three kinds of items *)
Inductive flavour := FlValue | FlEntry | FlLeaf.
Definition fl_pool (fl : flavour) : bool := match fl with FlLeaf => true | _ => false end.
Definition p_pool n : ptr := [(KMut, n)].
Definition p_raw n : ptr := (KRaw, S n) :: p_pool n.
Definition p_node n : ptr := (KMut, S (S n)) :: p_raw n.
Definition p_val n : ptr := (KMut, S (S (S n))) :: p_node n.
Definition value_evs (n : nat) (b : bool) (g : region) (i : N) : trace :=
  [Reborrow KMut [] (Pool b); Reborrow KRaw (p_pool n) (Pool b); Reborrow KMut (p_raw n) (Slot b i); Reborrow KMut (p_node n) g].
Definition yield_evs (fl : flavour) (n : nat) (nd i : N) : trace :=
  match fl with
  | FlValue => value_evs n false (ValOf false i) i
  | FlEntry => value_evs n false (Entry false i) i ++ [Reborrow KShr (p_val n) (KeyOf false i); Reborrow KMut (p_val n) (ValOf false i)]
  | FlLeaf => [Reborrow KShr [] (Pool false); Reborrow KShr [(KShr, n)] (KeyOf false nd)] ++ value_evs (S (S n)) true (ValOf true i) i
  end.
Definition yield_refs (fl : flavour) (n : nat) (nd i : N) : refs :=
  match fl with
  | FlValue => Refs None (p_val n, ValOf false i)
  | FlEntry => Refs (Some ((KShr, 4 + n) :: p_val n, KeyOf false i)) ((KMut, 5 + n) :: p_val n, ValOf false i)
  | FlLeaf => Refs (Some ([(KShr, S n); (KShr, n)], KeyOf false nd)) (p_val (S (S n)), ValOf true i)
  end.

Section contract.
  Context {S0 R : Type} (fl : flavour) (index : R → N).
  (** A call of the iterator: it reads, and if there is an item it makes the references *)
  Definition contract (next : M (S0 * trace) (option (R * refs))) (base : M S0 (option R)) : Prop :=
    ∀ s (tr : trace), ∃ w : trace, walk (length tr) w ∧
      match base s with
      | Fail e s' => next (s, tr) = Fail e (s', tr ++ w)
      | Ret None s' => next (s, tr) = Ret None (s', tr ++ w)
      | Ret (Some r) s' =>
          ∃ nd, next (s, tr) = Ret (Some (r, yield_refs fl (length (tr ++ w)) nd (index r)))
                                   (s', (tr ++ w) ++ yield_evs fl (length (tr ++ w)) nd (index r))
      end.
End contract.

(** ** The calls *)
Section calls.
  Context `{Profile}.
  Lemma bget_ok {S0 T} b (a : alloc T) i r (s : S0) tr :
    ∃ w, walk (length tr) w ∧ bget b a i r (s, tr) = match na_get_register a i r with Val x => Ret x (s, tr ++ w) | Err e => Fail e (s, tr ++ w) end.
  Proof.
    unfold bget, reborrow, emit, lift, gets. unfold mbind, M_bind, mget, modify, mret, M_ret. cbn [fst snd].
    destruct (decide (i = SENTINEL)); cbn [fst snd].
    - exists [Reborrow KShr [] Whole]. split; [apply walk_shr, walk_nil|]. done.
    - exists [Reborrow KShr [] Whole; Read [(KShr, length tr)] (RegsOf b i)]. split; [apply walk_get, walk_nil|]. by rewrite <- app_assoc.
  Qed.
  Lemma byield_value_ok {S0} i (s : S0) tr :
    byield_value i (s, tr) = Ret (yield_refs FlValue (length tr) 0 i) (s, tr ++ yield_evs FlValue (length tr) 0 i).
  Proof.
    unfold byield_value, bvalue, reborrow, emit. unfold mbind, M_bind, mget, modify, mret, M_ret. cbn [fst snd]. rewrite !app_length. cbn [length]. rewrite <- !app_assoc.
    unfold p_val, p_node, p_raw, p_pool, value_evs. rewrite !Nat.add_1_r. cbn [app]. done.
  Qed.
  Lemma byield_entry_ok {S0} i (s : S0) tr :
    byield_entry i (s, tr) = Ret (yield_refs FlEntry (length tr) 0 i) (s, tr ++ yield_evs FlEntry (length tr) 0 i).
  Proof.
    unfold byield_entry, bvalue, reborrow, emit. unfold mbind, M_bind, mget, modify, mret, M_ret. cbn [fst snd]. rewrite !app_length. cbn [length]. rewrite <- !app_assoc.
    unfold yield_refs, yield_evs, value_evs, p_val, p_node, p_raw, p_pool. rewrite !Nat.add_1_r. cbn [app]. done.
  Qed.
  Lemma byield_leaf_ok {S0} nd i (s : S0) tr :
    byield_leaf nd i (s, tr) = Ret (yield_refs FlLeaf (length tr) nd i) (s, tr ++ yield_evs FlLeaf (length tr) nd i).
  Proof.
    unfold byield_leaf, bvalue, reborrow, emit. unfold mbind, M_bind, mget, modify, mret, M_ret. cbn [fst snd]. rewrite !app_length. cbn [length]. rewrite <- !app_assoc.
    unfold yield_refs, yield_evs, value_evs, p_val, p_node, p_raw, p_pool. rewrite !Nat.add_1_r. cbn [app]. done.
  Qed.
  Lemma na_ref_id {T} i (a : alloc T) r : na_ref i a = Val r → r = i.
  Proof. unfold na_ref. destruct (u32_sub i 1); [|done]. cbn. destruct (lookupN _ _); naive_solver. Qed.
End calls.

(** ** Each container's calls keep the contract *)
Section loops.
  Context `{Profile} {S0 : Type}.
  Definition rd {A} (m : M (S0 * trace) A) (r : res A) : Prop :=
    ∀ s (tr : trace), ∃ w : trace, walk (length tr) w ∧ m (s, tr) = match r with Val x => Ret x (s, tr ++ w) | Err e => Fail e (s, tr ++ w) end.
  Lemma rd_ret {A} (x : A) : rd (mret x) (Val x).
  Proof. intros s tr. exists []. split; [constructor|]. by rewrite app_nil_r. Qed.
  Lemma rd_fail {A} e : rd (mfail e) (Err e : res A).
  Proof. intros s tr. exists []. split; [constructor|]. by rewrite app_nil_r. Qed.
  Lemma rd_lift {A} (r : res A) : rd (lift r) r.
  Proof. intros s tr. exists []. split; [constructor|]. rewrite app_nil_r. unfold lift, gets. by destruct r. Qed.
  Lemma rd_hdr : rd (emit (Read [] Hdr)) (Val ()).
  Proof. intros s tr. exists [Read [] Hdr]. split; [apply walk_hdr, walk_nil|]. done. Qed.
  Lemma rd_get {T} b (a : alloc T) i r : rd (bget b a i r) (na_get_register a i r).
  Proof. intros s tr. apply bget_ok. Qed.
  Lemma rd_bind {A B} (m : M (S0 * trace) A) r (f : A → M (S0 * trace) B) (g : A → res B) :
    rd m r → (∀ x, r = Val x → rd (f x) (g x)) → rd (m ≫= f) (r ≫= g).
  Proof.
    intros Hm Hf s tr. destruct (Hm s tr) as (w & Hw & E). unfold mbind, M_bind. rewrite E. destruct r as [x|e]; cbn [res_bind].
    - destruct (Hf x eq_refl s (tr ++ w)) as (w2 & Hw2 & E2). exists (w ++ w2). rewrite app_length in Hw2. split; [by apply walk_app|].
      rewrite E2. by rewrite app_assoc.
    - exists w. done.
  Qed.
  Lemma ti_b_fwd_ok {K V} fuel (a : alloc (K * V)) it : rd (ti_b_fwd fuel a it) (ti_fwd fuel a it).
  Proof.
    revert it. induction fuel as [|fuel IH]; intros [fs fp fn rs rp rn tm]; cbn [ti_b_fwd ti_fwd]; [apply rd_fail|].
    destruct tm; [apply rd_ret|]. destruct (decide (fp = SENTINEL)).
    - destruct fs as [|c fs]; [apply rd_ret|]. destruct (decide (Some c = rn)); [apply rd_ret|].
      apply rd_bind; [apply rd_get|]. intros. apply rd_ret.
    - apply rd_bind; [apply rd_get|]. intros. apply IH.
  Qed.
  Lemma ti_b_rev_ok {K V} fuel (a : alloc (K * V)) it : rd (ti_b_rev fuel a it) (ti_rev fuel a it).
  Proof.
    revert it. induction fuel as [|fuel IH]; intros [fs fp fn rs rp rn tm]; cbn [ti_b_rev ti_rev]; [apply rd_fail|].
    destruct tm; [apply rd_ret|]. destruct (decide (rp = SENTINEL)).
    - destruct rs as [|c rs]; [apply rd_ret|]. destruct (decide (Some c = fn)); [apply rd_ret|].
      apply rd_bind; [apply rd_get|]. intros. apply rd_ret.
    - apply rd_bind; [apply rd_get|]. intros. apply IH.
  Qed.
  Lemma ht_b_skip_ok {K V} fuel (h : htable K V) it : rd (ht_b_skip fuel h it) (ht_skip fuel h it).
  Proof.
    revert it. induction fuel as [|fuel IH]; intros it; cbn [ht_b_skip ht_skip]; [apply rd_fail|].
    destruct (decide (hti_node it = SENTINEL)); [|apply rd_ret]. destruct (decide _); [apply rd_ret|].
    change (x ← ht_bucket h (hti_bucket it + 1)%N; ht_skip fuel h (HtIter (hti_bucket it + 1) x))
      with ((_ ← Val (); x ← ht_bucket h (hti_bucket it + 1)%N; ht_skip fuel h (HtIter (hti_bucket it + 1) x)) : res (option N * ht_iter)).
    apply rd_bind; [apply rd_hdr|]. intros _ _. apply rd_bind; [apply rd_lift|]. intros. apply IH.
  Qed.
  Lemma inner_bind {V A} (t : critbit V) n (f : bool → res A) :
    (b ← cb_is_inner_node t n; f b) = (x ← na_get_register (cb_nodes t) n FValue; f (bool_decide (x = SENTINEL))).
  Proof. unfold cb_is_inner_node. by destruct (na_get_register _ _ _). Qed.
  Lemma ci_b_fwd_ok {V} fuel (t : critbit V) it : rd (ci_b_fwd fuel t it) (ci_fwd fuel t it).
  Proof.
    revert it. induction fuel as [|fuel IH]; intros [fs fn rs rn tm]; cbn [ci_b_fwd ci_fwd]; [apply rd_fail|].
    destruct tm; [apply rd_ret|]. destruct fs as [|n fs]; [apply rd_ret|]. rewrite inner_bind.
    apply rd_bind; [apply rd_get|]. intros x _. destruct (negb _).
    - apply rd_bind; [apply rd_get|]. intros i _. destruct (decide _); apply rd_ret.
    - apply rd_bind; [apply rd_get|]. intros r _. apply rd_bind; [apply rd_get|]. intros l _. apply IH.
  Qed.
  Lemma ci_b_rev_ok {V} fuel (t : critbit V) it : rd (ci_b_rev fuel t it) (ci_rev fuel t it).
  Proof.
    revert it. induction fuel as [|fuel IH]; intros [fs fn rs rn tm]; cbn [ci_b_rev ci_rev]; [apply rd_fail|].
    destruct tm; [apply rd_ret|]. destruct rs as [|n rs]; [apply rd_ret|]. rewrite inner_bind.
    apply rd_bind; [apply rd_get|]. intros x _. destruct (negb _).
    - apply rd_bind; [apply rd_get|]. intros i _. destruct (decide _); apply rd_ret.
    - apply rd_bind; [apply rd_get|]. intros l _. apply rd_bind; [apply rd_get|]. intros r _. apply IH.
  Qed.
End loops.

Ltac out := unfold mbind, M_bind, mget, modify, mret, M_ret, quietly, zoom, lift, gets; cbn [fst snd].

Section contracts.
  Context `{Profile}.
  Lemma dq_next_ok {T} : contract FlValue id (dq_b_next (T:=T)) dq_ref_next.
  Proof.
    intros [d it] tr. unfold dq_b_next, dq_ref_next. out.
    destruct (dqi_terminated it) eqn:Et. { exists []. rewrite app_nil_r. split; [constructor|done]. }
    destruct (decide _). { exists []. rewrite app_nil_r. split; [constructor|done]. }
    destruct (bget_ok false (dq_al d) (dqi_fwd_ptr it) NEXT (d, it) tr) as (w & Hw & E). exists w. split; [done|]. rewrite E. unfold dq_get_next.
    destruct (na_get_register _ _ _) as [p|e]; [|done]. cbn [fst snd].
    destruct (na_ref _ _) as [r|e] eqn:Er; [|done]. apply na_ref_id in Er as ->. rewrite byield_value_ok. by exists 0%N.
  Qed.
  Lemma dq_next_back_ok {T} : contract FlValue id (dq_b_next_back (T:=T)) dq_ref_next_back.
  Proof.
    intros [d it] tr. unfold dq_b_next_back, dq_ref_next_back. out.
    destruct (dqi_terminated it) eqn:Et. { exists []. rewrite app_nil_r. split; [constructor|done]. }
    destruct (decide _). { exists []. rewrite app_nil_r. split; [constructor|done]. }
    destruct (bget_ok false (dq_al d) (dqi_rev_ptr it) PREV (d, it) tr) as (w & Hw & E). exists w. split; [done|]. rewrite E. unfold dq_get_prev.
    destruct (na_get_register _ _ _) as [p|e]; [|done]. cbn [fst snd].
    destruct (na_ref _ _) as [r|e] eqn:Er; [|done]. apply na_ref_id in Er as ->. rewrite byield_value_ok. by exists 0%N.
  Qed.
  Lemma ht_next_ok {K V} : contract FlEntry id (ht_b_next (K:=K) (V:=V)) ht_ref_next.
  Proof.
    intros [h it] tr. unfold ht_b_next, ht_ref_next. out.
    destruct (decide _). 2:{ exists []. rewrite app_nil_r. split; [constructor|done]. }
    destruct (ht_b_skip_ok (S (length (buckets h))) h it (h, it) tr) as (w & Hw & E). rewrite E.
    destruct (ht_skip _ _ _) as [[[i|] it']|e]; cbn [fst snd]; [|by exists w..].
    destruct (bget_ok false (ht_al h) i Right (h, it) (tr ++ w)) as (w2 & Hw2 & E2). rewrite E2. unfold ht_get_next.
    exists (w ++ w2). rewrite app_length in Hw2. split; [by apply walk_app|]. rewrite <- !app_assoc.
    destruct (na_get_register _ _ _) as [p|e]; [|done]. cbn [fst snd].
    destruct (na_ref _ _) as [r|e] eqn:Er; [|done]. apply na_ref_id in Er as ->. rewrite byield_entry_ok. exists 0%N. by rewrite !app_assoc.
  Qed.
  Lemma ht_next_back_ok {K V} : contract FlEntry id (ht_b_next_back (K:=K) (V:=V)) ht_ref_next_back.
  Proof. intros s tr. exists []. split; [constructor|]. unfold ht_b_next_back, ht_ref_next_back. out. by rewrite app_nil_r. Qed.
  Lemma ti_next_ok {K V} : contract FlEntry id (ti_b_next (K:=K) (V:=V)) ti_ref_next.
  Proof.
    intros [a it] tr. unfold ti_b_next, ti_ref_next. out.
    destruct (ti_b_fwd_ok (ti_fuel a) a it (a, it) tr) as (w & Hw & E). rewrite E. exists w. split; [done|].
    destruct (ti_fwd _ _ _) as [[[c|] it']|e]; cbn [fst snd]; [|done..].
    destruct (na_ref _ _) as [r|e] eqn:Er; [|done]. apply na_ref_id in Er as ->. rewrite byield_entry_ok. by exists 0%N.
  Qed.
  Lemma ti_next_back_ok {K V} : contract FlEntry id (ti_b_next_back (K:=K) (V:=V)) ti_ref_next_back.
  Proof.
    intros [a it] tr. unfold ti_b_next_back, ti_ref_next_back. out.
    destruct (ti_b_rev_ok (ti_fuel a) a it (a, it) tr) as (w & Hw & E). rewrite E. exists w. split; [done|].
    destruct (ti_rev _ _ _) as [[[c|] it']|e]; cbn [fst snd]; [|done..].
    destruct (na_ref _ _) as [r|e] eqn:Er; [|done]. apply na_ref_id in Er as ->. rewrite byield_entry_ok. by exists 0%N.
  Qed.
  Lemma rb_on_contract {K V} (m : M ((alloc (K * V) * titer) * trace) (option (N * refs))) b :
    contract FlEntry id m b → contract FlEntry id (rb_on_traced m) (rb_on_iter b).
  Proof.
    intros Hm [t it] tr. destruct (Hm (rb_al t, it) tr) as (w & Hw & E). exists w. split; [done|].
    unfold rb_on_traced, rb_on_iter, zoom. cbn [fst snd]. destruct (b _) as [[r|] s'|e s']; cbn [fst snd].
    - destruct E as [nd E]. exists nd. by rewrite E.
    - by rewrite E.
    - by rewrite E.
  Qed.
  Lemma av_on_contract {K V} (m : M ((alloc (K * V) * titer) * trace) (option (N * refs))) b :
    contract FlEntry id m b → contract FlEntry id (av_on_traced m) (av_on_iter b).
  Proof.
    intros Hm [t it] tr. destruct (Hm (av_al t, it) tr) as (w & Hw & E). exists w. split; [done|].
    unfold av_on_traced, av_on_iter, zoom. cbn [fst snd]. destruct (b _) as [[r|] s'|e s']; cbn [fst snd].
    - destruct E as [nd E]. exists nd. by rewrite E.
    - by rewrite E.
    - by rewrite E.
  Qed.
  Lemma cb_next_ok {V} : contract FlLeaf snd (cb_b_next (V:=V)) cb_ref_next.
  Proof.
    intros [t it] tr. unfold cb_b_next, cb_ref_next. out.
    destruct (ci_b_fwd_ok (cb_fuel t) t it (t, it) tr) as (w & Hw & E). rewrite E. exists w. split; [done|].
    destruct (ci_fwd _ _ _) as [[[[n i]|] it']|e]; cbn [fst snd]; [|done..].
    destruct (na_ref n _) as [r|e] eqn:Er; [|done]. apply na_ref_id in Er as ->.
    destruct (na_ref i _) as [r|e] eqn:Er; [|done]. apply na_ref_id in Er as ->. rewrite byield_leaf_ok. by exists n.
  Qed.
  Lemma cb_next_back_ok {V} : contract FlLeaf snd (cb_b_next_back (V:=V)) cb_ref_next_back.
  Proof.
    intros [t it] tr. unfold cb_b_next_back, cb_ref_next_back. out.
    destruct (ci_b_rev_ok (cb_fuel t) t it (t, it) tr) as (w & Hw & E). rewrite E. exists w. split; [done|].
    destruct (ci_rev _ _ _) as [[[[n i]|] it']|e]; cbn [fst snd]; [|done..].
    destruct (na_ref n _) as [r|e] eqn:Er; [|done]. apply na_ref_id in Er as ->.
    destruct (na_ref i _) as [r|e] eqn:Er; [|done]. apply na_ref_id in Er as ->. rewrite byield_leaf_ok. by exists n.
  Qed.
End contracts.
