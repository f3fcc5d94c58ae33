(** * No call reads or writes outside the node arrays, whatever the memory holds

    [rok]/[mok]: the computation does not end in undefined behaviour. Proved for every function of the models without any hypothesis
    on the state, except the raw pointer accesses of the mutable iterators, which need the bounds check that precedes them. *)
From Verif Require Import IterProof.
From Verif Require Export AllocApi DequeApi HashApi RBApi AVLApi CritApi.

Definition rok {A} (r : res A) : Prop := r ≠ Err UB.
Definition mok {S A} (m : M S A) : Prop := ∀ s s', m s ≠ Fail UB s'.
(** With an invariant of the state *)
Definition mokI {S A} (I : S → Prop) (m : M S A) : Prop := ∀ s, I s → match m s with Ret _ s' => I s' | Fail e _ => e ≠ UB end.

Lemma rok_val {A} (a : A) : rok (Val a).
Proof. done. Qed.
Lemma rok_panic {A} : rok (A:=A) (Err Panic).
Proof. done. Qed.
Lemma rok_fuel {A} : rok (A:=A) (Err OutOfFuel).
Proof. done. Qed.
Lemma rok_bind {A B} (r : res A) (f : A → res B) : rok r → (∀ a, rok (f a)) → rok (r ≫= f).
Proof. intros Hr Hf. destruct r as [a|e]; [apply Hf|]. intros [=->]. by apply Hr. Qed.
Lemma mok_ret {S A} (a : A) : mok (S:=S) (mret a).
Proof. done. Qed.
Lemma mok_get {S} : mok (S:=S) mget.
Proof. done. Qed.
Lemma mok_modify {S} (f : S → S) : mok (modify f).
Proof. done. Qed.
Lemma mok_fail {S A} e : e ≠ UB → mok (S:=S) (A:=A) (mfail e).
Proof. intros He s s' [=]. done. Qed.
Lemma mok_massert {S} b : mok (S:=S) (massert b).
Proof. by destruct b. Qed.
Lemma mok_bind {S A B} (m : M S A) (f : A → M S B) : mok m → (∀ a, mok (f a)) → mok (m ≫= f).
Proof.
  intros Hm Hf s s'. unfold mbind, M_bind. destruct (m s) as [a s1|e s1] eqn:E; [apply Hf|].
  intros [=-> ->]. by apply (Hm s s').
Qed.
Lemma mok_gets {S A} (f : S → res A) : (∀ s, rok (f s)) → mok (gets f).
Proof. intros Hf s s'. unfold gets. specialize (Hf s). destruct (f s) as [a|e]; [done|]. intros [=-> _]. by apply Hf. Qed.
Lemma mok_lift {S A} (r : res A) : rok r → mok (S:=S) (lift r).
Proof. intros Hr. by apply mok_gets. Qed.
Lemma mok_zoom {S T A} (g : S → T) u (m : M T A) : mok m → mok (zoom g u m).
Proof. intros Hm s s'. unfold zoom. specialize (Hm (g s)). destruct (m (g s)) as [a t|e t]; [done|]. intros [=-> _]. by apply (Hm t). Qed.
Lemma rok_drive {IT A} (n b : IT → res (option A * IT)) sc it :
  (∀ it, rok (n it)) → (∀ it, rok (b it)) → rok (drive n b sc it).
Proof.
  intros Hn Hb. revert it. induction sc as [|e sc IH]; intros it; cbn [drive]; [done|].
  apply rok_bind; [destruct e; [apply Hn|apply Hb]|]. intros [o it']. apply rok_bind; [apply IH|done].
Qed.
Lemma mokI_drive_mut {S A V} (I : S → Prop) (n b : (V → V) → M S (option A)) sc :
  (∀ f, mokI I (n f)) → (∀ f, mokI I (b f)) → mokI I (drive_mut n b sc).
Proof.
  intros Hn Hb. induction sc as [|[e f] sc IH]; intros s Hs; cbn [drive_mut]; [done|].
  unfold mbind, M_bind.
  assert (match (match e with Fwd => n f | Bwd => b f end) s with Ret _ s' => I s' | Fail e _ => e ≠ UB end) as H1.
  { destruct e; [by apply Hn|by apply Hb]. }
  destruct ((match e with Fwd => n f | Bwd => b f end) s) as [o s1|e1 s1]; [|done].
  specialize (IH s1 H1). by destruct (drive_mut n b sc s1).
Qed.

Create HintDb safe.
Ltac sstep :=
  match goal with
  | |- rok (Val _) => apply rok_val
  | |- rok (mret _) => apply rok_val
  | |- rok (Err Panic) => apply rok_panic
  | |- rok (Err OutOfFuel) => apply rok_fuel
  | |- mok (mret _) => apply mok_ret
  | |- mok mget => apply mok_get
  | |- mok (modify _) => apply mok_modify
  | |- mok (mfail _) => apply mok_fail; done
  | |- mok (massert _) => apply mok_massert
  | |- rok (_ ≫= _) => apply rok_bind; [|intros ?]
  | |- mok (_ ≫= _) => apply mok_bind; [|intros ?]
  | |- mok (gets _) => apply mok_gets; intros ?
  | |- mok (lift _) => apply mok_lift
  | |- mok (zoom _ _ _) => apply mok_zoom
  | |- rok (match ?x with _ => _ end) => destruct x
  | |- mok (match ?x with _ => _ end) => destruct x
  | |- rok (drive _ _ _ _) => apply rok_drive; intros ?
  | |- rok _ => solve [eauto 1 with safe]
  | |- mok _ => solve [eauto 1 with safe]
  | |- _ => progress cbv zeta
  end.

Section safe.
  Context `{Q : Profile}.
  Lemma s_u_add w a b : rok (u_add w a b).
  Proof. unfold u_add. repeat sstep. Qed.
  Lemma s_u_sub w a b : rok (u_sub w a b).
  Proof. unfold u_sub. repeat sstep. Qed.
  Lemma s_i32_chk z : rok (i32_chk z).
  Proof. unfold i32_chk. repeat sstep. Qed.
  Lemma s_crit_bit_mask z : rok (crit_bit_mask z).
  Proof. unfold crit_bit_mask. repeat sstep. Qed.
  Lemma s_u32_add a b : rok (u32_add a b).
  Proof. apply s_u_add. Qed.
  Lemma s_u32_sub a b : rok (u32_sub a b).
  Proof. apply s_u_sub. Qed.
  Lemma s_u64_add a b : rok (u64_add a b).
  Proof. apply s_u_add. Qed.
  Lemma s_u64_sub a b : rok (u64_sub a b).
  Proof. apply s_u_sub. Qed.
  Lemma s_node_get_flr {T} (n : node T) : rok (node_get_free_list_register n).
  Proof. unfold node_get_free_list_register. repeat sstep. Qed.
  Lemma s_node_get_register {T} r (n : node T) : rok (node_get_register r n).
  Proof. unfold node_get_register. repeat sstep. Qed.
  Lemma s_node_set_flr {T} v (n : node T) : rok (node_set_free_list_register v n).
  Proof. unfold node_set_free_list_register. repeat sstep. Qed.
  Lemma s_node_set_value {T} v (n : node T) : rok (node_set_value v n).
  Proof. done. Qed.
  Lemma s_node_set_register {T} r v (n : node T) : rok (node_set_register r v n).
  Proof. unfold node_set_register. repeat sstep. Qed.
  Lemma s_ht_bucket {K V} (h : htable K V) b : rok (ht_bucket h b).
  Proof. unfold ht_bucket. repeat sstep. Qed.
  Hint Resolve s_ht_bucket : safe.
  Lemma s_ht_bucket_index {K V} (hash : K → N) (h : htable K V) k : rok (ht_bucket_index hash h k).
  Proof. unfold ht_bucket_index. repeat sstep. Qed.
  Lemma s_ht_set_bucket {K V} b x : mok (S:=htable K V) (ht_set_bucket b x).
  Proof. unfold ht_set_bucket. repeat sstep. Qed.
  Lemma s_ht_mk_iter {K V} (h : htable K V) : rok (ht_mk_iter h).
  Proof. unfold ht_mk_iter. repeat sstep. Qed.
  Lemma s_ht_skip {K V} fuel (h : htable K V) it : rok (ht_skip fuel h it).
  Proof. revert it. induction fuel as [|fuel IH]; intros it; cbn [ht_skip]; cbv zeta; repeat sstep. Qed.
  Lemma s_ht_iter_next_back {K V} (h : htable K V) it : rok (ht_iter_next_back h it).
  Proof. done. Qed.
  Hint Resolve s_ht_iter_next_back : safe.
  Hint Resolve s_ht_bucket_index s_ht_set_bucket s_ht_mk_iter s_ht_skip : safe.
  Hint Resolve s_u_add s_u_sub s_i32_chk s_crit_bit_mask s_u32_add s_u32_sub s_u64_add s_u64_sub
    s_node_get_flr s_node_get_register s_node_set_value s_node_set_flr s_node_set_register : safe.
  (** ** alloc *)
  Lemma s_na_get {T : Type} (a : alloc T) (i : N) : rok (na_get a i).
  Proof. unfold na_get, u32_sub, u32_add, u64_add, u64_sub. repeat sstep. Qed.
  Hint Resolve s_na_get : safe.
  Lemma s_na_get_mut {T : Type} (i : N) (f : node T → res (node T)) : (∀ n, rok (f n)) → mok (S:=alloc T) (na_get_mut i f).
  Proof. intros Hf. unfold na_get_mut. repeat sstep; apply Hf. Qed.
  Hint Extern 1 (mok (na_get_mut _ _)) => apply s_na_get_mut; intros ?; repeat sstep : safe.
  Lemma s_na_add_node {T : Type} (v : T) : mok (S:=alloc T) (na_add_node v).
  Proof. unfold na_add_node, u32_sub, u32_add, u64_add, u64_sub. repeat sstep. Qed.
  Hint Resolve s_na_add_node : safe.
  Lemma s_na_remove_node {T : Type} (i : N) : mok (S:=alloc T) (na_remove_node i).
  Proof. unfold na_remove_node, u32_sub, u32_add, u64_add, u64_sub. repeat sstep. Qed.
  Hint Resolve s_na_remove_node : safe.
  Lemma s_na_clear_register {T : Type} (i r : N) : mok (S:=alloc T) (na_clear_register i r).
  Proof. unfold na_clear_register, u32_sub, u32_add, u64_add, u64_sub. repeat sstep. Qed.
  Hint Resolve s_na_clear_register : safe.
  Lemma s_na_disconnect {T : Type} (i j r s : N) : mok (S:=alloc T) (na_disconnect i j r s).
  Proof. unfold na_disconnect, u32_sub, u32_add, u64_add, u64_sub. repeat sstep. Qed.
  Hint Resolve s_na_disconnect : safe.
  Lemma s_na_connect {T : Type} (i j r s : N) : mok (S:=alloc T) (na_connect i j r s).
  Proof. unfold na_connect, u32_sub, u32_add, u64_add, u64_sub. repeat sstep. Qed.
  Hint Resolve s_na_connect : safe.
  Lemma s_na_set_register {T : Type} (i v r : N) : mok (S:=alloc T) (na_set_register i v r).
  Proof. unfold na_set_register, u32_sub, u32_add, u64_add, u64_sub. repeat sstep. Qed.
  Hint Resolve s_na_set_register : safe.
  Lemma s_na_get_register {T : Type} (a : alloc T) (i r : N) : rok (na_get_register a i r).
  Proof. unfold na_get_register, u32_sub, u32_add, u64_add, u64_sub. repeat sstep. Qed.
  Hint Resolve s_na_get_register : safe.
  (** The raw access is in bounds where a checked access has succeeded *)
  Definition in_array {T : Type} (a : alloc T) (i : N) : Prop := ∃ j, u32_sub i 1 = Val j ∧ is_Some (lookupN (nodes a) j).
  Lemma na_get_in_array {T : Type} (a : alloc T) i n : na_get a i = Val n → in_array a i.
  Proof.
    unfold na_get, in_array, mbind, res_bind. destruct (u32_sub i 1) as [j|]; [|done].
    destruct (lookupN (nodes a) j) as [x|] eqn:E; [|done]. intros _. exists j. by rewrite E.
  Qed.
  Lemma na_get_register_in_array {T : Type} (a : alloc T) i r x : na_get_register a i r = Val x → i ≠ SENTINEL → in_array a i.
  Proof.
    unfold na_get_register. intros Hg Hi. rewrite decide_False in Hg by done. unfold mbind, res_bind in Hg.
    destruct (na_get a i) as [n|] eqn:E; [|done]. by eapply na_get_in_array.
  Qed.
  Lemma raw_update_ok {T : Type} (a : alloc T) i (f : T → T) : in_array a i → ∃ v a', na_raw_update i f a = Ret v a'.
  Proof.
    intros (j & Hj & [n Hn]). unfold na_raw_update, mbind, M_bind, lift, gets, modify, mret, M_ret. rewrite Hj, Hn. eauto.
  Qed.
  Lemma s_na_find_dir {T : Type} (fuel : nat) (a : alloc T) (r i : N) : rok (na_find_dir fuel a r i).
  Proof. revert a r i. induction fuel as [|fuel IH]; intros a r i; cbn [na_find_dir]; cbv zeta; repeat sstep. Qed.
  Hint Resolve s_na_find_dir : safe.
  Lemma s_al_step {T : Type} (o : al_op T) : mok (S:=alloc T) (al_step o).
  Proof. unfold al_step. repeat sstep. Qed.
  Hint Resolve s_al_step : safe.
  Lemma s_dq_get_node {T : Type} (d : deque T) (i : N) : rok (dq_get_node d i).
  Proof. unfold dq_get_node. repeat sstep. Qed.
  Hint Resolve s_dq_get_node : safe.
  Lemma s_dq_front {T : Type} (d : deque T) : rok (dq_front d).
  Proof. unfold dq_front. repeat sstep. Qed.
  Hint Resolve s_dq_front : safe.
  Lemma s_dq_back {T : Type} (d : deque T) : rok (dq_back d).
  Proof. unfold dq_back. repeat sstep. Qed.
  Hint Resolve s_dq_back : safe.
  Lemma s_dq_get_next {T : Type} (d : deque T) (i : N) : rok (dq_get_next d i).
  Proof. unfold dq_get_next. repeat sstep. Qed.
  Hint Resolve s_dq_get_next : safe.
  Lemma s_dq_get_prev {T : Type} (d : deque T) (i : N) : rok (dq_get_prev d i).
  Proof. unfold dq_get_prev. repeat sstep. Qed.
  Hint Resolve s_dq_get_prev : safe.
  Lemma s_dq_bump_seq {T : Type} : mok (S:=deque T) (dq_bump_seq).
  Proof. unfold dq_bump_seq, dq_on, u32_sub, u32_add, u64_add, u64_sub. repeat sstep. Qed.
  Hint Resolve s_dq_bump_seq : safe.
  Lemma s_dq_push_back {T : Type} (v : T) : mok (S:=deque T) (dq_push_back v).
  Proof. unfold dq_push_back, dq_on. repeat sstep. Qed.
  Hint Resolve s_dq_push_back : safe.
  Lemma s_dq_push_front {T : Type} (v : T) : mok (S:=deque T) (dq_push_front v).
  Proof. unfold dq_push_front, dq_on. repeat sstep. Qed.
  Hint Resolve s_dq_push_front : safe.
  Lemma s_dq_remove {T : Type} (i : N) : mok (S:=deque T) (dq_remove i).
  Proof. unfold dq_remove, dq_on. repeat sstep. Qed.
  Hint Resolve s_dq_remove : safe.
  Lemma s_dq_pop_front {T : Type} : mok (S:=deque T) (dq_pop_front).
  Proof. unfold dq_pop_front, dq_on. repeat sstep. Qed.
  Hint Resolve s_dq_pop_front : safe.
  Lemma s_dq_pop_back {T : Type} : mok (S:=deque T) (dq_pop_back).
  Proof. unfold dq_pop_back, dq_on. repeat sstep. Qed.
  Hint Resolve s_dq_pop_back : safe.
  Lemma s_dq_iter_next {T : Type} (d : deque T) (it : dq_iter) : rok (dq_iter_next d it).
  Proof. unfold dq_iter_next. repeat sstep. Qed.
  Hint Resolve s_dq_iter_next : safe.
  Lemma s_dq_iter_next_back {T : Type} (d : deque T) (it : dq_iter) : rok (dq_iter_next_back d it).
  Proof. unfold dq_iter_next_back. repeat sstep. Qed.
  Hint Resolve s_dq_iter_next_back : safe.
  Lemma s_dq_iter_mut_next {T : Type} (f : T → T) : mokI (S:=deque T * dq_iter) (λ _, True) (dq_iter_mut_next f).
  Proof.
    intros [d it] _. unfold dq_iter_mut_next. unfold mbind, M_bind, mget at 1. cbv beta iota.
    destruct (dqi_terminated it); [done|]. destruct (decide (dqi_fwd_ptr it = SENTINEL)) as [|Hp]; [done|].
    unfold lift, gets. pose proof (s_dq_get_next d (dqi_fwd_ptr it)) as Hr. unfold dq_get_next in *.
    destruct (na_get_register _ _ _) as [p|e] eqn:E; [|intros ->; by apply Hr].
    unfold modify, zoom, dq_on. cbn [fst snd].
    destruct (raw_update_ok _ _ f (na_get_register_in_array _ _ _ _ E Hp)) as (v & a' & He). unfold zoom. by rewrite He.
  Qed.
  Lemma s_dq_iter_mut_next_back {T : Type} (f : T → T) : mokI (S:=deque T * dq_iter) (λ _, True) (dq_iter_mut_next_back f).
  Proof.
    intros [d it] _. unfold dq_iter_mut_next_back. unfold mbind, M_bind, mget at 1. cbv beta iota.
    destruct (dqi_terminated it); [done|]. destruct (decide (dqi_rev_ptr it = SENTINEL)) as [|Hp]; [done|].
    unfold lift, gets. pose proof (s_dq_get_prev d (dqi_rev_ptr it)) as Hr. unfold dq_get_prev in *.
    destruct (na_get_register _ _ _) as [p|e] eqn:E; [|intros ->; by apply Hr].
    unfold modify, zoom, dq_on. cbn [fst snd].
    destruct (raw_update_ok _ _ f (na_get_register_in_array _ _ _ _ E Hp)) as (v & a' & He). unfold zoom. by rewrite He.
  Qed.
  Lemma s_dq_iterate {T : Type} (sc : list fb) (d : deque T) : rok (dq_iterate sc d).
  Proof. unfold dq_iterate. repeat sstep. Qed.
  Hint Resolve s_dq_iterate : safe.
  Lemma s_dq_iterate_mut {T : Type} (sc : list (fb * (T → T))) : mok (S:=deque T) (dq_iterate_mut sc).
  Proof.
    intros d d' Hd. unfold dq_iterate_mut in Hd.
    pose proof (mokI_drive_mut _ _ _ sc (s_dq_iter_mut_next (T:=T)) s_dq_iter_mut_next_back (d, dq_mk_iter d) I) as Hx.
    destruct (drive_mut _ _ _ _) as [x [y z]|e [y z]]; [done|]. injection Hd as -> _. done.
  Qed.
  Hint Resolve s_dq_iterate_mut : safe.
  Lemma s_dq_step {T : Type} (o : dq_op T) : mok (S:=deque T) (dq_step o).
  Proof. unfold dq_step, dq_on. repeat sstep. Qed.
  Hint Resolve s_dq_step : safe.
  (** ** walk *)
  Lemma s_bst_walk {K V : Type} (cmp : K → K → comparison) (fuel : nat) (a : alloc (K * V)) (k : K) (i : N) : rok (bst_walk cmp fuel a k i).
  Proof. revert a k i. induction fuel as [|fuel IH]; intros a k i; cbn [bst_walk]; cbv zeta; repeat sstep. Qed.
  Hint Resolve s_bst_walk : safe.
  Lemma s_bst_get_addr {K V : Type} (cmp : K → K → comparison) (n : nat) (a : alloc (K * V)) (r : N) (k : K) : rok (bst_get_addr cmp n a r k).
  Proof. unfold bst_get_addr. repeat sstep. Qed.
  Hint Resolve s_bst_get_addr : safe.
  Lemma s_ti_fwd {K V : Type} (fuel : nat) (a : alloc (K * V)) (it : titer) : rok (ti_fwd fuel a it).
  Proof. revert a it. induction fuel as [|fuel IH]; intros a it; cbn [ti_fwd]; cbv zeta; repeat sstep. Qed.
  Hint Resolve s_ti_fwd : safe.
  Lemma s_ti_rev {K V : Type} (fuel : nat) (a : alloc (K * V)) (it : titer) : rok (ti_rev fuel a it).
  Proof. revert a it. induction fuel as [|fuel IH]; intros a it; cbn [ti_rev]; cbv zeta; repeat sstep. Qed.
  Hint Resolve s_ti_rev : safe.
  Lemma s_ti_next {K V : Type} (a : alloc (K * V)) (it : titer) : rok (ti_next a it).
  Proof. unfold ti_next. repeat sstep. Qed.
  Hint Resolve s_ti_next : safe.
  Lemma s_ti_next_back {K V : Type} (a : alloc (K * V)) (it : titer) : rok (ti_next_back a it).
  Proof. unfold ti_next_back. repeat sstep. Qed.
  Hint Resolve s_ti_next_back : safe.
  (** The stacks of a tree iterator hold no SENTINEL *)
  Definition it_ok (it : titer) : Prop := let '(TIter fs _ _ rs _ _ _) := it in SENTINEL ∉ fs ∧ SENTINEL ∉ rs.
  Lemma ti_fwd_ok {K V : Type} fuel (a : alloc (K * V)) it r :
    ti_fwd fuel a it = Val r → it_ok it → it_ok r.2 ∧ (∀ c, r.1 = Some c → in_array a c).
  Proof.
    revert it. induction fuel as [|fuel IH]; intros it; [done|]. destruct it as [fs fp fn rs rp rn tm]. cbn [ti_fwd].
    destruct tm; [intros [= <-]; by split|].
    destruct (decide (fp = SENTINEL)) as [->|Hfp].
    - destruct fs as [|c fs']; [intros [= <-]; by split|]. intros Hr [Hf Hrs]. rewrite not_elem_of_cons in Hf. destruct Hf as [Hc Hf].
      destruct (decide (Some c = rn)); [injection Hr as <-; by split|].
      unfold mbind, res_bind in Hr. destruct (na_get_register a c Right) as [p|] eqn:E; [|done]. injection Hr as <-.
      split; [by split|]. intros c' [= <-]. eapply na_get_register_in_array; [done|]. intros ->. by apply Hc.
    - intros Hr [Hf Hrs]. unfold mbind, res_bind in Hr. destruct (na_get_register a fp Left) as [p|] eqn:E; [|done].
      eapply IH; [exact Hr|]. split; [|done]. rewrite not_elem_of_cons. by split.
  Qed.
  Lemma ti_rev_ok {K V : Type} fuel (a : alloc (K * V)) it r :
    ti_rev fuel a it = Val r → it_ok it → it_ok r.2 ∧ (∀ c, r.1 = Some c → in_array a c).
  Proof.
    revert it. induction fuel as [|fuel IH]; intros it; [done|]. destruct it as [fs fp fn rs rp rn tm]. cbn [ti_rev].
    destruct tm; [intros [= <-]; by split|].
    destruct (decide (rp = SENTINEL)) as [->|Hfp].
    - destruct rs as [|c rs']; [intros [= <-]; by split|]. intros Hr [Hf Hrs]. rewrite not_elem_of_cons in Hrs. destruct Hrs as [Hc Hrs].
      destruct (decide (Some c = fn)); [injection Hr as <-; by split|].
      unfold mbind, res_bind in Hr. destruct (na_get_register a c Left) as [p|] eqn:E; [|done]. injection Hr as <-.
      split; [by split|]. intros c' [= <-]. eapply na_get_register_in_array; [done|]. intros ->. by apply Hc.
    - intros Hr [Hf Hrs]. unfold mbind, res_bind in Hr. destruct (na_get_register a rp Right) as [p|] eqn:E; [|done].
      eapply IH; [exact Hr|]. split; [done|]. rewrite not_elem_of_cons. by split.
  Qed.
  Lemma s_ti_mut_next {K V : Type} (f : V → V) : mokI (S:=alloc (K * V) * titer) (λ st, it_ok st.2) (ti_mut_next f).
  Proof.
    intros [a it] Hi. unfold ti_mut_next. unfold mbind, M_bind, mget at 1. cbv beta iota. unfold lift, gets. cbn [fst snd] in *.
    pose proof (s_ti_fwd (ti_fuel a) a it) as Hs. destruct (ti_fwd (ti_fuel a) a it) as [r|e] eqn:E; [|intros ->; by apply Hs].
    destruct (ti_fwd_ok _ _ _ _ E Hi) as [Hi' Hc]. unfold modify. cbn [fst snd]. destruct r.1 as [c|] eqn:Er; [|done].
    unfold zoom. cbn [fst snd]. destruct (raw_update_ok a c (λ n : K * V, (n.1, f n.2)) (Hc c eq_refl)) as (v & a' & ->). done.
  Qed.
  Lemma s_ti_mut_next_back {K V : Type} (f : V → V) : mokI (S:=alloc (K * V) * titer) (λ st, it_ok st.2) (ti_mut_next_back f).
  Proof.
    intros [a it] Hi. unfold ti_mut_next_back. unfold mbind, M_bind, mget at 1. cbv beta iota. unfold lift, gets. cbn [fst snd] in *.
    pose proof (s_ti_rev (ti_fuel a) a it) as Hs. destruct (ti_rev (ti_fuel a) a it) as [r|e] eqn:E; [|intros ->; by apply Hs].
    destruct (ti_rev_ok _ _ _ _ E Hi) as [Hi' Hc]. unfold modify. cbn [fst snd]. destruct r.1 as [c|] eqn:Er; [|done].
    unfold zoom. cbn [fst snd]. destruct (raw_update_ok a c (λ n : K * V, (n.1, f n.2)) (Hc c eq_refl)) as (v & a' & ->). done.
  Qed.
  (** ** rb *)
  Lemma s_rb_get_node {K V : Type} (t : rbt K V) (i : N) : rok (rb_get_node t i).
  Proof. unfold rb_get_node. repeat sstep. Qed.
  Hint Resolve s_rb_get_node : safe.
  Lemma s_rb_set_node_value {K V : Type} (i : N) (v : V) : mok (S:=rbt K V) (rb_set_node_value i v).
  Proof. unfold rb_set_node_value, rb_on. repeat sstep. Qed.
  Hint Resolve s_rb_set_node_value : safe.
  Lemma s_rb_color_red {K V : Type} (i : N) : mok (S:=rbt K V) (rb_color_red i).
  Proof. unfold rb_color_red, rb_on. repeat sstep. Qed.
  Hint Resolve s_rb_color_red : safe.
  Lemma s_rb_color_black {K V : Type} (i : N) : mok (S:=rbt K V) (rb_color_black i).
  Proof. unfold rb_color_black, rb_on. repeat sstep. Qed.
  Hint Resolve s_rb_color_black : safe.
  Lemma s_rb_color_node {K V : Type} (i c : N) : mok (S:=rbt K V) (rb_color_node i c).
  Proof. unfold rb_color_node, rb_on. repeat sstep. Qed.
  Hint Resolve s_rb_color_node : safe.
  Lemma s_rb_is_red {K V : Type} (t : rbt K V) (i : N) : rok (rb_is_red t i).
  Proof. unfold rb_is_red. repeat sstep. Qed.
  Hint Resolve s_rb_is_red : safe.
  Lemma s_rb_is_black {K V : Type} (t : rbt K V) (i : N) : rok (rb_is_black t i).
  Proof. unfold rb_is_black. repeat sstep. Qed.
  Hint Resolve s_rb_is_black : safe.
  Lemma s_rb_get_child {K V : Type} (t : rbt K V) (i d : N) : rok (rb_get_child t i d).
  Proof. unfold rb_get_child. repeat sstep. Qed.
  Hint Resolve s_rb_get_child : safe.
  Lemma s_rb_get_left {K V : Type} (t : rbt K V) (i : N) : rok (rb_get_left t i).
  Proof. unfold rb_get_left. repeat sstep. Qed.
  Hint Resolve s_rb_get_left : safe.
  Lemma s_rb_get_right {K V : Type} (t : rbt K V) (i : N) : rok (rb_get_right t i).
  Proof. unfold rb_get_right. repeat sstep. Qed.
  Hint Resolve s_rb_get_right : safe.
  Lemma s_rb_get_color {K V : Type} (t : rbt K V) (i : N) : rok (rb_get_color t i).
  Proof. unfold rb_get_color. repeat sstep. Qed.
  Hint Resolve s_rb_get_color : safe.
  Lemma s_rb_get_parent {K V : Type} (t : rbt K V) (i : N) : rok (rb_get_parent t i).
  Proof. unfold rb_get_parent. repeat sstep. Qed.
  Hint Resolve s_rb_get_parent : safe.
  Lemma s_rb_get_dir {K V : Type} (t : rbt K V) (i d : N) : rok (rb_get_dir t i d).
  Proof. unfold rb_get_dir. repeat sstep. Qed.
  Hint Resolve s_rb_get_dir : safe.
  Lemma s_rb_is_leaf {K V : Type} (t : rbt K V) (i : N) : rok (rb_is_leaf t i).
  Proof. unfold rb_is_leaf. repeat sstep. Qed.
  Hint Resolve s_rb_is_leaf : safe.
  Lemma s_rb_remove_allocator_node {K V : Type} (i : N) : mok (S:=rbt K V) (rb_remove_allocator_node i).
  Proof. unfold rb_remove_allocator_node, rb_on. repeat sstep. Qed.
  Hint Resolve s_rb_remove_allocator_node : safe.
  Lemma s_rb_connect {K V : Type} (p c d : N) : mok (S:=rbt K V) (rb_connect p c d).
  Proof. unfold rb_connect, rb_on. repeat sstep. Qed.
  Hint Resolve s_rb_connect : safe.
  Lemma s_rb_child_dir {K V : Type} (t : rbt K V) (p c : N) : rok (rb_child_dir t p c).
  Proof. unfold rb_child_dir. repeat sstep. Qed.
  Hint Resolve s_rb_child_dir : safe.
  Lemma s_rb_rotate_dir {K V : Type} (p d : N) : mok (S:=rbt K V) (rb_rotate_dir p d).
  Proof. unfold rb_rotate_dir, rb_on. repeat sstep. Qed.
  Hint Resolve s_rb_rotate_dir : safe.
  Lemma s_rb_fix_insert_loop {K V : Type} (fuel : nat) (i : N) : mok (S:=rbt K V) (rb_fix_insert_loop fuel i).
  Proof. revert i. induction fuel as [|fuel IH]; intros i; cbn [rb_fix_insert_loop]; cbv zeta; unfold rb_on; repeat sstep. Qed.
  Hint Resolve s_rb_fix_insert_loop : safe.
  Lemma s_rb_fix_insert {K V : Type} (i : N) : mok (S:=rbt K V) (rb_fix_insert i).
  Proof. unfold rb_fix_insert, rb_on. repeat sstep. Qed.
  Hint Resolve s_rb_fix_insert : safe.
  Lemma s_rb_insert_loop {K V : Type} (cmp : K → K → comparison) (fuel : nat) (k : K) (v : V) (p : N) : mok (S:=rbt K V) (rb_insert_loop cmp fuel k v p).
  Proof. revert k v p. induction fuel as [|fuel IH]; intros k v p; cbn [rb_insert_loop]; cbv zeta; unfold rb_on; repeat sstep. Qed.
  Hint Resolve s_rb_insert_loop : safe.
  Lemma s_rb_insert {K V : Type} (cmp : K → K → comparison) (k : K) (v : V) : mok (S:=rbt K V) (rb_insert cmp k v).
  Proof. unfold rb_insert, rb_on. repeat sstep. Qed.
  Hint Resolve s_rb_insert : safe.
  Lemma s_rb_transplant {K V : Type} (i j : N) : mok (S:=rbt K V) (rb_transplant i j).
  Proof. unfold rb_transplant, rb_on. repeat sstep. Qed.
  Hint Resolve s_rb_transplant : safe.
  Lemma s_rb_fix_remove_loop {K V : Type} (fuel : nat) (p d : N) : mok (S:=rbt K V) (rb_fix_remove_loop fuel p d).
  Proof. revert p d. induction fuel as [|fuel IH]; intros p d; cbn [rb_fix_remove_loop]; cbv zeta; unfold rb_on; repeat sstep. Qed.
  Hint Resolve s_rb_fix_remove_loop : safe.
  Lemma s_rb_fix_remove {K V : Type} (i : N) (o : option (N * N)) : mok (S:=rbt K V) (rb_fix_remove i o).
  Proof. unfold rb_fix_remove, rb_on. repeat sstep. Qed.
  Hint Resolve s_rb_fix_remove : safe.
  Lemma s_rb_find_min {K V : Type} (t : rbt K V) (i : N) : rok (rb_find_min t i).
  Proof. unfold rb_find_min. repeat sstep. Qed.
  Hint Resolve s_rb_find_min : safe.
  Lemma s_rb_find_max {K V : Type} (t : rbt K V) (i : N) : rok (rb_find_max t i).
  Proof. unfold rb_find_max. repeat sstep. Qed.
  Hint Resolve s_rb_find_max : safe.
  Lemma s_rb_remove_tree_node {K V : Type} (i : N) : mok (S:=rbt K V) (rb_remove_tree_node i).
  Proof. unfold rb_remove_tree_node, rb_on. repeat sstep. Qed.
  Hint Resolve s_rb_remove_tree_node : safe.
  Lemma s_rb_remove_loop {K V : Type} (cmp : K → K → comparison) (fuel : nat) (k : K) (i : N) : mok (S:=rbt K V) (rb_remove_loop cmp fuel k i).
  Proof. revert k i. induction fuel as [|fuel IH]; intros k i; cbn [rb_remove_loop]; cbv zeta; unfold rb_on; repeat sstep. Qed.
  Hint Resolve s_rb_remove_loop : safe.
  Lemma s_rb_remove {K V : Type} (cmp : K → K → comparison) (k : K) : mok (S:=rbt K V) (rb_remove cmp k).
  Proof. unfold rb_remove, rb_on. repeat sstep. Qed.
  Hint Resolve s_rb_remove : safe.
  Lemma s_rb_remove_root {K V : Type} : mok (S:=rbt K V) (rb_remove_root).
  Proof. unfold rb_remove_root, rb_on. repeat sstep. Qed.
  Hint Resolve s_rb_remove_root : safe.
  Lemma s_rb_get_addr {K V : Type} (cmp : K → K → comparison) (t : rbt K V) (k : K) : rok (rb_get_addr cmp t k).
  Proof. unfold rb_get_addr. repeat sstep. Qed.
  Hint Resolve s_rb_get_addr : safe.
  Lemma s_rb_get {K V : Type} (cmp : K → K → comparison) (t : rbt K V) (k : K) : rok (rb_get cmp t k).
  Proof. unfold rb_get. repeat sstep. Qed.
  Hint Resolve s_rb_get : safe.
  Lemma s_rb_contains {K V : Type} (cmp : K → K → comparison) (t : rbt K V) (k : K) : rok (rb_contains cmp t k).
  Proof. unfold rb_contains. repeat sstep. Qed.
  Hint Resolve s_rb_contains : safe.
  Lemma s_rb_get_mut {K V : Type} (cmp : K → K → comparison) (k : K) (f : V → V) : mok (S:=rbt K V) (rb_get_mut cmp k f).
  Proof. unfold rb_get_mut, rb_on. repeat sstep. Qed.
  Hint Resolve s_rb_get_mut : safe.
  Lemma s_rb_get_min_index {K V : Type} (t : rbt K V) : rok (rb_get_min_index t).
  Proof. unfold rb_get_min_index. repeat sstep. Qed.
  Hint Resolve s_rb_get_min_index : safe.
  Lemma s_rb_get_max_index {K V : Type} (t : rbt K V) : rok (rb_get_max_index t).
  Proof. unfold rb_get_max_index. repeat sstep. Qed.
  Hint Resolve s_rb_get_max_index : safe.
  Lemma s_rb_get_min {K V : Type} (t : rbt K V) : rok (rb_get_min t).
  Proof. unfold rb_get_min. repeat sstep. Qed.
  Hint Resolve s_rb_get_min : safe.
  Lemma s_rb_get_max {K V : Type} (t : rbt K V) : rok (rb_get_max t).
  Proof. unfold rb_get_max. repeat sstep. Qed.
  Hint Resolve s_rb_get_max : safe.
  Lemma s_rb_index {K V : Type} (cmp : K → K → comparison) (t : rbt K V) (k : K) : rok (rb_index cmp t k).
  Proof. unfold rb_index. repeat sstep. Qed.
  Hint Resolve s_rb_index : safe.
  Lemma s_rb_index_mut {K V : Type} (cmp : K → K → comparison) (k : K) (f : V → V) : mok (S:=rbt K V) (rb_index_mut cmp k f).
  Proof. unfold rb_index_mut, rb_on. repeat sstep. Qed.
  Hint Resolve s_rb_index_mut : safe.
  Lemma s_rb_iter_next {K V : Type} (t : rbt K V) (it : titer) : rok (rb_iter_next t it).
  Proof. unfold rb_iter_next. repeat sstep. Qed.
  Hint Resolve s_rb_iter_next : safe.
  Lemma s_rb_iter_next_back {K V : Type} (t : rbt K V) (it : titer) : rok (rb_iter_next_back t it).
  Proof. unfold rb_iter_next_back. repeat sstep. Qed.
  Hint Resolve s_rb_iter_next_back : safe.
  Lemma s_rb_iter_mut_next {K V : Type} (f : V → V) : mokI (S:=rbt K V * titer) (λ st, it_ok st.2) (rb_iter_mut_next f).
  Proof.
    intros [t it] Hi. unfold rb_iter_mut_next, rb_on_iter, zoom. cbn [fst snd].
    match goal with |- context [ti_mut_next f ?st] => pose proof (s_ti_mut_next f st Hi) as Hx; destruct (ti_mut_next f st) as [v [a' it']|e [a' it']] end; done.
  Qed.
  Lemma s_rb_iter_mut_next_back {K V : Type} (f : V → V) : mokI (S:=rbt K V * titer) (λ st, it_ok st.2) (rb_iter_mut_next_back f).
  Proof.
    intros [t it] Hi. unfold rb_iter_mut_next_back, rb_on_iter, zoom. cbn [fst snd].
    match goal with |- context [ti_mut_next_back f ?st] => pose proof (s_ti_mut_next_back f st Hi) as Hx; destruct (ti_mut_next_back f st) as [v [a' it']|e [a' it']] end; done.
  Qed.
  Lemma s_rb_iterate {K V : Type} (t : rbt K V) (sc : list fb) : rok (rb_iterate t sc).
  Proof. unfold rb_iterate. repeat sstep. Qed.
  Hint Resolve s_rb_iterate : safe.
  Lemma s_rb_iterate_mut {K V : Type} (sc : list (fb * (V → V))) : mok (S:=rbt K V) (rb_iterate_mut sc).
  Proof.
    intros t t' Ht. unfold rb_iterate_mut in Ht.
    assert (it_ok (rb_iter t)) as Hi by (split; apply not_elem_of_nil).
    pose proof (mokI_drive_mut (λ st, it_ok st.2) _ _ sc (s_rb_iter_mut_next (K:=K) (V:=V)) s_rb_iter_mut_next_back (t, rb_iter t) Hi) as Hx.
    destruct (drive_mut _ _ _ _) as [x [y z]|e [y z]]; [done|]. injection Ht as -> _. done.
  Qed.
  Hint Resolve s_rb_iterate_mut : safe.
  Lemma s_rb_valid_loop {K V : Type} (fuel : nat) (t : rbt K V) (st : list (N * N)) (c : list N) : rok (rb_valid_loop fuel t st c).
  Proof. revert t st c. induction fuel as [|fuel IH]; intros t st c; cbn [rb_valid_loop]; cbv zeta; unfold rb_on; repeat sstep. Qed.
  Hint Resolve s_rb_valid_loop : safe.
  Lemma s_rb_is_valid {K V : Type} (t : rbt K V) : rok (rb_is_valid t).
  Proof. unfold rb_is_valid. repeat sstep. Qed.
  Hint Resolve s_rb_is_valid : safe.
  (** ** avl *)
  Lemma s_av_get_node {K V : Type} (t : avlt K V) (i : N) : rok (av_get_node t i).
  Proof. unfold av_get_node. repeat sstep. Qed.
  Hint Resolve s_av_get_node : safe.
  Lemma s_av_set_node_value {K V : Type} (i : N) (v : V) : mok (S:=avlt K V) (av_set_node_value i v).
  Proof. unfold av_set_node_value, av_on. repeat sstep. Qed.
  Hint Resolve s_av_set_node_value : safe.
  Lemma s_av_get_field {K V : Type} (t : avlt K V) (i r : N) : rok (av_get_field t i r).
  Proof. unfold av_get_field. repeat sstep. Qed.
  Hint Resolve s_av_get_field : safe.
  Lemma s_av_update_height {K V : Type} (i : N) : mok (S:=avlt K V) (av_update_height i).
  Proof. unfold av_update_height, av_on, u32_sub, u32_add, u64_add, u64_sub. repeat sstep. Qed.
  Hint Resolve s_av_update_height : safe.
  Lemma s_av_set_field {K V : Type} (i r v : N) : mok (S:=avlt K V) (av_set_field i r v).
  Proof. unfold av_set_field, av_on. repeat sstep. Qed.
  Hint Resolve s_av_set_field : safe.
  Lemma s_av_balance_factor {K V : Type} (t : avlt K V) (l r : N) : rok (av_balance_factor t l r).
  Proof. unfold av_balance_factor. repeat sstep. Qed.
  Hint Resolve s_av_balance_factor : safe.
  Lemma s_av_left_rotate {K V : Type} (i : N) : mok (S:=avlt K V) (av_left_rotate i).
  Proof. unfold av_left_rotate, av_on. repeat sstep. Qed.
  Hint Resolve s_av_left_rotate : safe.
  Lemma s_av_right_rotate {K V : Type} (i : N) : mok (S:=avlt K V) (av_right_rotate i).
  Proof. unfold av_right_rotate, av_on. repeat sstep. Qed.
  Hint Resolve s_av_right_rotate : safe.
  Lemma s_av_delete {K V : Type} (i : N) : mok (S:=avlt K V) (av_delete i).
  Proof. unfold av_delete, av_on. repeat sstep. Qed.
  Hint Resolve s_av_delete : safe.
  Lemma s_av_rebalance_step {K V : Type} (e : ancestor) : mok (S:=avlt K V) (av_rebalance_step e).
  Proof. unfold av_rebalance_step, av_on. repeat sstep. Qed.
  Hint Resolve s_av_rebalance_step : safe.
  Lemma s_av_rebalance {K V : Type} (e : list ancestor) : mok (S:=avlt K V) (av_rebalance e).
  Proof. induction e as [|x e IH]; cbn [av_rebalance]; repeat sstep. Qed.
  Hint Resolve s_av_rebalance : safe.
  Lemma s_av_insert_loop {K V : Type} (pcmp : K → K → option comparison) (fuel : nat) (k : K) (v : V) (p : list ancestor) (i : N) : mok (S:=avlt K V) (av_insert_loop pcmp fuel k v p i).
  Proof. revert k v p i. induction fuel as [|fuel IH]; intros k v p i; cbn [av_insert_loop]; cbv zeta; unfold av_on; repeat sstep. Qed.
  Hint Resolve s_av_insert_loop : safe.
  Lemma s_av_insert {K V : Type} (pcmp : K → K → option comparison) (k : K) (v : V) : mok (S:=avlt K V) (av_insert pcmp k v).
  Proof. unfold av_insert, av_on. repeat sstep. Qed.
  Hint Resolve s_av_insert : safe.
  Lemma s_av_remove_walk {K V : Type} (pcmp : K → K → option comparison) (fuel : nat) (t : avlt K V) (k : K) (p : list ancestor) (i : N) : rok (av_remove_walk pcmp fuel t k p i).
  Proof. revert t k p i. induction fuel as [|fuel IH]; intros t k p i; cbn [av_remove_walk]; cbv zeta; unfold av_on; repeat sstep. Qed.
  Hint Resolve s_av_remove_walk : safe.
  Lemma s_av_leftmost_walk {K V : Type} (fuel : nat) (t : avlt K V) (l p : N) (i : list ancestor) : rok (av_leftmost_walk fuel t l p i).
  Proof. revert t l p i. induction fuel as [|fuel IH]; intros t l p i; cbn [av_leftmost_walk]; cbv zeta; unfold av_on; repeat sstep. Qed.
  Hint Resolve s_av_leftmost_walk : safe.
  Lemma s_av_remove {K V : Type} (pcmp : K → K → option comparison) (k : K) : mok (S:=avlt K V) (av_remove pcmp k).
  Proof. unfold av_remove, av_on. repeat sstep. Qed.
  Hint Resolve s_av_remove : safe.
  Lemma s_av_get_addr {K V : Type} (pcmp : K → K → option comparison) (t : avlt K V) (k : K) : rok (av_get_addr pcmp t k).
  Proof. unfold av_get_addr. repeat sstep. Qed.
  Hint Resolve s_av_get_addr : safe.
  Lemma s_av_get_loop {K V : Type} (pcmp : K → K → option comparison) (fuel : nat) (t : avlt K V) (k : K) (i : N) : rok (av_get_loop pcmp fuel t k i).
  Proof. revert t k i. induction fuel as [|fuel IH]; intros t k i; cbn [av_get_loop]; cbv zeta; unfold av_on; repeat sstep. Qed.
  Hint Resolve s_av_get_loop : safe.
  Lemma s_av_get {K V : Type} (pcmp : K → K → option comparison) (t : avlt K V) (k : K) : rok (av_get pcmp t k).
  Proof. unfold av_get. repeat sstep. Qed.
  Hint Resolve s_av_get : safe.
  Lemma s_av_contains {K V : Type} (pcmp : K → K → option comparison) (t : avlt K V) (k : K) : rok (av_contains pcmp t k).
  Proof. unfold av_contains. repeat sstep. Qed.
  Hint Resolve s_av_contains : safe.
  Lemma s_av_get_mut_loop {K V : Type} (pcmp : K → K → option comparison) (fuel : nat) (k : K) (f : V → V) (i : N) : mok (S:=avlt K V) (av_get_mut_loop pcmp fuel k f i).
  Proof. revert k f i. induction fuel as [|fuel IH]; intros k f i; cbn [av_get_mut_loop]; cbv zeta; unfold av_on; repeat sstep. Qed.
  Hint Resolve s_av_get_mut_loop : safe.
  Lemma s_av_get_mut {K V : Type} (pcmp : K → K → option comparison) (k : K) (f : V → V) : mok (S:=avlt K V) (av_get_mut pcmp k f).
  Proof. unfold av_get_mut, av_on. repeat sstep. Qed.
  Hint Resolve s_av_get_mut : safe.
  Lemma s_av_find_min_index {K V : Type} (t : avlt K V) : rok (av_find_min_index t).
  Proof. unfold av_find_min_index. repeat sstep. Qed.
  Hint Resolve s_av_find_min_index : safe.
  Lemma s_av_find_max_index {K V : Type} (t : avlt K V) : rok (av_find_max_index t).
  Proof. unfold av_find_max_index. repeat sstep. Qed.
  Hint Resolve s_av_find_max_index : safe.
  Lemma s_av_find_min {K V : Type} (t : avlt K V) : rok (av_find_min t).
  Proof. unfold av_find_min. repeat sstep. Qed.
  Hint Resolve s_av_find_min : safe.
  Lemma s_av_find_max {K V : Type} (t : avlt K V) : rok (av_find_max t).
  Proof. unfold av_find_max. repeat sstep. Qed.
  Hint Resolve s_av_find_max : safe.
  Lemma s_av_get_min {K V : Type} (t : avlt K V) : rok (av_get_min t).
  Proof. unfold av_get_min. repeat sstep. Qed.
  Hint Resolve s_av_get_min : safe.
  Lemma s_av_get_max {K V : Type} (t : avlt K V) : rok (av_get_max t).
  Proof. unfold av_get_max. repeat sstep. Qed.
  Hint Resolve s_av_get_max : safe.
  Lemma s_av_index {K V : Type} (pcmp : K → K → option comparison) (t : avlt K V) (k : K) : rok (av_index pcmp t k).
  Proof. unfold av_index. repeat sstep. Qed.
  Hint Resolve s_av_index : safe.
  Lemma s_av_index_mut {K V : Type} (pcmp : K → K → option comparison) (k : K) (f : V → V) : mok (S:=avlt K V) (av_index_mut pcmp k f).
  Proof. unfold av_index_mut, av_on. repeat sstep. Qed.
  Hint Resolve s_av_index_mut : safe.
  Lemma s_av_iter_next {K V : Type} (t : avlt K V) (it : titer) : rok (av_iter_next t it).
  Proof. unfold av_iter_next. repeat sstep. Qed.
  Hint Resolve s_av_iter_next : safe.
  Lemma s_av_iter_next_back {K V : Type} (t : avlt K V) (it : titer) : rok (av_iter_next_back t it).
  Proof. unfold av_iter_next_back. repeat sstep. Qed.
  Hint Resolve s_av_iter_next_back : safe.
  Lemma s_av_iter_mut_next {K V : Type} (f : V → V) : mokI (S:=avlt K V * titer) (λ st, it_ok st.2) (av_iter_mut_next f).
  Proof.
    intros [t it] Hi. unfold av_iter_mut_next, av_on_iter, zoom. cbn [fst snd].
    match goal with |- context [ti_mut_next f ?st] => pose proof (s_ti_mut_next f st Hi) as Hx; destruct (ti_mut_next f st) as [v [a' it']|e [a' it']] end; done.
  Qed.
  Lemma s_av_iter_mut_next_back {K V : Type} (f : V → V) : mokI (S:=avlt K V * titer) (λ st, it_ok st.2) (av_iter_mut_next_back f).
  Proof.
    intros [t it] Hi. unfold av_iter_mut_next_back, av_on_iter, zoom. cbn [fst snd].
    match goal with |- context [ti_mut_next_back f ?st] => pose proof (s_ti_mut_next_back f st Hi) as Hx; destruct (ti_mut_next_back f st) as [v [a' it']|e [a' it']] end; done.
  Qed.
  Lemma s_av_iterate {K V : Type} (t : avlt K V) (sc : list fb) : rok (av_iterate t sc).
  Proof. unfold av_iterate. repeat sstep. Qed.
  Hint Resolve s_av_iterate : safe.
  Lemma s_av_iterate_mut {K V : Type} (sc : list (fb * (V → V))) : mok (S:=avlt K V) (av_iterate_mut sc).
  Proof.
    intros t t' Ht. unfold av_iterate_mut in Ht.
    assert (it_ok (av_iter t)) as Hi by (split; apply not_elem_of_nil).
    pose proof (mokI_drive_mut (λ st, it_ok st.2) _ _ sc (s_av_iter_mut_next (K:=K) (V:=V)) s_av_iter_mut_next_back (t, av_iter t) Hi) as Hx.
    destruct (drive_mut _ _ _ _) as [x [y z]|e [y z]]; [done|]. injection Ht as -> _. done.
  Qed.
  Hint Resolve s_av_iterate_mut : safe.
  (** ** hash *)
  Lemma s_ht_get_next {K V : Type} (h : htable K V) (i : N) : rok (ht_get_next h i).
  Proof. unfold ht_get_next. repeat sstep. Qed.
  Hint Resolve s_ht_get_next : safe.
  Lemma s_ht_get_prev {K V : Type} (h : htable K V) (i : N) : rok (ht_get_prev h i).
  Proof. unfold ht_get_prev. repeat sstep. Qed.
  Hint Resolve s_ht_get_prev : safe.
  Lemma s_ht_get_node {K V : Type} (h : htable K V) (i : N) : rok (ht_get_node h i).
  Proof. unfold ht_get_node. repeat sstep. Qed.
  Hint Resolve s_ht_get_node : safe.
  Lemma s_ht_set_node_value {K V : Type} (i : N) (v : V) : mok (S:=htable K V) (ht_set_node_value i v).
  Proof. unfold ht_set_node_value, ht_on. repeat sstep. Qed.
  Hint Resolve s_ht_set_node_value : safe.
  Lemma s_ht_get_loop {K V : Type} (keq : K → K → bool) (fuel : nat) (h : htable K V) (k : K) (i : N) : rok (ht_get_loop keq fuel h k i).
  Proof. revert h k i. induction fuel as [|fuel IH]; intros h k i; cbn [ht_get_loop]; cbv zeta; unfold ht_on; repeat sstep. Qed.
  Hint Resolve s_ht_get_loop : safe.
  Lemma s_ht_get {K V : Type} (keq : K → K → bool) (hash : K → N) (h : htable K V) (k : K) : rok (ht_get keq hash h k).
  Proof. unfold ht_get. repeat sstep. Qed.
  Hint Resolve s_ht_get : safe.
  Lemma s_ht_contains_trait {K V : Type} (keq : K → K → bool) (hash : K → N) (h : htable K V) (k : K) : rok (ht_contains_trait keq hash h k).
  Proof. unfold ht_contains_trait. repeat sstep. Qed.
  Hint Resolve s_ht_contains_trait : safe.
  Lemma s_ht_contains_loop {K V : Type} (keq : K → K → bool) (fuel : nat) (h : htable K V) (k : K) (i : N) : rok (ht_contains_loop keq fuel h k i).
  Proof. revert h k i. induction fuel as [|fuel IH]; intros h k i; cbn [ht_contains_loop]; cbv zeta; unfold ht_on; repeat sstep. Qed.
  Hint Resolve s_ht_contains_loop : safe.
  Lemma s_ht_contains {K V : Type} (keq : K → K → bool) (hash : K → N) (h : htable K V) (k : K) : rok (ht_contains keq hash h k).
  Proof. unfold ht_contains. repeat sstep. Qed.
  Hint Resolve s_ht_contains : safe.
  Lemma s_ht_get_addr_loop {K V : Type} (keq : K → K → bool) (fuel : nat) (h : htable K V) (k : K) (i : N) : rok (ht_get_addr_loop keq fuel h k i).
  Proof. revert h k i. induction fuel as [|fuel IH]; intros h k i; cbn [ht_get_addr_loop]; cbv zeta; unfold ht_on; repeat sstep. Qed.
  Hint Resolve s_ht_get_addr_loop : safe.
  Lemma s_ht_get_addr {K V : Type} (keq : K → K → bool) (hash : K → N) (h : htable K V) (k : K) : rok (ht_get_addr keq hash h k).
  Proof. unfold ht_get_addr. repeat sstep. Qed.
  Hint Resolve s_ht_get_addr : safe.
  Lemma s_ht_get_mut_loop {K V : Type} (keq : K → K → bool) (fuel : nat) (k : K) (f : V → V) (b i j : N) : mok (S:=htable K V) (ht_get_mut_loop keq fuel k f b i j).
  Proof. revert k f b i j. induction fuel as [|fuel IH]; intros k f b i j; cbn [ht_get_mut_loop]; cbv zeta; unfold ht_on; repeat sstep. Qed.
  Hint Resolve s_ht_get_mut_loop : safe.
  Lemma s_ht_get_mut {K V : Type} (keq : K → K → bool) (hash : K → N) (k : K) (f : V → V) : mok (S:=htable K V) (ht_get_mut keq hash k f).
  Proof. unfold ht_get_mut, ht_on. repeat sstep. Qed.
  Hint Resolve s_ht_get_mut : safe.
  Lemma s_ht_insert_new_node {K V : Type} (k : K) (v : V) (b i : N) : mok (S:=htable K V) (ht_insert_new_node k v b i).
  Proof. unfold ht_insert_new_node, ht_on. repeat sstep. Qed.
  Hint Resolve s_ht_insert_new_node : safe.
  Lemma s_ht_insert_loop {K V : Type} (keq : K → K → bool) (fuel : nat) (k : K) (v : V) (b i j : N) : mok (S:=htable K V) (ht_insert_loop keq fuel k v b i j).
  Proof. revert k v b i j. induction fuel as [|fuel IH]; intros k v b i j; cbn [ht_insert_loop]; cbv zeta; unfold ht_on; repeat sstep. Qed.
  Hint Resolve s_ht_insert_loop : safe.
  Lemma s_ht_insert {K V : Type} (keq : K → K → bool) (hash : K → N) (k : K) (v : V) : mok (S:=htable K V) (ht_insert keq hash k v).
  Proof. unfold ht_insert, ht_on. repeat sstep. Qed.
  Hint Resolve s_ht_insert : safe.
  Lemma s_ht_remove_loop {K V : Type} (keq : K → K → bool) (fuel : nat) (k : K) (b i j : N) : mok (S:=htable K V) (ht_remove_loop keq fuel k b i j).
  Proof. revert k b i j. induction fuel as [|fuel IH]; intros k b i j; cbn [ht_remove_loop]; cbv zeta; unfold ht_on; repeat sstep. Qed.
  Hint Resolve s_ht_remove_loop : safe.
  Lemma s_ht_remove {K V : Type} (keq : K → K → bool) (hash : K → N) (k : K) : mok (S:=htable K V) (ht_remove keq hash k).
  Proof. unfold ht_remove, ht_on. repeat sstep. Qed.
  Hint Resolve s_ht_remove : safe.
  Lemma s_ht_index {K V : Type} (keq : K → K → bool) (hash : K → N) (h : htable K V) (k : K) : rok (ht_index keq hash h k).
  Proof. unfold ht_index. repeat sstep. Qed.
  Hint Resolve s_ht_index : safe.
  Lemma s_ht_index_mut {K V : Type} (keq : K → K → bool) (hash : K → N) (k : K) (f : V → V) : mok (S:=htable K V) (ht_index_mut keq hash k f).
  Proof. unfold ht_index_mut, ht_on. repeat sstep. Qed.
  Hint Resolve s_ht_index_mut : safe.
  Lemma s_ht_iter_next {K V : Type} (h : htable K V) (it : ht_iter) : rok (ht_iter_next h it).
  Proof. unfold ht_iter_next. repeat sstep. Qed.
  Hint Resolve s_ht_iter_next : safe.
  Lemma ht_skip_ok {K V : Type} fuel (h : htable K V) it r : ht_skip fuel h it = Val r → ∀ p, r.1 = Some p → p ≠ SENTINEL.
  Proof.
    revert it. induction fuel as [|fuel IH]; intros it; [done|]. cbn [ht_skip]. cbv zeta.
    destruct (decide (hti_node it = SENTINEL)) as [Hn|Hn]; [|intros [= <-] p [= <-]; done].
    destruct (decide (hti_bucket it + 1 = lengthN (buckets h))); [intros [= <-] p; done|].
    unfold mbind, res_bind. destruct (ht_bucket h _) as [x|]; [|done]. apply IH.
  Qed.
  Lemma s_ht_iter_mut_next {K V : Type} (f : V → V) : mokI (S:=htable K V * ht_iter) (λ _, True) (ht_iter_mut_next f).
  Proof.
    intros [h it] _. unfold ht_iter_mut_next. unfold mbind, M_bind, mget at 1. cbv beta iota.
    destruct (decide _); [|done]. unfold lift, gets.
    pose proof (s_ht_skip (S (length (buckets h))) h it) as Hs. destruct (ht_skip _ h it) as [[o it']|e] eqn:E; [|intros ->; by apply Hs].
    destruct o as [p|]; [|done]. pose proof (ht_skip_ok _ _ _ _ E p eq_refl) as Hp.
    pose proof (s_ht_get_next h p) as Hr. unfold ht_get_next in *.
    destruct (na_get_register _ _ _) as [nx|e] eqn:E'; [|intros ->; by apply Hr].
    unfold modify, zoom, ht_on. cbn [fst snd].
    destruct (raw_update_ok _ _ (λ n : K * V, (n.1, f n.2)) (na_get_register_in_array _ _ _ _ E' Hp)) as (v & a' & He).
    unfold zoom. by rewrite He.
  Qed.
  Lemma s_ht_iterate {K V : Type} (h : htable K V) (sc : list fb) : rok (ht_iterate h sc).
  Proof. unfold ht_iterate. repeat sstep. Qed.
  Hint Resolve s_ht_iterate : safe.
  Lemma s_ht_iterate_mut {K V : Type} (sc : list (fb * (V → V))) : mok (S:=htable K V) (ht_iterate_mut sc).
  Proof.
    intros t t' Ht. unfold ht_iterate_mut in Ht. pose proof (s_ht_mk_iter t) as Hm.
    destruct (ht_mk_iter t) as [it|e]; [|injection Ht as -> _; by apply Hm].
    pose proof (mokI_drive_mut (λ _, True) _ ht_iter_mut_next_back sc (s_ht_iter_mut_next (K:=K) (V:=V)) (λ f s H, H) (t, it) I) as Hx.
    destruct (drive_mut _ _ _ _) as [x [y z]|e [y z]]; [done|]. injection Ht as -> _. done.
  Qed.
  Hint Resolve s_ht_iterate_mut : safe.
  Lemma s_ht_step {K V : Type} (keq : K → K → bool) (hash : K → N) (o : hm_op K V) : mok (S:=htable K V) (ht_step keq hash o).
  Proof. unfold ht_step, ht_on. repeat sstep. Qed.
  Hint Resolve s_ht_step : safe.
  (** ** crit *)
  Lemma s_cb_get_leaf {V : Type} (t : critbit V) (i : N) : rok (cb_get_leaf t i).
  Proof. unfold cb_get_leaf. repeat sstep. Qed.
  Hint Resolve s_cb_get_leaf : safe.
  Lemma s_cb_replace_leaf {V : Type} (i : N) (v : V) : mok (S:=critbit V) (cb_replace_leaf i v).
  Proof. unfold cb_replace_leaf, cb_onn, cb_onl. repeat sstep. Qed.
  Hint Resolve s_cb_replace_leaf : safe.
  Lemma s_cb_get_leaf_index {V : Type} (t : critbit V) (i : N) : rok (cb_get_leaf_index t i).
  Proof. unfold cb_get_leaf_index. repeat sstep. Qed.
  Hint Resolve s_cb_get_leaf_index : safe.
  Lemma s_cb_is_inner_node {V : Type} (t : critbit V) (i : N) : rok (cb_is_inner_node t i).
  Proof. unfold cb_is_inner_node. repeat sstep. Qed.
  Hint Resolve s_cb_is_inner_node : safe.
  Lemma s_cb_get_node {V : Type} (t : critbit V) (i : N) : rok (cb_get_node t i).
  Proof. unfold cb_get_node. repeat sstep. Qed.
  Hint Resolve s_cb_get_node : safe.
  Lemma s_cb_get_key {V : Type} (t : critbit V) (i : N) : rok (cb_get_key t i).
  Proof. unfold cb_get_key. repeat sstep. Qed.
  Hint Resolve s_cb_get_key : safe.
  Lemma s_cb_get_left {V : Type} (t : critbit V) (i : N) : rok (cb_get_left t i).
  Proof. unfold cb_get_left. repeat sstep. Qed.
  Hint Resolve s_cb_get_left : safe.
  Lemma s_cb_get_right {V : Type} (t : critbit V) (i : N) : rok (cb_get_right t i).
  Proof. unfold cb_get_right. repeat sstep. Qed.
  Hint Resolve s_cb_get_right : safe.
  Lemma s_cb_get_parent {V : Type} (t : critbit V) (i : N) : rok (cb_get_parent t i).
  Proof. unfold cb_get_parent. repeat sstep. Qed.
  Hint Resolve s_cb_get_parent : safe.
  Lemma s_cb_add_leaf {V : Type} (k : N) (v : V) : mok (S:=critbit V) (cb_add_leaf k v).
  Proof. unfold cb_add_leaf, cb_onn, cb_onl. repeat sstep. Qed.
  Hint Resolve s_cb_add_leaf : safe.
  Lemma s_cb_get_child {V : Type} (t : critbit V) (p i k : N) : rok (cb_get_child t p i k).
  Proof. unfold cb_get_child. repeat sstep. Qed.
  Hint Resolve s_cb_get_child : safe.
  Lemma s_cb_duplicate {V : Type} (i : N) : mok (S:=critbit V) (cb_duplicate i).
  Proof. unfold cb_duplicate, cb_onn, cb_onl. repeat sstep. Qed.
  Hint Resolve s_cb_duplicate : safe.
  Lemma s_cb_replace_node {V : Type} (i : N) (c : cnode) (l r : N) : mok (S:=critbit V) (cb_replace_node i c l r).
  Proof. unfold cb_replace_node, cb_onn, cb_onl. repeat sstep. Qed.
  Hint Resolve s_cb_replace_node : safe.
  Lemma s_cb_migrate {V : Type} (i j : N) : mok (S:=critbit V) (cb_migrate i j).
  Proof. unfold cb_migrate, cb_onn, cb_onl. repeat sstep. Qed.
  Hint Resolve s_cb_migrate : safe.
  Lemma s_cb_remove_leaf {V : Type} (i : N) : mok (S:=critbit V) (cb_remove_leaf i).
  Proof. unfold cb_remove_leaf, cb_onn, cb_onl. repeat sstep. Qed.
  Hint Resolve s_cb_remove_leaf : safe.
  Lemma s_cb_walk {V : Type} (fuel : nat) (t : critbit V) (k i : N) : rok (cb_walk fuel t k i).
  Proof. revert t k i. induction fuel as [|fuel IH]; intros t k i; cbn [cb_walk]; cbv zeta; unfold cb_onn, cb_onl; repeat sstep. Qed.
  Hint Resolve s_cb_walk : safe.
  Lemma s_cb_get_addr {V : Type} (t : critbit V) (k : N) : rok (cb_get_addr t k).
  Proof. unfold cb_get_addr. repeat sstep. Qed.
  Hint Resolve s_cb_get_addr : safe.
  Lemma s_cb_get_loop {V : Type} (fuel : nat) (t : critbit V) (k i : N) : rok (cb_get_loop fuel t k i).
  Proof. revert t k i. induction fuel as [|fuel IH]; intros t k i; cbn [cb_get_loop]; cbv zeta; unfold cb_onn, cb_onl; repeat sstep. Qed.
  Hint Resolve s_cb_get_loop : safe.
  Lemma s_cb_get {V : Type} (t : critbit V) (k : N) : rok (cb_get t k).
  Proof. unfold cb_get. repeat sstep. Qed.
  Hint Resolve s_cb_get : safe.
  Lemma s_cb_contains {V : Type} (t : critbit V) (k : N) : rok (cb_contains t k).
  Proof. unfold cb_contains. repeat sstep. Qed.
  Hint Resolve s_cb_contains : safe.
  Lemma s_cb_get_mut_loop {V : Type} (fuel : nat) (k : N) (f : V → V) (i : N) : mok (S:=critbit V) (cb_get_mut_loop fuel k f i).
  Proof. revert k f i. induction fuel as [|fuel IH]; intros k f i; cbn [cb_get_mut_loop]; cbv zeta; unfold cb_onn, cb_onl; repeat sstep. Qed.
  Hint Resolve s_cb_get_mut_loop : safe.
  Lemma s_cb_get_mut {V : Type} (k : N) (f : V → V) : mok (S:=critbit V) (cb_get_mut k f).
  Proof. unfold cb_get_mut, cb_onn, cb_onl. repeat sstep. Qed.
  Hint Resolve s_cb_get_mut : safe.
  Lemma s_cb_insert_loop {V : Type} (fuel : nat) (k : N) (v : V) (i : N) : mok (S:=critbit V) (cb_insert_loop fuel k v i).
  Proof. revert k v i. induction fuel as [|fuel IH]; intros k v i; cbn [cb_insert_loop]; cbv zeta; unfold cb_onn, cb_onl; repeat sstep. Qed.
  Hint Resolve s_cb_insert_loop : safe.
  Lemma s_cb_insert {V : Type} (k : N) (v : V) : mok (S:=critbit V) (cb_insert k v).
  Proof. unfold cb_insert, cb_onn, cb_onl. repeat sstep. Qed.
  Hint Resolve s_cb_insert : safe.
  Lemma s_cb_remove_walk {V : Type} (fuel : nat) (t : critbit V) (k p c : N) (b : bool) : rok (cb_remove_walk fuel t k p c b).
  Proof. revert t k p c b. induction fuel as [|fuel IH]; intros t k p c b; cbn [cb_remove_walk]; cbv zeta; unfold cb_onn, cb_onl; repeat sstep. Qed.
  Hint Resolve s_cb_remove_walk : safe.
  Lemma s_cb_remove {V : Type} (k : N) : mok (S:=critbit V) (cb_remove k).
  Proof. unfold cb_remove, cb_onn, cb_onl, u32_sub, u32_add, u64_add, u64_sub. repeat sstep. Qed.
  Hint Resolve s_cb_remove : safe.
  Lemma s_cb_get_min_index {V : Type} (t : critbit V) : rok (cb_get_min_index t).
  Proof. unfold cb_get_min_index. repeat sstep. Qed.
  Hint Resolve s_cb_get_min_index : safe.
  Lemma s_cb_get_max_index {V : Type} (t : critbit V) : rok (cb_get_max_index t).
  Proof. unfold cb_get_max_index. repeat sstep. Qed.
  Hint Resolve s_cb_get_max_index : safe.
  Lemma s_cb_entry {V : Type} (t : critbit V) (i : N) : rok (cb_entry t i).
  Proof. unfold cb_entry. repeat sstep. Qed.
  Hint Resolve s_cb_entry : safe.
  Lemma s_cb_get_min {V : Type} (t : critbit V) : rok (cb_get_min t).
  Proof. unfold cb_get_min. repeat sstep. Qed.
  Hint Resolve s_cb_get_min : safe.
  Lemma s_cb_get_max {V : Type} (t : critbit V) : rok (cb_get_max t).
  Proof. unfold cb_get_max. repeat sstep. Qed.
  Hint Resolve s_cb_get_max : safe.
  Lemma s_cb_index {V : Type} (t : critbit V) (k : N) : rok (cb_index t k).
  Proof. unfold cb_index. repeat sstep. Qed.
  Hint Resolve s_cb_index : safe.
  Lemma s_cb_index_mut {V : Type} (k : N) (f : V → V) : mok (S:=critbit V) (cb_index_mut k f).
  Proof. unfold cb_index_mut, cb_onn, cb_onl. repeat sstep. Qed.
  Hint Resolve s_cb_index_mut : safe.
  Lemma s_ci_fwd {V : Type} (fuel : nat) (t : critbit V) (it : citer) : rok (ci_fwd fuel t it).
  Proof. revert t it. induction fuel as [|fuel IH]; intros t it; cbn [ci_fwd]; cbv zeta; repeat sstep. Qed.
  Hint Resolve s_ci_fwd : safe.
  Lemma s_ci_rev {V : Type} (fuel : nat) (t : critbit V) (it : citer) : rok (ci_rev fuel t it).
  Proof. revert t it. induction fuel as [|fuel IH]; intros t it; cbn [ci_rev]; cbv zeta; repeat sstep. Qed.
  Hint Resolve s_ci_rev : safe.
  Lemma s_cb_iter_next {V : Type} (t : critbit V) (it : citer) : rok (cb_iter_next t it).
  Proof. unfold cb_iter_next. repeat sstep. Qed.
  Hint Resolve s_cb_iter_next : safe.
  Lemma s_cb_iter_next_back {V : Type} (t : critbit V) (it : citer) : rok (cb_iter_next_back t it).
  Proof. unfold cb_iter_next_back. repeat sstep. Qed.
  Hint Resolve s_cb_iter_next_back : safe.
  Lemma s_cb_iterate {V : Type} (t : critbit V) (sc : list fb) : rok (cb_iterate t sc).
  Proof. unfold cb_iterate. repeat sstep. Qed.
  Hint Resolve s_cb_iterate : safe.
End safe.
