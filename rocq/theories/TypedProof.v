(** * Every number of the models stays within its Rust type, and no initialised structure looks uninitialised

    [typed I m]: computation [m] keeps the invariant [I] of its state whatever happens (also if it panics) and returns a well-typed
    result: u32 numbers stay below 2^32. *)
From Verif Require Export AllocApi DequeApi HashApi RBApi AVLApi CritApi.

Class Ty (A : Type) := ty : A → Prop.
Global Arguments ty {A _} !_ / : simpl nomatch.
Global Instance Ty_N : Ty N := λ x, x < W32.
Global Instance Ty_bool : Ty bool := λ _, True.
Global Instance Ty_unit : Ty () := λ _, True.
Global Instance Ty_Z : Ty Z := λ _, True.
Global Instance Ty_option {A} `{Ty A} : Ty (option A) := λ o, match o with Some a => ty a | None => True end.
Global Instance Ty_prod {A B} `{Ty A, Ty B} : Ty (A * B) := λ x, ty x.1 ∧ ty x.2.
Global Instance Ty_list {A} `{Ty A} : Ty (list A) := Forall ty.
Global Instance Ty_node {T} `{Ty T} : Ty (node T) := λ n, ty (regs n) ∧ ty (val n).
(** u128 key, u64 prefix length *)
Global Instance Ty_cnode : Ty cnode := λ c, cn_key c < W128 ∧ cn_prefix_len c < W64.

Definition rtyped {A} `{Ty A} (r : res A) : Prop := match r with Val a => ty a | Err _ => True end.
Definition typed {S A} `{Ty A} (I : S → Prop) (m : M S A) : Prop :=
  ∀ s, I s → match m s with Ret a s' => I s' ∧ ty a | Fail _ s' => I s' end.
Definition keeps {S A} (I : S → Prop) (m : M S A) : Prop :=
  ∀ s, I s → match m s with Ret _ s' => I s' | Fail _ s' => I s' end.

Section rules.
  Context {S : Type} (I : S → Prop).
  Lemma typed_keeps {A} `{Ty A} (m : M S A) : typed I m → keeps I m.
  Proof. intros Hm s Hs. specialize (Hm s Hs). destruct (m s); tauto. Qed.
  Lemma typed_bind {A B} `{Ty A, Ty B} (m : M S A) (f : A → M S B) :
    typed I m → (∀ a, ty a → typed I (f a)) → typed I (m ≫= f).
  Proof.
    intros Hm Hf s Hs. unfold mbind, M_bind. specialize (Hm s Hs). destruct (m s) as [a s'|e s']; [|done].
    destruct Hm as [Hs' Ha]. by apply Hf.
  Qed.
  Lemma typed_mget {B} `{Ty B} (f : S → M S B) : (∀ s, I s → typed I (f s)) → typed I (mget ≫= f).
  Proof. intros Hf s Hs. unfold mbind, M_bind, mget. by apply Hf. Qed.
  Lemma keeps_mget {B} (f : S → M S B) : (∀ s, I s → keeps I (f s)) → keeps I (mget ≫= f).
  Proof. intros Hf s Hs. unfold mbind, M_bind, mget. by apply Hf. Qed.
  Lemma keeps_typed_bind {A B} `{Ty A} (m : M S A) (f : A → M S B) :
    typed I m → (∀ a, ty a → keeps I (f a)) → keeps I (m ≫= f).
  Proof.
    intros Hm Hf s Hs. unfold mbind, M_bind. specialize (Hm s Hs). destruct (m s) as [a s'|e s']; [|done].
    destruct Hm as [Hs' Ha]. by apply Hf.
  Qed.
  Lemma keeps_bind {A B} (m : M S A) (f : A → M S B) : keeps I m → (∀ a, keeps I (f a)) → keeps I (m ≫= f).
  Proof.
    intros Hm Hf s Hs. unfold mbind, M_bind. specialize (Hm s Hs). destruct (m s) as [a s'|e s']; [|done]. by apply Hf.
  Qed.
  Lemma typed_ret {A} `{Ty A} (a : A) : ty a → typed I (mret a).
  Proof. intros Ha s Hs. done. Qed.
  Lemma typed_fail {A} `{Ty A} e : typed I (mfail (A:=A) e).
  Proof. intros s Hs. done. Qed.
  Lemma typed_massert b : typed I (massert b).
  Proof. intros s Hs. by destruct b. Qed.
  Lemma typed_modify f : (∀ s, I s → I (f s)) → typed I (modify f).
  Proof. intros Hf s Hs. split; [by apply Hf|done]. Qed.
  Lemma typed_gets {A} `{Ty A} (f : S → res A) : (∀ s, I s → rtyped (f s)) → typed I (gets f).
  Proof. intros Hf s Hs. unfold gets. specialize (Hf s Hs). by destruct (f s). Qed.
  Lemma typed_lift {A} `{Ty A} (r : res A) : rtyped r → typed I (lift r).
  Proof. intros Hr. by apply typed_gets. Qed.
  Lemma keeps_ret {A} (a : A) : keeps I (mret a).
  Proof. intros s Hs. done. Qed.
  Lemma keeps_fail {A} e : keeps I (mfail (A:=A) e).
  Proof. intros s Hs. done. Qed.
  Lemma keeps_gets {A} (f : S → res A) : keeps I (gets f).
  Proof. intros s Hs. unfold gets. by destruct (f s). Qed.
  Lemma keeps_lift {A} (r : res A) : keeps I (lift r).
  Proof. apply keeps_gets. Qed.
  Lemma typed_zoom {T A} `{Ty A} (J : T → Prop) (g : S → T) u (m : M T A) :
    (∀ s, I s → J (g s)) → (∀ s t, I s → J t → I (u t s)) → typed J m → typed I (zoom g u m).
  Proof.
    intros H1 H2 Hm s Hs. unfold zoom. specialize (Hm _ (H1 _ Hs)). destruct (m (g s)) as [a t|e t].
    - destruct Hm. split; [by apply H2|done].
    - by apply H2.
  Qed.
  Lemma keeps_zoom {T A} (J : T → Prop) (g : S → T) u (m : M T A) :
    (∀ s, I s → J (g s)) → (∀ s t, I s → J t → I (u t s)) → keeps J m → keeps I (zoom g u m).
  Proof.
    intros H1 H2 Hm s Hs. unfold zoom. specialize (Hm _ (H1 _ Hs)). destruct (m (g s)) as [a t|e t]; by apply H2.
  Qed.
  Lemma rtyped_bind {A B} `{Ty A, Ty B} (m : res A) (f : A → res B) :
    rtyped m → (∀ a, ty a → rtyped (f a)) → rtyped (m ≫= f).
  Proof. unfold mbind, res_bind. destruct m; simpl; auto. Qed.
  Lemma keeps_history {O R} (step : O → M S R) ops s : Forall (λ o, keeps I (step o)) ops → I s → I (history step ops s).2.
  Proof.
    intros Hk. revert s. induction Hk as [|o ops Ho Hk IH]; intros s Hs; simpl; [done|].
    destruct (call (step o) s) as [r s1] eqn:Ec. destruct (history step ops s1) as [rs s2] eqn:Eh. simpl.
    assert (I s1) as Hs1. { unfold call in Ec. specialize (Ho s Hs). destruct (step o s); by injection Ec as <- <-. }
    specialize (IH s1 Hs1). by rewrite Eh in IH.
  Qed.
  Lemma keeps_drive_mut {A V} (next next_back : (V → V) → M S (option A)) sc :
    (∀ f, keeps I (next f)) → (∀ f, keeps I (next_back f)) → keeps I (drive_mut next next_back sc).
  Proof.
    intros H1 H2. induction sc as [|[e f] sc IH]; simpl; [apply keeps_ret|].
    apply keeps_bind; [by destruct e|intros r]. apply keeps_bind; [done|intros rs]. apply keeps_ret.
  Qed.
End rules.

Lemma ty_cons_inv {A} `{Ty A} (a : A) l : ty (a :: l) → ty a ∧ ty l.
Proof. intros Hl. by apply Forall_cons in Hl. Qed.
(** Break [typed I m], [keeps I m] and [rtyped r] down along the structure of the computation. [ty_solve] is for the leaves. *)
Ltac ty_hyps :=
  repeat match goal with
  | H : ty (?x, ?y) |- _ => change (ty x ∧ ty y) in H; destruct H
  | H : ty (Some ?x) |- _ => change (ty x) in H
  | H : ty (@cons ?A ?x ?l) |- _ => apply ty_cons_inv in H; destruct H
  end.
Create HintDb ty.
Lemma ty_pair {A B} `{Ty A, Ty B} (a : A) (b : B) : ty a → ty b → ty (a, b).
Proof. by split. Qed.
Lemma ty_some {A} `{Ty A} (a : A) : ty a → ty (Some a).
Proof. done. Qed.
Lemma ty_nil {A} `{Ty A} : ty (@nil A).
Proof. unfold ty, Ty_list. auto. Qed.
Lemma ty_cons {A} `{Ty A} (a : A) l : ty a → ty l → ty (a :: l).
Proof. unfold ty, Ty_list. auto. Qed.
Lemma ty_app {A} `{Ty A} (k l : list A) : ty k → ty l → ty (k ++ l).
Proof. intros Hk Hl. apply Forall_app. by split. Qed.
Lemma ty_tail {A} `{Ty A} (l : list A) : ty l → ty (tail l).
Proof. unfold ty, Ty_list. intros Hl. destruct Hl; [constructor|done]. Qed.
Global Hint Resolve ty_pair ty_some ty_nil ty_cons ty_app ty_tail : ty.
Global Hint Extern 5 (ty _) => first [exact I|reflexivity] : ty.
Ltac ty_solve :=
  ty_hyps;
  match goal with
  | |- ty ?x => first [solve [eauto 12 with ty]|match x with context [if decide ?P then _ else _] => destruct (decide P) end]
  | |- typed _ ?x => match x with context [if decide ?P then _ else _] => destruct (decide P) end
  | |- _ => first [assumption|exact I|reflexivity]
  end.
Ltac ty_step :=
  match goal with
  | |- typed _ (mget ≫= _) => apply typed_mget; intros ? ?
  | |- keeps _ (mget ≫= _) => apply keeps_mget; intros ? ?
  | |- typed _ (_ ≫= _) => eapply typed_bind; [|intros ? ?]
  | |- keeps _ (_ ≫= _) => first [eapply keeps_typed_bind; [solve [repeat ty_step]|intros ? ?] | apply keeps_bind; [|intros ?]]
  | |- rtyped (_ ≫= _) => eapply rtyped_bind; [|intros ? ?]
  | |- _ _ (if decide ?P then _ else _) => destruct (decide P)
  | |- rtyped (if decide ?P then _ else _) => destruct (decide P)
  | |- _ _ (match ?x with _ => _ end) => destruct x; ty_hyps
  | |- rtyped (match ?x with _ => _ end) => destruct x; ty_hyps
  | |- typed _ (mret _) => apply typed_ret
  | |- keeps _ (mret _) => apply keeps_ret
  | |- typed _ (mfail _) => apply typed_fail
  | |- keeps _ (mfail _) => apply keeps_fail
  | |- typed _ (massert _) => apply typed_massert
  | |- typed _ (gets _) => apply typed_gets; intros ? ?
  | |- keeps _ (gets _) => apply keeps_gets
  | |- typed _ (lift _) => apply typed_lift
  | |- keeps _ (lift _) => apply keeps_lift
  | |- rtyped (Val _) => change (rtyped (Val ?x)) with (ty x)
  | |- rtyped (Err _) => exact I
  | |- typed _ _ => first [solve [eauto 6 with ty]|ty_solve]
  | |- keeps _ _ => first [apply typed_keeps; solve [eauto 6 with ty]|solve [eauto 6 with ty]]
  | |- rtyped _ => solve [eauto 6 with ty]
  | |- _ => ty_solve
  end.
(** ** The allocator *)
Section alloc.
  Context `{Profile} {T : Type} `{Ty T} (nr ms : nat) (Hw : N.of_nat ms + 1 < W32).
  Implicit Types a : alloc T.
  Definition nok (n : node T) : Prop := length (regs n) = nr ∧ ty n.
  Record TA a : Prop := {
    ta_len : length (nodes a) = ms;
    ta_bump : 1 ≤ bump_index a ≤ N.of_nat ms + 1;
    ta_fhead : free_list_head a < W32;
    ta_size : size a < W64;
    ta_nodes : Forall nok (nodes a) }.

  Lemma ta_get a i : TA a → match na_get a i with Val n => nok n | Err _ => True end.
  Proof.
    intros Ha. unfold na_get. destruct (u32_sub i 1) as [j|]; [|done]. simpl.
    destruct (lookupN (nodes a) j) as [n|] eqn:E; [|done]. apply lookupN_Some in E.
    pose proof (ta_nodes _ Ha) as Hn. rewrite Forall_lookup in Hn. by eapply Hn.
  Qed.
  Lemma ty_get a i : TA a → rtyped (na_get a i).
  Proof. intros Ha. pose proof (ta_get a i Ha) as Hg. unfold rtyped. destruct (na_get a i); [|done]. by destruct Hg. Qed.
  Lemma ty_get_register a i r : TA a → rtyped (na_get_register a i r).
  Proof.
    intros Ha. unfold na_get_register. destruct (decide _) as [Hd0|Hd0]; [done|]. eapply rtyped_bind; [by apply ty_get|].
    intros n [Hr _]. unfold node_get_register. destruct (lookupN (regs n) r) as [x|] eqn:E; [|done]. apply lookupN_Some in E.
    unfold ty, Ty_list in Hr. rewrite Forall_lookup in Hr. by eapply Hr.
  Qed.
  Lemma ty_get_mut i f :
    (∀ n, nok n → match f n with Val n' => nok n' | Err _ => True end) → typed TA (na_get_mut i f).
  Proof.
    intros Hf a Ha. unfold na_get_mut, mbind, M_bind, lift, gets. destruct (u32_sub i 1) as [j|]; [|done].
    destruct (lookupN (nodes a) j) as [n|] eqn:E; [|done]. apply lookupN_Some in E.
    pose proof (ta_nodes _ Ha) as Hn. assert (nok n) as Hnn by (rewrite Forall_lookup in Hn; by eapply Hn).
    specialize (Hf n Hnn). destruct (f n) as [n'|]; [|done]. split; [|done]. destruct Ha. constructor; simpl; try done.
    - unfold insertN. by rewrite insert_length.
    - unfold insertN. by apply Forall_insert.
  Qed.
  Lemma ty_raw_update i f : (∀ v, ty v → ty (f v)) → typed TA (na_raw_update i f).
  Proof.
    intros Hf a Ha. unfold na_raw_update, mbind, M_bind, lift, gets. destruct (u32_sub i 1) as [j|]; [|done].
    destruct (lookupN (nodes a) j) as [n|] eqn:E; [|done]. apply lookupN_Some in E.
    pose proof (ta_nodes _ Ha) as Hn. assert (nok n) as (Hl & Hr & Hv) by (rewrite Forall_lookup in Hn; by eapply Hn).
    split; [|done]. destruct Ha. constructor; simpl; try done.
    - unfold insertN. by rewrite insert_length.
    - unfold insertN. apply Forall_insert; [done|]. split; [done|]. split; [done|]. by apply Hf.
  Qed.
  Lemma nok_set r v n : ty v → nok n → match node_set_register r v n with Val n' => nok n' | Err _ => True end.
  Proof.
    intros Hv (Hl & Hr & Ht). unfold node_set_register. destruct (lookupN (regs n) r); [|done]. split; [|split]; simpl; [|apply Forall_insert; done|done].
    unfold insertN. by rewrite insert_length.
  Qed.
  Lemma nok_setf v n : ty v → nok n → match node_set_free_list_register v n with Val n' => nok n' | Err _ => True end.
  Proof.
    intros Hv (Hl & Hr & Ht). unfold node_set_free_list_register. destruct (regs n !! 0%nat); [|done]. split; [|split]; simpl; [|apply Forall_insert; done|done].
    by rewrite insert_length.
  Qed.
  Lemma ty_set_register i v r : ty v → typed TA (na_set_register i v r).
  Proof. intros Hv. unfold na_set_register. destruct (decide _) as [Hd0|Hd0]; [by apply typed_ret|]. apply ty_get_mut. intros n. by apply nok_set. Qed.
  Lemma ty_clear_register i r : typed TA (na_clear_register i r).
  Proof. unfold na_clear_register. destruct (decide _) as [Hd0|Hd0]; [by apply typed_ret|]. apply ty_get_mut. intros n. by apply nok_set. Qed.
  Lemma ty_connect i j ri rj : ty i → ty j → typed TA (na_connect i j ri rj).
  Proof.
    intros Hi Hj. unfold na_connect. eapply typed_bind; [|intros _ _]; (destruct (decide _) as [Hd0|Hd0]; [by apply typed_ret|]); apply ty_get_mut; intros n; by apply nok_set.
  Qed.
  Lemma ty_disconnect i j ri rj : typed TA (na_disconnect i j ri rj).
  Proof.
    unfold na_disconnect. eapply typed_bind; [|intros _ _]; (destruct (decide _) as [Hd0|Hd0]; [by apply typed_ret|]); apply ty_clear_register.
  Qed.
  Lemma ty_remove_node i : ty i → typed TA (na_remove_node i).
  Proof.
    intros Hi. unfold na_remove_node. destruct (decide _) as [Hd0|Hd0]; [by apply typed_ret|]. apply typed_mget. intros a Ha.
    eapply typed_bind; [apply ty_get_mut; intros n; apply nok_setf; by apply (ta_fhead _ Ha)|intros _ _].
    eapply typed_bind; [apply typed_modify; intros s []; by constructor|intros _ _].
    apply typed_mget. intros a1 Ha1. intros a2 Ha2. unfold mbind, M_bind, lift, gets.
    assert (match u64_sub (size a1) 1 with Val x => x < W64 | Err _ => True end) as Hx.
    { unfold u64_sub, u_sub. pose proof (ta_size _ Ha1). destruct (decide _) as [Hd1|Hd1]; [lia|]. destruct overflow_checks; [done|]. by apply N.mod_lt. }
    destruct (u64_sub (size a1) 1) as [x|]; [|done]. cbn [modify].
    assert (TA (set_size x a2)) as Ha3 by (destruct Ha2; by constructor).
    pose proof (ta_get _ i Ha3) as Hg. destruct (na_get (set_size x a2) i); [|done]. split; [done|]. by destruct Hg as (_ & _ & ?).
  Qed.
  Lemma ty_add_node v : ty v → typed TA (na_add_node v).
  Proof.
    intros Hv. unfold na_add_node. apply typed_mget. intros a Ha.
    eapply typed_bind; [|intros _ _].
    { destruct (decide _) as [Hd|Hd].
      - destruct (decide _) as [Hd2|Hd2]; [apply typed_fail|]. intros a1 Ha1.
        pose proof (ta_bump _ Ha) as Hb. pose proof (ta_len _ Ha) as Hl. unfold MAX_SIZE, as_u32, lengthN in Hd2. rewrite Hl, N.mod_small in Hd2 by done.
        unfold mbind, M_bind, lift, gets, u32_add, u_add. rewrite decide_True by lia. cbn [modify]. split; [|done].
        destruct Ha1. constructor; simpl; try done; lia.
      - eapply typed_bind.
        + apply typed_gets. intros a1 Ha1. eapply rtyped_bind; [by apply ty_get|]. intros n [Hr _]. unfold node_get_free_list_register.
          destruct (regs n !! 0%nat) eqn:E; [|done]. unfold ty, Ty_list in Hr. rewrite Forall_lookup in Hr. by eapply Hr.
        + intros r Hr. eapply typed_bind; [apply typed_modify; intros s []; by constructor|intros _ _]. apply ty_get_mut. intros n. by apply nok_setf. }
    eapply typed_bind; [apply ty_get_mut; intros n (Hl & Hr & Ht); by split|intros _ _].
    apply typed_mget. intros a1 Ha1. intros a2 Ha2. unfold mbind, M_bind, lift, gets.
    assert (match u64_add (size a1) 1 with Val x => x < W64 | Err _ => True end) as Hx.
    { unfold u64_add, u_add. destruct (decide _) as [Hd0|Hd0]; [done|]. destruct overflow_checks; [done|]. by apply N.mod_lt. }
    destruct (u64_add (size a1) 1) as [x|]; [|done]. cbn [modify]. split; [destruct Ha2; by constructor|]. exact (ta_fhead _ Ha).
  Qed.
  Lemma ty_new (d : T) : ty d → TA (Alloc 0 1 1 (replicate ms (node_default nr d))).
  Proof.
    intros Hd. constructor; simpl; [by rewrite replicate_length|lia|done|done|]. apply Forall_replicate. split; [|split]; simpl; [by rewrite replicate_length| |done].
    by apply Forall_replicate.
  Qed.
  Lemma ty_init_again a : TA a → na_initialize a = Fail Panic a.
  Proof.
    intros Ha. unfold na_initialize, mbind, M_bind, mget. rewrite decide_False; [done|]. pose proof (ta_bump _ Ha). lia.
  Qed.
  Lemma ty_find_dir fuel a r i : TA a → ty i → rtyped (na_find_dir fuel a r i).
  Proof.
    intros Ha. revert i. induction fuel as [|fuel IH]; intros i Hi; simpl; [done|]. eapply rtyped_bind; [by apply ty_get_register|].
    intros c Hc. destruct (decide _) as [Hd0|Hd0]; [done|auto].
  Qed.
  Lemma ty_u32_add x y : rtyped (u32_add x y).
  Proof. unfold u32_add, u_add. destruct (decide _) as [Hd0|Hd0]; [done|]. destruct overflow_checks; [done|]. simpl. by apply N.mod_lt. Qed.
  Lemma keeps_al_step (o : al_op T) :
    match o with AlAdd v => ty v | AlRemove i => ty i | AlSet _ v _ => ty v | AlConnect i j _ _ => ty i ∧ ty j | AlWrite _ f => ∀ v, ty v → ty (f v) | _ => True end →
    keeps TA (al_step o).
  Proof.
    destruct o as [v|i|i v r|i r|i j ri rj|i j ri rj|i f]; simpl; intros Ho; (eapply keeps_typed_bind; [|intros ? ?; apply keeps_ret]).
    - by apply ty_add_node.
    - by apply ty_remove_node.
    - by apply ty_set_register.
    - by apply ty_clear_register.
    - destruct Ho. by apply ty_connect.
    - by apply ty_disconnect.
    - apply ty_get_mut. intros n (Hl & Hr & Ht). split; [done|]. split; [done|]. by apply Ho.
  Qed.
End alloc.

Global Hint Resolve ty_u32_add : ty.

(** ** Deque *)
Section deque.
  Context `{Profile} {T : Type} (ms : nat) (Hw : N.of_nat ms + 1 < W32).
  Local Instance TyT : Ty T := λ _, True.
  Record TD (d : deque T) : Prop := {
    td_al : TA 2 ms (dq_al d); td_head : ty (dq_head d); td_tail : ty (dq_tail d); td_seq : dq_seqno d < W64 }.
  Lemma td_on {A} `{Ty A} (m : M (alloc T) A) : typed (TA 2 ms) m → typed TD (dq_on m).
  Proof. apply typed_zoom; [by intros s []|intros s t []; by constructor]. Qed.
  Hint Resolve td_on td_al td_head td_tail ty_add_node ty_connect ty_remove_node ty_clear_register ty_get ty_get_register : ty.
  Lemma td_seqno : typed TD dq_bump_seq.
  Proof using ms.
    unfold dq_bump_seq. apply typed_mget. intros d Hd. intros d' Hd'. unfold mbind, M_bind, lift, gets.
    assert (match u64_add (dq_seqno d) 1 with Val x => x < W64 | Err _ => True end) as Hx.
    { unfold u64_add, u_add. destruct (decide _); [done|]. destruct overflow_checks; [done|]. by apply N.mod_lt. }
    destruct (u64_add (dq_seqno d) 1); [|done]. split; [|done]. destruct Hd'. by constructor.
  Qed.
  Hint Resolve td_seqno : ty.
  Lemma td_set_head i : ty i → typed TD (modify (set_head i)).
  Proof. intros Hi. apply typed_modify. intros s []. by constructor. Qed.
  Lemma td_set_tail i : ty i → typed TD (modify (set_tail i)).
  Proof. intros Hi. apply typed_modify. intros s []. by constructor. Qed.
  Hint Resolve td_set_head td_set_tail : ty.
  Lemma td_push_back v : typed TD (dq_push_back v).
  Proof using Hw. unfold dq_push_back. repeat ty_step. Qed.
  Lemma td_push_front v : typed TD (dq_push_front v).
  Proof using Hw. unfold dq_push_front. repeat ty_step. Qed.
  Lemma td_remove i : ty i → typed TD (dq_remove i).
  Proof using Hw. intros Hi. unfold dq_remove, dq_get_node, dq_get_prev, dq_get_next. repeat ty_step. Qed.
  Hint Resolve td_push_back td_push_front td_remove : ty.
  Lemma td_mut_step (J := λ st : deque T * dq_iter, TD st.1) : (∀ f, keeps J (dq_iter_mut_next f)) ∧ (∀ f, keeps J (dq_iter_mut_next_back f)).
  Proof using Hw.
    assert (∀ p f, keeps J (zoom fst (λ (d : deque T) st, (d, st.2)) (dq_on (na_raw_update p f)))) as Hz.
    { intros p f. apply (keeps_zoom J TD); [done|done|]. eapply typed_keeps. apply td_on. by apply ty_raw_update. }
    assert (∀ it : dq_iter, keeps J (modify (λ st, (st.1, it)))) as Hm.
    { intros it. eapply typed_keeps. apply typed_modify. by intros [] Hs. }
    split; intros f; unfold dq_iter_mut_next, dq_iter_mut_next_back; apply keeps_mget; intros [d it] Hs;
      (destruct (dqi_terminated it); [apply keeps_ret|]); (destruct (decide _) as [Hd|Hd]; [apply keeps_ret|]);
      (apply keeps_bind; [apply keeps_lift|intros p]); (apply keeps_bind; [apply Hm|intros _]);
      (apply keeps_bind; [apply Hz|intros v; apply keeps_ret]).
  Qed.
  Lemma td_iterate_mut sc : keeps TD (dq_iterate_mut sc).
  Proof using Hw.
    intros d Hd. unfold dq_iterate_mut. destruct td_mut_step as [H1 H2].
    pose proof (keeps_drive_mut (λ st : deque T * dq_iter, TD st.1) _ _ sc H1 H2 (d, dq_mk_iter d) Hd) as Hk.
    by destruct (drive_mut _ _ _ _) as [a [? ?]|e [? ?]].
  Qed.
  Lemma td_step o : keeps TD (dq_step o).
  Proof using Hw.
    destruct o; unfold dq_step, dq_pop_front, dq_pop_back; try solve [repeat ty_step].
    apply keeps_bind; [apply td_iterate_mut|intros; apply keeps_ret].
  Qed.
  Lemma td_new z : TD (dq_new ms z).
  Proof using Hw. constructor; simpl; [by apply ty_new|done..]. Qed.
  Theorem td_history z ops : TD (history dq_step ops (dq_new ms z)).2.
  Proof using Hw. apply keeps_history; [|apply td_new]. apply Forall_forall. intros o _. apply td_step. Qed.
  Lemma td_again d : TD d → dq_initialize d = Fail Panic d.
  Proof using Hw.
    intros Hd. unfold dq_initialize, dq_on, zoom. rewrite (ty_init_again 2 ms) by first [exact Hw|apply Hd]. by destruct d.
  Qed.
End deque.

(** ** HashTable *)
Section hash.
  Context `{Profile} {K V : Type} (keq : K → K → bool) (hash : K → N) (nb ms : nat) (Hw : N.of_nat ms + 1 < W32).
  Local Instance TyK : Ty K := λ _, True.
  Local Instance TyV : Ty V := λ _, True.
  Implicit Types h : htable K V.
  Record TH h : Prop := {
    th_al : TA 4 ms (ht_al h); th_len : length (buckets h) = nb; th_buckets : ty (buckets h) }.
  Lemma th_on {A} `{Ty A} (m : M (alloc (K * V)) A) : typed (TA 4 ms) m → typed TH (ht_on m).
  Proof. apply typed_zoom; [by intros s []|intros s t []; by constructor]. Qed.
  Lemma ty_kv (x : K * V) : ty x.
  Proof. by split. Qed.
  Hint Resolve th_on th_al ty_add_node ty_connect ty_remove_node ty_clear_register ty_get ty_get_register ty_kv : ty.
  Lemma th_bucket h b : TH h → rtyped (ht_bucket h b).
  Proof.
    intros Hh. unfold ht_bucket. destruct (lookupN _ _) eqn:E; [|done]. apply lookupN_Some in E.
    pose proof (th_buckets _ Hh) as Hb. unfold ty, Ty_list in Hb. rewrite Forall_lookup in Hb. by eapply Hb.
  Qed.
  Hint Resolve th_bucket : ty.
  Lemma th_set_bucket b x : ty x → typed TH (ht_set_bucket b x).
  Proof.
    intros Hx. unfold ht_set_bucket. eapply typed_bind; [apply typed_gets; intros; by apply th_bucket|intros _ _].
    apply typed_modify. intros h []. constructor; simpl; [done| |].
    - unfold insertN. by rewrite insert_length.
    - unfold insertN. by apply Forall_insert.
  Qed.
  Lemma th_set_node_value i v : typed TH (ht_set_node_value i v).
  Proof. apply th_on, ty_get_mut. intros n (Hl & Hr & Ht). split; [done|]. by split. Qed.
  Hint Resolve th_set_bucket th_set_node_value : ty.
  Lemma th_insert_loop fuel k v b hd c : ty hd → ty c → keeps TH (ht_insert_loop keq fuel k v b hd c).
  Proof using Hw.
    intros Hh. revert c. induction fuel as [|fuel IH]; intros c Hc; cbn [ht_insert_loop]; [apply keeps_fail|].
    unfold ht_insert_new_node, ht_get_node, ht_get_next. repeat ty_step.
  Qed.
  Lemma th_remove_loop fuel k b hd c : ty hd → ty c → keeps TH (ht_remove_loop keq fuel k b hd c).
  Proof using Hw.
    intros Hh. revert c. induction fuel as [|fuel IH]; intros c Hc; cbn [ht_remove_loop]; [apply keeps_fail|].
    unfold ht_get_node, ht_get_prev, ht_get_next. repeat ty_step.
  Qed.
  Lemma th_get_mut_loop fuel k f b hd c : ty hd → ty c → keeps TH (ht_get_mut_loop keq fuel k f b hd c).
  Proof using Hw.
    intros Hh. revert c. induction fuel as [|fuel IH]; intros c Hc; cbn [ht_get_mut_loop]; [apply keeps_fail|].
    unfold ht_get_node, ht_get_prev, ht_get_next. repeat ty_step.
  Qed.
  Hint Resolve th_insert_loop th_remove_loop th_get_mut_loop : ty.
  Lemma th_insert k v : keeps TH (ht_insert keq hash k v).
  Proof using Hw. unfold ht_insert. repeat ty_step. Qed.
  Lemma th_remove k : keeps TH (ht_remove keq hash k).
  Proof using Hw. unfold ht_remove. repeat ty_step. Qed.
  Lemma th_get_mut k f : keeps TH (ht_get_mut keq hash k f).
  Proof using Hw. unfold ht_get_mut. repeat ty_step. Qed.
  Lemma th_iterate_mut sc : keeps TH (ht_iterate_mut sc).
  Proof using Hw.
    set (J := λ st : htable K V * ht_iter, TH st.1).
    intros h Hh. unfold ht_iterate_mut. destruct (ht_mk_iter h) as [it|]; [|done].
    assert (keeps J (drive_mut ht_iter_mut_next ht_iter_mut_next_back sc)) as Hk.
    { apply keeps_drive_mut; intros f; [|apply keeps_ret]. unfold ht_iter_mut_next. apply keeps_mget. intros [h1 it1] Hs.
      destruct (decide _) as [Hd|Hd]; [|apply keeps_ret]. apply keeps_bind; [apply keeps_lift|intros [o it2]].
      assert (∀ it : ht_iter, keeps J (modify (λ st, (st.1, it)))) as Hm.
      { intros it'. eapply typed_keeps. apply typed_modify. by intros [] Hs'. }
      destruct o as [p|].
      - apply keeps_bind; [apply keeps_lift|intros nx]. apply keeps_bind; [apply Hm|intros _]. apply keeps_bind; [|intros v; apply keeps_ret].
        apply (keeps_zoom J TH); [done|done|]. eapply typed_keeps. apply th_on. by apply ty_raw_update.
      - apply keeps_bind; [apply Hm|intros _; apply keeps_ret]. }
    specialize (Hk (h, it) Hh). by destruct (drive_mut _ _ _ _) as [a [? ?]|e [? ?]].
  Qed.
  Lemma th_step o : keeps TH (ht_step keq hash o).
  Proof using Hw.
    destruct o as [k v|k|k|k f|k|k| | | |k|k f|n|fs]; unfold ht_step; try solve [repeat ty_step].
    - apply keeps_bind; [apply th_insert|intros; apply keeps_ret].
    - apply keeps_bind; [apply th_remove|intros; apply keeps_ret].
    - apply keeps_bind; [apply th_get_mut|intros; apply keeps_ret].
    - apply keeps_bind; [|intros; apply keeps_ret]. unfold ht_index_mut. apply keeps_bind; [apply th_get_mut|intros [v|]; [apply keeps_ret|apply keeps_fail]].
    - apply keeps_bind; [apply th_iterate_mut|intros; apply keeps_ret].
  Qed.
  Lemma th_new z t0 : ht_new nb ms z = Some t0 → TH t0.
  Proof using Hw.
    unfold ht_new. destruct (decide _) as [Hd|Hd]; [|done]. intros [= <-]. constructor; simpl; [by apply ty_new|by rewrite replicate_length|].
    by apply Forall_replicate.
  Qed.
  Theorem th_history z t0 ops : ht_new nb ms z = Some t0 → TH (history (ht_step keq hash) ops t0).2.
  Proof using Hw. intros Ht. apply keeps_history; [|by eapply th_new]. apply Forall_forall. intros o _. apply th_step. Qed.
  Lemma th_again h : TH h → ht_initialize h = Fail Panic h.
  Proof using Hw.
    intros Hd. unfold ht_initialize, ht_on, zoom. rewrite (ty_init_again 4 ms) by first [exact Hw|apply Hd]. by destruct h.
  Qed.
End hash.
