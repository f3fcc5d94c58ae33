(** * Data independence: related inputs give related results

    Every function of the models, run on two structures that differ only in the payloads they hold ([RelSpec]), does the same
    thing: it returns the same indices and related payloads, fails in the same way, and leaves related structures. *)
From Verif Require Import IterProof.
From Verif Require Export RelSpec.

Definition mrel {S S' A A'} (RS : S → S' → Prop) (R : A → A' → Prop) (m : M S A) (m' : M S' A') : Prop :=
  ∀ s s', RS s s' → match m s, m' s' with
                    | Ret a t, Ret a' t' => R a a' ∧ RS t t'
                    | Fail e t, Fail e' t' => e = e' ∧ RS t t'
                    | _, _ => False end.

Lemma rrel_bind {A A' B B'} (R : A → A' → Prop) (Q : B → B' → Prop) r r' f f' :
  rrel R r r' → (∀ a a', R a a' → rrel Q (f a) (f' a')) → rrel Q (r ≫= f) (r' ≫= f').
Proof. unfold rrel, mbind, res_bind. destruct r, r'; try done. intros Ha Hf. by apply Hf. Qed.
Lemma rrel_val {A A'} (R : A → A' → Prop) a a' : R a a' → rrel R (Val a) (Val a').
Proof. done. Qed.
Lemma rrel_err {A A'} (R : A → A' → Prop) e : rrel R (Err e) (Err e).
Proof. done. Qed.
Lemma rrel_refl {A} (r : res A) : rrel eq r r.
Proof. destruct r; done. Qed.
Section mrel.
  Context {S S' : Type} (RS : S → S' → Prop).
  Lemma mrel_bind {A A' B B'} (R : A → A' → Prop) (Q : B → B' → Prop) (m : M S A) (m' : M S' A') (f : A → M S B) (f' : A' → M S' B') :
    mrel RS R m m' → (∀ a a', R a a' → mrel RS Q (f a) (f' a')) → mrel RS Q (m ≫= f) (m' ≫= f').
  Proof.
    intros Hm Hf s s' Hs. specialize (Hm _ _ Hs). unfold mbind, M_bind. destruct (m s), (m' s'); try done.
    destruct Hm as [Ha Ht]. by apply (Hf _ _ Ha).
  Qed.
  Lemma mrel_ret {A A'} (R : A → A' → Prop) (a : A) (a' : A') : R a a' → mrel RS R (mret a : M S A) (mret a' : M S' A').
  Proof. intros Ha s s' Hs. done. Qed.
  Lemma mrel_fail {A A'} (R : A → A' → Prop) e : mrel RS R (mfail e) (mfail e).
  Proof. intros s s' Hs. done. Qed.
  Lemma mrel_mget : mrel RS RS mget mget.
  Proof. intros s s' Hs. done. Qed.
  Lemma mrel_modify f f' : (∀ s s', RS s s' → RS (f s) (f' s')) → mrel RS eq (modify f) (modify f').
  Proof. intros Hf s s' Hs. split; [done|]. by apply Hf. Qed.
  Lemma mrel_gets {A A'} (R : A → A' → Prop) (f : S → res A) (f' : S' → res A') :
    (∀ s s', RS s s' → rrel R (f s) (f' s')) → mrel RS R (gets f) (gets f').
  Proof. intros Hf s s' Hs. specialize (Hf _ _ Hs). unfold gets. destruct (f s), (f' s'); try done. Qed.
  Lemma mrel_lift {A A'} (R : A → A' → Prop) (r : res A) (r' : res A') : rrel R r r' → mrel RS R (lift r) (lift r').
  Proof. intros Hr. apply mrel_gets. done. Qed.
  Lemma mrel_massert b : mrel RS eq (massert b) (massert b).
  Proof. intros s s' Hs. destruct b; done. Qed.
  Lemma mrel_zoom {T T' A A'} (RT : T → T' → Prop) (R : A → A' → Prop) g g' u u' (m : M T A) (m' : M T' A') :
    (∀ s s', RS s s' → RT (g s) (g' s')) → (∀ t t' s s', RT t t' → RS s s' → RS (u t s) (u' t' s')) →
    mrel RT R m m' → mrel RS R (zoom g u m) (zoom g' u' m').
  Proof.
    intros Hg Hu Hm s s' Hs. specialize (Hm _ _ (Hg _ _ Hs)). unfold zoom.
    destruct (m (g s)), (m' (g' s')); try done; destruct Hm as [Ha Ht]; split; auto.
  Qed.
End mrel.
Lemma mrel_zfst {S S' I A A'} (RS : S → S' → Prop) (R : A → A' → Prop) (m : M S A) (m' : M S' A') :
  mrel RS R m m' → mrel (prel RS (@eq I)) R (zoom fst (λ d st, (d, st.2)) m) (zoom fst (λ d st, (d, st.2)) m').
Proof.
  intros Hm [s i] [s' i'] [Hs Hi]. cbn in Hs, Hi. subst i'. specialize (Hm _ _ Hs). unfold zoom. cbn [fst snd].
  destruct (m s), (m' s'); try done; destruct Hm as [Ha Ht]; by repeat split.
Qed.

Lemma rrel_drive {IT A A'} (R : A → A' → Prop) (n b : IT → res (option A * IT)) (n' b' : IT → res (option A' * IT)) sc it :
  (∀ it, rrel (prel (orel R) eq) (n it) (n' it)) → (∀ it, rrel (prel (orel R) eq) (b it) (b' it)) →
  rrel (Forall2 (orel R)) (drive n b sc it) (drive n' b' sc it).
Proof.
  intros Hn Hb. revert it. induction sc as [|e sc IH]; intros it; cbn [drive]; [apply rrel_val; constructor|].
  eapply rrel_bind; [destruct e; [apply Hn|apply Hb]|]. intros [o j] [o' j'] [Ho Hj]. cbn in Ho, Hj. subst j'.
  eapply rrel_bind; [apply IH|]. intros l l' Hl. apply rrel_val. by constructor.
Qed.
Lemma mrel_drive_mut {S S' A A' V V'} (RS : S → S' → Prop) (R : A → A' → Prop) (RV : V → V' → Prop) n b n' b' sc sc' :
  (∀ f f', frel RV f f' → mrel RS (orel R) (n f) (n' f')) → (∀ f f', frel RV f f' → mrel RS (orel R) (b f) (b' f')) →
  Forall2 (prel eq (frel RV)) sc sc' → mrel RS (Forall2 (orel R)) (drive_mut n b sc) (drive_mut n' b' sc').
Proof.
  intros Hn Hb Hsc. induction Hsc as [|[e f] [e' f'] sc sc' [He Hf] _ IH]; cbn [drive_mut]; [apply mrel_ret; constructor|].
  cbn in He, Hf. subst e'. eapply mrel_bind; [destruct e; [by apply Hn|by apply Hb]|]. intros o o' Ho.
  eapply mrel_bind; [apply IH|]. intros l l' Hl. apply mrel_ret. by constructor.
Qed.
Lemma mrel_session {S S' I A A' V V'} (RS : S → S' → Prop) (R : A → A' → Prop) (RV : V → V' → Prop)
    (n b : (V → V) → M (S * I) (option A)) (n' b' : (V' → V') → M (S' * I) (option A')) sc sc' s s' (i : I) :
  (∀ f f', frel RV f f' → mrel (prel RS eq) (orel R) (n f) (n' f')) → (∀ f f', frel RV f f' → mrel (prel RS eq) (orel R) (b f) (b' f')) →
  Forall2 (prel eq (frel RV)) sc sc' → RS s s' →
  match match drive_mut n b sc (s, i) with Ret a (d, _) => Ret a d | Fail e (d, _) => Fail e d end,
        match drive_mut n' b' sc' (s', i) with Ret a (d, _) => Ret a d | Fail e (d, _) => Fail e d end with
  | Ret a t, Ret a' t' => Forall2 (orel R) a a' ∧ RS t t'
  | Fail e t, Fail e' t' => e = e' ∧ RS t t'
  | _, _ => False end.
Proof.
  intros Hn Hb Hsc Hs. pose proof (mrel_drive_mut _ _ _ _ _ _ _ _ _ Hn Hb Hsc (s, i) (s', i) (conj Hs eq_refl)) as Hd.
  destruct (drive_mut n b sc (s, i)) as [a [d j]|e [d j]], (drive_mut n' b' sc' (s', i)) as [a' [d' j']|e' [d' j']]; try done;
    destruct Hd as [Ha [Hd _]]; done.
Qed.
Lemma no_index_rel {A A'} (R : A → A' → Prop) l l' : Forall2 (orel (prel (@eq N) R)) l l' → Forall2 (orel R) (no_index l) (no_index l').
Proof.
  unfold no_index. induction 1 as [|o o' l l' Ho _ IH]; cbn; constructor; [|done].
  destruct o as [[i x]|], o' as [[i' x']|]; cbn in *; try done. by destruct Ho.
Qed.
Lemma fwd_rel {A A'} (R : A → A' → Prop) fs fs' :
  Forall2 R fs fs' → Forall2 (prel eq R) (map (λ f, (Fwd, f)) fs) (map (λ f, (Fwd, f)) fs').
Proof. induction 1; cbn; constructor; [by split|done]. Qed.
Lemma history_rel {S S' O O' A A'} (RS : S → S' → Prop) (RO : O → O' → Prop) (R : A → A' → Prop) step step' ops ops' s s' :
  (∀ o o', RO o o' → mrel RS R (step o) (step' o')) → Forall2 RO ops ops' → RS s s' →
  Forall2 (rrel R) (history step ops s).1 (history step' ops' s').1 ∧ RS (history step ops s).2 (history step' ops' s').2.
Proof.
  intros Hst Ho. revert s s'. induction Ho as [|o o' ops ops' Ho _ IH]; intros s s' Hs; cbn [history]; [by split; [constructor|]|].
  specialize (Hst _ _ Ho _ _ Hs). unfold call. destruct (step o s) as [a t|e t], (step' o' s') as [a' t'|e' t']; try done.
  - destruct Hst as [Ha Ht]. specialize (IH _ _ Ht). destruct (history step ops t), (history step' ops' t'). cbn in *.
    split; [constructor; [done|apply IH]|apply IH].
  - destruct Hst as [He Ht]. specialize (IH _ _ Ht). destruct (history step ops t), (history step' ops' t'). cbn in *.
    split; [constructor; [done|apply IH]|apply IH].
Qed.

(** ** Reading and writing related states *)
Lemma Forall2_lookupN {A A'} (R : A → A' → Prop) l l' j : Forall2 R l l' → orel R (lookupN l j) (lookupN l' j).
Proof.
  intros Hl. unfold lookupN. rewrite <- (Forall2_length _ _ _ Hl).
  destruct (decide (j < N.of_nat (length l))); [|done].
  destruct (Forall2_lookup R l l') as [Hf _]. specialize (Hf Hl (N.to_nat j)).
  destruct Hf as [x y Hxy|]; done.
Qed.
Lemma Forall2_insertN {A A'} (R : A → A' → Prop) l l' j x x' : Forall2 R l l' → R x x' → Forall2 R (insertN l j x) (insertN l' j x').
Proof. intros Hl Hx. unfold insertN. by apply Forall2_insert. Qed.
Section acc.
  Context {T T' : Type} {R : T → T' → Prop} {a : alloc T} {a' : alloc T'}.
  Lemma alr_size : alr R a a' → size a = size a'.
  Proof. by intros (?&?&?&?). Qed.
  Lemma alr_bump : alr R a a' → bump_index a = bump_index a'.
  Proof. by intros (?&?&?&?). Qed.
  Lemma alr_free : alr R a a' → free_list_head a = free_list_head a'.
  Proof. by intros (?&?&?&?). Qed.
  Lemma alr_nodes : alr R a a' → Forall2 (nodr R) (nodes a) (nodes a').
  Proof. by intros (?&?&?&?). Qed.
  Lemma alr_length : alr R a a' → length (nodes a) = length (nodes a').
  Proof. intros (?&?&?&Hn). by apply Forall2_length in Hn. Qed.
  Lemma alr_max : alr R a a' → MAX_SIZE a = MAX_SIZE a'.
  Proof. intros Ha. unfold MAX_SIZE, lengthN. by rewrite (alr_length Ha). Qed.
  Lemma alr_set_size x : alr R a a' → alr R (set_size x a) (set_size x a').
  Proof. by intros (?&?&?&?). Qed.
  Lemma alr_set_bump x : alr R a a' → alr R (set_bump x a) (set_bump x a').
  Proof. by intros (?&?&?&?). Qed.
  Lemma alr_set_fhead x : alr R a a' → alr R (set_fhead x a) (set_fhead x a').
  Proof. by intros (?&?&?&?). Qed.
  Lemma alr_insert j n n' : alr R a a' → nodr R n n' → alr R (set_nodes (insertN (nodes a) j n) a) (set_nodes (insertN (nodes a') j n') a').
  Proof. intros (?&?&?&?) ?. repeat split; try done. by apply Forall2_insertN. Qed.
  Lemma alr_lookup j : alr R a a' → orel (nodr R) (lookupN (nodes a) j) (lookupN (nodes a') j).
  Proof. intros (?&?&?&?). by apply Forall2_lookupN. Qed.
  Lemma alr_get j e : alr R a a' →
    rrel (nodr R) match lookupN (nodes a) j with Some n => Val n | None => Err e end match lookupN (nodes a') j with Some n => Val n | None => Err e end.
  Proof. intros Ha. pose proof (alr_lookup j Ha). destruct (lookupN (nodes a) j), (lookupN (nodes a') j); done. Qed.
End acc.
Lemma alr_fuel {K V K' V'} {R : K * V → K' * V' → Prop} {a a'} : alr R a a' → ti_fuel a = ti_fuel a'.
Proof. intros Ha. unfold ti_fuel. by rewrite (alr_length Ha). Qed.
Section acc2.
  Context {T T' : Type} {R : T → T' → Prop} {d : deque T} {d' : deque T'}.
  Lemma dqr_head : dqr R d d' → dq_head d = dq_head d'.
  Proof. by intros (?&?&?&?). Qed.
  Lemma dqr_tail : dqr R d d' → dq_tail d = dq_tail d'.
  Proof. by intros (?&?&?&?). Qed.
  Lemma dqr_seqno : dqr R d d' → dq_seqno d = dq_seqno d'.
  Proof. by intros (?&?&?&?). Qed.
  Lemma dqr_al : dqr R d d' → alr R (dq_al d) (dq_al d').
  Proof. by intros (?&?&?&?). Qed.
  Lemma dqr_len : dqr R d d' → dq_len d = dq_len d'.
  Proof. intros H. apply (alr_size (dqr_al H)). Qed.
  Lemma dqr_empty : dqr R d d' → dq_is_empty d = dq_is_empty d'.
  Proof. intros H. unfold dq_is_empty. by rewrite (dqr_len H). Qed.
  Lemma dqr_iter : dqr R d d' → dq_mk_iter d = dq_mk_iter d'.
  Proof. intros H. unfold dq_mk_iter. by rewrite (dqr_head H), (dqr_tail H). Qed.
  Lemma dqr_set_head x : dqr R d d' → dqr R (set_head x d) (set_head x d').
  Proof. by intros (?&?&?&?). Qed.
  Lemma dqr_set_tail x : dqr R d d' → dqr R (set_tail x d) (set_tail x d').
  Proof. by intros (?&?&?&?). Qed.
  Lemma dqr_set_seqno x : dqr R d d' → dqr R (set_seqno x d) (set_seqno x d').
  Proof. by intros (?&?&?&?). Qed.
End acc2.
Section acc3.
  Context {V V' : Type} {R : V → V' → Prop} {t : critbit V} {t' : critbit V'}.
  Lemma cbr_root : cbr R t t' → cb_root t = cb_root t'.
  Proof. by intros (?&?&?). Qed.
  Lemma cbr_nodes : cbr R t t' → cb_nodes t = cb_nodes t'.
  Proof. by intros (?&?&?). Qed.
  Lemma cbr_leaves : cbr R t t' → alr R (cb_leaves t) (cb_leaves t').
  Proof. by intros (?&?&?). Qed.
  Lemma cbr_len : cbr R t t' → cb_len t = cb_len t'.
  Proof. intros H. apply (alr_size (cbr_leaves H)). Qed.
  Lemma cbr_size : cbr R t t' → size (cb_leaves t) = size (cb_leaves t').
  Proof. intros H. apply (alr_size (cbr_leaves H)). Qed.
  Lemma cbr_empty : cbr R t t' → cb_is_empty t = cb_is_empty t'.
  Proof. intros H. unfold cb_is_empty. by rewrite (cbr_len H). Qed.
  Lemma cbr_cap : cbr R t t' → cb_capacity t = cb_capacity t'.
  Proof. intros H. apply (alr_max (cbr_leaves H)). Qed.
  Lemma cbr_fuel : cbr R t t' → cb_fuel t = cb_fuel t'.
  Proof. intros H. unfold cb_fuel. by rewrite (cbr_nodes H). Qed.
  Lemma cbr_iter : cbr R t t' → cb_iter t = cb_iter t'.
  Proof. intros H. unfold cb_iter. by rewrite (cbr_root H). Qed.
  Lemma cbr_set_root x : cbr R t t' → cbr R (set_croot x t) (set_croot x t').
  Proof. by intros (?&?&?). Qed.
End acc3.
Section acc4.
  Context {K K' V V' : Type} {RK : K → K' → Prop} {RV : V → V' → Prop}.
  Section rb.
    Context {t : rbt K V} {t' : rbt K' V'}.
    Lemma rbr_root : rbr RK RV t t' → rb_root t = rb_root t'.
    Proof. by intros (?&?). Qed.
    Lemma rbr_al : rbr RK RV t t' → alr (prel RK RV) (rb_al t) (rb_al t').
    Proof. by intros (?&?). Qed.
    Lemma rbr_len : rbr RK RV t t' → rb_len t = rb_len t'.
    Proof. intros H. apply (alr_size (rbr_al H)). Qed.
    Lemma rbr_cap : rbr RK RV t t' → rb_capacity t = rb_capacity t'.
    Proof. intros H. apply (alr_max (rbr_al H)). Qed.
    Lemma rbr_fuel : rbr RK RV t t' → rb_fuel t = rb_fuel t'.
    Proof. intros H. unfold rb_fuel. by rewrite (alr_length (rbr_al H)). Qed.
    Lemma rbr_set_root x : rbr RK RV t t' → rbr RK RV (set_rroot x t) (set_rroot x t').
    Proof. by intros (?&?). Qed.
    Lemma rbr_iter : rbr RK RV t t' → rb_iter t = rb_iter t'.
    Proof. intros H. unfold rb_iter. by rewrite (rbr_root H). Qed.
    Lemma rbr_is_root i : rbr RK RV t t' → rb_is_root t i = rb_is_root t' i.
    Proof. intros H. unfold rb_is_root. by rewrite (rbr_root H). Qed.
  End rb.
  Section av.
    Context {t : avlt K V} {t' : avlt K' V'}.
    Lemma avr_root : avr RK RV t t' → av_root t = av_root t'.
    Proof. by intros (?&?). Qed.
    Lemma avr_al : avr RK RV t t' → alr (prel RK RV) (av_al t) (av_al t').
    Proof. by intros (?&?). Qed.
    Lemma avr_len : avr RK RV t t' → av_len t = av_len t'.
    Proof. intros H. apply (alr_size (avr_al H)). Qed.
    Lemma avr_cap : avr RK RV t t' → av_capacity t = av_capacity t'.
    Proof. intros H. apply (alr_max (avr_al H)). Qed.
    Lemma avr_fuel : avr RK RV t t' → av_fuel t = av_fuel t'.
    Proof. intros H. unfold av_fuel. by rewrite (alr_length (avr_al H)). Qed.
    Lemma avr_set_root x : avr RK RV t t' → avr RK RV (set_aroot x t) (set_aroot x t').
    Proof. by intros (?&?). Qed.
    Lemma avr_iter : avr RK RV t t' → av_iter t = av_iter t'.
    Proof. intros H. unfold av_iter. by rewrite (avr_root H). Qed.
  End av.
  Section ht.
    Context {t : htable K V} {t' : htable K' V'}.
    Lemma htr_root : htr RK RV t t' → buckets t = buckets t'.
    Proof. by intros (?&?). Qed.
    Lemma htr_al : htr RK RV t t' → alr (prel RK RV) (ht_al t) (ht_al t').
    Proof. by intros (?&?). Qed.
    Lemma htr_len : htr RK RV t t' → ht_len t = ht_len t'.
    Proof. intros H. apply (alr_size (htr_al H)). Qed.
    Lemma htr_cap : htr RK RV t t' → ht_capacity t = ht_capacity t'.
    Proof. intros H. apply (alr_max (htr_al H)). Qed.
    Lemma htr_fuel : htr RK RV t t' → ht_fuel t = ht_fuel t'.
    Proof. intros H. unfold ht_fuel. by rewrite (alr_length (htr_al H)). Qed.
    Lemma htr_set_root x : htr RK RV t t' → htr RK RV (set_buckets x t) (set_buckets x t').
    Proof. by intros (?&?). Qed.
  End ht.
End acc4.

(** Turn the reads of the second state into reads of the first *)
Ltac relrw :=
  repeat match goal with
  | H : alr _ ?a ?a' |- context [size ?a'] => rewrite <- (alr_size H)
  | H : alr _ ?a ?a' |- context [bump_index ?a'] => rewrite <- (alr_bump H)
  | H : alr _ ?a ?a' |- context [free_list_head ?a'] => rewrite <- (alr_free H)
  | H : alr _ ?a ?a' |- context [MAX_SIZE ?a'] => rewrite <- (alr_max H)
  | H : alr _ ?a ?a' |- context [ti_fuel ?a'] => rewrite <- (alr_fuel H)
  | H : dqr _ ?a ?a' |- context [dq_head ?a'] => rewrite <- (dqr_head H)
  | H : dqr _ ?a ?a' |- context [dq_tail ?a'] => rewrite <- (dqr_tail H)
  | H : dqr _ ?a ?a' |- context [dq_seqno ?a'] => rewrite <- (dqr_seqno H)
  | H : dqr _ ?a ?a' |- context [dq_len ?a'] => rewrite <- (dqr_len H)
  | H : dqr _ ?a ?a' |- context [dq_is_empty ?a'] => rewrite <- (dqr_empty H)
  | H : dqr _ ?a ?a' |- context [dq_mk_iter ?a'] => rewrite <- (dqr_iter H)
  | H : cbr _ ?a ?a' |- context [cb_root ?a'] => rewrite <- (cbr_root H)
  | H : cbr _ ?a ?a' |- context [cb_nodes ?a'] => rewrite <- (cbr_nodes H)
  | H : cbr _ ?a ?a' |- context [cb_len ?a'] => rewrite <- (cbr_len H)
  | H : cbr _ ?a ?a' |- context [size (cb_leaves ?a')] => rewrite <- (cbr_size H)
  | H : cbr _ ?a ?a' |- context [cb_is_empty ?a'] => rewrite <- (cbr_empty H)
  | H : cbr _ ?a ?a' |- context [cb_capacity ?a'] => rewrite <- (cbr_cap H)
  | H : cbr _ ?a ?a' |- context [cb_fuel ?a'] => rewrite <- (cbr_fuel H)
  | H : cbr _ ?a ?a' |- context [cb_iter ?a'] => rewrite <- (cbr_iter H)
  | H : rbr _ _ ?a ?a' |- context [rb_root ?a'] => rewrite <- (rbr_root H)
  | H : rbr _ _ ?a ?a' |- context [rb_len ?a'] => rewrite <- (rbr_len H)
  | H : rbr _ _ ?a ?a' |- context [rb_capacity ?a'] => rewrite <- (rbr_cap H)
  | H : rbr _ _ ?a ?a' |- context [rb_fuel ?a'] => rewrite <- (rbr_fuel H)
  | H : rbr _ _ ?a ?a' |- context [rb_iter ?a'] => rewrite <- (rbr_iter H)
  | H : rbr _ _ ?a ?a' |- context [rb_is_root ?a' ?i] => rewrite <- (rbr_is_root i H)
  | H : avr _ _ ?a ?a' |- context [av_root ?a'] => rewrite <- (avr_root H)
  | H : avr _ _ ?a ?a' |- context [av_len ?a'] => rewrite <- (avr_len H)
  | H : avr _ _ ?a ?a' |- context [av_capacity ?a'] => rewrite <- (avr_cap H)
  | H : avr _ _ ?a ?a' |- context [av_fuel ?a'] => rewrite <- (avr_fuel H)
  | H : avr _ _ ?a ?a' |- context [av_iter ?a'] => rewrite <- (avr_iter H)
  | H : htr _ _ ?a ?a' |- context [buckets ?a'] => rewrite <- (htr_root H)
  | H : htr _ _ ?a ?a' |- context [ht_len ?a'] => rewrite <- (htr_len H)
  | H : htr _ _ ?a ?a' |- context [ht_capacity ?a'] => rewrite <- (htr_cap H)
  | H : htr _ _ ?a ?a' |- context [ht_fuel ?a'] => rewrite <- (htr_fuel H)
  end.
(** Break up what is known about a pair of related values *)
Ltac rdes H :=
  lazymatch type of H with
  | ?x = ?y => first [subst y | subst x | idtac]
  | prel _ _ ?x ?y =>
      try (is_var x; destruct x); try (is_var y; destruct y); let H2 := fresh "HR" in destruct H as [H H2]; cbn [fst snd] in H, H2; rdes H; rdes H2
  | orel _ ?x ?y => try (is_var x; destruct x); try (is_var y; destruct y); try (exfalso; exact H); cbn [orel] in H; rdes H
  | nodr _ ?x ?y =>
      try (is_var x; destruct x); try (is_var y; destruct y); let H2 := fresh "HR" in destruct H as [H H2]; cbn [regs val] in H, H2; rdes H; rdes H2
  | _ => idtac
  end.
Create HintDb rel.
Ltac rsolve :=
  relrw;
  repeat first
    [ reflexivity
    | assumption
    | exact I
    | match goal with
      | |- orel _ (Some _) (Some _) => cbn [orel]
      | |- orel _ None None => exact I
      | |- prel _ _ _ _ => split; cbn [fst snd]
      | |- nodr _ _ _ => split; cbn [regs val]
      | H : frel ?R ?f ?f' |- ?R (?f _) (?f' _) => apply H
      | H : frel ?R ?f ?f' |- ?R (?f _) (?f' _) => apply H
      | H : nodr _ ?n ?n' |- regs ?n = regs ?n' => exact (proj1 H)
      | H : nodr _ ?n ?n' |- _ (val ?n) (val ?n') => exact (proj2 H)
      | H : nodr _ ?n ?n' |- _ (val ?n).1 (val ?n').1 => exact (proj1 (proj2 H))
      | H : nodr _ ?n ?n' |- _ (val ?n).2 (val ?n').2 => exact (proj2 (proj2 H))
      | |- al_out_rel _ _ _ => progress cbn [al_out_rel]
      | |- dq_out_rel _ _ _ => progress cbn [dq_out_rel]
      | |- om_out_rel _ _ _ _ => progress cbn [om_out_rel]
      | |- hm_out_rel _ _ _ _ => progress cbn [hm_out_rel]
      | |- Forall2 _ (no_index _) _ => apply no_index_rel
      | H : dqr _ ?a ?b |- alr _ (dq_al ?a) (dq_al ?b) => apply (dqr_al H)
      | H : cbr _ ?a ?b |- alr _ (cb_leaves ?a) (cb_leaves ?b) => apply (cbr_leaves H)
      | H : rbr _ _ ?a ?b |- alr _ (rb_al ?a) (rb_al ?b) => apply (rbr_al H)
      | H : avr _ _ ?a ?b |- alr _ (av_al ?a) (av_al ?b) => apply (avr_al H)
      | H : htr _ _ ?a ?b |- alr _ (ht_al ?a) (ht_al ?b) => apply (htr_al H)
      | |- alr _ (set_size _ _) _ => apply alr_set_size
      | |- alr _ (set_bump _ _) _ => apply alr_set_bump
      | |- alr _ (set_fhead _ _) _ => apply alr_set_fhead
      | |- alr _ (set_nodes (insertN _ _ _) _) _ => apply alr_insert
      | |- dqr _ (set_head _ _) _ => apply dqr_set_head
      | |- dqr _ (set_tail _ _) _ => apply dqr_set_tail
      | |- dqr _ (set_seqno _ _) _ => apply dqr_set_seqno
      | |- cbr _ (set_croot _ _) _ => apply cbr_set_root
      | |- rbr _ _ (set_rroot _ _) _ => apply rbr_set_root
      | |- avr _ _ (set_aroot _ _) _ => apply avr_set_root
      | |- htr _ _ (set_buckets _ _) _ => apply htr_set_root
      | |- frel _ _ _ => let x := fresh "x" in let y := fresh "y" in let H := fresh "HR" in intros x y H; rdes H; cbn [fst snd]
      end ].
Global Hint Extern 1 (nodr _ _ _) => solve [rsolve] : rel.
Global Hint Extern 1 (prel _ _ _ _) => solve [rsolve] : rel.
Global Hint Extern 1 (orel _ _ _) => solve [rsolve] : rel.
Global Hint Extern 1 (alr _ _ _) => solve [rsolve] : rel.
Global Hint Extern 1 (frel _ _ _) => solve [rsolve] : rel.
Global Hint Extern 2 (rrel _ (Val _) (Val _)) => apply rrel_val; solve [rsolve] : rel.
Global Hint Resolve mrel_zfst fwd_rel : rel.
Ltac rleaf := eauto 2 with rel; eauto 4 with rel.
Ltac rstep rec :=
  cbv zeta; cbn [fst snd val regs];
  match goal with
  | |- rrel _ (Val _) _ => apply rrel_val; solve [rsolve]
  | |- rrel _ (Err _) _ => apply rrel_err
  | |- mrel _ _ (mret _) _ => apply mrel_ret; solve [rsolve]
  | |- mrel _ _ (mfail _) _ => apply mrel_fail
  | |- mrel _ _ mget _ => apply mrel_mget
  | |- mrel _ _ (modify _) _ => apply mrel_modify; let H := fresh "HR" in intros ? ? H; rdes H; cbn [fst snd]; solve [rsolve]
  | |- mrel _ _ (massert _) _ => apply mrel_massert
  | |- rrel _ (_ ≫= _) _ =>
      first [refine (rrel_bind eq _ _ _ _ _ _ _)|eapply rrel_bind]; [rec ()|let H := fresh "HR" in intros ? ? H; cbv beta in H; rdes H; relrw]
  | |- mrel _ _ (_ ≫= _) _ =>
      first [refine (mrel_bind _ eq _ _ _ _ _ _ _)|eapply mrel_bind]; [rec ()|let H := fresh "HR" in intros ? ? H; cbv beta in H; rdes H; relrw]
  | |- mrel _ _ (gets _) _ => apply mrel_gets; let H := fresh "HR" in intros ? ? H; rdes H; cbn [fst snd]; relrw
  | |- mrel _ _ (lift _) _ => apply mrel_lift
  | H : alr _ ?a ?b |- rrel _ (match lookupN (nodes ?a) ?j with Some n => Val n | None => Err ?e end) _ => apply (alr_get j e H)
  | H : alr _ ?a ?b |- rrel _ (match lookupN (nodes ?a) ?j with _ => _ end) _ =>
      let H2 := fresh "HR" in pose proof (alr_lookup j H) as H2;
      destruct (lookupN (nodes a) j), (lookupN (nodes b) j); cbn [orel] in H2; try (exfalso; exact H2); rdes H2
  | |- rrel _ (match ?x with _ => _ end) (match ?x with _ => _ end) => destruct x
  | |- mrel _ _ (match ?x with _ => _ end) (match ?x with _ => _ end) => destruct x
  | |- rrel eq ?x ?x => apply rrel_refl
  | |- rrel _ _ _ => solve [rleaf]
  | |- mrel _ _ _ _ => solve [rleaf]
  end.
(** ** alloc *)
Section alloc.
  Context `{Profile} {T T' : Type} (R : T → T' → Prop).
  Ltac rkey := fail.
  Ltac rgo := let rec go _ := repeat (cbn [fst snd val regs]; relrw; first [rkey|rstep go]) in go ().
  Lemma l_na_initialize : mrel (alr R) eq na_initialize na_initialize.
  Proof. unfold na_initialize. rgo. Qed.
  Lemma l_node_get_free n n' : nodr R n n' → rrel eq (node_get_free_list_register n) (node_get_free_list_register n').
  Proof. intros [Hr Hv]. unfold node_get_free_list_register. rewrite Hr. apply rrel_refl. Qed.
  Lemma l_node_get_register r n n' : nodr R n n' → rrel eq (node_get_register r n) (node_get_register r n').
  Proof. intros [Hr Hv]. unfold node_get_register. rewrite Hr. apply rrel_refl. Qed.
  Lemma l_node_set_free v n n' : nodr R n n' → rrel (nodr R) (node_set_free_list_register v n) (node_set_free_list_register v n').
  Proof. intros [Hr Hv]. unfold node_set_free_list_register. rewrite Hr. destruct (regs n' !! 0%nat); [|done]. by split. Qed.
  Lemma l_node_set_register r v n n' : nodr R n n' → rrel (nodr R) (node_set_register r v n) (node_set_register r v n').
  Proof. intros [Hr Hv]. unfold node_set_register. rewrite Hr. destruct (lookupN (regs n') r); [|done]. by split. Qed.
  Lemma l_node_set_value v v' n n' : R v v' → nodr R n n' → rrel (nodr R) (node_set_value v n) (node_set_value v' n').
  Proof. intros ? [Hr Hv]. by split. Qed.
  Hint Resolve l_na_initialize l_node_get_free l_node_get_register l_node_set_free l_node_set_register l_node_set_value : rel.
  Lemma l_na_get (a : alloc T) (a' : alloc T') (i : N) :
    alr R a a' → rrel (nodr R) (na_get a i) (na_get a' i).
  Proof. intros HP0. unfold na_get. relrw. rgo. Qed.
  Hint Resolve l_na_get : rel.
  Lemma l_na_get_mut (i : N) (f : node T → res (node T)) (f' : node T' → res (node T')) :
    (∀ n n', nodr R n n' → rrel (nodr R) (f n) (f' n')) → mrel (alr R) eq (na_get_mut i f) (na_get_mut i f').
  Proof. intros HP0. unfold na_get_mut. relrw. rgo. Qed.
  Hint Resolve l_na_get_mut : rel.
  Lemma l_na_add_node (v : T) (v' : T') :
    R v v' → mrel (alr R) eq (na_add_node v) (na_add_node v').
  Proof. intros HP0. unfold na_add_node. relrw. rgo. Qed.
  Hint Resolve l_na_add_node : rel.
  Lemma l_na_remove_node (i : N) :
    mrel (alr R) (orel R) (na_remove_node i) (na_remove_node i).
  Proof. unfold na_remove_node. relrw. rgo. Qed.
  Hint Resolve l_na_remove_node : rel.
  Lemma l_na_clear_register (i : N) (r : N) :
    mrel (alr R) eq (na_clear_register i r) (na_clear_register i r).
  Proof. unfold na_clear_register. relrw. rgo. Qed.
  Hint Resolve l_na_clear_register : rel.
  Lemma l_na_disconnect (i : N) (j : N) (r : N) (s : N) :
    mrel (alr R) eq (na_disconnect i j r s) (na_disconnect i j r s).
  Proof. unfold na_disconnect. relrw. rgo. Qed.
  Hint Resolve l_na_disconnect : rel.
  Lemma l_na_connect (i : N) (j : N) (r : N) (s : N) :
    mrel (alr R) eq (na_connect i j r s) (na_connect i j r s).
  Proof. unfold na_connect. relrw. rgo. Qed.
  Hint Resolve l_na_connect : rel.
  Lemma l_na_set_register (i : N) (v : N) (r : N) :
    mrel (alr R) eq (na_set_register i v r) (na_set_register i v r).
  Proof. unfold na_set_register. relrw. rgo. Qed.
  Hint Resolve l_na_set_register : rel.
  Lemma l_na_get_register (a : alloc T) (a' : alloc T') (i : N) (r : N) :
    alr R a a' → rrel eq (na_get_register a i r) (na_get_register a' i r).
  Proof. intros HP0. unfold na_get_register. relrw. rgo. Qed.
  Hint Resolve l_na_get_register : rel.
  Lemma l_na_raw_update (i : N) (f : T → T) (f' : T' → T') :
    frel R f f' → mrel (alr R) R (na_raw_update i f) (na_raw_update i f').
  Proof. intros HP0. unfold na_raw_update. relrw. rgo. Qed.
  Hint Resolve l_na_raw_update : rel.
  Lemma l_na_find_dir (fuel : nat) (a : alloc T) (a' : alloc T') (r : N) (i : N) :
    alr R a a' → rrel eq (na_find_dir fuel a r i) (na_find_dir fuel a' r i).
  Proof. revert a a' r i. induction fuel as [|fuel IH]; intros a a' r i HP0; cbn [na_find_dir]; relrw; rgo. Qed.
  Hint Resolve l_na_find_dir : rel.
  Lemma l_al_step (o : al_op T) (o' : al_op T') :
    al_op_rel R o o' → mrel (alr R) (al_out_rel R) (al_step o) (al_step o').
  Proof. intros HP0. destruct o, o'; try (exfalso; exact HP0); cbn in HP0; repeat match goal with H : _ ∧ _ |- _ => destruct H end; subst; unfold al_step; rgo. Qed.
  Hint Resolve l_al_step : rel.
  Lemma l_dq_on {A A'} (Q : A → A' → Prop) (m : M (alloc T) A) (m' : M (alloc T') A') : mrel (alr R) Q m m' → mrel (dqr R) Q (dq_on m) (dq_on m').
  Proof.
    intros Hm. unfold dq_on. refine (mrel_zoom _ _ _ _ _ _ _ _ _ _ _ Hm).
    - intros s s' Hs. rsolve.
    - intros a a' s s' Ha Hs. unfold set_dal. destruct Hs as (Hs&?&?&_). repeat split; try done; apply Ha.
  Qed.
  Hint Resolve l_dq_on : rel.
  Lemma l_dq_get_node (d : deque T) (d' : deque T') (i : N) :
    dqr R d d' → rrel R (dq_get_node d i) (dq_get_node d' i).
  Proof. intros HP0. unfold dq_get_node. relrw. rgo. Qed.
  Hint Resolve l_dq_get_node : rel.
  Lemma l_dq_front (d : deque T) (d' : deque T') :
    dqr R d d' → rrel (orel R) (dq_front d) (dq_front d').
  Proof. intros HP0. unfold dq_front. relrw. rgo. Qed.
  Hint Resolve l_dq_front : rel.
  Lemma l_dq_back (d : deque T) (d' : deque T') :
    dqr R d d' → rrel (orel R) (dq_back d) (dq_back d').
  Proof. intros HP0. unfold dq_back. relrw. rgo. Qed.
  Hint Resolve l_dq_back : rel.
  Lemma l_dq_get_next (d : deque T) (d' : deque T') (i : N) :
    dqr R d d' → rrel eq (dq_get_next d i) (dq_get_next d' i).
  Proof. intros HP0. unfold dq_get_next. relrw. rgo. Qed.
  Hint Resolve l_dq_get_next : rel.
  Lemma l_dq_get_prev (d : deque T) (d' : deque T') (i : N) :
    dqr R d d' → rrel eq (dq_get_prev d i) (dq_get_prev d' i).
  Proof. intros HP0. unfold dq_get_prev. relrw. rgo. Qed.
  Hint Resolve l_dq_get_prev : rel.
  Lemma l_dq_bump_seq :
    mrel (dqr R) eq (dq_bump_seq) (dq_bump_seq).
  Proof. unfold dq_bump_seq. relrw. rgo. Qed.
  Hint Resolve l_dq_bump_seq : rel.
  Lemma l_dq_push_back (v : T) (v' : T') :
    R v v' → mrel (dqr R) eq (dq_push_back v) (dq_push_back v').
  Proof. intros HP0. unfold dq_push_back. relrw. rgo. Qed.
  Hint Resolve l_dq_push_back : rel.
  Lemma l_dq_push_front (v : T) (v' : T') :
    R v v' → mrel (dqr R) eq (dq_push_front v) (dq_push_front v').
  Proof. intros HP0. unfold dq_push_front. relrw. rgo. Qed.
  Hint Resolve l_dq_push_front : rel.
  Lemma l_dq_remove (i : N) :
    mrel (dqr R) (orel R) (dq_remove i) (dq_remove i).
  Proof. unfold dq_remove. relrw. rgo. Qed.
  Hint Resolve l_dq_remove : rel.
  Lemma l_dq_pop_front :
    mrel (dqr R) (orel R) (dq_pop_front) (dq_pop_front).
  Proof. unfold dq_pop_front. relrw. rgo. Qed.
  Hint Resolve l_dq_pop_front : rel.
  Lemma l_dq_pop_back :
    mrel (dqr R) (orel R) (dq_pop_back) (dq_pop_back).
  Proof. unfold dq_pop_back. relrw. rgo. Qed.
  Hint Resolve l_dq_pop_back : rel.
  Lemma l_dq_iter_next (d : deque T) (d' : deque T') (it : dq_iter) :
    dqr R d d' → rrel (prel (orel (prel eq R)) eq) (dq_iter_next d it) (dq_iter_next d' it).
  Proof. intros HP0. unfold dq_iter_next. relrw. rgo. Qed.
  Hint Resolve l_dq_iter_next : rel.
  Lemma l_dq_iter_next_back (d : deque T) (d' : deque T') (it : dq_iter) :
    dqr R d d' → rrel (prel (orel (prel eq R)) eq) (dq_iter_next_back d it) (dq_iter_next_back d' it).
  Proof. intros HP0. unfold dq_iter_next_back. relrw. rgo. Qed.
  Hint Resolve l_dq_iter_next_back : rel.
  Lemma l_dq_iter_mut_next (f : T → T) (f' : T' → T') :
    frel R f f' → mrel (prel (dqr R) eq) (orel (prel eq R)) (dq_iter_mut_next f) (dq_iter_mut_next f').
  Proof. intros HP0. unfold dq_iter_mut_next. relrw. rgo. Qed.
  Hint Resolve l_dq_iter_mut_next : rel.
  Lemma l_dq_iter_mut_next_back (f : T → T) (f' : T' → T') :
    frel R f f' → mrel (prel (dqr R) eq) (orel (prel eq R)) (dq_iter_mut_next_back f) (dq_iter_mut_next_back f').
  Proof. intros HP0. unfold dq_iter_mut_next_back. relrw. rgo. Qed.
  Hint Resolve l_dq_iter_mut_next_back : rel.
  Lemma l_dq_iterate (sc : list fb) (d : deque T) (d' : deque T') :
    dqr R d d' → rrel (Forall2 (orel (prel eq R))) (dq_iterate sc d) (dq_iterate sc d').
  Proof. intros HP0. unfold dq_iterate. relrw. apply rrel_drive; intros; rleaf. Qed.
  Hint Resolve l_dq_iterate : rel.
  Lemma l_dq_iterate_mut (sc : list (fb * (T → T))) (sc' : list (fb * (T' → T'))) :
    Forall2 (prel eq (frel R)) sc sc' → mrel (dqr R) (Forall2 (orel (prel eq R))) (dq_iterate_mut sc) (dq_iterate_mut sc').
  Proof. intros HP0. intros s s' Hs. unfold dq_iterate_mut. relrw. apply (mrel_session _ _ R); [intros; by apply l_dq_iter_mut_next|intros; by apply l_dq_iter_mut_next_back|done|done]. Qed.
  Hint Resolve l_dq_iterate_mut : rel.
  Lemma l_dq_step (o : dq_op T) (o' : dq_op T') :
    dq_op_rel R o o' → mrel (dqr R) (dq_out_rel R) (dq_step o) (dq_step o').
  Proof. intros HP0. destruct o, o'; try (exfalso; exact HP0); cbn in HP0; repeat match goal with H : _ ∧ _ |- _ => destruct H end; subst; unfold dq_step; rgo. Qed.
  Hint Resolve l_dq_step : rel.
End alloc.
Global Hint Resolve l_na_get l_na_get_mut l_na_add_node l_na_remove_node l_na_clear_register l_na_disconnect l_na_connect l_na_set_register l_na_get_register l_na_raw_update l_na_find_dir l_al_step l_dq_get_node l_dq_front l_dq_back l_dq_get_next l_dq_get_prev l_dq_bump_seq l_dq_push_back l_dq_push_front l_dq_remove l_dq_pop_front l_dq_pop_back l_dq_iter_next l_dq_iter_next_back l_dq_iter_mut_next l_dq_iter_mut_next_back l_dq_iterate l_dq_iterate_mut l_dq_step l_na_initialize l_node_get_free l_node_get_register l_node_set_free l_node_set_register l_node_set_value : rel.
(** ** walk *)
Section walk.
  Context `{Profile} {K K' V V' : Type} (RK : K → K' → Prop) (RV : V → V' → Prop) (cmp : K → K → comparison) (cmp' : K' → K' → comparison)
    (Hcmp : ∀ a a' b b', RK a a' → RK b b' → cmp a b = cmp' a' b').
  Ltac rkey := match goal with HA : RK ?a ?a', HB : RK ?b ?b' |- context [cmp ?a ?b] => rewrite (Hcmp a a' b b' HA HB) end.
  Ltac rgo := let rec go _ := repeat (cbn [fst snd val regs]; relrw; first [rkey|rstep go]) in go ().
  Lemma l_bst_walk (fuel : nat) (a : alloc (K * V)) (a' : alloc (K' * V')) (k : K) (k' : K') (i : N) :
    alr (prel RK RV) a a' → RK k k' → rrel eq (bst_walk cmp fuel a k i) (bst_walk cmp' fuel a' k' i).
  Proof. revert a a' k k' i. induction fuel as [|fuel IH]; intros a a' k k' i HP0 HP1; cbn [bst_walk]; relrw; rgo. Qed.
  Hint Resolve l_bst_walk : rel.
  Lemma l_bst_get_addr (n : nat) (a : alloc (K * V)) (a' : alloc (K' * V')) (r : N) (k : K) (k' : K') :
    alr (prel RK RV) a a' → RK k k' → rrel eq (bst_get_addr cmp n a r k) (bst_get_addr cmp' n a' r k').
  Proof. intros HP0 HP1. unfold bst_get_addr. relrw. rgo. Qed.
  Hint Resolve l_bst_get_addr : rel.
  Lemma l_ti_fwd (fuel : nat) (a : alloc (K * V)) (a' : alloc (K' * V')) (it : titer) :
    alr (prel RK RV) a a' → rrel eq (ti_fwd fuel a it) (ti_fwd fuel a' it).
  Proof. revert a a' it. induction fuel as [|fuel IH]; intros a a' it HP0; cbn [ti_fwd]; relrw; rgo. Qed.
  Hint Resolve l_ti_fwd : rel.
  Lemma l_ti_rev (fuel : nat) (a : alloc (K * V)) (a' : alloc (K' * V')) (it : titer) :
    alr (prel RK RV) a a' → rrel eq (ti_rev fuel a it) (ti_rev fuel a' it).
  Proof. revert a a' it. induction fuel as [|fuel IH]; intros a a' it HP0; cbn [ti_rev]; relrw; rgo. Qed.
  Hint Resolve l_ti_rev : rel.
  Lemma l_ti_next (a : alloc (K * V)) (a' : alloc (K' * V')) (it : titer) :
    alr (prel RK RV) a a' → rrel (prel (orel (prel RK RV)) eq) (ti_next a it) (ti_next a' it).
  Proof. intros HP0. unfold ti_next. relrw. rgo. Qed.
  Hint Resolve l_ti_next : rel.
  Lemma l_ti_next_back (a : alloc (K * V)) (a' : alloc (K' * V')) (it : titer) :
    alr (prel RK RV) a a' → rrel (prel (orel (prel RK RV)) eq) (ti_next_back a it) (ti_next_back a' it).
  Proof. intros HP0. unfold ti_next_back. relrw. rgo. Qed.
  Hint Resolve l_ti_next_back : rel.
  Lemma l_ti_mut_next (f : V → V) (f' : V' → V') :
    frel RV f f' → mrel (prel (alr (prel RK RV)) eq) (orel (prel eq (prel RK RV))) (ti_mut_next f) (ti_mut_next f').
  Proof. intros HP0. unfold ti_mut_next. relrw. rgo. Qed.
  Hint Resolve l_ti_mut_next : rel.
  Lemma l_ti_mut_next_back (f : V → V) (f' : V' → V') :
    frel RV f f' → mrel (prel (alr (prel RK RV)) eq) (orel (prel eq (prel RK RV))) (ti_mut_next_back f) (ti_mut_next_back f').
  Proof. intros HP0. unfold ti_mut_next_back. relrw. rgo. Qed.
  Hint Resolve l_ti_mut_next_back : rel.
End walk.
Global Hint Resolve l_bst_walk l_bst_get_addr l_ti_fwd l_ti_rev l_ti_next l_ti_next_back l_ti_mut_next l_ti_mut_next_back : rel.
(** ** rb *)
Section rb.
  Context `{Profile} {K K' V V' : Type} (RK : K → K' → Prop) (RV : V → V' → Prop) (cmp : K → K → comparison) (cmp' : K' → K' → comparison)
    (Hcmp : ∀ a a' b b', RK a a' → RK b b' → cmp a b = cmp' a' b').
  Ltac rkey := match goal with HA : RK ?a ?a', HB : RK ?b ?b' |- context [cmp ?a ?b] => rewrite (Hcmp a a' b b' HA HB) end.
  Ltac rgo := let rec go _ := repeat (cbn [fst snd val regs]; relrw; first [rkey|rstep go]) in go ().
  Lemma l_rb_on {A A'} (Q : A → A' → Prop) (m : M (alloc (K * V)) A) (m' : M (alloc (K' * V')) A') : mrel (alr (prel RK RV)) Q m m' → mrel (rbr RK RV) Q (rb_on m) (rb_on m').
  Proof.
    intros Hm. unfold rb_on. refine (mrel_zoom _ _ _ _ _ _ _ _ _ _ _ Hm).
    - intros s s' Hs. rsolve.
    - intros a a' s s' Ha Hs. unfold set_ral. destruct Hs as (Hs&_). repeat split; try done; apply Ha.
  Qed.
  Hint Resolve l_rb_on : rel.
  Lemma l_rb_on_iter {A A'} (Q : A → A' → Prop) (m : M (alloc (K * V) * titer) A) (m' : M (alloc (K' * V') * titer) A') :
    mrel (prel (alr (prel RK RV)) eq) Q m m' → mrel (prel (rbr RK RV) eq) Q (rb_on_iter m) (rb_on_iter m').
  Proof.
    intros Hm. unfold rb_on_iter. refine (mrel_zoom _ _ _ _ _ _ _ _ _ _ _ Hm).
    - intros [s i] [s' i'] [Hs Hi]. cbn in Hs, Hi. subst i'. rsolve.
    - intros [a j] [a' j'] [s i] [s' i'] [Ha Hj] [Hs Hi]. cbn in *. subst. unfold set_ral. split; [|done]. cbn. split; [apply Hs|apply Ha].
  Qed.
  Hint Resolve l_rb_on_iter : rel.
  Lemma l_rb_get_node (t : rbt K V) (t' : rbt K' V') (i : N) :
    rbr RK RV t t' → rrel (prel RK RV) (rb_get_node t i) (rb_get_node t' i).
  Proof. intros HP0. unfold rb_get_node. relrw. rgo. Qed.
  Hint Resolve l_rb_get_node : rel.
  Lemma l_rb_set_node_value (i : N) (v : V) (v' : V') :
    RV v v' → mrel (rbr RK RV) eq (rb_set_node_value i v) (rb_set_node_value i v').
  Proof. intros HP0. unfold rb_set_node_value. relrw. rgo. Qed.
  Hint Resolve l_rb_set_node_value : rel.
  Lemma l_rb_color_red (i : N) :
    mrel (rbr RK RV) eq (rb_color_red i) (rb_color_red i).
  Proof. unfold rb_color_red. relrw. rgo. Qed.
  Hint Resolve l_rb_color_red : rel.
  Lemma l_rb_color_black (i : N) :
    mrel (rbr RK RV) eq (rb_color_black i) (rb_color_black i).
  Proof. unfold rb_color_black. relrw. rgo. Qed.
  Hint Resolve l_rb_color_black : rel.
  Lemma l_rb_color_node (i : N) (c : N) :
    mrel (rbr RK RV) eq (rb_color_node i c) (rb_color_node i c).
  Proof. unfold rb_color_node. relrw. rgo. Qed.
  Hint Resolve l_rb_color_node : rel.
  Lemma l_rb_is_red (t : rbt K V) (t' : rbt K' V') (i : N) :
    rbr RK RV t t' → rrel eq (rb_is_red t i) (rb_is_red t' i).
  Proof. intros HP0. unfold rb_is_red. relrw. rgo. Qed.
  Hint Resolve l_rb_is_red : rel.
  Lemma l_rb_is_black (t : rbt K V) (t' : rbt K' V') (i : N) :
    rbr RK RV t t' → rrel eq (rb_is_black t i) (rb_is_black t' i).
  Proof. intros HP0. unfold rb_is_black. relrw. rgo. Qed.
  Hint Resolve l_rb_is_black : rel.
  Lemma l_rb_get_child (t : rbt K V) (t' : rbt K' V') (i : N) (d : N) :
    rbr RK RV t t' → rrel eq (rb_get_child t i d) (rb_get_child t' i d).
  Proof. intros HP0. unfold rb_get_child. relrw. rgo. Qed.
  Hint Resolve l_rb_get_child : rel.
  Lemma l_rb_get_left (t : rbt K V) (t' : rbt K' V') (i : N) :
    rbr RK RV t t' → rrel eq (rb_get_left t i) (rb_get_left t' i).
  Proof. intros HP0. unfold rb_get_left. relrw. rgo. Qed.
  Hint Resolve l_rb_get_left : rel.
  Lemma l_rb_get_right (t : rbt K V) (t' : rbt K' V') (i : N) :
    rbr RK RV t t' → rrel eq (rb_get_right t i) (rb_get_right t' i).
  Proof. intros HP0. unfold rb_get_right. relrw. rgo. Qed.
  Hint Resolve l_rb_get_right : rel.
  Lemma l_rb_get_color (t : rbt K V) (t' : rbt K' V') (i : N) :
    rbr RK RV t t' → rrel eq (rb_get_color t i) (rb_get_color t' i).
  Proof. intros HP0. unfold rb_get_color. relrw. rgo. Qed.
  Hint Resolve l_rb_get_color : rel.
  Lemma l_rb_get_parent (t : rbt K V) (t' : rbt K' V') (i : N) :
    rbr RK RV t t' → rrel eq (rb_get_parent t i) (rb_get_parent t' i).
  Proof. intros HP0. unfold rb_get_parent. relrw. rgo. Qed.
  Hint Resolve l_rb_get_parent : rel.
  Lemma l_rb_get_dir (t : rbt K V) (t' : rbt K' V') (i : N) (d : N) :
    rbr RK RV t t' → rrel eq (rb_get_dir t i d) (rb_get_dir t' i d).
  Proof. intros HP0. unfold rb_get_dir. relrw. rgo. Qed.
  Hint Resolve l_rb_get_dir : rel.
  Lemma l_rb_is_leaf (t : rbt K V) (t' : rbt K' V') (i : N) :
    rbr RK RV t t' → rrel eq (rb_is_leaf t i) (rb_is_leaf t' i).
  Proof. intros HP0. unfold rb_is_leaf. relrw. rgo. Qed.
  Hint Resolve l_rb_is_leaf : rel.
  Lemma l_rb_remove_allocator_node (i : N) :
    mrel (rbr RK RV) eq (rb_remove_allocator_node i) (rb_remove_allocator_node i).
  Proof. unfold rb_remove_allocator_node. relrw. rgo. Qed.
  Hint Resolve l_rb_remove_allocator_node : rel.
  Lemma l_rb_connect (p : N) (c : N) (d : N) :
    mrel (rbr RK RV) eq (rb_connect p c d) (rb_connect p c d).
  Proof. unfold rb_connect. relrw. rgo. Qed.
  Hint Resolve l_rb_connect : rel.
  Lemma l_rb_child_dir (t : rbt K V) (t' : rbt K' V') (p : N) (c : N) :
    rbr RK RV t t' → rrel eq (rb_child_dir t p c) (rb_child_dir t' p c).
  Proof. intros HP0. unfold rb_child_dir. relrw. rgo. Qed.
  Hint Resolve l_rb_child_dir : rel.
  Lemma l_rb_rotate_dir (p : N) (d : N) :
    mrel (rbr RK RV) eq (rb_rotate_dir p d) (rb_rotate_dir p d).
  Proof. unfold rb_rotate_dir. relrw. rgo. Qed.
  Hint Resolve l_rb_rotate_dir : rel.
  Lemma l_rb_fix_insert_loop (fuel : nat) (i : N) :
    mrel (rbr RK RV) eq (rb_fix_insert_loop fuel i) (rb_fix_insert_loop fuel i).
  Proof. revert i. induction fuel as [|fuel IH]; intros i ; cbn [rb_fix_insert_loop]; rgo. Qed.
  Hint Resolve l_rb_fix_insert_loop : rel.
  Lemma l_rb_fix_insert (i : N) :
    mrel (rbr RK RV) eq (rb_fix_insert i) (rb_fix_insert i).
  Proof. unfold rb_fix_insert. relrw. rgo. Qed.
  Hint Resolve l_rb_fix_insert : rel.
  Lemma l_rb_insert_loop (fuel : nat) (k : K) (k' : K') (v : V) (v' : V') (p : N) :
    RK k k' → RV v v' → mrel (rbr RK RV) eq (rb_insert_loop cmp fuel k v p) (rb_insert_loop cmp' fuel k' v' p).
  Proof. revert k k' v v' p. induction fuel as [|fuel IH]; intros k k' v v' p HP0 HP1; cbn [rb_insert_loop]; relrw; rgo. Qed.
  Hint Resolve l_rb_insert_loop : rel.
  Lemma l_rb_insert (k : K) (k' : K') (v : V) (v' : V') :
    RK k k' → RV v v' → mrel (rbr RK RV) eq (rb_insert cmp k v) (rb_insert cmp' k' v').
  Proof. intros HP0 HP1. unfold rb_insert. relrw. rgo. Qed.
  Hint Resolve l_rb_insert : rel.
  Lemma l_rb_transplant (i : N) (j : N) :
    mrel (rbr RK RV) eq (rb_transplant i j) (rb_transplant i j).
  Proof. unfold rb_transplant. relrw. rgo. Qed.
  Hint Resolve l_rb_transplant : rel.
  Lemma l_rb_fix_remove_loop (fuel : nat) (p : N) (d : N) :
    mrel (rbr RK RV) eq (rb_fix_remove_loop fuel p d) (rb_fix_remove_loop fuel p d).
  Proof. revert p d. induction fuel as [|fuel IH]; intros p d ; cbn [rb_fix_remove_loop]; rgo. Qed.
  Hint Resolve l_rb_fix_remove_loop : rel.
  Lemma l_rb_fix_remove (i : N) (o : option (N * N)) :
    mrel (rbr RK RV) eq (rb_fix_remove i o) (rb_fix_remove i o).
  Proof. unfold rb_fix_remove. relrw. rgo. Qed.
  Hint Resolve l_rb_fix_remove : rel.
  Lemma l_rb_find_min (t : rbt K V) (t' : rbt K' V') (i : N) :
    rbr RK RV t t' → rrel eq (rb_find_min t i) (rb_find_min t' i).
  Proof. intros HP0. unfold rb_find_min. relrw. rgo. Qed.
  Hint Resolve l_rb_find_min : rel.
  Lemma l_rb_find_max (t : rbt K V) (t' : rbt K' V') (i : N) :
    rbr RK RV t t' → rrel eq (rb_find_max t i) (rb_find_max t' i).
  Proof. intros HP0. unfold rb_find_max. relrw. rgo. Qed.
  Hint Resolve l_rb_find_max : rel.
  Lemma l_rb_remove_tree_node (i : N) :
    mrel (rbr RK RV) eq (rb_remove_tree_node i) (rb_remove_tree_node i).
  Proof. unfold rb_remove_tree_node. relrw. rgo. Qed.
  Hint Resolve l_rb_remove_tree_node : rel.
  Lemma l_rb_remove_loop (fuel : nat) (k : K) (k' : K') (i : N) :
    RK k k' → mrel (rbr RK RV) (orel RV) (rb_remove_loop cmp fuel k i) (rb_remove_loop cmp' fuel k' i).
  Proof. revert k k' i. induction fuel as [|fuel IH]; intros k k' i HP0; cbn [rb_remove_loop]; relrw; rgo. Qed.
  Hint Resolve l_rb_remove_loop : rel.
  Lemma l_rb_remove (k : K) (k' : K') :
    RK k k' → mrel (rbr RK RV) (orel RV) (rb_remove cmp k) (rb_remove cmp' k').
  Proof. intros HP0. unfold rb_remove. relrw. rgo. Qed.
  Hint Resolve l_rb_remove : rel.
  Lemma l_rb_remove_root :
    mrel (rbr RK RV) (orel (prel RK RV)) (rb_remove_root) (rb_remove_root).
  Proof. unfold rb_remove_root. relrw. rgo. Qed.
  Hint Resolve l_rb_remove_root : rel.
  Lemma l_rb_get_addr (t : rbt K V) (t' : rbt K' V') (k : K) (k' : K') :
    rbr RK RV t t' → RK k k' → rrel eq (rb_get_addr cmp t k) (rb_get_addr cmp' t' k').
  Proof. intros HP0 HP1. unfold rb_get_addr. relrw. rgo. Qed.
  Hint Resolve l_rb_get_addr : rel.
  Lemma l_rb_get (t : rbt K V) (t' : rbt K' V') (k : K) (k' : K') :
    rbr RK RV t t' → RK k k' → rrel (orel RV) (rb_get cmp t k) (rb_get cmp' t' k').
  Proof. intros HP0 HP1. unfold rb_get. relrw. rgo. Qed.
  Hint Resolve l_rb_get : rel.
  Lemma l_rb_contains (t : rbt K V) (t' : rbt K' V') (k : K) (k' : K') :
    rbr RK RV t t' → RK k k' → rrel eq (rb_contains cmp t k) (rb_contains cmp' t' k').
  Proof. intros HP0 HP1. unfold rb_contains. relrw. rgo. Qed.
  Hint Resolve l_rb_contains : rel.
  Lemma l_rb_get_mut (k : K) (k' : K') (f : V → V) (f' : V' → V') :
    RK k k' → frel RV f f' → mrel (rbr RK RV) (orel RV) (rb_get_mut cmp k f) (rb_get_mut cmp' k' f').
  Proof. intros HP0 HP1. unfold rb_get_mut. relrw. rgo. Qed.
  Hint Resolve l_rb_get_mut : rel.
  Lemma l_rb_get_min_index (t : rbt K V) (t' : rbt K' V') :
    rbr RK RV t t' → rrel eq (rb_get_min_index t) (rb_get_min_index t').
  Proof. intros HP0. unfold rb_get_min_index. relrw. rgo. Qed.
  Hint Resolve l_rb_get_min_index : rel.
  Lemma l_rb_get_max_index (t : rbt K V) (t' : rbt K' V') :
    rbr RK RV t t' → rrel eq (rb_get_max_index t) (rb_get_max_index t').
  Proof. intros HP0. unfold rb_get_max_index. relrw. rgo. Qed.
  Hint Resolve l_rb_get_max_index : rel.
  Lemma l_rb_get_min (t : rbt K V) (t' : rbt K' V') :
    rbr RK RV t t' → rrel (orel (prel RK RV)) (rb_get_min t) (rb_get_min t').
  Proof. intros HP0. unfold rb_get_min. relrw. rgo. Qed.
  Hint Resolve l_rb_get_min : rel.
  Lemma l_rb_get_max (t : rbt K V) (t' : rbt K' V') :
    rbr RK RV t t' → rrel (orel (prel RK RV)) (rb_get_max t) (rb_get_max t').
  Proof. intros HP0. unfold rb_get_max. relrw. rgo. Qed.
  Hint Resolve l_rb_get_max : rel.
  Lemma l_rb_index (t : rbt K V) (t' : rbt K' V') (k : K) (k' : K') :
    rbr RK RV t t' → RK k k' → rrel RV (rb_index cmp t k) (rb_index cmp' t' k').
  Proof. intros HP0 HP1. unfold rb_index. relrw. rgo. Qed.
  Hint Resolve l_rb_index : rel.
  Lemma l_rb_index_mut (k : K) (k' : K') (f : V → V) (f' : V' → V') :
    RK k k' → frel RV f f' → mrel (rbr RK RV) RV (rb_index_mut cmp k f) (rb_index_mut cmp' k' f').
  Proof. intros HP0 HP1. unfold rb_index_mut. relrw. rgo. Qed.
  Hint Resolve l_rb_index_mut : rel.
  Lemma l_rb_iter_next (t : rbt K V) (t' : rbt K' V') (it : titer) :
    rbr RK RV t t' → rrel (prel (orel (prel RK RV)) eq) (rb_iter_next t it) (rb_iter_next t' it).
  Proof. intros HP0. unfold rb_iter_next. relrw. rgo. Qed.
  Hint Resolve l_rb_iter_next : rel.
  Lemma l_rb_iter_next_back (t : rbt K V) (t' : rbt K' V') (it : titer) :
    rbr RK RV t t' → rrel (prel (orel (prel RK RV)) eq) (rb_iter_next_back t it) (rb_iter_next_back t' it).
  Proof. intros HP0. unfold rb_iter_next_back. relrw. rgo. Qed.
  Hint Resolve l_rb_iter_next_back : rel.
  Lemma l_rb_iter_mut_next (f : V → V) (f' : V' → V') :
    frel RV f f' → mrel (prel (rbr RK RV) eq) (orel (prel eq (prel RK RV))) (rb_iter_mut_next f) (rb_iter_mut_next f').
  Proof. intros HP0. unfold rb_iter_mut_next. relrw. rgo. Qed.
  Hint Resolve l_rb_iter_mut_next : rel.
  Lemma l_rb_iter_mut_next_back (f : V → V) (f' : V' → V') :
    frel RV f f' → mrel (prel (rbr RK RV) eq) (orel (prel eq (prel RK RV))) (rb_iter_mut_next_back f) (rb_iter_mut_next_back f').
  Proof. intros HP0. unfold rb_iter_mut_next_back. relrw. rgo. Qed.
  Hint Resolve l_rb_iter_mut_next_back : rel.
  Lemma l_rb_iterate (t : rbt K V) (t' : rbt K' V') (sc : list fb) :
    rbr RK RV t t' → rrel (Forall2 (orel (prel RK RV))) (rb_iterate t sc) (rb_iterate t' sc).
  Proof. intros HP0. unfold rb_iterate. relrw. apply rrel_drive; intros; rleaf. Qed.
  Hint Resolve l_rb_iterate : rel.
  Lemma l_rb_iterate_mut (sc : list (fb * (V → V))) (sc' : list (fb * (V' → V'))) :
    Forall2 (prel eq (frel RV)) sc sc' → mrel (rbr RK RV) (Forall2 (orel (prel eq (prel RK RV)))) (rb_iterate_mut sc) (rb_iterate_mut sc').
  Proof. intros HP0. intros s s' Hs. unfold rb_iterate_mut. relrw. apply (mrel_session _ _ RV); [intros; by apply l_rb_iter_mut_next|intros; by apply l_rb_iter_mut_next_back|done|done]. Qed.
  Hint Resolve l_rb_iterate_mut : rel.
  Lemma l_rb_valid_loop (fuel : nat) (t : rbt K V) (t' : rbt K' V') (st : list (N * N)) (c : list N) :
    rbr RK RV t t' → rrel eq (rb_valid_loop fuel t st c) (rb_valid_loop fuel t' st c).
  Proof. revert t t' st c. induction fuel as [|fuel IH]; intros t t' st c HP0; cbn [rb_valid_loop]; relrw; rgo. Qed.
  Hint Resolve l_rb_valid_loop : rel.
  Lemma l_rb_is_valid (t : rbt K V) (t' : rbt K' V') :
    rbr RK RV t t' → rrel eq (rb_is_valid t) (rb_is_valid t').
  Proof. intros HP0. unfold rb_is_valid. relrw. rgo. Qed.
  Hint Resolve l_rb_is_valid : rel.
  Lemma l_rb_om (o : om_op K V) (o' : om_op K' V') : om_op_rel RK RV o o' → mrel (rbr RK RV) (om_out_rel RK RV) (om_step (rb_api cmp ) o) (om_step (rb_api cmp' ) o').
  Proof.
    intros HP0. destruct o, o'; try (exfalso; exact HP0); cbn in HP0; repeat match goal with H : _ ∧ _ |- _ => destruct H end; subst;
      unfold om_step, rb_api; cbn [a_insert a_remove a_get a_get_mut a_contains a_len a_capacity a_min a_max a_index a_index_mut a_iter a_iter_mut]; rgo.
  Qed.
  Lemma l_rb_step o o' : orel (om_op_rel RK RV) o o' → mrel (rbr RK RV) (om_out_rel RK RV) (rb_step cmp o) (rb_step cmp' o').
  Proof. intros HP0. destruct o as [o|], o' as [o'|]; try (exfalso; exact HP0); unfold rb_step; [by apply l_rb_om|rgo]. Qed.
End rb.
(** ** avl *)
Section avl.
  Context `{Profile} {K K' V V' : Type} (RK : K → K' → Prop) (RV : V → V' → Prop) (pcmp : K → K → option comparison) (pcmp' : K' → K' → option comparison)
    (Hcmp : ∀ a a' b b', RK a a' → RK b b' → po_cmp pcmp a b = po_cmp pcmp' a' b').
  Lemma l_av_cmp a a' b b' : RK a a' → RK b b' → av_cmp pcmp a b = av_cmp pcmp' a' b'.
  Proof. intros Ha Hb. exact (Hcmp a a' b b' Ha Hb). Qed.
  Hint Resolve l_av_cmp : rel.
  Ltac rkey := match goal with HA : RK ?a ?a', HB : RK ?b ?b' |- context [av_cmp pcmp ?a ?b] => rewrite (l_av_cmp a a' b b' HA HB) end.
  Ltac rgo := let rec go _ := repeat (cbn [fst snd val regs]; relrw; first [rkey|rstep go]) in go ().
  Lemma l_av_on {A A'} (Q : A → A' → Prop) (m : M (alloc (K * V)) A) (m' : M (alloc (K' * V')) A') : mrel (alr (prel RK RV)) Q m m' → mrel (avr RK RV) Q (av_on m) (av_on m').
  Proof.
    intros Hm. unfold av_on. refine (mrel_zoom _ _ _ _ _ _ _ _ _ _ _ Hm).
    - intros s s' Hs. rsolve.
    - intros a a' s s' Ha Hs. unfold set_aal. destruct Hs as (Hs&_). repeat split; try done; apply Ha.
  Qed.
  Hint Resolve l_av_on : rel.
  Lemma l_av_on_iter {A A'} (Q : A → A' → Prop) (m : M (alloc (K * V) * titer) A) (m' : M (alloc (K' * V') * titer) A') :
    mrel (prel (alr (prel RK RV)) eq) Q m m' → mrel (prel (avr RK RV) eq) Q (av_on_iter m) (av_on_iter m').
  Proof.
    intros Hm. unfold av_on_iter. refine (mrel_zoom _ _ _ _ _ _ _ _ _ _ _ Hm).
    - intros [s i] [s' i'] [Hs Hi]. cbn in Hs, Hi. subst i'. rsolve.
    - intros [a j] [a' j'] [s i] [s' i'] [Ha Hj] [Hs Hi]. cbn in *. subst. unfold set_aal. split; [|done]. cbn. split; [apply Hs|apply Ha].
  Qed.
  Hint Resolve l_av_on_iter : rel.
  Lemma l_av_get_node (t : avlt K V) (t' : avlt K' V') (i : N) :
    avr RK RV t t' → rrel (prel RK RV) (av_get_node t i) (av_get_node t' i).
  Proof. intros HP0. unfold av_get_node. relrw. rgo. Qed.
  Hint Resolve l_av_get_node : rel.
  Lemma l_av_set_node_value (i : N) (v : V) (v' : V') :
    RV v v' → mrel (avr RK RV) eq (av_set_node_value i v) (av_set_node_value i v').
  Proof. intros HP0. unfold av_set_node_value. relrw. rgo. Qed.
  Hint Resolve l_av_set_node_value : rel.
  Lemma l_av_get_field (t : avlt K V) (t' : avlt K' V') (i : N) (r : N) :
    avr RK RV t t' → rrel eq (av_get_field t i r) (av_get_field t' i r).
  Proof. intros HP0. unfold av_get_field. relrw. rgo. Qed.
  Hint Resolve l_av_get_field : rel.
  Lemma l_av_update_height (i : N) :
    mrel (avr RK RV) eq (av_update_height i) (av_update_height i).
  Proof. unfold av_update_height. relrw. rgo. Qed.
  Hint Resolve l_av_update_height : rel.
  Lemma l_av_set_field (i : N) (r : N) (v : N) :
    mrel (avr RK RV) eq (av_set_field i r v) (av_set_field i r v).
  Proof. unfold av_set_field. relrw. rgo. Qed.
  Hint Resolve l_av_set_field : rel.
  Lemma l_av_balance_factor (t : avlt K V) (t' : avlt K' V') (l : N) (r : N) :
    avr RK RV t t' → rrel eq (av_balance_factor t l r) (av_balance_factor t' l r).
  Proof. intros HP0. unfold av_balance_factor. relrw. rgo. Qed.
  Hint Resolve l_av_balance_factor : rel.
  Lemma l_av_left_rotate (i : N) :
    mrel (avr RK RV) eq (av_left_rotate i) (av_left_rotate i).
  Proof. unfold av_left_rotate. relrw. rgo. Qed.
  Hint Resolve l_av_left_rotate : rel.
  Lemma l_av_right_rotate (i : N) :
    mrel (avr RK RV) eq (av_right_rotate i) (av_right_rotate i).
  Proof. unfold av_right_rotate. relrw. rgo. Qed.
  Hint Resolve l_av_right_rotate : rel.
  Lemma l_av_delete (i : N) :
    mrel (avr RK RV) eq (av_delete i) (av_delete i).
  Proof. unfold av_delete. relrw. rgo. Qed.
  Hint Resolve l_av_delete : rel.
  Lemma l_av_rebalance_step (e : ancestor) :
    mrel (avr RK RV) eq (av_rebalance_step e) (av_rebalance_step e).
  Proof. unfold av_rebalance_step. relrw. rgo. Qed.
  Hint Resolve l_av_rebalance_step : rel.
  Lemma l_av_rebalance (e : list ancestor) :
    mrel (avr RK RV) eq (av_rebalance e) (av_rebalance e).
  Proof. induction e as [|x e IH]; cbn [av_rebalance]; rgo. Qed.
  Hint Resolve l_av_rebalance : rel.
  Lemma l_av_insert_loop (fuel : nat) (k : K) (k' : K') (v : V) (v' : V') (p : list ancestor) (i : N) :
    RK k k' → RV v v' → mrel (avr RK RV) eq (av_insert_loop pcmp fuel k v p i) (av_insert_loop pcmp' fuel k' v' p i).
  Proof. revert k k' v v' p i. induction fuel as [|fuel IH]; intros k k' v v' p i HP0 HP1; cbn [av_insert_loop]; relrw; rgo. Qed.
  Hint Resolve l_av_insert_loop : rel.
  Lemma l_av_insert (k : K) (k' : K') (v : V) (v' : V') :
    RK k k' → RV v v' → mrel (avr RK RV) eq (av_insert pcmp k v) (av_insert pcmp' k' v').
  Proof. intros HP0 HP1. unfold av_insert. relrw. rgo. Qed.
  Hint Resolve l_av_insert : rel.
  Lemma l_av_remove_walk (fuel : nat) (t : avlt K V) (t' : avlt K' V') (k : K) (k' : K') (p : list ancestor) (i : N) :
    avr RK RV t t' → RK k k' → rrel eq (av_remove_walk pcmp fuel t k p i) (av_remove_walk pcmp' fuel t' k' p i).
  Proof. revert t t' k k' p i. induction fuel as [|fuel IH]; intros t t' k k' p i HP0 HP1; cbn [av_remove_walk]; relrw; rgo. Qed.
  Hint Resolve l_av_remove_walk : rel.
  Lemma l_av_leftmost_walk (fuel : nat) (t : avlt K V) (t' : avlt K' V') (l : N) (p : N) (i : list ancestor) :
    avr RK RV t t' → rrel eq (av_leftmost_walk fuel t l p i) (av_leftmost_walk fuel t' l p i).
  Proof. revert t t' l p i. induction fuel as [|fuel IH]; intros t t' l p i HP0; cbn [av_leftmost_walk]; relrw; rgo. Qed.
  Hint Resolve l_av_leftmost_walk : rel.
  Lemma l_av_remove (k : K) (k' : K') :
    RK k k' → mrel (avr RK RV) (orel RV) (av_remove pcmp k) (av_remove pcmp' k').
  Proof. intros HP0. unfold av_remove. relrw. rgo. Qed.
  Hint Resolve l_av_remove : rel.
  Lemma l_av_get_addr (t : avlt K V) (t' : avlt K' V') (k : K) (k' : K') :
    avr RK RV t t' → RK k k' → rrel eq (av_get_addr pcmp t k) (av_get_addr pcmp' t' k').
  Proof. intros HP0 HP1. unfold av_get_addr. relrw. apply (l_bst_get_addr RK RV _ _ l_av_cmp); [apply HP0|done]. Qed.
  Hint Resolve l_av_get_addr : rel.
  Lemma l_av_get_loop (fuel : nat) (t : avlt K V) (t' : avlt K' V') (k : K) (k' : K') (i : N) :
    avr RK RV t t' → RK k k' → rrel (orel RV) (av_get_loop pcmp fuel t k i) (av_get_loop pcmp' fuel t' k' i).
  Proof. revert t t' k k' i. induction fuel as [|fuel IH]; intros t t' k k' i HP0 HP1; cbn [av_get_loop]; relrw; rgo. Qed.
  Hint Resolve l_av_get_loop : rel.
  Lemma l_av_get (t : avlt K V) (t' : avlt K' V') (k : K) (k' : K') :
    avr RK RV t t' → RK k k' → rrel (orel RV) (av_get pcmp t k) (av_get pcmp' t' k').
  Proof. intros HP0 HP1. unfold av_get. relrw. rgo. Qed.
  Hint Resolve l_av_get : rel.
  Lemma l_av_contains (t : avlt K V) (t' : avlt K' V') (k : K) (k' : K') :
    avr RK RV t t' → RK k k' → rrel eq (av_contains pcmp t k) (av_contains pcmp' t' k').
  Proof. intros HP0 HP1. unfold av_contains. relrw. rgo. Qed.
  Hint Resolve l_av_contains : rel.
  Lemma l_av_get_mut_loop (fuel : nat) (k : K) (k' : K') (f : V → V) (f' : V' → V') (i : N) :
    RK k k' → frel RV f f' → mrel (avr RK RV) (orel RV) (av_get_mut_loop pcmp fuel k f i) (av_get_mut_loop pcmp' fuel k' f' i).
  Proof. revert k k' f f' i. induction fuel as [|fuel IH]; intros k k' f f' i HP0 HP1; cbn [av_get_mut_loop]; relrw; rgo. Qed.
  Hint Resolve l_av_get_mut_loop : rel.
  Lemma l_av_get_mut (k : K) (k' : K') (f : V → V) (f' : V' → V') :
    RK k k' → frel RV f f' → mrel (avr RK RV) (orel RV) (av_get_mut pcmp k f) (av_get_mut pcmp' k' f').
  Proof. intros HP0 HP1. unfold av_get_mut. relrw. rgo. Qed.
  Hint Resolve l_av_get_mut : rel.
  Lemma l_av_find_min_index (t : avlt K V) (t' : avlt K' V') :
    avr RK RV t t' → rrel eq (av_find_min_index t) (av_find_min_index t').
  Proof. intros HP0. unfold av_find_min_index. relrw. rgo. Qed.
  Hint Resolve l_av_find_min_index : rel.
  Lemma l_av_find_max_index (t : avlt K V) (t' : avlt K' V') :
    avr RK RV t t' → rrel eq (av_find_max_index t) (av_find_max_index t').
  Proof. intros HP0. unfold av_find_max_index. relrw. rgo. Qed.
  Hint Resolve l_av_find_max_index : rel.
  Lemma l_av_find_min (t : avlt K V) (t' : avlt K' V') :
    avr RK RV t t' → rrel (orel RV) (av_find_min t) (av_find_min t').
  Proof. intros HP0. unfold av_find_min. relrw. rgo. Qed.
  Hint Resolve l_av_find_min : rel.
  Lemma l_av_find_max (t : avlt K V) (t' : avlt K' V') :
    avr RK RV t t' → rrel (orel RV) (av_find_max t) (av_find_max t').
  Proof. intros HP0. unfold av_find_max. relrw. rgo. Qed.
  Hint Resolve l_av_find_max : rel.
  Lemma l_av_get_min (t : avlt K V) (t' : avlt K' V') :
    avr RK RV t t' → rrel (orel (prel RK RV)) (av_get_min t) (av_get_min t').
  Proof. intros HP0. unfold av_get_min. relrw. rgo. Qed.
  Hint Resolve l_av_get_min : rel.
  Lemma l_av_get_max (t : avlt K V) (t' : avlt K' V') :
    avr RK RV t t' → rrel (orel (prel RK RV)) (av_get_max t) (av_get_max t').
  Proof. intros HP0. unfold av_get_max. relrw. rgo. Qed.
  Hint Resolve l_av_get_max : rel.
  Lemma l_av_index (t : avlt K V) (t' : avlt K' V') (k : K) (k' : K') :
    avr RK RV t t' → RK k k' → rrel RV (av_index pcmp t k) (av_index pcmp' t' k').
  Proof. intros HP0 HP1. unfold av_index. relrw. rgo. Qed.
  Hint Resolve l_av_index : rel.
  Lemma l_av_index_mut (k : K) (k' : K') (f : V → V) (f' : V' → V') :
    RK k k' → frel RV f f' → mrel (avr RK RV) RV (av_index_mut pcmp k f) (av_index_mut pcmp' k' f').
  Proof. intros HP0 HP1. unfold av_index_mut. relrw. rgo. Qed.
  Hint Resolve l_av_index_mut : rel.
  Lemma l_av_iter_next (t : avlt K V) (t' : avlt K' V') (it : titer) :
    avr RK RV t t' → rrel (prel (orel (prel RK RV)) eq) (av_iter_next t it) (av_iter_next t' it).
  Proof. intros HP0. unfold av_iter_next. relrw. rgo. Qed.
  Hint Resolve l_av_iter_next : rel.
  Lemma l_av_iter_next_back (t : avlt K V) (t' : avlt K' V') (it : titer) :
    avr RK RV t t' → rrel (prel (orel (prel RK RV)) eq) (av_iter_next_back t it) (av_iter_next_back t' it).
  Proof. intros HP0. unfold av_iter_next_back. relrw. rgo. Qed.
  Hint Resolve l_av_iter_next_back : rel.
  Lemma l_av_iter_mut_next (f : V → V) (f' : V' → V') :
    frel RV f f' → mrel (prel (avr RK RV) eq) (orel (prel eq (prel RK RV))) (av_iter_mut_next f) (av_iter_mut_next f').
  Proof. intros HP0. unfold av_iter_mut_next. relrw. rgo. Qed.
  Hint Resolve l_av_iter_mut_next : rel.
  Lemma l_av_iter_mut_next_back (f : V → V) (f' : V' → V') :
    frel RV f f' → mrel (prel (avr RK RV) eq) (orel (prel eq (prel RK RV))) (av_iter_mut_next_back f) (av_iter_mut_next_back f').
  Proof. intros HP0. unfold av_iter_mut_next_back. relrw. rgo. Qed.
  Hint Resolve l_av_iter_mut_next_back : rel.
  Lemma l_av_iterate (t : avlt K V) (t' : avlt K' V') (sc : list fb) :
    avr RK RV t t' → rrel (Forall2 (orel (prel RK RV))) (av_iterate t sc) (av_iterate t' sc).
  Proof. intros HP0. unfold av_iterate. relrw. apply rrel_drive; intros; rleaf. Qed.
  Hint Resolve l_av_iterate : rel.
  Lemma l_av_iterate_mut (sc : list (fb * (V → V))) (sc' : list (fb * (V' → V'))) :
    Forall2 (prel eq (frel RV)) sc sc' → mrel (avr RK RV) (Forall2 (orel (prel eq (prel RK RV)))) (av_iterate_mut sc) (av_iterate_mut sc').
  Proof. intros HP0. intros s s' Hs. unfold av_iterate_mut. relrw. apply (mrel_session _ _ RV); [intros; by apply l_av_iter_mut_next|intros; by apply l_av_iter_mut_next_back|done|done]. Qed.
  Hint Resolve l_av_iterate_mut : rel.
  Lemma l_av_om (o : om_op K V) (o' : om_op K' V') : om_op_rel RK RV o o' → mrel (avr RK RV) (om_out_rel RK RV) (om_step (av_api pcmp ) o) (om_step (av_api pcmp' ) o').
  Proof.
    intros HP0. destruct o, o'; try (exfalso; exact HP0); cbn in HP0; repeat match goal with H : _ ∧ _ |- _ => destruct H end; subst;
      unfold om_step, av_api; cbn [a_insert a_remove a_get a_get_mut a_contains a_len a_capacity a_min a_max a_index a_index_mut a_iter a_iter_mut]; rgo.
  Qed.
End avl.
(** ** hash *)
Section hash.
  Context `{Profile} {K K' V V' : Type} (RK : K → K' → Prop) (RV : V → V' → Prop) (keq : K → K → bool) (keq' : K' → K' → bool) (hash : K → N) (hash' : K' → N)
    (RQ : K → K' → Prop) (HRQ : ∀ k k', RQ k k' → RK k k')
    (Hkeq : ∀ a a' b b', RK a a' → RQ b b' → keq a b = keq' a' b') (Hhash : ∀ a a', RQ a a' → hash a = hash' a').
  (** [RK] relates the keys stored, [RQ] those passed to the calls *)
  Hint Resolve HRQ : rel.
  Ltac rkey := match goal with
    | HA : RK ?a ?a', HB : RQ ?b ?b' |- context [keq ?a ?b] => rewrite (Hkeq a a' b b' HA HB)
    | HA : RQ ?a ?a' |- context [hash ?a] => rewrite (Hhash a a' HA) end.
  Ltac rgo := let rec go _ := repeat (cbn [fst snd val regs]; relrw; first [rkey|rstep go]) in go ().
  Lemma l_ht_on {A A'} (Q : A → A' → Prop) (m : M (alloc (K * V)) A) (m' : M (alloc (K' * V')) A') : mrel (alr (prel RK RV)) Q m m' → mrel (htr RK RV) Q (ht_on m) (ht_on m').
  Proof.
    intros Hm. unfold ht_on. refine (mrel_zoom _ _ _ _ _ _ _ _ _ _ _ Hm).
    - intros s s' Hs. rsolve.
    - intros a a' s s' Ha Hs. unfold set_hal. destruct Hs as (Hs&_). repeat split; try done; apply Ha.
  Qed.
  Hint Resolve l_ht_on : rel.
  Lemma l_ht_get_next (h : htable K V) (h' : htable K' V') (i : N) :
    htr RK RV h h' → rrel eq (ht_get_next h i) (ht_get_next h' i).
  Proof. intros HP0. unfold ht_get_next. relrw. rgo. Qed.
  Hint Resolve l_ht_get_next : rel.
  Lemma l_ht_get_prev (h : htable K V) (h' : htable K' V') (i : N) :
    htr RK RV h h' → rrel eq (ht_get_prev h i) (ht_get_prev h' i).
  Proof. intros HP0. unfold ht_get_prev. relrw. rgo. Qed.
  Hint Resolve l_ht_get_prev : rel.
  Lemma l_ht_get_node (h : htable K V) (h' : htable K' V') (i : N) :
    htr RK RV h h' → rrel (prel RK RV) (ht_get_node h i) (ht_get_node h' i).
  Proof. intros HP0. unfold ht_get_node. relrw. rgo. Qed.
  Hint Resolve l_ht_get_node : rel.
  Lemma l_ht_set_node_value (i : N) (v : V) (v' : V') :
    RV v v' → mrel (htr RK RV) eq (ht_set_node_value i v) (ht_set_node_value i v').
  Proof. intros HP0. unfold ht_set_node_value. relrw. rgo. Qed.
  Hint Resolve l_ht_set_node_value : rel.
  Lemma l_ht_bucket_index (h : htable K V) (h' : htable K' V') k k' : htr RK RV h h' → RQ k k' → rrel eq (ht_bucket_index hash h k) (ht_bucket_index hash' h' k').
  Proof. intros HP0 HP1. unfold ht_bucket_index. relrw. rgo. Qed.
  Lemma l_ht_bucket (h : htable K V) (h' : htable K' V') b : htr RK RV h h' → rrel eq (ht_bucket h b) (ht_bucket h' b).
  Proof. intros HP0. unfold ht_bucket. relrw. rgo. Qed.
  Hint Resolve l_ht_bucket_index l_ht_bucket : rel.
  Lemma l_ht_set_bucket b x : mrel (htr RK RV) eq (ht_set_bucket b x) (ht_set_bucket b x).
  Proof. unfold ht_set_bucket. rgo. Qed.
  Hint Resolve l_ht_set_bucket : rel.
  Lemma l_ht_get_loop (fuel : nat) (h : htable K V) (h' : htable K' V') (k : K) (k' : K') (i : N) :
    htr RK RV h h' → RQ k k' → rrel (orel RV) (ht_get_loop keq fuel h k i) (ht_get_loop keq' fuel h' k' i).
  Proof. revert h h' k k' i. induction fuel as [|fuel IH]; intros h h' k k' i HP0 HP1; cbn [ht_get_loop]; relrw; rgo. Qed.
  Hint Resolve l_ht_get_loop : rel.
  Lemma l_ht_get (h : htable K V) (h' : htable K' V') (k : K) (k' : K') :
    htr RK RV h h' → RQ k k' → rrel (orel RV) (ht_get keq hash h k) (ht_get keq' hash' h' k').
  Proof. intros HP0 HP1. unfold ht_get. relrw. rgo. Qed.
  Hint Resolve l_ht_get : rel.
  Lemma l_ht_contains_trait (h : htable K V) (h' : htable K' V') (k : K) (k' : K') :
    htr RK RV h h' → RQ k k' → rrel eq (ht_contains_trait keq hash h k) (ht_contains_trait keq' hash' h' k').
  Proof. intros HP0 HP1. unfold ht_contains_trait. relrw. rgo. Qed.
  Hint Resolve l_ht_contains_trait : rel.
  Lemma l_ht_contains_loop (fuel : nat) (h : htable K V) (h' : htable K' V') (k : K) (k' : K') (i : N) :
    htr RK RV h h' → RQ k k' → rrel eq (ht_contains_loop keq fuel h k i) (ht_contains_loop keq' fuel h' k' i).
  Proof. revert h h' k k' i. induction fuel as [|fuel IH]; intros h h' k k' i HP0 HP1; cbn [ht_contains_loop]; relrw; rgo. Qed.
  Hint Resolve l_ht_contains_loop : rel.
  Lemma l_ht_contains (h : htable K V) (h' : htable K' V') (k : K) (k' : K') :
    htr RK RV h h' → RQ k k' → rrel eq (ht_contains keq hash h k) (ht_contains keq' hash' h' k').
  Proof. intros HP0 HP1. unfold ht_contains. relrw. rgo. Qed.
  Hint Resolve l_ht_contains : rel.
  Lemma l_ht_get_addr_loop (fuel : nat) (h : htable K V) (h' : htable K' V') (k : K) (k' : K') (i : N) :
    htr RK RV h h' → RQ k k' → rrel eq (ht_get_addr_loop keq fuel h k i) (ht_get_addr_loop keq' fuel h' k' i).
  Proof. revert h h' k k' i. induction fuel as [|fuel IH]; intros h h' k k' i HP0 HP1; cbn [ht_get_addr_loop]; relrw; rgo. Qed.
  Hint Resolve l_ht_get_addr_loop : rel.
  Lemma l_ht_get_addr (h : htable K V) (h' : htable K' V') (k : K) (k' : K') :
    htr RK RV h h' → RQ k k' → rrel eq (ht_get_addr keq hash h k) (ht_get_addr keq' hash' h' k').
  Proof. intros HP0 HP1. unfold ht_get_addr. relrw. rgo. Qed.
  Hint Resolve l_ht_get_addr : rel.
  Lemma l_ht_get_mut_loop (fuel : nat) (k : K) (k' : K') (f : V → V) (f' : V' → V') (b : N) (i : N) (j : N) :
    RQ k k' → frel RV f f' → mrel (htr RK RV) (orel RV) (ht_get_mut_loop keq fuel k f b i j) (ht_get_mut_loop keq' fuel k' f' b i j).
  Proof. revert k k' f f' b i j. induction fuel as [|fuel IH]; intros k k' f f' b i j HP0 HP1; cbn [ht_get_mut_loop]; relrw; rgo. Qed.
  Hint Resolve l_ht_get_mut_loop : rel.
  Lemma l_ht_get_mut (k : K) (k' : K') (f : V → V) (f' : V' → V') :
    RQ k k' → frel RV f f' → mrel (htr RK RV) (orel RV) (ht_get_mut keq hash k f) (ht_get_mut keq' hash' k' f').
  Proof. intros HP0 HP1. unfold ht_get_mut. relrw. rgo. Qed.
  Hint Resolve l_ht_get_mut : rel.
  Lemma l_ht_insert_new_node (k : K) (k' : K') (v : V) (v' : V') (b : N) (i : N) :
    RK k k' → RV v v' → mrel (htr RK RV) eq (ht_insert_new_node k v b i) (ht_insert_new_node k' v' b i).
  Proof. intros HP0 HP1. unfold ht_insert_new_node. relrw. rgo. Qed.
  Hint Resolve l_ht_insert_new_node : rel.
  Lemma l_ht_insert_loop (fuel : nat) (k : K) (k' : K') (v : V) (v' : V') (b : N) (i : N) (j : N) :
    RQ k k' → RV v v' → mrel (htr RK RV) eq (ht_insert_loop keq fuel k v b i j) (ht_insert_loop keq' fuel k' v' b i j).
  Proof. revert k k' v v' b i j. induction fuel as [|fuel IH]; intros k k' v v' b i j HP0 HP1; cbn [ht_insert_loop]; relrw; rgo. Qed.
  Hint Resolve l_ht_insert_loop : rel.
  Lemma l_ht_insert (k : K) (k' : K') (v : V) (v' : V') :
    RQ k k' → RV v v' → mrel (htr RK RV) eq (ht_insert keq hash k v) (ht_insert keq' hash' k' v').
  Proof. intros HP0 HP1. unfold ht_insert. relrw. rgo. Qed.
  Hint Resolve l_ht_insert : rel.
  Lemma l_ht_remove_loop (fuel : nat) (k : K) (k' : K') (b : N) (i : N) (j : N) :
    RQ k k' → mrel (htr RK RV) (orel RV) (ht_remove_loop keq fuel k b i j) (ht_remove_loop keq' fuel k' b i j).
  Proof. revert k k' b i j. induction fuel as [|fuel IH]; intros k k' b i j HP0; cbn [ht_remove_loop]; relrw; rgo. Qed.
  Hint Resolve l_ht_remove_loop : rel.
  Lemma l_ht_remove (k : K) (k' : K') :
    RQ k k' → mrel (htr RK RV) (orel RV) (ht_remove keq hash k) (ht_remove keq' hash' k').
  Proof. intros HP0. unfold ht_remove. relrw. rgo. Qed.
  Hint Resolve l_ht_remove : rel.
  Lemma l_ht_index (h : htable K V) (h' : htable K' V') (k : K) (k' : K') :
    htr RK RV h h' → RQ k k' → rrel RV (ht_index keq hash h k) (ht_index keq' hash' h' k').
  Proof. intros HP0 HP1. unfold ht_index. relrw. rgo. Qed.
  Hint Resolve l_ht_index : rel.
  Lemma l_ht_index_mut (k : K) (k' : K') (f : V → V) (f' : V' → V') :
    RQ k k' → frel RV f f' → mrel (htr RK RV) RV (ht_index_mut keq hash k f) (ht_index_mut keq' hash' k' f').
  Proof. intros HP0 HP1. unfold ht_index_mut. relrw. rgo. Qed.
  Hint Resolve l_ht_index_mut : rel.
  Lemma l_ht_mk_iter (h : htable K V) (h' : htable K' V') : htr RK RV h h' → rrel eq (ht_mk_iter h) (ht_mk_iter h').
  Proof. intros HP0. unfold ht_mk_iter. rgo. Qed.
  Lemma l_ht_skip (fuel : nat) (h : htable K V) (h' : htable K' V') it : htr RK RV h h' → rrel eq (ht_skip fuel h it) (ht_skip fuel h' it).
  Proof. revert it. induction fuel as [|fuel IH]; intros it HP0; cbn [ht_skip]; relrw; rgo. Qed.
  Hint Resolve l_ht_mk_iter l_ht_skip : rel.
  Lemma l_ht_iter_next_back (h : htable K V) (h' : htable K' V') it : rrel (prel (orel (prel RK RV)) eq) (ht_iter_next_back h it) (ht_iter_next_back h' it).
  Proof. unfold ht_iter_next_back. rgo. Qed.
  Lemma l_ht_iter_mut_next_back (f : V → V) (f' : V' → V') : mrel (prel (htr RK RV) eq) (orel (prel eq (prel RK RV))) (ht_iter_mut_next_back f) (ht_iter_mut_next_back f').
  Proof. unfold ht_iter_mut_next_back. rgo. Qed.
  Hint Resolve l_ht_iter_next_back l_ht_iter_mut_next_back : rel.
  Lemma l_ht_iter_next (h : htable K V) (h' : htable K' V') (it : ht_iter) :
    htr RK RV h h' → rrel (prel (orel (prel RK RV)) eq) (ht_iter_next h it) (ht_iter_next h' it).
  Proof. intros HP0. unfold ht_iter_next. relrw. rgo. Qed.
  Hint Resolve l_ht_iter_next : rel.
  Lemma l_ht_iter_mut_next (f : V → V) (f' : V' → V') :
    frel RV f f' → mrel (prel (htr RK RV) eq) (orel (prel eq (prel RK RV))) (ht_iter_mut_next f) (ht_iter_mut_next f').
  Proof. intros HP0. unfold ht_iter_mut_next. relrw. rgo. Qed.
  Hint Resolve l_ht_iter_mut_next : rel.
  Lemma l_ht_iterate (h : htable K V) (h' : htable K' V') (sc : list fb) :
    htr RK RV h h' → rrel (Forall2 (orel (prel RK RV))) (ht_iterate h sc) (ht_iterate h' sc).
  Proof. intros HP0. unfold ht_iterate. eapply rrel_bind; [by apply l_ht_mk_iter|]. intros it ? <-. apply rrel_drive; intros; rleaf. Qed.
  Hint Resolve l_ht_iterate : rel.
  Lemma l_ht_iterate_mut (sc : list (fb * (V → V))) (sc' : list (fb * (V' → V'))) :
    Forall2 (prel eq (frel RV)) sc sc' → mrel (htr RK RV) (Forall2 (orel (prel eq (prel RK RV)))) (ht_iterate_mut sc) (ht_iterate_mut sc').
  Proof.
    intros HP0. intros s s' Hs. unfold ht_iterate_mut. pose proof (l_ht_mk_iter s s' Hs) as Hi. destruct (ht_mk_iter s) as [it|e], (ht_mk_iter s') as [it'|e']; try done.
    cbn in Hi. subst it'. apply (mrel_session _ _ RV); [intros; by apply l_ht_iter_mut_next|intros; by apply l_ht_iter_mut_next_back|done|done].
  Qed.
  Hint Resolve l_ht_iterate_mut : rel.
  Lemma l_ht_step (o : hm_op K V) (o' : hm_op K' V') :
    hm_op_rel RQ RV o o' → mrel (htr RK RV) (hm_out_rel RK RV) (ht_step keq hash o) (ht_step keq' hash' o').
  Proof. intros HP0. destruct o, o'; try (exfalso; exact HP0); cbn in HP0; repeat match goal with H : _ ∧ _ |- _ => destruct H end; subst; unfold ht_step; rgo. Qed.
  Hint Resolve l_ht_step : rel.
End hash.
(** ** crit *)
Section crit.
  Context `{Profile} {V V' : Type} (RV : V → V' → Prop).
  Ltac rkey := fail.
  Ltac rgo := let rec go _ := repeat (cbn [fst snd val regs]; relrw; first [rkey|rstep go]) in go ().
  Lemma l_cb_onl {A A'} (Q : A → A' → Prop) (m : M (alloc V) A) (m' : M (alloc V') A') : mrel (alr RV) Q m m' → mrel (cbr RV) Q (cb_onl m) (cb_onl m').
  Proof.
    intros Hm. unfold cb_onl. refine (mrel_zoom _ _ _ _ _ _ _ _ _ _ _ Hm).
    - intros s s' Hs. rsolve.
    - intros a a' s s' Ha Hs. unfold set_cleaves. destruct Hs as (?&?&_). repeat split; try done; apply Ha.
  Qed.
  Lemma l_cb_onn {A} (m : M (alloc cnode) A) : mrel (cbr RV) eq (cb_onn m) (cb_onn m).
  Proof.
    intros s s' Hs. unfold cb_onn, zoom. rewrite <- (cbr_nodes Hs). destruct Hs as (Hr&Hn&Hl).
    destruct (m (cb_nodes s)); (split; [done|]); unfold set_cnodes; repeat split; try done; apply Hl.
  Qed.
  Hint Resolve l_cb_onl l_cb_onn : rel.
  Lemma l_cb_get_leaf (t : critbit V) (t' : critbit V') (i : N) :
    cbr RV t t' → rrel RV (cb_get_leaf t i) (cb_get_leaf t' i).
  Proof. intros HP0. unfold cb_get_leaf. relrw. rgo. Qed.
  Hint Resolve l_cb_get_leaf : rel.
  Lemma l_cb_replace_leaf (i : N) (v : V) (v' : V') :
    RV v v' → mrel (cbr RV) eq (cb_replace_leaf i v) (cb_replace_leaf i v').
  Proof. intros HP0. unfold cb_replace_leaf. relrw. rgo. Qed.
  Hint Resolve l_cb_replace_leaf : rel.
  Lemma l_cb_get_leaf_index (t : critbit V) (t' : critbit V') (i : N) :
    cbr RV t t' → rrel eq (cb_get_leaf_index t i) (cb_get_leaf_index t' i).
  Proof. intros HP0. unfold cb_get_leaf_index. relrw. rgo. Qed.
  Hint Resolve l_cb_get_leaf_index : rel.
  Lemma l_cb_is_inner_node (t : critbit V) (t' : critbit V') (i : N) :
    cbr RV t t' → rrel eq (cb_is_inner_node t i) (cb_is_inner_node t' i).
  Proof. intros HP0. unfold cb_is_inner_node. relrw. rgo. Qed.
  Hint Resolve l_cb_is_inner_node : rel.
  Lemma l_cb_get_node (t : critbit V) (t' : critbit V') (i : N) :
    cbr RV t t' → rrel eq (cb_get_node t i) (cb_get_node t' i).
  Proof. intros HP0. unfold cb_get_node. relrw. rgo. Qed.
  Hint Resolve l_cb_get_node : rel.
  Lemma l_cb_get_key (t : critbit V) (t' : critbit V') (i : N) :
    cbr RV t t' → rrel eq (cb_get_key t i) (cb_get_key t' i).
  Proof. intros HP0. unfold cb_get_key. relrw. rgo. Qed.
  Hint Resolve l_cb_get_key : rel.
  Lemma l_cb_get_left (t : critbit V) (t' : critbit V') (i : N) :
    cbr RV t t' → rrel eq (cb_get_left t i) (cb_get_left t' i).
  Proof. intros HP0. unfold cb_get_left. relrw. rgo. Qed.
  Hint Resolve l_cb_get_left : rel.
  Lemma l_cb_get_right (t : critbit V) (t' : critbit V') (i : N) :
    cbr RV t t' → rrel eq (cb_get_right t i) (cb_get_right t' i).
  Proof. intros HP0. unfold cb_get_right. relrw. rgo. Qed.
  Hint Resolve l_cb_get_right : rel.
  Lemma l_cb_get_parent (t : critbit V) (t' : critbit V') (i : N) :
    cbr RV t t' → rrel eq (cb_get_parent t i) (cb_get_parent t' i).
  Proof. intros HP0. unfold cb_get_parent. relrw. rgo. Qed.
  Hint Resolve l_cb_get_parent : rel.
  Lemma l_cb_add_leaf (k : N) (v : V) (v' : V') :
    RV v v' → mrel (cbr RV) eq (cb_add_leaf k v) (cb_add_leaf k v').
  Proof. intros HP0. unfold cb_add_leaf. relrw. rgo. Qed.
  Hint Resolve l_cb_add_leaf : rel.
  Lemma l_cb_get_child (t : critbit V) (t' : critbit V') (p : N) (i : N) (k : N) :
    cbr RV t t' → rrel eq (cb_get_child t p i k) (cb_get_child t' p i k).
  Proof. intros HP0. unfold cb_get_child. relrw. rgo. Qed.
  Hint Resolve l_cb_get_child : rel.
  Lemma l_cb_duplicate (i : N) :
    mrel (cbr RV) eq (cb_duplicate i) (cb_duplicate i).
  Proof. unfold cb_duplicate. relrw. rgo. Qed.
  Hint Resolve l_cb_duplicate : rel.
  Lemma l_cb_replace_node (i : N) (c : cnode) (l : N) (r : N) :
    mrel (cbr RV) eq (cb_replace_node i c l r) (cb_replace_node i c l r).
  Proof. unfold cb_replace_node. relrw. rgo. Qed.
  Hint Resolve l_cb_replace_node : rel.
  Lemma l_cb_migrate (i : N) (j : N) :
    mrel (cbr RV) eq (cb_migrate i j) (cb_migrate i j).
  Proof. unfold cb_migrate. relrw. rgo. Qed.
  Hint Resolve l_cb_migrate : rel.
  Lemma l_cb_remove_leaf (i : N) :
    mrel (cbr RV) RV (cb_remove_leaf i) (cb_remove_leaf i).
  Proof. unfold cb_remove_leaf. relrw. rgo. Qed.
  Hint Resolve l_cb_remove_leaf : rel.
  Lemma l_cb_walk (fuel : nat) (t : critbit V) (t' : critbit V') (k : N) (i : N) :
    cbr RV t t' → rrel eq (cb_walk fuel t k i) (cb_walk fuel t' k i).
  Proof. revert t t' k i. induction fuel as [|fuel IH]; intros t t' k i HP0; cbn [cb_walk]; relrw; rgo. Qed.
  Hint Resolve l_cb_walk : rel.
  Lemma l_cb_get_addr (t : critbit V) (t' : critbit V') (k : N) :
    cbr RV t t' → rrel eq (cb_get_addr t k) (cb_get_addr t' k).
  Proof. intros HP0. unfold cb_get_addr. relrw. rgo. Qed.
  Hint Resolve l_cb_get_addr : rel.
  Lemma l_cb_get_loop (fuel : nat) (t : critbit V) (t' : critbit V') (k : N) (i : N) :
    cbr RV t t' → rrel (orel RV) (cb_get_loop fuel t k i) (cb_get_loop fuel t' k i).
  Proof. revert t t' k i. induction fuel as [|fuel IH]; intros t t' k i HP0; cbn [cb_get_loop]; relrw; rgo. Qed.
  Hint Resolve l_cb_get_loop : rel.
  Lemma l_cb_get (t : critbit V) (t' : critbit V') (k : N) :
    cbr RV t t' → rrel (orel RV) (cb_get t k) (cb_get t' k).
  Proof. intros HP0. unfold cb_get. relrw. rgo. Qed.
  Hint Resolve l_cb_get : rel.
  Lemma l_cb_contains (t : critbit V) (t' : critbit V') (k : N) :
    cbr RV t t' → rrel eq (cb_contains t k) (cb_contains t' k).
  Proof. intros HP0. unfold cb_contains. relrw. rgo. Qed.
  Hint Resolve l_cb_contains : rel.
  Lemma l_cb_get_mut_loop (fuel : nat) (k : N) (f : V → V) (f' : V' → V') (i : N) :
    frel RV f f' → mrel (cbr RV) (orel RV) (cb_get_mut_loop fuel k f i) (cb_get_mut_loop fuel k f' i).
  Proof. revert k f f' i. induction fuel as [|fuel IH]; intros k f f' i HP0; cbn [cb_get_mut_loop]; relrw; rgo. Qed.
  Hint Resolve l_cb_get_mut_loop : rel.
  Lemma l_cb_get_mut (k : N) (f : V → V) (f' : V' → V') :
    frel RV f f' → mrel (cbr RV) (orel RV) (cb_get_mut k f) (cb_get_mut k f').
  Proof. intros HP0. unfold cb_get_mut. relrw. rgo. Qed.
  Hint Resolve l_cb_get_mut : rel.
  Lemma l_cb_insert_loop (fuel : nat) (k : N) (v : V) (v' : V') (i : N) :
    RV v v' → mrel (cbr RV) eq (cb_insert_loop fuel k v i) (cb_insert_loop fuel k v' i).
  Proof. revert k v v' i. induction fuel as [|fuel IH]; intros k v v' i HP0; cbn [cb_insert_loop]; relrw; rgo. Qed.
  Hint Resolve l_cb_insert_loop : rel.
  Lemma l_cb_insert (k : N) (v : V) (v' : V') :
    RV v v' → mrel (cbr RV) eq (cb_insert k v) (cb_insert k v').
  Proof. intros HP0. unfold cb_insert. relrw. rgo. Qed.
  Hint Resolve l_cb_insert : rel.
  Lemma l_cb_remove_walk (fuel : nat) (t : critbit V) (t' : critbit V') (k : N) (p : N) (c : N) (b : bool) :
    cbr RV t t' → rrel eq (cb_remove_walk fuel t k p c b) (cb_remove_walk fuel t' k p c b).
  Proof. revert t t' k p c b. induction fuel as [|fuel IH]; intros t t' k p c b HP0; cbn [cb_remove_walk]; relrw; rgo. Qed.
  Hint Resolve l_cb_remove_walk : rel.
  Lemma l_cb_remove (k : N) :
    mrel (cbr RV) (orel RV) (cb_remove k) (cb_remove k).
  Proof. unfold cb_remove. relrw. rgo. Qed.
  Hint Resolve l_cb_remove : rel.
  Lemma l_cb_get_min_index (t : critbit V) (t' : critbit V') :
    cbr RV t t' → rrel eq (cb_get_min_index t) (cb_get_min_index t').
  Proof. intros HP0. unfold cb_get_min_index. relrw. rgo. Qed.
  Hint Resolve l_cb_get_min_index : rel.
  Lemma l_cb_get_max_index (t : critbit V) (t' : critbit V') :
    cbr RV t t' → rrel eq (cb_get_max_index t) (cb_get_max_index t').
  Proof. intros HP0. unfold cb_get_max_index. relrw. rgo. Qed.
  Hint Resolve l_cb_get_max_index : rel.
  Lemma l_cb_entry (t : critbit V) (t' : critbit V') (i : N) :
    cbr RV t t' → rrel (prel eq RV) (cb_entry t i) (cb_entry t' i).
  Proof. intros HP0. unfold cb_entry. relrw. rgo. Qed.
  Hint Resolve l_cb_entry : rel.
  Lemma l_cb_get_min (t : critbit V) (t' : critbit V') :
    cbr RV t t' → rrel (orel (prel eq RV)) (cb_get_min t) (cb_get_min t').
  Proof. intros HP0. unfold cb_get_min. relrw. rgo. Qed.
  Hint Resolve l_cb_get_min : rel.
  Lemma l_cb_get_max (t : critbit V) (t' : critbit V') :
    cbr RV t t' → rrel (orel (prel eq RV)) (cb_get_max t) (cb_get_max t').
  Proof. intros HP0. unfold cb_get_max. relrw. rgo. Qed.
  Hint Resolve l_cb_get_max : rel.
  Lemma l_cb_index (t : critbit V) (t' : critbit V') (k : N) :
    cbr RV t t' → rrel RV (cb_index t k) (cb_index t' k).
  Proof. intros HP0. unfold cb_index. relrw. rgo. Qed.
  Hint Resolve l_cb_index : rel.
  Lemma l_cb_index_mut (k : N) (f : V → V) (f' : V' → V') :
    frel RV f f' → mrel (cbr RV) RV (cb_index_mut k f) (cb_index_mut k f').
  Proof. intros HP0. unfold cb_index_mut. relrw. rgo. Qed.
  Hint Resolve l_cb_index_mut : rel.
  Lemma l_ci_fwd (fuel : nat) (t : critbit V) (t' : critbit V') (it : citer) :
    cbr RV t t' → rrel eq (ci_fwd fuel t it) (ci_fwd fuel t' it).
  Proof. revert t t' it. induction fuel as [|fuel IH]; intros t t' it HP0; cbn [ci_fwd]; relrw; rgo. Qed.
  Hint Resolve l_ci_fwd : rel.
  Lemma l_ci_rev (fuel : nat) (t : critbit V) (t' : critbit V') (it : citer) :
    cbr RV t t' → rrel eq (ci_rev fuel t it) (ci_rev fuel t' it).
  Proof. revert t t' it. induction fuel as [|fuel IH]; intros t t' it HP0; cbn [ci_rev]; relrw; rgo. Qed.
  Hint Resolve l_ci_rev : rel.
  Lemma l_cb_iter_next (t : critbit V) (t' : critbit V') (it : citer) :
    cbr RV t t' → rrel (prel (orel (prel eq RV)) eq) (cb_iter_next t it) (cb_iter_next t' it).
  Proof. intros HP0. unfold cb_iter_next. relrw. rgo. Qed.
  Hint Resolve l_cb_iter_next : rel.
  Lemma l_cb_iter_next_back (t : critbit V) (t' : critbit V') (it : citer) :
    cbr RV t t' → rrel (prel (orel (prel eq RV)) eq) (cb_iter_next_back t it) (cb_iter_next_back t' it).
  Proof. intros HP0. unfold cb_iter_next_back. relrw. rgo. Qed.
  Hint Resolve l_cb_iter_next_back : rel.
  Lemma l_cb_raw_key (t : critbit V) (t' : critbit V') (n : N) :
    cbr RV t t' → rrel eq (cb_raw_key t n) (cb_raw_key t' n).
  Proof. intros HP0. unfold cb_raw_key. relrw. rgo. Qed.
  Hint Resolve l_cb_raw_key : rel.
  Lemma l_cb_iter_mut_next (f : V → V) (f' : V' → V') :
    frel RV f f' → mrel (prel (cbr RV) eq) (orel (prel eq (prel eq RV))) (cb_iter_mut_next f) (cb_iter_mut_next f').
  Proof. intros HP0. unfold cb_iter_mut_next. relrw. rgo. Qed.
  Hint Resolve l_cb_iter_mut_next : rel.
  Lemma l_cb_iter_mut_next_back (f : V → V) (f' : V' → V') :
    frel RV f f' → mrel (prel (cbr RV) eq) (orel (prel eq (prel eq RV))) (cb_iter_mut_next_back f) (cb_iter_mut_next_back f').
  Proof. intros HP0. unfold cb_iter_mut_next_back. relrw. rgo. Qed.
  Hint Resolve l_cb_iter_mut_next_back : rel.
  Lemma l_cb_iterate (t : critbit V) (t' : critbit V') (sc : list fb) :
    cbr RV t t' → rrel (Forall2 (orel (prel eq RV))) (cb_iterate t sc) (cb_iterate t' sc).
  Proof. intros HP0. unfold cb_iterate. relrw. apply rrel_drive; intros; rleaf. Qed.
  Hint Resolve l_cb_iterate : rel.
  Lemma l_cb_iterate_mut (sc : list (fb * (V → V))) (sc' : list (fb * (V' → V'))) :
    Forall2 (prel eq (frel RV)) sc sc' → mrel (cbr RV) (Forall2 (orel (prel eq (prel eq RV)))) (cb_iterate_mut sc) (cb_iterate_mut sc').
  Proof. intros HP0. intros s s' Hs. unfold cb_iterate_mut. relrw. apply (mrel_session _ _ RV); [intros; by apply l_cb_iter_mut_next|intros; by apply l_cb_iter_mut_next_back|done|done]. Qed.
  Hint Resolve l_cb_iterate_mut : rel.
  Lemma l_cb_om (o : om_op N V) (o' : om_op N V') : om_op_rel eq RV o o' → mrel (cbr RV) (om_out_rel eq RV) (om_step (cb_api ) o) (om_step (cb_api ) o').
  Proof.
    intros HP0. destruct o, o'; try (exfalso; exact HP0); cbn in HP0; repeat match goal with H : _ ∧ _ |- _ => destruct H end; subst;
      unfold om_step, cb_api; cbn [a_insert a_remove a_get a_get_mut a_contains a_len a_capacity a_min a_max a_index a_index_mut a_iter a_iter_mut]; rgo.
  Qed.
End crit.
