(** * Generic facts about histories and double-ended traversal *)
From Verif Require Export Spec.

Lemma call_wp {S A} (m : M S A) s Q : wp m s Q → ∃ a s', call m s = (Val a, s') ∧ Q a s'.
Proof. intros (a & s' & He & HQ)%wp_elim. unfold call. rewrite He. eauto. Qed.
Lemma call_ret {S A} (m : M S A) s a s' : m s = Ret a s' → call m s = (Val a, s').
Proof. intros He. unfold call. by rewrite He. Qed.
Lemma call_fail {S A} (m : M S A) s e s' : m s = Fail e s' → call m s = (Err e, s').
Proof. intros He. unfold call. by rewrite He. Qed.

Section unsnoc.
  Context {A : Type}.
  Implicit Types l : list A.
  Lemma unsnoc_snoc l x : unsnoc (l ++ [x]) = Some (l, x).
  Proof. induction l as [|y l IH]; simpl; [done|]. by rewrite IH. Qed.
  Lemma unsnoc_None l : unsnoc l = None ↔ l = [].
  Proof. destruct l; simpl; [done|]. destruct (unsnoc l) as [[]|]; done. Qed.
  Lemma unsnoc_Some l l' x : unsnoc l = Some (l', x) ↔ l = l' ++ [x].
  Proof.
    split; [|intros ->; apply unsnoc_snoc].
    revert l'. induction l as [|y l IH]; intros l'; simpl; [done|].
    destruct (unsnoc l) as [[l1 z]|] eqn:E.
    - intros [= <- <-]. simpl. f_equal. by apply IH.
    - intros [= <- <-]. apply unsnoc_None in E. by subst.
  Qed.
End unsnoc.
  Lemma unsnoc_map {A B} (f : A → B) l :
    unsnoc (map f l) = match unsnoc l with None => None | Some (l, x) => Some (map f l, f x) end.
  Proof.
    destruct (unsnoc l) as [[l' x]|] eqn:E.
    - apply unsnoc_Some in E as ->. rewrite map_app. apply (unsnoc_snoc ).
    - apply unsnoc_None in E as ->. done.
  Qed.


Section drive.
  Context {IT A : Type} (next next_back : IT → res (option A * IT)) (I : IT → list A → Prop).
  Hypothesis Hn0 : ∀ it, I it [] → ∃ it', next it = Val (None, it') ∧ I it' [].
  Hypothesis Hn1 : ∀ it x l, I it (x :: l) → ∃ it', next it = Val (Some x, it') ∧ I it' l.
  Hypothesis Hb0 : ∀ it, I it [] → ∃ it', next_back it = Val (None, it') ∧ I it' [].
  Hypothesis Hb1 : ∀ it x l, I it (l ++ [x]) → ∃ it', next_back it = Val (Some x, it') ∧ I it' l.
  Lemma drive_ok script it l : I it l → drive next next_back script it = Val (de_spec script l).
  Proof.
    revert it l. induction script as [|[] script IH]; intros it l Hi; simpl; [done|..].
    - destruct l as [|x l].
      + destruct (Hn0 _ Hi) as (it' & -> & Hi'). cbn. by rewrite (IH _ _ Hi').
      + destruct (Hn1 _ _ _ Hi) as (it' & -> & Hi'). cbn. by rewrite (IH _ _ Hi').
    - destruct (unsnoc l) as [[l' x]|] eqn:E.
      + apply unsnoc_Some in E as ->. destruct (Hb1 _ _ _ Hi) as (it' & -> & Hi'). cbn. by rewrite (IH _ _ Hi').
      + apply unsnoc_None in E as ->. destruct (Hb0 _ Hi) as (it' & -> & Hi'). cbn. by rewrite (IH _ _ Hi').
  Qed.
End drive.

Section drive_mut.
  Context {S A V : Type} (next next_back : (V → V) → M S (option A)) (upd : (V → V) → A → A)
    (J : S → list A → list A → list A → Prop).
  Hypothesis Hn0 : ∀ s P B f, J s P [] B → wp (next f) s (λ o s', o = None ∧ J s' P [] B).
  Hypothesis Hn1 : ∀ s P x l B f, J s P (x :: l) B →
    wp (next f) s (λ o s', o = Some x ∧ J s' (P ++ [upd f x]) l B).
  Hypothesis Hb0 : ∀ s P B f, J s P [] B → wp (next_back f) s (λ o s', o = None ∧ J s' P [] B).
  Hypothesis Hb1 : ∀ s P x l B f, J s P (l ++ [x]) B →
    wp (next_back f) s (λ o s', o = Some x ∧ J s' P l (upd f x :: B)).
  Lemma drive_mut_ok script s P l B :
    J s P l B →
    wp (drive_mut next next_back script) s (λ o s', o = (de_mut_spec upd script l).1 ∧
      ∃ P' l' B', J s' P' l' B' ∧ P' ++ l' ++ B' = P ++ (de_mut_spec upd script l).2 ++ B).
  Proof.
    revert s P l B. induction script as [|[[] f] script IH]; intros s P l B Hj; simpl.
    { apply wp_ret. split; [done|]. eauto. }
    - destruct l as [|x l]; apply wp_bind.
      + eapply wp_mono; [by apply Hn0|]. intros o s' [-> Hj']. apply wp_bind.
        eapply wp_mono; [by eapply IH|]. intros o' s'' [-> Hs]. apply wp_ret.
        destruct (de_mut_spec upd script []). simpl in *. eauto.
      + eapply wp_mono; [by apply Hn1|]. intros o s' [-> Hj']. apply wp_bind.
        eapply wp_mono; [by eapply IH|]. intros o' s'' [-> Hs]. apply wp_ret.
        destruct (de_mut_spec upd script l). simpl in *. split; [done|].
        destruct Hs as (P' & l' & B' & ? & He). exists P', l', B'. split; [done|].
        rewrite He, <- app_assoc. done.
    - destruct (unsnoc l) as [[l' x]|] eqn:E; apply wp_bind.
      + apply unsnoc_Some in E as ->.
        eapply wp_mono; [by apply Hb1|]. intros o s' [-> Hj']. apply wp_bind.
        eapply wp_mono; [by eapply IH|]. intros o' s'' [-> Hs]. apply wp_ret.
        destruct (de_mut_spec upd script l'). simpl in *. split; [done|].
        destruct Hs as (P' & m & B' & ? & He). exists P', m, B'. split; [done|].
        rewrite He, <- !app_assoc. done.
      + apply unsnoc_None in E as ->. eapply wp_mono; [by apply Hb0|]. intros o s' [-> Hj']. apply wp_bind.
        eapply wp_mono; [by eapply IH|]. intros o' s'' [-> Hs]. apply wp_ret.
        destruct (de_mut_spec upd script []). simpl in *. eauto.
  Qed.
End drive_mut.

Lemma de_spec_map {A B} (f : A → B) sc l : map (option_map f) (de_spec sc l) = de_spec sc (map f l).
Proof.
  revert l. induction sc as [|[] sc IH]; intros l; simpl; [done|..].
  - destruct l; simpl; by rewrite IH.
  - rewrite unsnoc_map. destruct (unsnoc l) as [[]|]; simpl; by rewrite IH.
Qed.
Lemma de_mut_spec_map {A B V} (f : A → B) (u : (V → V) → A → A) (w : (V → V) → B → B) sc l :
  (∀ g x, f (u g x) = w g (f x)) →
  de_mut_spec w sc (map f l) = (map (option_map f) (de_mut_spec u sc l).1, map f (de_mut_spec u sc l).2).
Proof.
  intros Hf. revert l. induction sc as [|[[] g] sc IH]; intros l; simpl; [done|..].
  - destruct l as [|x l]; simpl.
    + specialize (IH []). simpl in IH. rewrite IH. by destruct (de_mut_spec u sc []).
    + rewrite IH. destruct (de_mut_spec u sc l). simpl. by rewrite Hf.
  - rewrite unsnoc_map. destruct (unsnoc l) as [[l' x]|]; simpl.
    + rewrite IH. destruct (de_mut_spec u sc l'). simpl. by rewrite map_app, <- Hf.
    + specialize (IH []). simpl in IH. rewrite IH. by destruct (de_mut_spec u sc []).
Qed.
(** The relation between entries, preserved element by element *)
Lemma de_mut_spec_keys {A B V} (u : (V → V) → A → A) (f : A → B) sc l :
  (∀ g x, f (u g x) = f x) → map f (de_mut_spec u sc l).2 = map f l.
Proof.
  intros Hf. revert l. induction sc as [|[[] g] sc IH]; intros l; simpl; [done|..].
  - destruct l as [|x l]; simpl.
    + specialize (IH []). destruct (de_mut_spec u sc []). done.
    + specialize (IH l). destruct (de_mut_spec u sc l). simpl in *. by rewrite Hf, IH.
  - destruct (unsnoc l) as [[l' x]|] eqn:E; simpl.
    + apply unsnoc_Some in E as ->. specialize (IH l'). destruct (de_mut_spec u sc l'). simpl in *.
      rewrite !map_app, IH. simpl. by rewrite Hf.
    + apply unsnoc_None in E as ->. specialize (IH []). destruct (de_mut_spec u sc []). done.
Qed.

(** Simulation: a history of the model answers like the history of the specification *)
Section sim.
  Context {S O R A : Type} (step : O → M S R) (spec : O → A → res R * A) (I : A → S → Prop) (P : O → A → Prop).
  Hypothesis Hstep : ∀ o a s, I a s → P o a →
    (call (step o) s).1 = (spec o a).1 ∧ I (spec o a).2 (call (step o) s).2.
  Fixpoint allowed (ops : list O) (a : A) : Prop :=
    match ops with [] => True | o :: ops => P o a ∧ allowed ops (spec o a).2 end.
  Lemma sim_history ops s a :
    I a s → allowed ops a →
    (history step ops s).1 = (spec_history spec ops a).1 ∧
    I (spec_history spec ops a).2 (history step ops s).2.
  Proof.
    revert s a. induction ops as [|o ops IH]; intros s a Hi; simpl; [done|]. intros [Hp Ha].
    destruct (Hstep o a s Hi Hp) as [H1 H2].
    destruct (call (step o) s) as [r s']. destruct (spec o a) as [r' a']. simpl in *. subst r'.
    destruct (IH s' a' H2 Ha) as [H3 H4].
    destruct (history step ops s'). destruct (spec_history spec ops a'). simpl in *. by subst.
  Qed.
End sim.

(** The elements a script yields are distinct positions of the sequence *)
Lemma de_spec_sub {A} sc (l : list A) : omap id (de_spec sc l) ⊆+ l.
Proof.
  revert l. induction sc as [|[] sc IH]; intros l; simpl; [apply submseteq_nil_l|..].
  - destruct l; simpl; [apply (IH [])|]. by apply submseteq_skip.
  - destruct (unsnoc l) as [[l' x]|] eqn:E; simpl.
    + apply unsnoc_Some in E as ->. rewrite <- Permutation_cons_append. by apply submseteq_skip.
    + apply unsnoc_None in E as ->. apply (IH []).
Qed.
Lemma de_mut_spec_out {A V} (u : (V → V) → A → A) sc l : (de_mut_spec u sc l).1 = de_spec sc.*1 l.
Proof.
  revert l. induction sc as [|[[] f] sc IH]; intros l; simpl; [done|..].
  - destruct l as [|x l].
    + specialize (IH []). destruct (de_mut_spec u sc []). simpl in *. by rewrite IH.
    + specialize (IH l). destruct (de_mut_spec u sc l). simpl in *. by rewrite IH.
  - destruct (unsnoc l) as [[l' x]|].
    + specialize (IH l'). destruct (de_mut_spec u sc l'). simpl in *. by rewrite IH.
    + specialize (IH []). destruct (de_mut_spec u sc []). simpl in *. by rewrite IH.
Qed.
Lemma NoDup_submseteq {A} (l k : list A) : l ⊆+ k → NoDup k → NoDup l.
Proof. intros [k' ->]%submseteq_Permutation Hk. by apply NoDup_app in Hk as (? & _ & _). Qed.
Lemma de_spec_NoDup {A B} (f : A → B) sc (l : list A) :
  NoDup (map f l) → NoDup (map f (omap id (de_spec sc l))).
Proof.
  intros Hl. eapply NoDup_submseteq; [|exact Hl]. apply (fmap_submseteq f). apply de_spec_sub.
Qed.
