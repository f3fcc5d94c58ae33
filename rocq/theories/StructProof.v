(** * The structural unit tests of red_black_tree.rs pass for all keys in the same relative order

    Keys are paired with numbers that are in the same order; the test on pairs compares the numbers, so it can be evaluated although the keys
    are arbitrary, and data independence ([RelProof]) carries the outcome over to the keys. *)
From Verif Require Import RelProof RelMain.
From Verif Require Export StructModel.

Section lift.
  Context `{Profile} {K K' V V' : Type} (RK : K → K' → Prop) (RV : V → V' → Prop) (cmp : K → K → comparison) (cmp' : K' → K' → comparison).
  Context (Hcmp : ∀ a a' b b', RK a a' → RK b b' → cmp a b = cmp' a' b') (z : V) (z' : V') (Hz : RV z z').
  Lemma l_unwrap {A A'} (R : A → A' → Prop) o o' : orel R o o' → rrel R (unwrap o) (unwrap o').
  Proof. destruct o, o'; done. Qed.
  Lemma l_s_insert k k' : RK k k' → mrel (rbr RK RV) eq (s_insert (rb_shape cmp) z k) (s_insert (rb_shape cmp') z' k').
  Proof using Hcmp Hz.
    intros Hk. unfold s_insert. eapply mrel_bind; [by apply (l_rb_insert RK RV cmp cmp' Hcmp)|]. intros o o' <-.
    apply mrel_lift. destruct o; done.
  Qed.
  Lemma l_s_eq f f' x : (∀ t t', rbr RK RV t t' → rrel eq (f t) (f' t')) → mrel (rbr RK RV) eq (s_eq f x) (s_eq f' x).
  Proof. intros Hf. unfold s_eq. eapply mrel_bind; [by apply mrel_gets|]. intros a a' <-. apply mrel_massert. Qed.
  Lemma l_s_is f f' : (∀ t t', rbr RK RV t t' → rrel eq (f t) (f' t')) → mrel (rbr RK RV) eq (s_is f) (s_is f').
  Proof. intros Hf. unfold s_is. eapply mrel_bind; [by apply mrel_gets|]. intros a a' <-. apply mrel_massert. Qed.
  Ltac sgo :=
    repeat first
      [ apply l_s_insert; done
      | apply l_s_eq; intros; first [eapply l_rb_get_left | eapply l_rb_get_right | eapply l_rb_get_parent]; eassumption
      | apply l_s_is; intros; first [eapply l_rb_is_black | eapply l_rb_is_red | eapply l_rb_is_leaf]; eassumption
      | eapply (mrel_bind _ eq); [|intros ? ? <-] ].
  Lemma l_test_red_uncle a b c d e f a' b' c' d' e' f' : RK a a' → RK b b' → RK c c' → RK d d' → RK e e' → RK f f' →
    mrel (rbr RK RV) eq (test_red_uncle (rb_shape cmp) z a b c d e f) (test_red_uncle (rb_shape cmp') z' a' b' c' d' e' f').
  Proof using Hcmp Hz. intros. unfold test_red_uncle, s_left, s_right, s_parent, s_black, s_red, s_leaf. sgo. Qed.
  Lemma l_test_right_right a b c d e a' b' c' d' e' : RK a a' → RK b b' → RK c c' → RK d d' → RK e e' →
    mrel (rbr RK RV) eq (test_right_right (rb_shape cmp) z a b c d e) (test_right_right (rb_shape cmp') z' a' b' c' d' e').
  Proof using Hcmp Hz. intros. unfold test_right_right, s_left, s_right, s_parent, s_black, s_red, s_leaf. sgo. Qed.
  Lemma l_test_right_left a b c d e a' b' c' d' e' : RK a a' → RK b b' → RK c c' → RK d d' → RK e e' →
    mrel (rbr RK RV) eq (test_right_left (rb_shape cmp) z a b c d e) (test_right_left (rb_shape cmp') z' a' b' c' d' e').
  Proof using Hcmp Hz. intros. unfold test_right_left, s_left, s_right, s_parent, s_black, s_red, s_leaf. sgo. Qed.
  Lemma l_test_left_left a b c d e a' b' c' d' e' : RK a a' → RK b b' → RK c c' → RK d d' → RK e e' →
    mrel (rbr RK RV) eq (test_left_left (rb_shape cmp) z a b c d e) (test_left_left (rb_shape cmp') z' a' b' c' d' e').
  Proof using Hcmp Hz. intros. unfold test_left_left, s_left, s_right, s_parent, s_black, s_red, s_leaf. sgo. Qed.
  Lemma l_test_left_right a b c d e a' b' c' d' e' : RK a a' → RK b b' → RK c c' → RK d d' → RK e e' →
    mrel (rbr RK RV) eq (test_left_right (rb_shape cmp) z a b c d e) (test_left_right (rb_shape cmp') z' a' b' c' d' e').
  Proof using Hcmp Hz. intros. unfold test_left_right, s_left, s_right, s_parent, s_black, s_red, s_leaf. sgo. Qed.
  Lemma l_test_remove_root a b c a' b' c' u v w u' v' w' : RK a a' → RK b b' → RK c c' → RV u u' → RV v v' → RV w w' →
    mrel (rbr RK RV) (prel RK RV) (test_remove_root (rb_insert cmp) rb_remove_root a b c u v w) (test_remove_root (rb_insert cmp') rb_remove_root a' b' c' u' v' w').
  Proof using Hcmp.
    intros. unfold test_remove_root. eapply mrel_bind; [by apply l_rb_remove_root|]. intros o o' Ho.
    eapply (mrel_bind _ eq); [destruct o, o'; try done; apply mrel_massert|]. intros _ _ _.
    eapply mrel_bind; [by apply (l_rb_insert RK RV cmp cmp' Hcmp)|]. intros _ _ _.
    eapply mrel_bind; [by apply (l_rb_insert RK RV cmp cmp' Hcmp)|]. intros _ _ _.
    eapply mrel_bind; [by apply (l_rb_insert RK RV cmp cmp' Hcmp)|]. intros _ _ _.
    eapply mrel_bind; [by apply l_rb_remove_root|]. intros r r' Hr. apply mrel_lift. by apply l_unwrap.
  Qed.
End lift.

Section keys.
  Context {K V : Type} (cmp : K → K → comparison) (HO : OrdLaws cmp).
  (** Comparing keys that carry a number; 0 marks the default key of the unused slots *)
  Definition ncmp (x y : N * K) : comparison :=
    match x.1, y.1 with 0, _ | _, 0 => cmp x.2 y.2 | a, b => N.compare a b end.
  Definition numbered (l : list (N * K)) (k : K) (x : N * K) : Prop := k = x.2 ∧ (x.1 = 0 ∨ x ∈ l).
  Definition increasing (l : list (N * K)) : Prop := StronglySorted (λ x y, x.1 < y.1 ∧ cmp x.2 y.2 = Lt) l.
  Lemma increasing_cmp l x y : increasing l → x ∈ l → y ∈ l → cmp x.2 y.2 = N.compare x.1 y.1.
  Proof using HO.
    intros Hl. revert x y. induction Hl as [|z l Hl IH Hz]; intros x y Hx Hy; [by apply elem_of_nil in Hx|].
    rewrite Forall_forall in Hz. apply elem_of_cons in Hx as [->|Hx]; apply elem_of_cons in Hy as [->|Hy].
    - rewrite (cmp_refl' cmp HO). by rewrite N.compare_refl.
    - destruct (Hz _ Hy) as [Hn ->]. symmetry. by apply N.compare_lt_iff.
    - destruct (Hz _ Hx) as [Hn Hc]. rewrite (cmp_sym _ HO z.2 x.2), Hc. symmetry. by apply N.compare_gt_iff.
    - by apply IH.
  Qed.
  Lemma numbered_cmp l a x b y : increasing l → numbered l a x → numbered l b y → cmp a b = ncmp x y.
  Proof using HO.
    intros Hl [-> Hx] [-> Hy]. unfold ncmp. destruct x as [[|n] x], y as [[|m] y]; cbn in *; try done.
    destruct Hx as [|Hx], Hy as [|Hy]; try done. exact (increasing_cmp l _ _ Hl Hx Hy).
  Qed.
  Lemma inc_one n a : increasing [(n, a)].
  Proof. repeat constructor. Qed.
  Lemma inc_cons n a m b l : n < m → cmp a b = Lt → increasing ((m, b) :: l) → increasing ((n, a) :: (m, b) :: l).
  Proof using HO.
    intros Hn Hc Hl. constructor; [done|]. constructor; [done|]. apply StronglySorted_inv in Hl as [_ Hl].
    eapply Forall_impl; [exact Hl|]. intros [m' b'] [Hm Hb]; cbn in *. split; [lia|]. by apply (cmp_trans _ HO a b b').
  Qed.
  Lemma rb_new_rel l ms (d : K * V) : rbr (numbered l) eq (rb_new ms d) (rb_new ms ((0, d.1), d.2)).
  Proof. split; [done|]. apply al_new_rel. split; [|done]. split; [done|]. by left. Qed.
End keys.

Section passes.
  Context `{Profile} {K V : Type} (cmp : K → K → comparison) (HO : OrdLaws cmp).
  Lemma transport {RK RV} {A} (m : M (rbt K V) A) (m' : M (rbt (N * K) V) A) t t' a u :
    mrel (rbr RK RV) eq m m' → rbr RK RV t t' → m' t' = Ret a u → ∃ w, m t = Ret a w.
  Proof. intros Hm Ht He. specialize (Hm _ _ Ht). rewrite He in Hm. destruct (m t); [|done]. destruct Hm as [-> _]. by eexists. Qed.
  Ltac inl := split; [done|right; repeat first [left | right]].
  Ltac incr := repeat (apply inc_cons; [done|done|done|]); apply inc_one.
  Lemma red_uncle_passes (d : K * V) z k52 k61 k76 k85 k93 k100 :
    cmp k52 k61 = Lt → cmp k61 k76 = Lt → cmp k76 k85 = Lt → cmp k85 k93 = Lt → cmp k93 k100 = Lt →
    ∃ t, test_red_uncle (rb_shape cmp) z k52 k61 k76 k85 k93 k100 (rb_new 1024 d) = Ret () t.
  Proof using HO.
    intros H1 H2 H3 H4 H5. set (l := [(52, k52); (61, k61); (76, k76); (85, k85); (93, k93); (100, k100)]).
    assert (increasing cmp l) as Hl by incr.
    assert (∃ u, test_red_uncle (rb_shape (ncmp cmp)) z (52, k52) (61, k61) (76, k76) (85, k85) (93, k93) (100, k100)
                   (rb_new 1024 ((0, d.1), d.2)) = Ret () u) as [u Hu].
    { clear. destruct H as [[]]; eexists; vm_compute; reflexivity. }
    eapply (transport (RK := numbered l) (RV := eq)); [|apply rb_new_rel|exact Hu].
    apply l_test_red_uncle; [intros a a' b b' Ha Hb; exact (numbered_cmp cmp HO l _ _ _ _ Hl Ha Hb)|done|inl..].
  Qed.
  Lemma right_right_passes (d : K * V) z k52 k61 k85 k93 k100 :
    cmp k52 k61 = Lt → cmp k61 k85 = Lt → cmp k85 k93 = Lt → cmp k93 k100 = Lt →
    ∃ t, test_right_right (rb_shape cmp) z k52 k61 k85 k93 k100 (rb_new 1024 d) = Ret () t.
  Proof using HO.
    intros H1 H2 H3 H4. set (l := [(52, k52); (61, k61); (85, k85); (93, k93); (100, k100)]).
    assert (increasing cmp l) as Hl by incr.
    assert (∃ u, test_right_right (rb_shape (ncmp cmp)) z (52, k52) (61, k61) (85, k85) (93, k93) (100, k100)
                   (rb_new 1024 ((0, d.1), d.2)) = Ret () u) as [u Hu].
    { clear. destruct H as [[]]; eexists; vm_compute; reflexivity. }
    eapply (transport (RK := numbered l) (RV := eq)); [|apply rb_new_rel|exact Hu].
    apply l_test_right_right; [intros a a' b b' Ha Hb; exact (numbered_cmp cmp HO l _ _ _ _ Hl Ha Hb)|done|inl..].
  Qed.
  Lemma right_left_passes (d : K * V) z k52 k61 k85 k87 k93 :
    cmp k52 k61 = Lt → cmp k61 k85 = Lt → cmp k85 k87 = Lt → cmp k87 k93 = Lt →
    ∃ t, test_right_left (rb_shape cmp) z k52 k61 k85 k87 k93 (rb_new 1024 d) = Ret () t.
  Proof using HO.
    intros H1 H2 H3 H4. set (l := [(52, k52); (61, k61); (85, k85); (87, k87); (93, k93)]).
    assert (increasing cmp l) as Hl by incr.
    assert (∃ u, test_right_left (rb_shape (ncmp cmp)) z (52, k52) (61, k61) (85, k85) (87, k87) (93, k93)
                   (rb_new 1024 ((0, d.1), d.2)) = Ret () u) as [u Hu].
    { clear. destruct H as [[]]; eexists; vm_compute; reflexivity. }
    eapply (transport (RK := numbered l) (RV := eq)); [|apply rb_new_rel|exact Hu].
    apply l_test_right_left; [intros a a' b b' Ha Hb; exact (numbered_cmp cmp HO l _ _ _ _ Hl Ha Hb)|done|inl..].
  Qed.
  Lemma left_left_passes (d : K * V) z k25 k41 k52 k61 k85 :
    cmp k25 k41 = Lt → cmp k41 k52 = Lt → cmp k52 k61 = Lt → cmp k61 k85 = Lt →
    ∃ t, test_left_left (rb_shape cmp) z k25 k41 k52 k61 k85 (rb_new 1024 d) = Ret () t.
  Proof using HO.
    intros H1 H2 H3 H4. set (l := [(25, k25); (41, k41); (52, k52); (61, k61); (85, k85)]).
    assert (increasing cmp l) as Hl by incr.
    assert (∃ u, test_left_left (rb_shape (ncmp cmp)) z (25, k25) (41, k41) (52, k52) (61, k61) (85, k85)
                   (rb_new 1024 ((0, d.1), d.2)) = Ret () u) as [u Hu].
    { clear. destruct H as [[]]; eexists; vm_compute; reflexivity. }
    eapply (transport (RK := numbered l) (RV := eq)); [|apply rb_new_rel|exact Hu].
    apply l_test_left_left; [intros a a' b b' Ha Hb; exact (numbered_cmp cmp HO l _ _ _ _ Hl Ha Hb)|done|inl..].
  Qed.
  Lemma left_right_passes (d : K * V) z k41 k47 k52 k61 k85 :
    cmp k41 k47 = Lt → cmp k47 k52 = Lt → cmp k52 k61 = Lt → cmp k61 k85 = Lt →
    ∃ t, test_left_right (rb_shape cmp) z k41 k47 k52 k61 k85 (rb_new 1024 d) = Ret () t.
  Proof using HO.
    intros H1 H2 H3 H4. set (l := [(41, k41); (47, k47); (52, k52); (61, k61); (85, k85)]).
    assert (increasing cmp l) as Hl by incr.
    assert (∃ u, test_left_right (rb_shape (ncmp cmp)) z (41, k41) (47, k47) (52, k52) (61, k61) (85, k85)
                   (rb_new 1024 ((0, d.1), d.2)) = Ret () u) as [u Hu].
    { clear. destruct H as [[]]; eexists; vm_compute; reflexivity. }
    eapply (transport (RK := numbered l) (RV := eq)); [|apply rb_new_rel|exact Hu].
    apply l_test_left_right; [intros a a' b b' Ha Hb; exact (numbered_cmp cmp HO l _ _ _ _ Hl Ha Hb)|done|inl..].
  Qed.
  Lemma remove_root_passes (d : K * V) k0 k1 k2 v4 v5 v0 : cmp k0 k1 = Lt → cmp k1 k2 = Lt →
    ∃ t, test_remove_root (rb_insert cmp) rb_remove_root k0 k1 k2 v4 v5 v0 (rb_new 4098 d) = Ret (k1, v5) t.
  Proof using HO.
    intros H1 H2. set (l := [(1, k0); (2, k1); (3, k2)]).
    assert (increasing cmp l) as Hl by incr.
    assert (∃ u, test_remove_root (rb_insert (ncmp cmp)) rb_remove_root (1, k0) (2, k1) (3, k2) v4 v5 v0 (rb_new 4098 ((0, d.1), d.2)) = Ret ((2, k1), v5) u) as [u Hu].
    { clear. destruct H as [[]]; eexists; vm_compute; reflexivity. }
    assert (mrel (rbr (numbered l) eq) (prel (numbered l) eq) (test_remove_root (rb_insert cmp) rb_remove_root k0 k1 k2 v4 v5 v0)
              (test_remove_root (rb_insert (ncmp cmp)) rb_remove_root (1, k0) (2, k1) (3, k2) v4 v5 v0)) as Hm.
    { apply l_test_remove_root; [intros a a' b b' Ha Hb; exact (numbered_cmp cmp HO l _ _ _ _ Hl Ha Hb)|inl..|done|done|done]. }
    specialize (Hm _ _ (rb_new_rel l 4098 d)). rewrite Hu in Hm. clear Hu.
    generalize dependent (test_remove_root (rb_insert cmp) rb_remove_root k0 k1 k2 v4 v5 v0 (rb_new 4098 d)). intros o Hm. destruct o as [[k v] t|]; [|by destruct Hm].
    destruct Hm as [[[Hk _] Hv] _]. cbn [fst snd] in Hk, Hv. rewrite Hk, Hv. by exists t.
  Qed.
End passes.
