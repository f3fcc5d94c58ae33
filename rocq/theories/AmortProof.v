(** * The copies with counted rounds compute the same or run out of them; whole histories *)
From Verif Require Export RotProof RBMain AmortModel AmortRB.

Lemma fler_tail {S} (m : M S ()) (n : nat) : fler left_over (m;; mret n) m.
Proof. intros s. unfold mbind, M_bind. destruct (m s) as [? s'|? s']; right; [right|left]; by repeat eexists. Qed.
Lemma fler_fail {S A B} (R : A → B → Prop) (m : M S B) : fler R (mfail OutOfFuel) m.
Proof. intros s. left. by eexists. Qed.
Create HintDb fler.
Ltac fler1 :=
  first
    [ apply fler_fail
    | by apply fler_ret
    | apply fler_tail
    | progress (solve [eauto with fler])
    | apply fler_same; intros ?
    | match goal with
      | |- fler _ (if ?b then _ else _) _ => destruct b
      | |- fler _ (match ?x with _ => _ end) _ => destruct x
      | |- fler _ (mbind _ (if ?b then _ else _)) _ => destruct b
      end
    | eapply fler_bind; [solve [eauto with fler]|intros ? ? ?] ].
Ltac flert := cbv zeta; repeat fler1.

Section rb.
  Context `{Profile} {K V : Type} (cmp : K → K → comparison).
  Notation rbt := (rbt K V).
  Lemma rba_fix_insert_loop_fler f n i : fler left_over (rba_fix_insert_loop (K := K) (V := V) f n i) (rb_fix_insert_loop f i).
  Proof using Type.
    revert n i. induction f as [|f IH]; intros n i; [apply fler_fail|]. destruct n as [|n]; [apply fler_fail|].
    cbn [rba_fix_insert_loop rb_fix_insert_loop]. flert.
  Qed.
  Lemma rba_fix_remove_loop_fler f n i d : fler left_over (rba_fix_remove_loop (K := K) (V := V) f n i d) (rb_fix_remove_loop f i d).
  Proof using Type.
    revert n i d. induction f as [|f IH]; intros n i d; [apply fler_fail|]. destruct n as [|n]; [apply fler_fail|].
    cbn [rba_fix_remove_loop rb_fix_remove_loop]. flert.
  Qed.
  Hint Resolve rba_fix_insert_loop_fler rba_fix_remove_loop_fler : fler.
  Lemma rba_fix_insert_fler n i : fler left_over (rba_fix_insert (K := K) (V := V) n i) (rb_fix_insert i).
  Proof using Type. unfold rba_fix_insert, rb_fix_insert. flert. Qed.
  Lemma rba_fix_remove_fler n i pd : fler left_over (rba_fix_remove (K := K) (V := V) n i pd) (rb_fix_remove i pd).
  Proof using Type. unfold rba_fix_remove, rb_fix_remove. flert. Qed.
  Hint Resolve rba_fix_insert_fler rba_fix_remove_fler : fler.
  Lemma rba_insert_loop_fler f n k v i : fler fst_is (rba_insert_loop cmp f n k v i) (rb_insert_loop (V := V) cmp f k v i).
  Proof using Type.
    revert i. induction f as [|f IH]; intros i; [apply fler_fail|]. cbn [rba_insert_loop rb_insert_loop].
    apply fler_same. intros nd. destruct (cmp k nd.1).
    1: by flert.
    all: apply fler_same; intros tg; destruct (decide _); [|apply IH]; apply fler_same; intros t; destruct (decide _); [by apply fler_ret|].
    all: do 4 (apply fler_same; intros ?).
    all: eapply (fler_bind left_over); [destruct (decide _); [apply rba_fix_insert_fler|by apply fler_ret]|]; intros ? ? _; by apply fler_ret.
  Qed.
  Hint Resolve rba_insert_loop_fler : fler.
  Lemma rba_insert_fler n k v : fler fst_is (rba_insert cmp n k v) (rb_insert (V := V) cmp k v).
  Proof using Type. unfold rba_insert, rb_insert. flert. Qed.
  Lemma rba_remove_tree_node_fler n i : fler left_over (rba_remove_tree_node (K := K) (V := V) n i) (rb_remove_tree_node i).
  Proof using Type. unfold rba_remove_tree_node, rb_remove_tree_node. flert. Qed.
  Hint Resolve rba_remove_tree_node_fler : fler.
  Lemma rba_remove_loop_fler f n k i : fler fst_is (rba_remove_loop cmp f n k i) (rb_remove_loop (V := V) cmp f k i).
  Proof using Type.
    revert i. induction f as [|f IH]; intros i; [apply fler_fail|]. cbn [rba_remove_loop rb_remove_loop]. flert.
  Qed.
  Hint Resolve rba_remove_loop_fler : fler.
  Lemma rba_remove_fler n k : fler fst_is (rba_remove cmp n k) (rb_remove (V := V) cmp k).
  Proof using Type. unfold rba_remove, rb_remove. flert. Qed.
  Lemma rba_remove_root_fler n : fler fst_is (rba_remove_root (K := K) (V := V) n) rb_remove_root.
  Proof using Type. unfold rba_remove_root, rb_remove_root. flert. Qed.

  (** *** One call: out of rounds, or as without the count *)
  Lemma rba_run_ok {A} (m1 : nat → M rbt (A * nat)) (m2 : M rbt A) t n :
    fler fst_is (m1 n) m2 →
    (∃ s', rba_run m1 (t, n) = Fail OutOfFuel s') ∨
    (∃ e t', rba_run m1 (t, n) = Fail e (t', n) ∧ m2 t = Fail e t') ∨
    ∃ a n' t', rba_run m1 (t, n) = Ret a (t', n') ∧ m1 n t = Ret (a, n') t' ∧ m2 t = Ret a t'.
  Proof using Type.
    intros Hm. unfold rba_run. cbn [fst snd]. destruct (Hm t) as [[s' ->]|[(e & s' & -> & ->)|([a n'] & ? & s' & -> & -> & <-)]].
    - left. by eexists.
    - right. left. by repeat eexists.
    - right. right. by repeat eexists.
  Qed.
  Lemma rba_step_ok o (t : rbt) n :
    (∃ s', rba_step cmp o (t, n) = Fail OutOfFuel s') ∨
    ∃ n', call (rba_step cmp o) (t, n) = ((call (rb_step cmp o) t).1, ((call (rb_step cmp o) t).2, n')).
  Proof using Type.
    assert (∀ {A B} (m1 : nat → M rbt (A * nat)) (m2 : M rbt A) (g : A → B), fler fst_is (m1 n) m2 →
      (∃ s', (o ← rba_run m1; mret (g o)) (t, n) = Fail OutOfFuel s') ∨
      ∃ n', call (o ← rba_run m1; mret (g o)) (t, n) = ((call (o ← m2; mret (g o)) t).1, ((call (o ← m2; mret (g o)) t).2, n'))) as Hg.
    { intros A B m1 m2 g Hm. unfold call, mbind, M_bind.
      destruct (rba_run_ok m1 m2 t n Hm) as [[s' ->]|[(e & s' & -> & ->)|(a & n' & s' & -> & _ & ->)]]; [left; by eexists|right; by eexists..]. }
    assert (∀ (m : M rbt (om_out K V)), ∃ n', call (rba_run (λ rem, a ← m; mret (a, rem))) (t, n) = ((call m t).1, ((call m t).2, n'))) as Hsame.
    { intros m. exists n. unfold call, rba_run, mbind, M_bind. cbn [fst snd]. destruct (m t); done. }
    destruct o as [o|]; [|exact (Hg _ _ _ _ _ (rba_remove_root_fler n))].
    destruct o; try (right; by apply Hsame).
    - exact (Hg _ _ _ _ _ (rba_insert_fler n _ _)).
    - exact (Hg _ _ _ _ _ (rba_remove_fler n _)).
  Qed.
End rb.

Section hist.
  Context `{Profile} {K V : Type} (cmp : K → K → comparison) (HO : OrdLaws cmp) (cap : N) (Hcap : 0 < cap).
  Notation rbt := (rbt K V).
  Notation rbok := (rbok cmp cap).
  Implicit Types t : rbt.

  (** the calls that do not change which entries there are *)
  Lemma rb_quiet_pot o t U :
    rbok t U → (∀ os, updates (Some o :: os) = updates os) → ∃ U', rbok (call (om_step (rb_api cmp) o) t).2 U' ∧ pot U' = pot U.
  Proof using HO.
    clear Hcap. intros Hok Hq.
    assert (∀ {B} (f : rbt → res B) (g : B → om_out K V), ∃ U', rbok (call (o ← gets f; mret (g o)) t).2 U' ∧ pot U' = pot U) as Hread.
    { intros B f g. exists U. split; [|done]. unfold call, gets, mbind, M_bind. by destruct (f t). }
    assert (∀ {B} (m : M rbt B) (g : B → om_out K V), (∃ U', rbok (call m t).2 U' ∧ pot U' = pot U) →
      ∃ U', rbok (call (o ← m; mret (g o)) t).2 U' ∧ pot U' = pot U) as Hthen.
    { intros B m g Hm. unfold call, mbind, M_bind in *. by destruct (m t). }
    assert (∀ k f, ∃ U', rbok (call (rb_get_mut cmp k f) t).2 U' ∧ pot U' = pot U) as Hgm.
    { intros k f. assert (wp (rb_get_mut cmp k f) t (λ _ t', ∃ U', rbok t' U' ∧ pot U' = pot U)) as Hw.
      { eapply (wp_get_mut' cmp HO cap); [exact Hok|]. intros o' t' U' Hok' _ _ Hss. exists U'. split; [done|]. symmetry. by apply pot_same. }
      apply wp_elim in Hw as (a & t' & He & HU). unfold call. by rewrite He. }
    destruct o; cbn [om_step a_get a_get_mut a_contains a_len a_capacity a_min a_max a_index a_index_mut a_iter a_iter_mut rb_api];
      try (specialize (Hq []); simpl in Hq; lia); try apply Hread; try (apply Hthen, Hgm); try (by exists U).
    - apply Hthen. destruct (Hgm k f) as (U' & Hok' & Hp). exists U'. split; [|done].
      unfold rb_index_mut, call, mbind, M_bind in *. by destruct (rb_get_mut cmp k f t) as [[] ?|].
    - apply Hthen. assert (wp (rb_iterate_mut script) t (λ _ t', ∃ U', rbok t' U' ∧ pot U' = pot U)) as Hw.
      { eapply (rb_iterate_mut_ok cmp cap); [exact Hok|]. intros t' U' Hok' Hss _. exists U'. split; [done|]. symmetry. by apply pot_same. }
      apply wp_elim in Hw as (a & t' & He & HU). unfold call. by rewrite He.
  Qed.
  Lemma rba_step_pays o os t U n :
    rbok t U → (pot U + 4 * updates (o :: os) ≤ n)%nat →
    ∃ n' U', call (rba_step cmp o) (t, n) = ((call (rb_step cmp o) t).1, ((call (rb_step cmp o) t).2, n')) ∧
      rbok (call (rb_step cmp o) t).2 U' ∧ (pot U' + 4 * updates os ≤ n')%nat.
  Proof using HO Hcap.
    intros Hok Hn.
    assert (∀ {A B} (m1 : nat → M rbt (A * nat)) (m2 : M rbt A) (g : A → B), fler fst_is (m1 n) m2 →
      wp (m1 n) t (λ an t', ∃ U', rbok t' U' ∧ (pot U' + 4 * updates os ≤ an.2)%nat) →
      ∃ n' U', call (o ← rba_run m1; mret (g o)) (t, n) = ((call (o ← m2; mret (g o)) t).1, ((call (o ← m2; mret (g o)) t).2, n')) ∧
        rbok (call (o ← m2; mret (g o)) t).2 U' ∧ (pot U' + 4 * updates os ≤ n')%nat) as Hg.
    { intros A B m1 m2 g Hm Hw. apply wp_elim in Hw as ([a n'] & t' & He & U' & Hok' & Hp). cbn [snd] in Hp.
      exists n', U'. unfold call, mbind, M_bind. destruct (rba_run_ok m1 m2 t n Hm) as [[s' Hf]|[(e & s' & Hf & _)|(a' & n1 & s' & -> & He' & ->)]].
      - unfold rba_run in Hf. cbn [fst snd] in Hf. by rewrite He in Hf.
      - unfold rba_run in Hf. cbn [fst snd] in Hf. by rewrite He in Hf.
      - rewrite He in He'. by simplify_eq. }
    assert (∀ o', o = Some o' → (∀ os, updates (Some o' :: os) = updates os) →
      ∃ n' U', call (rba_run (λ rem, a ← om_step (rb_api cmp) o'; mret (a, rem))) (t, n) = ((call (rb_step cmp o) t).1, ((call (rb_step cmp o) t).2, n')) ∧
      rbok (call (rb_step cmp o) t).2 U' ∧ (pot U' + 4 * updates os ≤ n')%nat) as Hquiet.
    { intros o' -> Hq. destruct (rb_quiet_pot o' t U Hok Hq) as (U' & Hok' & Hp). rewrite Hq in Hn. exists n, U'. split_and!; [|done|lia].
      unfold call, rba_run, mbind, M_bind, rb_step. cbn [fst snd]. by destruct (om_step (rb_api cmp) o' t). }
    destruct o as [o|].
    - destruct o; try (by apply Hquiet).
      + apply (Hg _ _ _ _ _ (rba_insert_fler cmp n _ _)). eapply (wpa_insert cmp HO cap (4 * updates os) n t U); [exact Hok|exact Hcap|simpl in Hn; lia|].
        intros o rem' t' U' Hok' _ Hp. by exists U'.
      + apply (Hg _ _ _ _ _ (rba_remove_fler cmp n _)). eapply (wpa_remove cmp HO cap (4 * updates os) n t U); [exact Hok|simpl in Hn; lia|].
        intros o rem' t' U' Hok' _ Hp. by exists U'.
    - apply (Hg _ _ _ _ _ (rba_remove_root_fler n)). eapply (wpa_remove_root cmp HO cap (4 * updates os) n t U); [exact Hok|simpl in Hn; lia| |].
      + intros ->. exists Lf. split; [done|]. simpl in *. lia.
      + intros m l i kv r rem' t' U' _ Hok' _ _ Hp. by exists U'.
  Qed.
  Lemma rba_history os t U n :
    rbok t U → (pot U + 4 * updates os ≤ n)%nat →
    ∃ n', history (rba_step cmp) os (t, n) = ((history (rb_step cmp) os t).1, ((history (rb_step cmp) os t).2, n')).
  Proof using HO Hcap.
    revert t U n. induction os as [|o os IH]; intros t U n Hok Hn; [by exists n|].
    destruct (rba_step_pays o os t U n Hok Hn) as (n1 & U1 & He & Hok1 & Hn1).
    destruct (IH _ _ _ Hok1 Hn1) as (n2 & He2). cbn [history]. rewrite He.
    destruct (call (rb_step cmp o) t) as [r t1]. cbn [fst snd] in *. rewrite He2. destruct (history (rb_step cmp) os t1) as [rs t2]. by exists n2.
  Qed.
  Lemma rbok_pot t U : rbok t U → (pot U ≤ N.to_nat (rb_len t))%nat.
  Proof using Type.
    clear HO Hcap. intros [HR [_ [n Hn]] _]. pose proof (pot_tsize _ _ Hn). rewrite (rep_len cap _ _ HR). unfold lengthN. rewrite Nat2N.id.
    assert (length (entries U) = tsize U) as ->; [|lia]. clear. induction U; simpl; [done|]. rewrite app_length. simpl. lia.
  Qed.
End hist.
