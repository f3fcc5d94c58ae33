(** * The count of AmortModel.v is exact *)
From Verif Require Export AmortProof.

(** [f] is [m] with the rounds counted: from every state [m] takes some number [r] of rounds; with fewer [f] runs out, with [n] it ends as [m] does and leaves [n - r] *)
Definition counted {S A B} (pk : A → nat → B) (f : nat → M S B) (m : M S A) : Prop :=
  ∀ s, ∃ r, ∀ n, ((n < r)%nat → ∃ s', f n s = Fail OutOfFuel s') ∧
    ((r ≤ n)%nat → f n s = match m s with Ret a s' => Ret (pk a (n - r)%nat) s' | Fail e s' => Fail e s' end).
Notation pk0 := (λ (_ : ()) (n : nat), n).
Notation pk2 := (λ a (n : nat), (a, n)).

(** [f] ends with [left] of [n] rounds only if the loop [L] needs exactly the others *)
Definition exactly {S} (n : nat) (m : M S nat) (L : nat → M S ()) : Prop :=
  ∀ s left s', m s = Ret left s' → ∃ r, (n = left + r)%nat ∧ L r s = Ret () s' ∧ ∀ k, (k < r)%nat → ∃ s1, L k s = Fail OutOfFuel s1.

Section comb.
  Context {S : Type}.
  Lemma counted_ret {A B} (pk : A → nat → B) (a : A) : counted (S := S) pk (λ n, mret (pk a n)) (mret a).
  Proof. intros s. exists 0%nat. intros n. split; [lia|]. intros _. by rewrite Nat.sub_0_r. Qed.
  Lemma counted_tail (m : M S ()) : counted pk0 (λ n, m;; mret n) m.
  Proof.
    intros s. exists 0%nat. intros n. split; [lia|]. intros _. unfold mbind, M_bind. destruct (m s) as [[] s'|e s']; [|done].
    by rewrite Nat.sub_0_r.
  Qed.
  Lemma counted_fail {A B} (pk : A → nat → B) : counted (S := S) pk (λ n, mfail OutOfFuel) (mfail OutOfFuel).
  Proof. intros s. exists 0%nat. intros n. split; [lia|done]. Qed.
  Lemma counted_same {A B C} (pk : A → nat → B) (p : M S C) (f : nat → C → M S B) (m : C → M S A) :
    (∀ c, counted pk (λ n, f n c) (m c)) → counted pk (λ n, p ≫= f n) (p ≫= m).
  Proof.
    intros Hf s. unfold mbind, M_bind. destruct (p s) as [c s'|e s']; [apply Hf|]. exists 0%nat. intros n. split; [lia|done].
  Qed.
  Lemma counted_bind {A B A' B'} (pk : A → nat → B) (pk' : A' → nat → B') (f : nat → M S B) (m : M S A) (g : B → M S B') (m' : A → M S A') :
    counted pk f m → (∀ a, counted pk' (λ n, g (pk a n)) (m' a)) → counted pk' (λ n, f n ≫= g) (m ≫= m').
  Proof.
    intros Hf Hg s. destruct (Hf s) as [r Hr]. destruct (m s) as [a s'|e s'] eqn:Em.
    - destruct (Hg a s') as [r' Hr']. exists (r + r')%nat. intros n. unfold mbind, M_bind. rewrite Em. split; intros Hn.
      + destruct (decide (n < r)%nat) as [Hlt|Hge].
        * destruct (Hr n) as [Ho _]. destruct (Ho Hlt) as [s1 ->]. by eexists.
        * destruct (Hr n) as [_ Ho]. rewrite Ho by lia. apply Hr'. lia.
      + destruct (Hr n) as [_ Ho]. rewrite Ho by lia. destruct (Hr' (n - r)%nat) as [_ Ho']. rewrite Ho' by lia.
        replace (n - r - r')%nat with (n - (r + r'))%nat by lia. done.
    - exists r. intros n. unfold mbind, M_bind. rewrite Em. destruct (Hr n) as [Ho1 Ho2]. split; intros Hn.
      + destruct (Ho1 Hn) as [s1 ->]. by eexists.
      + by rewrite Ho2.
  Qed.
  Lemma counted_S {A B} (pk : A → nat → B) (f : nat → M S B) (m : M S A) :
    counted pk f m → counted pk (λ n, match n with O => mfail OutOfFuel | Datatypes.S n => f n end) m.
  Proof.
    intros Hf s. destruct (Hf s) as [r Hr]. exists (Datatypes.S r). intros [|n].
    - split; [by eexists|lia].
    - destruct (Hr n) as [H1 H2]. split; intros Hn; [apply H1; lia|]. rewrite H2 by lia. done.
  Qed.

  Lemma exactly_ret n : exactly (S := S) n (mret n) (λ _, mret ()).
  Proof. intros s left s' [= -> ->]. exists 0%nat. split_and!; [lia|done|lia]. Qed.
  Lemma exactly_tail n (m : M S ()) : exactly n (m;; mret n) (λ _, m).
  Proof.
    intros s left s'. unfold mbind, M_bind. destruct (m s) as [[] s1|e s1] eqn:E; [|done]. intros [= -> ->]. exists 0%nat. split_and!; [lia|done|lia].
  Qed.
  Lemma exactly_same {C} n (p : M S C) (f : C → M S nat) (L : nat → C → M S ()) :
    (∀ c, exactly n (f c) (λ r, L r c)) → exactly n (p ≫= f) (λ r, p ≫= L r).
  Proof.
    intros Hf s left s'. unfold mbind, M_bind. destruct (p s) as [c s1|e s1]; [|done]. apply Hf.
  Qed.
  Lemma exactly_S n (m : M S nat) (L' : nat → M S ()) :
    (∃ L0, exactly n m L0 ∧ (∀ k, L' (Datatypes.S k) = L0 k) ∧ L' 0%nat = mfail OutOfFuel) → exactly (Datatypes.S n) m L'.
  Proof.
    intros (L0 & Hm & HL & HL0) s left s' He. destruct (Hm _ _ _ He) as (r & -> & Hr & Hlt). exists (Datatypes.S r). split_and!; [lia|by rewrite HL|].
    intros [|k] Hk; [rewrite HL0; by eexists|]. rewrite HL. apply Hlt. lia.
  Qed.
End comb.

Create HintDb counted.
Ltac counted1 :=
  first
    [ apply counted_fail
    | exact (counted_ret pk0 ())
    | exact (counted_ret pk2 _)
    | apply counted_tail
    | solve [eauto with counted]
    | apply counted_same; intros ?
    | match goal with
      | |- counted _ _ (if ?b then _ else _) => destruct b
      | |- counted _ _ (match ?x with _ => _ end) => destruct x
      end
    | eapply (counted_bind pk0); [solve [repeat counted1]|intros []] ]
with exactly1 :=
  first
    [ apply exactly_ret
    | apply exactly_tail
    | solve [eauto]
    | apply exactly_same; intros ?
    | match goal with |- exactly _ (if ?b then _ else _) _ => destruct b end ].

Section rb.
  Context `{Profile} {K V : Type} (cmp : K → K → comparison).
  Notation rbt := (rbt K V).
  Lemma fix_insert_loop_counted f i : counted pk0 (λ n, rba_fix_insert_loop (K := K) (V := V) f n i) (rb_fix_insert_loop f i).
  Proof using Type.
    revert i. induction f as [|f IH]; intros i; [apply counted_fail|].
    apply (counted_S (S := rbt)). cbn [rb_fix_insert_loop]. repeat counted1.
  Qed.
  Lemma fix_remove_loop_counted f i d : counted pk0 (λ n, rba_fix_remove_loop (K := K) (V := V) f n i d) (rb_fix_remove_loop f i d).
  Proof using Type.
    revert i d. induction f as [|f IH]; intros i d; [apply counted_fail|].
    apply (counted_S (S := rbt)). cbn [rb_fix_remove_loop]. repeat counted1.
  Qed.
  Hint Resolve fix_insert_loop_counted fix_remove_loop_counted : counted.
  Lemma fix_insert_counted i : counted pk0 (λ n, rba_fix_insert (K := K) (V := V) n i) (rb_fix_insert i).
  Proof using Type. unfold rba_fix_insert, rb_fix_insert. repeat counted1. Qed.
  Lemma fix_remove_counted i pd : counted pk0 (λ n, rba_fix_remove (K := K) (V := V) n i pd) (rb_fix_remove i pd).
  Proof using Type. unfold rba_fix_remove, rb_fix_remove. cbv zeta. repeat counted1. Qed.
  Hint Resolve fix_insert_counted fix_remove_counted : counted.
  Lemma insert_loop_counted f k v i : counted pk2 (λ n, rba_insert_loop cmp f n k v i) (rb_insert_loop (V := V) cmp f k v i).
  Proof using Type.
    revert i. induction f as [|f IH]; intros i; [apply counted_fail|]. cbn [rba_insert_loop rb_insert_loop]. cbv zeta.
    repeat counted1.
  Qed.
  Hint Resolve insert_loop_counted : counted.
  Lemma insert_counted k v : counted pk2 (λ n, rba_insert cmp n k v) (rb_insert (V := V) cmp k v).
  Proof using Type. unfold rba_insert, rb_insert. repeat counted1. Qed.
  Lemma remove_tree_node_counted i : counted pk0 (λ n, rba_remove_tree_node (K := K) (V := V) n i) (rb_remove_tree_node i).
  Proof using Type. unfold rba_remove_tree_node, rb_remove_tree_node. repeat counted1. Qed.
  Hint Resolve remove_tree_node_counted : counted.
  Lemma remove_loop_counted f k i : counted pk2 (λ n, rba_remove_loop cmp f n k i) (rb_remove_loop (V := V) cmp f k i).
  Proof using Type.
    revert i. induction f as [|f IH]; intros i; [apply counted_fail|]. cbn [rba_remove_loop rb_remove_loop]. repeat counted1.
  Qed.
  Hint Resolve remove_loop_counted : counted.
  Lemma remove_counted k : counted pk2 (λ n, rba_remove cmp n k) (rb_remove (V := V) cmp k).
  Proof using Type. unfold rba_remove, rb_remove. repeat counted1. Qed.
  Lemma remove_root_counted : counted pk2 (rba_remove_root (K := K) (V := V)) rb_remove_root.
  Proof using Type. unfold rba_remove_root, rb_remove_root. repeat counted1. Qed.

  Lemma fix_insert_loop_exactly f n i : exactly n (rba_fix_insert_loop (K := K) (V := V) f n i) (λ r, rb_fix_insert_loop r i).
  Proof using Type.
    revert n i. induction f as [|f IH]; intros n i; [by intros s left s'|]. destruct n as [|n]; [by intros s left s'|].
    apply exactly_S. eexists. split_and!; [|intros k; reflexivity|reflexivity]. cbn [rba_fix_insert_loop]. repeat exactly1.
  Qed.
  Lemma fix_remove_loop_exactly f n i d : exactly n (rba_fix_remove_loop (K := K) (V := V) f n i d) (λ r, rb_fix_remove_loop r i d).
  Proof using Type.
    revert n i d. induction f as [|f IH]; intros n i d; [by intros s left s'|]. destruct n as [|n]; [by intros s left s'|].
    apply exactly_S. eexists. split_and!; [|intros k; reflexivity|reflexivity]. cbn [rba_fix_remove_loop]. repeat exactly1.
  Qed.
End rb.
