(** * A copy with smaller bounds computes the same or runs out of rounds *)
From Verif Require Export CostModel AllocProof.

Definition rle {A} (r1 r2 : res A) : Prop := r1 = Err OutOfFuel ∨ r1 = r2.
Definition fle {S A} (m1 m2 : M S A) : Prop := ∀ s, (∃ s', m1 s = Fail OutOfFuel s') ∨ m1 s = m2 s.

Lemma rle_refl {A} (r : res A) : rle r r.
Proof. by right. Qed.
Lemma rle_fail {A} (r : res A) : rle (Err OutOfFuel) r.
Proof. by left. Qed.
Lemma rle_bind {A B} (r1 r2 : res A) (f1 f2 : A → res B) :
  rle r1 r2 → (∀ a, rle (f1 a) (f2 a)) → rle (r1 ≫= f1) (r2 ≫= f2).
Proof. intros [->| ->] Hf; [by left|]. destruct r2; [apply Hf|by right]. Qed.
Lemma rle_val {A} (r1 r2 : res A) x : rle r1 r2 → r1 = Val x → r1 = r2.
Proof. intros [->| ->]; [done|done]. Qed.

Lemma fle_refl {S A} (m : M S A) : fle m m.
Proof. intros s. by right. Qed.
Lemma fle_fail {S A} (m : M S A) : fle (mfail OutOfFuel) m.
Proof. intros s. left. by eexists. Qed.
Lemma fle_bind {S A B} (m1 m2 : M S A) (f1 f2 : A → M S B) :
  fle m1 m2 → (∀ a, fle (f1 a) (f2 a)) → fle (m1 ≫= f1) (m2 ≫= f2).
Proof.
  intros Hm Hf s. unfold mbind, M_bind. destruct (Hm s) as [[s' ->]| ->]; [left; by eexists|].
  destruct (m2 s) as [a s'|e s']; [apply Hf|by right].
Qed.
Lemma fle_gets {S A} (f1 f2 : S → res A) : (∀ s, rle (f1 s) (f2 s)) → fle (gets f1) (gets f2).
Proof. intros Hf s. unfold gets. destruct (Hf s) as [->| ->]; [left; by eexists|by right]. Qed.
Lemma fle_wp {S A} (m1 m2 : M S A) s Q : fle m1 m2 → wp m1 s Q → m1 s = m2 s.
Proof. intros Hm Hw. destruct (Hm s) as [[s' E]|]; [|done]. apply wp_elim in Hw as (a & s'' & E' & _). congruence. Qed.

Ltac fle1 :=
  first [ apply fle_refl | apply fle_fail | apply rle_refl | apply rle_fail
        | apply fle_bind; [|intros ?] | apply rle_bind; [|intros ?] | apply fle_gets; intros ?
        | match goal with
          | |- fle (match ?x with _ => _ end) _ => destruct x
          | |- rle (match ?x with _ => _ end) _ => destruct x
          end ].
Ltac flet := cbv zeta; repeat (solve [eauto with fle] || fle1).
Create HintDb fle.

Section walk.
  Context `{Profile}.
  Lemma find_dir_rle {T} f F (a : alloc T) r i : (f ≤ F)%nat → rle (na_find_dir f a r i) (na_find_dir F a r i).
  Proof.
    revert F i. induction f as [|f IH]; intros F i Hf; [apply rle_fail|]. destruct F as [|F]; [lia|]. simpl. flet. apply IH. lia.
  Qed.
  Lemma bst_walk_rle {K V} (cmp : K → K → comparison) f F (a : alloc (K * V)) k i :
    (f ≤ F)%nat → rle (bst_walk cmp f a k i) (bst_walk cmp F a k i).
  Proof.
    revert F i. induction f as [|f IH]; intros F i Hf; [apply rle_fail|]. destruct F as [|F]; [lia|]. simpl.
    flet; apply IH; lia.
  Qed.
  Lemma get_addr_rle {K V} (cmp : K → K → comparison) f F (a : alloc (K * V)) rt k :
    (f ≤ F)%nat → rle (bst_get_addr cmp f a rt k) (bst_get_addr cmp F a rt k).
  Proof. intros. unfold bst_get_addr. flet. by apply bst_walk_rle. Qed.
End walk.
Global Hint Resolve find_dir_rle bst_walk_rle get_addr_rle : fle.
Global Hint Extern 1 (_ ≤ _)%nat => lia : fle.

Section rb.
  Context `{Profile} {K V : Type} (cmp : K → K → comparison) (n : nat).
  Implicit Types t : rbt K V.

  Lemma fix_insert_loop_fle f F i : (f ≤ F)%nat → fle (rb_fix_insert_loop (K := K) (V := V) f i) (rb_fix_insert_loop F i).
  Proof using Type.
    revert F i. induction f as [|f IH]; intros F i Hf; [apply fle_fail|]. destruct F as [|F]; [lia|]. simpl. flet; apply IH; lia.
  Qed.
  Lemma fix_remove_loop_fle f F i d : (f ≤ F)%nat → fle (rb_fix_remove_loop (K := K) (V := V) f i d) (rb_fix_remove_loop F i d).
  Proof using Type.
    revert F i d. induction f as [|f IH]; intros F i d Hf; [apply fle_fail|]. destruct F as [|F]; [lia|].
    cbn [rb_fix_remove_loop]. flet; apply IH; lia.
  Qed.
  Hint Resolve fix_insert_loop_fle fix_remove_loop_fle : fle.
  Lemma fix_insert_fle i : fle (rbn_fix_insert (K := K) (V := V) n i) (rb_fix_insert i).
  Proof using Type. unfold rbn_fix_insert, rb_fix_insert. flet. Qed.
  Lemma fix_remove_fle i pd : fle (rbn_fix_remove (K := K) (V := V) n i pd) (rb_fix_remove i pd).
  Proof using Type. unfold rbn_fix_remove, rb_fix_remove. flet. Qed.
  Hint Resolve fix_insert_fle fix_remove_fle : fle.
  Lemma insert_loop_fle f F k v i : (f ≤ F)%nat → fle (rbn_insert_loop cmp n f k v i) (rb_insert_loop (V := V) cmp F k v i).
  Proof using Type.
    revert F i. induction f as [|f IH]; intros F i Hf; [apply fle_fail|]. destruct F as [|F]; [lia|]. simpl. flet; apply IH; lia.
  Qed.
  Hint Resolve insert_loop_fle : fle.
  Lemma insert_fle k v : fle (rbn_insert cmp n k v) (rb_insert (V := V) cmp k v).
  Proof using Type. unfold rbn_insert, rb_insert. flet. Qed.
  Lemma remove_tree_node_fle i : fle (rbn_remove_tree_node (K := K) (V := V) n i) (rb_remove_tree_node i).
  Proof using Type. unfold rbn_remove_tree_node, rb_remove_tree_node, rbn_find_max, rb_find_max. flet. Qed.
  Hint Resolve remove_tree_node_fle : fle.
  Lemma remove_loop_fle f F k i : (f ≤ F)%nat → fle (rbn_remove_loop cmp n f k i) (rb_remove_loop (V := V) cmp F k i).
  Proof using Type.
    revert F i. induction f as [|f IH]; intros F i Hf; [apply fle_fail|]. destruct F as [|F]; [lia|]. simpl. flet; apply IH; lia.
  Qed.
  Hint Resolve remove_loop_fle : fle.
  Lemma remove_fle k : fle (rbn_remove cmp n k) (rb_remove (V := V) cmp k).
  Proof using Type. unfold rbn_remove, rb_remove. flet. Qed.
  Lemma remove_root_fle : fle (rbn_remove_root (K := K) (V := V) n) rb_remove_root.
  Proof using Type. unfold rbn_remove_root, rb_remove_root. flet. Qed.
End rb.

Section av.
  Context `{Profile} {K V : Type} (pcmp : K → K → option comparison) (n : nat).
  Implicit Types t : avlt K V.
  Lemma av_insert_loop_fle f F k v p i :
    (f ≤ F)%nat → fle (avn_insert_loop pcmp n f k v p i) (av_insert_loop (V := V) pcmp F k v p i).
  Proof using Type.
    revert F p i. induction f as [|f IH]; intros F p i Hf; [apply fle_fail|]. destruct F as [|F]; [lia|]. simpl. unfold avn_rebalance.
    flet; apply IH; lia.
  Qed.
End av.

Section cb.
  Context `{Profile} {V : Type} (n : nat).
  Implicit Types t : critbit V.
  Lemma cb_walk_rle f F t k i : (f ≤ F)%nat → rle (cb_walk f t k i) (cb_walk F t k i).
  Proof using Type.
    revert F i. induction f as [|f IH]; intros F i Hf; [apply rle_fail|]. destruct F as [|F]; [lia|]. simpl. flet; apply IH; lia.
  Qed.
  Lemma cb_get_loop_rle f F t k i : (f ≤ F)%nat → rle (cb_get_loop f t k i) (cb_get_loop F t k i).
  Proof using Type.
    revert F i. induction f as [|f IH]; intros F i Hf; [apply rle_fail|]. destruct F as [|F]; [lia|]. simpl. flet; apply IH; lia.
  Qed.
  Lemma cb_get_mut_loop_fle f F k g i : (f ≤ F)%nat → fle (cb_get_mut_loop (V := V) f k g i) (cb_get_mut_loop F k g i).
  Proof using Type.
    revert F i. induction f as [|f IH]; intros F i Hf; [apply fle_fail|]. destruct F as [|F]; [lia|]. simpl. flet; apply IH; lia.
  Qed.
  Lemma cb_insert_loop_fle f F k v i : (f ≤ F)%nat → fle (cb_insert_loop (V := V) f k v i) (cb_insert_loop F k v i).
  Proof using Type.
    revert F i. induction f as [|f IH]; intros F i Hf; [apply fle_fail|]. destruct F as [|F]; [lia|]. simpl. flet; apply IH; lia.
  Qed.
  Lemma cb_remove_walk_rle f F t k p i b : (f ≤ F)%nat → rle (cb_remove_walk f t k p i b) (cb_remove_walk F t k p i b).
  Proof using Type.
    revert F p i b. induction f as [|f IH]; intros F p i b Hf; [apply rle_fail|]. destruct F as [|F]; [lia|]. simpl. flet; apply IH; lia.
  Qed.
  Lemma cb_insert_fle k v : fle (cbn_insert n k v) (cb_insert (V := V) k v).
  Proof using Type. unfold cbn_insert, cb_insert. flet. apply cb_insert_loop_fle. lia. Qed.
  Lemma cb_remove_fle k : fle (cbn_remove n k) (cb_remove (V := V) k).
  Proof using Type. unfold cbn_remove, cb_remove. flet. apply cb_remove_walk_rle. lia. Qed.
  Lemma cb_get_mut_fle k g : fle (cbn_get_mut n k g) (cb_get_mut (V := V) k g).
  Proof using Type. unfold cbn_get_mut, cb_get_mut. flet. apply cb_get_mut_loop_fle. lia. Qed.
End cb.
