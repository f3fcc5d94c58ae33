(** * A copy with a bound on the rotations computes the same or runs out of them *)
From Verif Require Export RotModel CostProof.

(** [m1] runs out, or it ends as [m2] does with an answer related to the other *)
Definition fler {S A B} (R : A → B → Prop) (m1 : M S A) (m2 : M S B) : Prop :=
  ∀ s, (∃ s', m1 s = Fail OutOfFuel s') ∨ (∃ e s', m1 s = Fail e s' ∧ m2 s = Fail e s') ∨
       ∃ a b s', m1 s = Ret a s' ∧ m2 s = Ret b s' ∧ R a b.
Lemma fler_fle {S A} (m1 m2 : M S A) : fler eq m1 m2 → fle m1 m2.
Proof. intros Hm s. destruct (Hm s) as [?|[(e & s' & -> & ->)|(a & b & s' & -> & -> & ->)]]; auto. Qed.
Lemma fle_fler {S A} (m1 m2 : M S A) : fle m1 m2 → fler eq m1 m2.
Proof.
  intros Hm s. destruct (Hm s) as [?|Heq]; [by left|]. right. rewrite Heq. destruct (m2 s) as [a s'|e s'].
  - right. by exists a, a, s'.
  - left. by exists e, s'.
Qed.
Lemma fler_bind {S A B A' B'} (R : A → B → Prop) (R' : A' → B' → Prop) (m1 : M S A) (m2 : M S B) f1 f2 :
  fler R m1 m2 → (∀ a b, R a b → fler R' (f1 a) (f2 b)) → fler R' (m1 ≫= f1) (m2 ≫= f2).
Proof.
  intros Hm Hf s. unfold mbind, M_bind. destruct (Hm s) as [[s' ->]|[(e & s' & -> & ->)|(a & b & s' & -> & -> & Hab)]].
  - left. by eexists.
  - right. left. by exists e, s'.
  - by apply Hf.
Qed.
Lemma fle_bindr {S A B C} (R : A → B → Prop) (m1 : M S A) (m2 : M S B) (f1 : A → M S C) f2 :
  fler R m1 m2 → (∀ a b, R a b → fle (f1 a) (f2 b)) → fle (m1 ≫= f1) (m2 ≫= f2).
Proof. intros Hm Hf. apply fler_fle. eapply fler_bind; [exact Hm|]. intros a b Hab. by apply fle_fler, Hf. Qed.
Lemma fler_ret {S A B} (R : A → B → Prop) (a : A) (b : B) : R a b → fler R (mret a : M S A) (mret b).
Proof. intros HR s. right. right. by exists a, b, s. Qed.
Lemma fler_same {S A A' B'} (R' : A' → B' → Prop) (m : M S A) f1 f2 :
  (∀ a, fler R' (f1 a) (f2 a)) → fler R' (m ≫= f1) (m ≫= f2).
Proof. intros Hf. eapply (fler_bind eq); [apply fle_fler, fle_refl|]. by intros a ? <-. Qed.

(** the answer with the rotations left beside it *)
Notation fst_is := (λ (a : _ * nat) b, a.1 = b).
Notation left_over := (λ (_ : nat) _, True).

Section rb.
  Context `{Profile} {K V : Type} (cmp : K → K → comparison).
  Notation rbt := (rbt K V).

  Lemma rotate_fler n p d : fler left_over (rbr_rotate_dir (K := K) (V := V) n p d) (rb_rotate_dir p d).
  Proof using Type.
    destruct n as [|n]; [intros s; left; by eexists|]. intros s. unfold rbr_rotate_dir, mbind, M_bind.
    destruct (rb_rotate_dir p d s) as [a s'|e s']; right; [right|left]; by repeat eexists.
  Qed.
  Lemma rbr_fix_insert_loop_fle f n i : fle (rbr_fix_insert_loop (K := K) (V := V) f n i) (rb_fix_insert_loop f i).
  Proof using Type.
    revert n i. induction f as [|f IH]; intros n i; [apply fle_fail|].
    cbn [rbr_fix_insert_loop rb_fix_insert_loop].
    do 2 (apply fle_bind; [apply fle_refl|intros ?]).
    match goal with |- fle (if ?b then _ else _) _ => destruct b end; [apply fle_refl|].
    apply fle_bind; [apply fle_refl|intros g].
    match goal with |- fle (if ?b then _ else _) _ => destruct b end; [apply fle_refl|].
    do 3 (apply fle_bind; [apply fle_refl|intros ?]).
    match goal with |- fle (if ?b then _ else _) _ => destruct b end.
    { do 3 (apply fle_bind; [apply fle_refl|intros ?]). apply IH. }
    apply fle_bind; [apply fle_refl|intros cd].
    apply (fle_bindr fst_is).
    { destruct (decide _); [|by apply fler_ret]. eapply fler_bind; [apply rotate_fler|]. intros; by apply fler_ret. }
    intros [node m] ? <-. cbn [fst].
    do 4 (apply fle_bind; [apply fle_refl|intros ?]).
    eapply fle_bindr; [apply rotate_fler|]. intros; apply IH.
  Qed.
  Lemma rbr_fix_remove_loop_fle f n i d : fle (rbr_fix_remove_loop (K := K) (V := V) f n i d) (rb_fix_remove_loop f i d).
  Proof using Type.
    revert n i d. induction f as [|f IH]; intros n i d; [apply fle_fail|].
    cbn [rbr_fix_remove_loop rb_fix_remove_loop].
    do 2 (apply fle_bind; [apply fle_refl|intros ?]).
    apply (fle_bindr fst_is).
    { match goal with |- fler _ (if ?b then _ else _) _ => destruct b end; [|by apply fler_ret].
      do 2 (apply fler_same; intros ?). eapply fler_bind; [apply rotate_fler|]. intros r o _.
      intros s. unfold mbind, M_bind, gets. right. destruct (rb_get_dir s i (opposite d)); [right|left]; by repeat eexists. }
    intros [sib m] ? <-. cbn [fst].
    do 3 (apply fle_bind; [apply fle_refl|intros ?]).
    apply (fle_bindr fst_is).
    { match goal with |- fler _ (if ?b then _ else _) _ => destruct b end; [apply fler_same; intros ?; by apply fler_ret|].
      do 2 (apply fler_same; intros ?). apply (fler_bind fst_is).
      { match goal with |- fler _ (if ?b then _ else _) _ => destruct b end; [|by apply fler_ret].
        do 3 (apply fler_same; intros ?). eapply fler_bind; [apply rotate_fler|]. intros r o _.
        intros s. unfold mbind, M_bind, gets. right. destruct (rb_get_dir s i (opposite d)); [right|left]; by repeat eexists. }
      intros [sib' m'] ? <-. cbn [fst]. do 5 (apply fler_same; intros ?).
      eapply fler_bind; [apply rotate_fler|]. intros r o _. apply fler_same. intros. by apply fler_ret. }
    intros [nd m'] ? <-. cbn [fst].
    do 2 (apply fle_bind; [apply fle_refl|intros ?]).
    match goal with |- fle (if ?b then _ else _) _ => destruct b end; [apply fle_refl|].
    do 2 (apply fle_bind; [apply fle_refl|intros ?]). apply IH.
  Qed.
  Hint Resolve rbr_fix_insert_loop_fle rbr_fix_remove_loop_fle : fle.
  Lemma rbr_fix_insert_fle n i : fle (rbr_fix_insert (K := K) (V := V) n i) (rb_fix_insert i).
  Proof using Type. unfold rbr_fix_insert, rb_fix_insert. flet. Qed.
  Lemma rbr_fix_remove_fle n i pd : fle (rbr_fix_remove (K := K) (V := V) n i pd) (rb_fix_remove i pd).
  Proof using Type. unfold rbr_fix_remove, rb_fix_remove. flet. Qed.
  Hint Resolve rbr_fix_insert_fle rbr_fix_remove_fle : fle.
  Lemma rbr_insert_loop_fle f n k v i : fle (rbr_insert_loop cmp f n k v i) (rb_insert_loop (V := V) cmp f k v i).
  Proof using Type. revert i. induction f as [|f IH]; intros i; [apply fle_fail|]. simpl. flet. Qed.
  Hint Resolve rbr_insert_loop_fle : fle.
  Lemma rbr_insert_fle n k v : fle (rbr_insert cmp n k v) (rb_insert (V := V) cmp k v).
  Proof using Type. unfold rbr_insert, rb_insert. flet. Qed.
  Lemma rbr_remove_tree_node_fle n i : fle (rbr_remove_tree_node (K := K) (V := V) n i) (rb_remove_tree_node i).
  Proof using Type. unfold rbr_remove_tree_node, rb_remove_tree_node. flet. Qed.
  Hint Resolve rbr_remove_tree_node_fle : fle.
  Lemma rbr_remove_loop_fle f n k i : fle (rbr_remove_loop cmp f n k i) (rb_remove_loop (V := V) cmp f k i).
  Proof using Type. revert i. induction f as [|f IH]; intros i; [apply fle_fail|]. simpl. flet. Qed.
  Hint Resolve rbr_remove_loop_fle : fle.
  Lemma rbr_remove_fle n k : fle (rbr_remove cmp n k) (rb_remove (V := V) cmp k).
  Proof using Type. unfold rbr_remove, rb_remove. flet. Qed.
  Lemma rbr_remove_root_fle n : fle (rbr_remove_root (K := K) (V := V) n) rb_remove_root.
  Proof using Type. unfold rbr_remove_root, rb_remove_root. flet. Qed.
End rb.

Section av.
  Context `{Profile} {K V : Type} (pcmp : K → K → option comparison).
  Notation avlt := (avlt K V).
  Lemma left_rotate_fler n i : fler fst_is (avr_left_rotate (K := K) (V := V) n i) (av_left_rotate i).
  Proof using Type.
    destruct n as [|n]; [intros s; left; by eexists|]. intros s. unfold avr_left_rotate, mbind, M_bind.
    destruct (av_left_rotate i s) as [a s'|e s']; right; [right|left]; by repeat eexists.
  Qed.
  Lemma right_rotate_fler n i : fler fst_is (avr_right_rotate (K := K) (V := V) n i) (av_right_rotate i).
  Proof using Type.
    destruct n as [|n]; [intros s; left; by eexists|]. intros s. unfold avr_right_rotate, mbind, M_bind.
    destruct (av_right_rotate i s) as [a s'|e s']; right; [right|left]; by repeat eexists.
  Qed.
  Lemma avr_rebalance_step_fler n e : fler left_over (avr_rebalance_step (K := K) (V := V) n e) (av_rebalance_step e).
  Proof using Type.
    destruct e as [pb c]. unfold avr_rebalance_step, av_rebalance_step. do 3 (apply fler_same; intros ?).
    apply (fler_bind fst_is).
    - destruct (decide _); [|destruct (decide _)].
      + do 3 (apply fler_same; intros ?). apply (fler_bind left_over).
        { destruct (decide _); [|by apply fler_ret]. eapply fler_bind; [apply left_rotate_fler|]. intros [i m] ? <-. cbn [fst snd].
          intros s. unfold mbind, M_bind. destruct (av_set_field c Left i s) as [? s'|? s']; right; [right|left]; by repeat eexists. }
        intros m ? _. eapply fler_bind; [apply right_rotate_fler|]. intros [i m'] ? <-. by apply fler_ret.
      + do 3 (apply fler_same; intros ?). apply (fler_bind left_over).
        { destruct (decide _); [|by apply fler_ret]. eapply fler_bind; [apply right_rotate_fler|]. intros [i m] ? <-. cbn [fst snd].
          intros s. unfold mbind, M_bind. destruct (av_set_field c Right i s) as [? s'|? s']; right; [right|left]; by repeat eexists. }
        intros m ? _. eapply fler_bind; [apply left_rotate_fler|]. intros [i m'] ? <-. by apply fler_ret.
      + apply fler_same. intros. by apply fler_ret.
    - intros [o m] ? <-. cbn [fst].
      assert (∀ m0 : M avlt (), fler left_over (m0;; mret m) m0) as Hm; [|apply Hm].
      intros m0 s. unfold mbind, M_bind. destruct (m0 s) as [? s'|? s']; right; [right|left]; by repeat eexists.
  Qed.
  Lemma avr_rebalance_fle n p : fle (avr_rebalance (K := K) (V := V) n p) (av_rebalance p).
  Proof using Type.
    revert n. induction p as [|e p IH]; intros n; [apply fle_refl|]. cbn [avr_rebalance av_rebalance].
    eapply fle_bindr; [apply avr_rebalance_step_fler|]. intros; apply IH.
  Qed.
  Hint Resolve avr_rebalance_fle : fle.
  Lemma avr_insert_loop_fle f n k v p i : fle (avr_insert_loop pcmp f n k v p i) (av_insert_loop (V := V) pcmp f k v p i).
  Proof using Type. revert p i. induction f as [|f IH]; intros p i; [apply fle_fail|]. simpl. flet. Qed.
  Hint Resolve avr_insert_loop_fle : fle.
  Lemma avr_insert_fle n k v : fle (avr_insert pcmp n k v) (av_insert (V := V) pcmp k v).
  Proof using Type. unfold avr_insert, av_insert. flet. Qed.
  Lemma avr_remove_fle n k : fle (avr_remove pcmp n k) (av_remove (V := V) pcmp k).
  Proof using Type. unfold avr_remove, av_remove. flet. Qed.
End av.
