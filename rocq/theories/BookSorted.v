(** * Keys inserted in ascending order make a tree of least height *)
From Verif Require Import IterProof AVLMain FuzzProof DrawSpec DrawPure BookSpec.

Section sorted.
  Context {A : Type}.
  (** all levels full *)
  Fixpoint full (h : nat) (b : drawing A) : Prop :=
    match h, b with
    | O, Empty => True
    | S h, Fork l _ r => full h l ∧ full h r
    | _, _ => False
    end.
  (** full left of the right edge *)
  Fixpoint edged (b : drawing A) : Prop :=
    match b with
    | Empty => True
    | Fork l _ r => full (tall l) l ∧ edged r ∧ (tall l ≤ tall r ≤ tall l + 1)%nat
    end.
  Global Instance full_dec h : ∀ b : drawing A, Decision (full h b).
  Proof. induction h as [|h IH]; intros [|l x r]; cbn [full]; apply _. Defined.
  Lemma full_tall h : ∀ b : drawing A, full h b → tall b = h.
  Proof. induction h as [|h IH]; intros [|l x r] Hf; cbn in Hf |- *; try done. destruct Hf as [Hl Hr]. rewrite (IH _ Hl), (IH _ Hr). lia. Qed.
  Lemma full_edged h : ∀ b : drawing A, full h b → edged b.
  Proof.
    induction h as [|h IH]; intros [|l x r] Hf; cbn in Hf |- *; try done. destruct Hf as [Hl Hr]. rewrite (full_tall _ _ Hl), (full_tall _ _ Hr).
    split_and!; [done|by apply IH|lia|lia].
  Qed.
  Lemma full_len h : ∀ b : drawing A, full h b → lengthN (inorder b) + 1 = 2 ^ N.of_nat h.
  Proof.
    induction h as [|h IH]; intros [|l x r] Hf; cbn [full] in Hf; try done. destruct Hf as [Hl Hr]. pose proof (IH _ Hl). pose proof (IH _ Hr).
    cbn [inorder]. unfold lengthN in *. rewrite app_length. cbn [length]. rewrite Nat2N.inj_succ, N.pow_succ_r'. lia.
  Qed.
  Lemma edged_len (b : drawing A) : edged b → 2 ^ N.of_nat (tall b) ≤ 2 * lengthN (inorder b) + 1.
  Proof.
    induction b as [|l _ x r IH]; intros Hb; [done|]. cbn [edged] in Hb. destruct Hb as (Hl & Hr & H1 & H2). pose proof (full_len _ _ Hl) as El. specialize (IH Hr).
    cbn [inorder tall]. unfold lengthN in *. rewrite app_length. cbn [length]. rewrite Nat.max_r by done. rewrite Nat2N.inj_succ, N.pow_succ_r'.
    assert (tall r = tall l ∨ tall r = S (tall l)) as [E|E] by lia; rewrite E in *; [|rewrite Nat2N.inj_succ, N.pow_succ_r' in *]; lia.
  Qed.
End sorted.

Section last.
  Context {K V : Type} (cmp : K → K → comparison).
  Notation drawing := (drawing (K * V)).
  (** a new last key below a tree full left of the right edge *)
  Lemma last_step k v (b : drawing) : edged b → Forall (λ x, cmp k x.1 = Gt) (inorder b) →
    let b' := book_insert cmp k v b in
    edged b' ∧ (full (tall b) b → tall b' = S (tall b) ∧ match b' with Fork l _ _ => tall l = pred (tall b) | Empty => False end) ∧ (¬ full (tall b) b → tall b' = tall b).
  Proof.
    induction b as [|l _ x r IH]; intros Hb Hgt b'.
    { subst b'. cbn. repeat split; try done; lia. }
    cbn [edged] in Hb. destruct Hb as (Hl & Hr & H1 & H2). cbn [inorder] in Hgt. apply Forall_app in Hgt as [_ Hgt]. apply Forall_cons in Hgt as [Hx Hgt].
    destruct (IH Hr Hgt) as (He & Hfull & Hnot). subst b'. cbn [book_insert]. rewrite Hx. set (r' := book_insert cmp k v r) in *. clearbody r'.
    assert (full (S (Nat.max (tall l) (tall r))) (Fork l x r) ↔ full (tall r) r ∧ tall r = tall l) as Hiff.
    { rewrite Nat.max_r by done. cbn [full]. split.
      - intros [Ha Hb]. split; [done|]. by rewrite <- (full_tall _ _ Ha).
      - intros [Ha E]. split; [by rewrite E|done]. }
    cbn [tall]. unfold rebalanced. rewrite decide_False by (destruct (decide (full (tall r) r)) as [Hf|Hf]; [apply Hfull in Hf|apply Hnot in Hf]; lia).
    destruct (decide (tall l + 1 < tall r')%nat) as [Hrot|Hrot].
    - assert (full (tall r) r) as Hf. { destruct (decide (full (tall r) r)) as [Hf|Hf]; [done|]. apply Hnot in Hf. lia. }
      destruct (Hfull Hf) as [Et Hm]. destruct r' as [|a y c]; [done|]. cbn [edged tall] in He, Et, Hrot |- *. destruct He as (Ha & Hc & H3 & H4).
      rewrite decide_False by lia. cbn [rotated_left edged tall].
      assert (tall a = tall l) as Ea by lia. assert (tall c = S (tall l)) as Ec by lia. rewrite Ea, Ec, Nat.max_id. rewrite Ea in Ha.
      split_and!; [cbn [full]; done|done|lia|lia| |].
      + rewrite Hiff. lia.
      + intros _. lia.
    - cbn [edged tall]. split_and!; [done|done| | | |].
      + destruct (decide (full (tall r) r)) as [Hf|Hf]; [apply Hfull in Hf|apply Hnot in Hf]; lia.
      + lia.
      + rewrite Hiff. intros [Hf E]. apply Hfull in Hf. lia.
      + rewrite Hiff. intros Hn. destruct (decide (full (tall r) r)) as [Hf|Hf].
        * assert (tall r ≠ tall l) by (intros ?; by apply Hn). apply Hfull in Hf. lia.
        * apply Hnot in Hf. lia.
  Qed.
End last.

Section turned.
  Context {A : Type}.
  Fixpoint mirror (b : drawing A) : drawing A := match b with Empty => Empty | Fork l x r => Fork (mirror r) x (mirror l) end.
  Lemma mirror_tall b : tall (mirror b) = tall b.
  Proof. induction b as [|l IHl x r IHr]; [done|]. cbn [mirror tall]. rewrite IHl, IHr. lia. Qed.
  Lemma mirror_inorder b : inorder (mirror b) = reverse (inorder b).
  Proof.
    induction b as [|l IHl x r IHr]; [done|]. cbn [mirror inorder]. rewrite IHl, IHr, reverse_app, reverse_cons, <- app_assoc. done.
  Qed.
  Lemma mirror_rotated_right l x r : mirror (rotated_right l x r) = rotated_left (mirror r) x (mirror l).
  Proof. by destruct l. Qed.
  Lemma mirror_rotated_left l x r : mirror (rotated_left l x r) = rotated_right (mirror r) x (mirror l).
  Proof. by destruct r. Qed.
  Lemma mirror_rebalanced l x r : mirror (rebalanced l x r) = rebalanced (mirror r) x (mirror l).
  Proof.
    unfold rebalanced. rewrite !mirror_tall. destruct (decide (tall r + 1 < tall l)%nat) as [H1|H1].
    - rewrite decide_False by lia. destruct l as [|a y b]; [done|]. cbn [mirror]. rewrite !mirror_tall.
      destruct (decide (tall a < tall b)%nat); by rewrite ?mirror_rotated_right, ?mirror_rotated_left.
    - destruct (decide (tall l + 1 < tall r)%nat) as [H2|H2]; [|done]. destruct r as [|a y b]; [done|]. cbn [mirror]. rewrite !mirror_tall.
      destruct (decide (tall b < tall a)%nat); by rewrite ?mirror_rotated_left, ?mirror_rotated_right.
  Qed.
  Lemma inorder_rotated_right (l : drawing A) x r : inorder (rotated_right l x r) = inorder l ++ x :: inorder r.
  Proof. destruct l; cbn [rotated_right inorder]; [done|]. by rewrite <- app_assoc. Qed.
  Lemma inorder_rotated_left (l : drawing A) x r : inorder (rotated_left l x r) = inorder l ++ x :: inorder r.
  Proof. destruct r; cbn [rotated_left inorder]; [done|]. by rewrite <- app_assoc. Qed.
  Lemma inorder_rebalanced (l : drawing A) x r : inorder (rebalanced l x r) = inorder l ++ x :: inorder r.
  Proof.
    unfold rebalanced. case_decide; [|case_decide]; [destruct l as [|a y b]|destruct r as [|a y b]|]; try done; case_decide;
      by rewrite ?inorder_rotated_right, ?inorder_rotated_left, ?inorder_rotated_right, ?inorder_rotated_left.
  Qed.
End turned.

Section histories.
  Context {K V : Type} (cmp : K → K → comparison).
  Notation drawing := (drawing (K * V)).
  Lemma mirror_insert k v (b : drawing) : mirror (book_insert cmp k v b) = book_insert (λ a c, CompOpp (cmp a c)) k v (mirror b).
  Proof.
    induction b as [|l IHl x r IHr]; [done|]. cbn [book_insert mirror]. destruct (cmp k x.1); cbn [CompOpp mirror]; [done|..]; by rewrite mirror_rebalanced, ?IHl, ?IHr.
  Qed.
  Lemma last_inorder k v (b : drawing) : Forall (λ x, cmp k x.1 = Gt) (inorder b) → inorder (book_insert cmp k v b) = inorder b ++ [(k, v)].
  Proof.
    induction b as [|l _ x r IH]; intros Hgt; [done|]. cbn [inorder] in Hgt |- *. apply Forall_app in Hgt as [_ Hgt]. apply Forall_cons in Hgt as [Hx Hgt].
    cbn [book_insert]. rewrite Hx, inorder_rebalanced, IH by done. by rewrite <- app_assoc.
  Qed.
  Notation stored ps := (fold_left (λ b p, book_insert cmp p.1 p.2 b) ps Empty).
  Lemma stored_sorted (ps : list (K * V)) : (∀ a b, cmp b a = CompOpp (cmp a b)) → ascending cmp ps → edged (stored ps) ∧ inorder (stored ps) = ps.
  Proof.
    intros Hsym. induction ps as [|[k v] ps IH] using rev_ind; intros Ha; [done|]. apply ascending_app in Ha as (Hp & _ & Hlt). destruct (IH Hp) as [He Hi].
    rewrite fold_left_app. cbn [fold_left fst snd].
    assert (Forall (λ x, cmp k x.1 = Gt) (inorder (stored ps))) as Hgt.
    { rewrite Hi. apply Forall_forall. intros x Hx. rewrite (Hsym x.1 k). pose proof (Hlt x (k, v) Hx ltac:(apply elem_of_list_here)) as Hxk. cbn [fst] in Hxk. by rewrite Hxk. }
    split; [by apply last_step|]. rewrite last_inorder by done. by rewrite Hi.
  Qed.
End histories.
Section histories2.
  Context {K V : Type} (cmp : K → K → comparison) (cap : N).
  Notation inserts := (map (λ p : K * V, MInsert p.1 p.2)).
  Lemma mirror_stored (ps : list (K * V)) : ∀ b, mirror (fold_left (λ b p, book_insert cmp p.1 p.2 b) ps b) =
    fold_left (λ b p, book_insert (λ a c, CompOpp (cmp a c)) p.1 p.2 b) ps (mirror b).
  Proof. induction ps as [|p ps IH]; intros b; [done|]. cbn [fold_left]. by rewrite IH, mirror_insert. Qed.
  Lemma insert_len k v (b : drawing (K * V)) : lengthN (inorder (book_insert cmp k v b)) ≤ lengthN (inorder b) + 1.
  Proof.
    induction b as [|l IHl x r IHr]; [done|]. cbn [book_insert]. destruct (cmp k x.1); rewrite ?inorder_rebalanced; cbn [inorder]; unfold lengthN in *; rewrite !app_length; cbn [length]; lia.
  Qed.
  Lemma stored_book (ps : list (K * V)) : ∀ b, lengthN (inorder b) + lengthN ps ≤ cap →
    fold_left (λ b o, book_step cmp cap o b) (inserts ps) b = fold_left (λ b p, book_insert cmp p.1 p.2 b) ps b.
  Proof.
    induction ps as [|p ps IH]; intros b Hc; [done|]. cbn [map fold_left book_step].
    assert (lengthN (p :: ps) = lengthN ps + 1) as Ep by (unfold lengthN; cbn [length]; lia). rewrite Ep in Hc.
    rewrite (decide_True (P := lengthN (inorder b) < cap)) by lia. pose proof (insert_len p.1 p.2 b).
    destruct (om_find cmp p.1 (inorder b)); apply IH; lia.
  Qed.
  (** in ascending or in descending order *)
  Lemma sorted_tree (ps : list (K * V)) : OrdLaws cmp → ascending cmp ps ∨ ascending cmp (reverse ps) → lengthN ps ≤ cap →
    let b := book_tree cmp cap (inserts ps) in 2 ^ N.of_nat (tall b) ≤ 2 * lengthN ps + 1.
  Proof.
    intros HO Ha Hc b. subst b. unfold book_tree. rewrite stored_book by done. destruct Ha as [Ha|Ha].
    - destruct (stored_sorted cmp ps (cmp_sym _ HO) Ha) as [He Hi]. apply edged_len in He. by rewrite Hi in He.
    - rewrite <- mirror_tall, mirror_stored. destruct (stored_sorted (λ a c, CompOpp (cmp a c)) ps) as [He Hi].
      + intros x y. by rewrite (cmp_sym _ HO x y).
      + clear Hc. induction ps as [|p ps IH] using rev_ind; [constructor|]. rewrite reverse_snoc in Ha. apply StronglySorted_inv in Ha as [Ha Hf]. apply ascending_app.
        split_and!; [by apply IH|repeat constructor|]. intros x y Hx Hy%elem_of_list_singleton. subst y. rewrite Forall_forall in Hf.
        rewrite (cmp_sym _ HO p.1 x.1), (Hf x) by (by apply elem_of_reverse). done.
      + apply edged_len in He. by rewrite Hi in He.
  Qed.
End histories2.

(** ** The capacity does not matter while there is room *)
Section room.
  Context {K V : Type} (cmp : K → K → comparison).
  Notation drawing := (drawing (K * V)).
  Lemma inorder_without_first (l : drawing) : ∀ x r, let '(f, rest) := without_first l x r in f :: inorder rest = inorder l ++ x :: inorder r.
  Proof.
    induction l as [|a IH y b _]; intros x r; [done|]. cbn [without_first]. specialize (IH y b). destruct (without_first a y b) as [f rest].
    by rewrite inorder_rebalanced, app_comm_cons, IH.
  Qed.
  Lemma inorder_joined (l r : drawing) : inorder (joined l r) = inorder l ++ inorder r.
  Proof.
    destruct l as [|a x b]; [done|]. destruct r as [|c y e]; [cbn [joined inorder]; by rewrite app_nil_r|].
    cbn [joined]. pose proof (inorder_without_first c y e) as Hf. destruct (without_first c y e) as [f rest]. rewrite inorder_rebalanced, Hf. done.
  Qed.
  Lemma remove_len k (b : drawing) : lengthN (inorder (book_remove cmp k b)) ≤ lengthN (inorder b).
  Proof.
    induction b as [|l IHl x r IHr]; [done|]. cbn [book_remove]. destruct (cmp k x.1); rewrite ?inorder_rebalanced, ?inorder_joined; cbn [inorder]; unfold lengthN in *;
      rewrite !app_length; cbn [length]; lia.
  Qed.
  Lemma relabelled_len (b : drawing) : ∀ l, length (inorder (relabelled b l)) = length (inorder b).
  Proof. induction b as [|x IHx z y IHy]; intros l; [done|]. cbn [relabelled inorder]. rewrite !app_length. cbn [length]. by rewrite IHx, IHy. Qed.
  Lemma step_len cap o (b : drawing) : lengthN (inorder (book_step cmp cap o b)) ≤ lengthN (inorder b) + (if is_insert o then 1 else 0).
  Proof.
    assert (∀ l, lengthN (inorder (relabelled b l)) ≤ lengthN (inorder b) + 0) as Hr by (intros l; unfold lengthN; rewrite relabelled_len; lia).
    destruct o as [k v|k|k|k f|k| | | | | |k|k f|sc|sc]; cbn [book_step is_insert]; try apply Hr.
    - pose proof (insert_len cmp k v b). destruct (om_find cmp k (inorder b)); [done|]. case_decide; lia.
    - pose proof (remove_len k b). lia.
  Qed.
  Lemma room_history cap1 cap2 ops : ∀ b : drawing, lengthN (inorder b) + lengthN (filter is_insert ops) ≤ cap1 → lengthN (inorder b) + lengthN (filter is_insert ops) ≤ cap2 →
    fold_left (λ b o, book_step cmp cap1 o b) ops b = fold_left (λ b o, book_step cmp cap2 o b) ops b.
  Proof.
    induction ops as [|o ops IH]; intros b H1 H2; [done|]. cbn [fold_left]. pose proof (step_len cap2 o b) as Hl.
    assert (lengthN (filter is_insert (o :: ops)) = (if is_insert o then 1 else 0) + lengthN (filter is_insert ops)) as Ef.
    { unfold lengthN. destruct (is_insert o) eqn:E; [rewrite filter_cons_True by (by rewrite E)|rewrite filter_cons_False by (rewrite E; by intros [])]; cbn [length]; lia. }
    rewrite Ef in H1, H2. assert (book_step cmp cap1 o b = book_step cmp cap2 o b) as ->.
    { destruct o as [k v|k|k|k f|k| | | | | |k|k f|sc|sc]; cbn [book_step is_insert] in *; try done. destruct (om_find cmp k (inorder b)); [done|]. rewrite !decide_True by lia. done. }
    apply IH; lia.
  Qed.
End room.
