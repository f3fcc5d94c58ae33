(** * The red-black conditions on ghost trees, and on contexts *)
From Verif Require Export RBProof.

Section inv.
  Context {K V : Type}.
  Notation tree := (tree (K * V)).
  Notation frame := (frame (K * V)).
  Implicit Types s x y z o U l r : tree.
  Implicit Types ctx : list frame.

  (** [rbi s n]: no red node has a red child, every path holds [n] black nodes *)
  Inductive rbi : tree → nat → Prop :=
  | rbi_Lf : rbi Lf 0
  | rbi_red l i kv r n : rbi l n → rbi r n → mark l = 0 → mark r = 0 → rbi (Nd 1 l i kv r) n
  | rbi_black l i kv r n : rbi l n → rbi r n → rbi (Nd 0 l i kv r) (S n).
  (** [cx ctx n]: the same for a context whose hole takes a tree of black height [n]; a red frame is never outermost *)
  Inductive cx : list frame → nat → Prop :=
  | cx_nil n : cx [] n
  | cx_black d i kv o ctx n : rbi o n → cx ctx (S n) → cx (F d 0 i kv o :: ctx) n
  | cx_red d i kv o f ctx n : rbi o n → mark o = 0 → fm f = 0 → cx (f :: ctx) n → cx (F d 1 i kv o :: f :: ctx) n.
  Definition compat ctx s : Prop := match ctx with [] => mark s = 0 | f :: _ => fm f = 1 → mark s = 0 end.

  Lemma rbi_mark s n : rbi s n → mark s = 0 ∨ mark s = 1.
  Proof. destruct 1; auto. Qed.
  Lemma rbi_mk_red d x i kv y n : rbi x n → rbi y n → mark x = 0 → mark y = 0 → rbi (mk d 1 x i kv y) n.
  Proof. destruct d; by constructor. Qed.
  Lemma rbi_mk_black d x i kv y n : rbi x n → rbi y n → rbi (mk d 0 x i kv y) (S n).
  Proof. destruct d; by constructor. Qed.
  Lemma rbi_mk_inv d m x i kv y n :
    rbi (mk d m x i kv y) n → (m = 1 ∧ rbi x n ∧ rbi y n ∧ mark x = 0 ∧ mark y = 0) ∨
      (m = 0 ∧ ∃ n', n = S n' ∧ rbi x n' ∧ rbi y n').
  Proof. destruct d; inversion 1; subst; eauto 10. Qed.
  Lemma mk_dir d s : s ≠ Lf → ∃ m x i kv y, s = mk d m x i kv y.
  Proof. destruct s as [|m l i kv r]; [done|]. intros _. destruct d; [by exists m, r, i, kv, l|by exists m, l, i, kv, r]. Qed.
  Lemma rbi_S_ne s n : rbi s (S n) → s ≠ Lf.
  Proof. by inversion 1. Qed.
  Lemma mark_ne s : mark s = 1 → s ≠ Lf.
  Proof. by destruct s. Qed.
  Lemma rbi_setm_black s n : rbi s n → ∃ n', rbi (setm 0 s) n'.
  Proof. destruct 1; simpl; eexists; constructor; done. Qed.
  Lemma setm_mark s : mark (setm 0 s) = 0.
  Proof. by destruct s. Qed.
  Lemma setm_id s : setm (mark s) s = s.
  Proof. by destruct s. Qed.

  Lemma cx_plug ctx s n :
    rbi s n → cx ctx n → (ctx ≠ [] → compat ctx s) → ∃ n', rbi (plug ctx s) n'.
  Proof.
    intros Hs Hc. revert s Hs. induction Hc; intros s Hs Hcp; simpl.
    - by exists n.
    - apply IHHc; [by apply rbi_mk_black|]. intros Hne. destruct ctx; [done|]. intros. by destruct d.
    - apply IHHc; [apply rbi_mk_red; try done; by apply Hcp|]. intros _ Hf. congruence.
  Qed.
  Lemma cx_unplug ctx s n :
    rbi (plug ctx s) n → mark (plug ctx s) = 0 → ∃ n', rbi s n' ∧ cx ctx n' ∧ compat ctx s.
  Proof.
    revert s. induction ctx as [|[d m i kv o] ctx IH]; intros s Hr Hm; simpl in *.
    - exists n. split_and!; [done|constructor|done].
    - apply IH in Hr as (n' & Hr & Hc & Hcp); [|done].
      apply rbi_mk_inv in Hr as [(-> & Hs & Ho & Hms & Hmo)|(-> & n'' & -> & Hs & Ho)].
      + exists n'. destruct ctx as [|f ctx]; [simpl in Hcp; by destruct d|].
        split_and!; [done| |done]. constructor; [done..| |done]. simpl in Hcp.
        assert (mark (mk d 1 s i kv o) = 1) as Hmk by by destruct d. rewrite Hmk in Hcp.
        inversion Hc; subst; simpl in *; naive_solver.
      + exists n''. split_and!; [done| |done]. by constructor.
  Qed.
  (** the outermost frame is black *)
  Lemma cx_root ctx s n : cx ctx n → ctx ≠ [] → mark (plug ctx s) = 0.
  Proof.
    intros Hc. revert s. induction Hc; intros s Hne; simpl; [done|..].
    - destruct ctx as [|f ctx]; [by destruct d|]. by apply IHHc.
    - by apply (IHHc (mk d 1 s i kv o)).
  Qed.
  Lemma cx_tail f ctx n : cx (f :: ctx) n → fm f = 0 → cx ctx (S n) ∧ rbi (fo f) n.
  Proof. inversion 1; subst; simpl; done. Qed.

  (** Replacing values does not matter *)
  Lemma rbi_same s s' n : same_shape s s' → rbi s n → rbi s' n.
  Proof.
    intros Hs. revert n. induction Hs as [|m l a kv kv' r l' r' Hl IHl Hr IHr]; intros n Hn; [done|].
    apply same_shape_mark in Hl, Hr. inversion Hn; subst; constructor; eauto; congruence.
  Qed.

  (** Size and height *)
  Lemma rbi_size s n : rbi s n → (2 ^ n ≤ tsize s + 1)%nat.
  Proof. induction 1; simpl; lia. Qed.
  Lemma rbi_height s n : rbi s n → (height s ≤ 2 * n + N.to_nat (mark s))%nat.
  Proof.
    induction 1; simpl height; simpl mark.
    - lia.
    - rewrite H1 in IHrbi1. rewrite H2 in IHrbi2. simpl in *. lia.
    - pose proof (rbi_mark _ _ H). pose proof (rbi_mark _ _ H0). lia.
  Qed.
End inv.
