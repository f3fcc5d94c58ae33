(** * C46: what [is_valid_red_black_tree] decides *)
From Verif Require Import ValidProof.

Section props.
  Context `{Profile} {K V : Type} (t : rbt K V) (s : ctree).
  (** The registers of the tree, reachable or not through the API, spell out a binary tree [s] with at most MAX_SIZE nodes. Nothing is
      assumed about colours, keys, parent registers or the allocator. *)
  Hypothesis (Hreads : rb_reads t (rb_root t) s).
  Hypothesis (Hsize : (csize s ≤ length (nodes (rb_al t)))%nat) (Hw : N.of_nat (csize s) < W32).

  (** The function terminates without panicking and returns true exactly for [len() = 0] or: the root is not red, no red node has a red
      child, and all paths to nodes without children have the same number of black nodes. *)
  Theorem C46_is_valid_exact :
    ∃ b, rb_is_valid t = Val b ∧
      (b = true ↔ rb_len t = 0 ∨
         (ccolor s ≠ Red ∧ ¬ red_red s ∧ ∀ p q, leaf_path s p → leaf_path s q → blacks p = blacks q)).
  Proof using All. by apply is_valid_spec. Qed.

  (** No false alarm: every red-black tree with a black root is accepted. *)
  Theorem C46_is_valid_complete n :
    rb_get_color t (rb_root t) = Val Black → rb_sub t (rb_root t) n → rb_is_valid t = Val true.
  Proof using All.
    intros Hc Hn. destruct C46_is_valid_exact as (b & -> & Hb). f_equal. apply Hb. right.
    destruct (reads_sub _ _ _ _ Hreads Hn) as [Hrr Hp]. rewrite (reads_color _ _ _ Hreads) in Hc. injection Hc as ->.
    split_and!; [done|done|]. intros p q P Q. by rewrite (Hp p P), (Hp q Q).
  Qed.

  (** If every node is red or black and has no or two children, an accepted non-empty tree is a red-black tree. *)
  Theorem C46_is_valid_sound_full :
    full s → rb_len t ≠ 0 → rb_is_valid t = Val true →
    rb_get_color t (rb_root t) = Val Black ∧ ∃ n, rb_sub t (rb_root t) n.
  Proof using All.
    intros Hf Hl Ht. destruct C46_is_valid_exact as (b & Hb & Hv). rewrite Ht in Hb. injection Hb as <-.
    destruct (proj1 Hv eq_refl) as [?|(Hr & Hrr & Hp)]; [done|]. split.
    - rewrite (reads_color _ _ _ Hreads). f_equal. destruct s as [|c l r]; [done|]. destruct Hf as [[-> | ->] _]; done.
    - destruct (decide (s = CL)) as [E|E].
      + exists 0%nat. rewrite E in Hreads. inversion Hreads as [E'|]. constructor.
      + destruct (leaf_path_ex s E) as [p0 P0]. exists (blacks p0). apply full_sub with (s := s); auto.
  Qed.
End props.
Print Assumptions C46_is_valid_exact.
Print Assumptions C46_is_valid_complete.
Print Assumptions C46_is_valid_sound_full.

(** Concrete trees: a red-black tree (accepted), one with a red child of a red node and one with unequal black counts (rejected), and a
    black root with a single black child (accepted although it is not a red-black tree, see [C46_is_valid_refuted]). *)
Definition cells (c1 c2 c3 : N) : rbt N N :=
  RBT 1 (Alloc 3 4 4 [Node [2; 3; 0; c1] (5, 50); Node [0; 0; 1; c2] (3, 30); Node [0; 0; 1; c3] (7, 70)]).
Local Instance ex_profile : Profile := {| overflow_checks := true |}.
Ltac reads := repeat first [apply reads_none | eapply reads_node; [done|by vm_compute|by vm_compute|by vm_compute|..]].
Example ex_C46 :
  rb_reads (cells 0 1 1) 1 (CN 0 (CN 1 CL CL) (CN 1 CL CL)) ∧ rb_is_valid (cells 0 1 1) = Val true ∧
  full (CN 0 (CN 1 CL CL) (CN 1 CL CL)) ∧ rb_sub (cells 0 1 1) 1 1 ∧
  rb_is_valid (cells 1 1 1) = Val false ∧ rb_is_valid (cells 0 1 0) = Val false.
Proof.
  split_and!; [reads|by vm_compute|by naive_solver| |by vm_compute|by vm_compute].
  eapply rb_sub_black with (l := 2) (r := 3) (n := 0%nat); try done; eapply rb_sub_red with (l := 0) (r := 0); done || constructor.
Qed.
Example ex_C46_red_red : (* black root, red child, red grandchild *)
  let t := RBT 1 (Alloc 3 4 4 [Node [2; 0; 0; 0] (5, 50); Node [3; 0; 1; 1] (3, 30); Node [0; 0; 2; 1] (1, 10)]) in
  let s := CN 0 (CN 1 (CN 1 CL CL) CL) CL in
  rb_reads t 1 s ∧ red_red s ∧ rb_is_valid t = Val false.
Proof. split_and!; [reads|apply rr_in_left, rr_left; done|by vm_compute]. Qed.
