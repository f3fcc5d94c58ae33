(** * C89: which trees the AVL tree can be — exactly the balanced search trees

    [av_drawn t b] (DrawSpec.v): the drawing [b] is what one sees following the left and right registers from the root of [t]. [balanced], [inorder], [tall]
    and [hang] (insertion that hangs up a leaf and moves nothing) are defined there on drawings, without the model. [av_after pcmp ms d o] is the tree after the
    calls [o] on a new tree of capacity [ms], [fib] (AVLApi.v) the Fibonacci numbers. *)
From Verif Require Import AVLMain AVLProps DrawSpec DrawAv DrawMain.

Section props.
  Context `{Profile} {K V : Type} (pcmp : K → K → option comparison) (HO : OrdLaws (po_cmp pcmp)) (ms : nat) (d : K * V).
  Context (H0 : (0 < ms)%nat) (Hw : N.of_nat ms + 1 < W32).
  Notation cmp := (po_cmp pcmp).
  Notation after := (av_after pcmp ms d).
  Notation drawing := (drawing (K * V)).

  (** there is always exactly one drawing; from left to right it is the contents *)
  Theorem C89_av_drawing (o : list (om_op K V)) :
    ∃ b, av_drawn (after o) b ∧ inorder b = av_contents pcmp ms o ∧ balanced b ∧ lengthN (inorder b) = av_len (after o) ∧
    ∀ b', av_drawn (after o) b' → b' = b.
  Proof. exact (drawn_fact pcmp HO ms d H0 Hw o). Qed.
  (** the drawings that occur are the balanced search trees of at most [ms] pairs: all of them, and no others *)
  Theorem C89_av_shapes (b : drawing) :
    (∃ o, av_drawn (after o) b) ↔ balanced b ∧ ascending cmp (inorder b) ∧ lengthN (inorder b) ≤ N.of_nat ms.
  Proof. exact (reachable_fact pcmp HO ms d H0 Hw b). Qed.
  (** each of them by inserting its own pairs once each, in a suitable order *)
  Theorem C89_av_built (b : drawing) :
    balanced b → ascending cmp (inorder b) → lengthN (inorder b) ≤ N.of_nat ms →
    ∃ ps, ps ≡ₚ inorder b ∧ av_drawn (after (map (λ p, MInsert p.1 p.2) ps)) b.
  Proof. exact (built_fact pcmp HO ms d H0 Hw b). Qed.
  (** and from whatever tree one starts *)
  Theorem C89_av_everywhere (o : list (om_op K V)) (b : drawing) :
    balanced b → ascending cmp (inorder b) → lengthN (inorder b) ≤ N.of_nat ms → ∃ o', av_drawn (after (o ++ o')) b.
  Proof. exact (everywhere_fact pcmp HO ms d H0 Hw o b). Qed.
  (** an insertion moves nothing unless it must: if hanging up the leaf leaves the tree balanced then that is all that happens *)
  Theorem C89_av_hang (o : list (om_op K V)) k v (b : drawing) :
    av_drawn (after o) b → balanced (hang cmp k v b) →
    lengthN (inorder b) < N.of_nat ms ∨ (∃ x, x ∈ inorder b ∧ cmp k x.1 = Eq) →
    ∃ i t', av_insert pcmp k v (after o) = Ret (Some i) t' ∧ av_drawn t' (hang cmp k v b).
  Proof. exact (hang_fact pcmp HO ms d H0 Hw o k v b). Qed.
  (** the heights at which given pairs can stand: all between the logarithm and the Fibonacci bound of C30, and no others *)
  Theorem C89_av_heights (ps : list (K * V)) (h : nat) :
    ascending cmp ps → lengthN ps ≤ N.of_nat ms →
    (∃ o b, av_drawn (after o) b ∧ inorder b = ps ∧ tall b = h) ↔ fib (h + 2) ≤ lengthN ps + 1 ∧ lengthN ps + 1 ≤ 2 ^ N.of_nat h.
  Proof. exact (heights_fact pcmp HO ms d H0 Hw ps h). Qed.
End props.
Print Assumptions C89_av_drawing.
Print Assumptions C89_av_shapes.
Print Assumptions C89_av_built.
Print Assumptions C89_av_everywhere.
Print Assumptions C89_av_hang.
Print Assumptions C89_av_heights.

(** the bound [fib (length p + 2) <= len + 1] of C30 cannot be improved: for every length there is a tree whose longest way down attains it *)
Theorem C89_av_depth_attained `{Profile} (h ms : nat) :
  (0 < ms)%nat → N.of_nat ms + 1 < W32 → fib (h + 2) ≤ N.of_nat ms + 1 →
  ∃ o p, let t := av_after nat_pcmp ms (0, 0) o in
    av_path t (as_u32 (av_root t)) p ∧ length p = h ∧ fib (length p + 2) = av_len t + 1.
Proof.
  intros H0 Hw Hf. assert (1 ≤ fib (h + 2)) as H1 by (apply (fib_mono 1); lia).
  eapply (longest_fact nat_pcmp nat_laws ms (0, 0) h (counted (N.to_nat (fib (h + 2) - 1)))); [done|done| |rewrite counted_len; lia..].
  apply (counted_asc _ _ 0). intros x y Hxy. unfold po_cmp, nat_pcmp. by rewrite (proj2 (N.compare_lt_iff x y) Hxy).
Qed.
Print Assumptions C89_av_depth_attained.

Local Instance ex_profile : Profile := {| overflow_checks := true |}.

(** not every insertion hangs up a leaf: 1, 2 and then 3 turns the tree *)
Theorem C89_av_always_hangs_refuted :
  ∃ (P : Profile) (o : list (om_op N N)) (b : drawing (N * N)) k v t' i,
    av_drawn (av_after nat_pcmp 3 (0, 0) o) b ∧ lengthN (inorder b) < 3 ∧ av_insert nat_pcmp k v (av_after nat_pcmp 3 (0, 0) o) = Ret (Some i) t' ∧
    ¬ av_drawn t' (hang (po_cmp nat_pcmp) k v b).
Proof.
  exists ex_profile, [MInsert 1 10; MInsert 2 20], (Fork Empty (1, 10) (Fork Empty (2, 20) Empty)), 3, 30.
  eexists. eexists. split_and!.
  - unfold av_drawn. eapply av_reads_node; [by vm_compute..|constructor|]. eapply av_reads_node; [by vm_compute..|constructor|constructor].
  - done.
  - vm_compute. reflexivity.
  - intros Hd. unfold av_drawn in Hd. eapply (reads_fun _ _ _ (Fork (Fork Empty (1, 10) Empty) (2, 20) (Fork Empty (3, 30) Empty))) in Hd; [discriminate|].
    eapply av_reads_node; [by vm_compute..| |]; (eapply av_reads_node; [by vm_compute..|constructor|constructor]).
Qed.
Print Assumptions C89_av_always_hangs_refuted.

(** ** Examples *)
(** the leanest balanced tree of height 4: seven pairs, fib 6 = 8 *)
Definition lean : drawing (N * N) :=
  let leaf k := Fork Empty (k, 0) Empty in
  Fork (Fork (Fork Empty (2, 0) (leaf 3)) (4, 0) (leaf 5)) (6, 0) (Fork Empty (7, 0) (leaf 8)).
Example lean_good : balanced lean ∧ ascending (po_cmp nat_pcmp) (inorder lean) ∧ lengthN (inorder lean) = 7 ∧ tall lean = 4%nat ∧ fib (4 + 2) = 7 + 1.
Proof. split_and!; [cbn; lia| |done|done|done]. repeat constructor. Qed.
(** an order of insertion that makes it, none of them turning anything *)
Example lean_made : av_drawn (av_after nat_pcmp 7 (0, 0) [MInsert 6 0; MInsert 4 0; MInsert 7 0; MInsert 2 0; MInsert 5 0; MInsert 8 0; MInsert 3 0]) lean.
Proof.
  unfold av_drawn. eapply av_reads_node; [by vm_compute..| |].
  - eapply av_reads_node; [by vm_compute..| |].
    + eapply av_reads_node; [by vm_compute..|constructor|]. eapply av_reads_node; [by vm_compute..|constructor|constructor].
    + eapply av_reads_node; [by vm_compute..|constructor|constructor].
  - eapply av_reads_node; [by vm_compute..|constructor|]. eapply av_reads_node; [by vm_compute..|constructor|constructor].
Qed.
(** hanging 9 below 8 would not leave it balanced, hanging 1 below 2 does *)
Example lean_hang : balanced (hang (po_cmp nat_pcmp) 1 0 lean) ∧ ¬ balanced (hang (po_cmp nat_pcmp) 9 0 lean).
Proof. split; [cbn; lia|]. cbn. lia. Qed.
(** seven pairs can stand at the heights 3 and 4 only *)
Example seven_heights h : fib (h + 2) ≤ 7 + 1 ∧ 7 + 1 ≤ 2 ^ N.of_nat h ↔ h = 3%nat ∨ h = 4%nat.
Proof.
  split.
  - intros [Hf Hp]. destruct (decide (h < 3)%nat) as [Hlt|Hge].
    { assert (2 ^ N.of_nat h ≤ 2 ^ 2) as Hq by (apply N.pow_le_mono_r; lia). change (2 ^ 2) with 4 in Hq. lia. }
    destruct (decide (h < 5)%nat) as [Hlt|Hge2]; [lia|]. pose proof (fib_mono 7 (h + 2) ltac:(lia)) as Hm. change (fib 7) with 13 in Hm. lia.
  - intros [-> | ->]; split; by vm_compute.
Qed.
