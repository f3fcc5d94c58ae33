(** * C92: how high a red-black tree can get, exactly; keys inserted in order make the highest tree of all

    [rb_drawn t b] (HueSpec.v): [b] is what one sees following the left and right registers from the root of [t], with the colours; [tall (unpainted b)] is its
    height, the number of levels. [proper n b] (HueSpec.v): no red node has a red child and every way down holds [n] black nodes. *)
From Verif Require Import RBMain MapProof DrawSpec HueSpec HueMain StairMain.
Local Open Scope nat_scope.

Section props.
  Context `{Profile} {K V : Type} (cmp : K → K → comparison) (HO : OrdLaws cmp) (ms : nat) (d : K * V).
  Context (H0 : 0 < ms) (Hw : (N.of_nat ms + 1 < W32)%N).
  Notation after := (rb_after cmp ms d).
  Notation painted := (painted (K * V)).
  Notation height b := (tall (unpainted b)).
  Notation pairs b := (length (inorder (unpainted b))).
  Notation inserting := (map (λ p : K * V, Some (MInsert p.1 p.2))).

  (** whatever the calls: 2k levels need 2^(k+1) - 2 pairs, 2k + 1 levels need 3 2^k - 2 *)
  Theorem C92_rb_height (o : list (option (om_op K V))) (b : painted) k :
    rb_drawn (after o) b →
    (2 * k ≤ height b → 2 ^ (k + 1) ≤ pairs b + 2) ∧ (2 * k + 1 ≤ height b → 3 * 2 ^ k ≤ pairs b + 2).
  Proof. exact (height_fact cmp HO ms d H0 Hw o b k). Qed.
  (** and these numbers are enough when the keys come in order, ascending or descending: no red-black tree of as many pairs is higher *)
  Theorem C92_rb_sorted (ps : list (K * V)) (b : painted) :
    ascending cmp ps ∨ ascending cmp (reverse ps) → length ps ≤ ms → rb_drawn (after (inserting ps)) b →
    (∀ k, (2 * k ≤ height b ↔ 2 ^ (k + 1) ≤ length ps + 2) ∧ (2 * k + 1 ≤ height b ↔ 3 * 2 ^ k ≤ length ps + 2)) ∧
    ∀ (b' : painted) n, proper n b' → is_red b' = false → pairs b' = length ps → height b' ≤ height b.
  Proof. exact (sorted_fact cmp HO ms d H0 Hw ps b). Qed.
End props.
Print Assumptions C92_rb_height.
Print Assumptions C92_rb_sorted.

(** ** Examples *)
Local Instance ex_profile : Profile := {| overflow_checks := true |}.
Notation hue l := (hue_tree N.compare 20 (map (λ k, Some (MInsert k (10 * k)%N)) l)).
Local Open Scope N_scope.
(** thirteen keys in order make five levels, fourteen make six: 2^(3+1) - 2 = 14 *)
Example ex_thirteen : tall (unpainted (hue [1; 2; 3; 4; 5; 6; 7; 8; 9; 10; 11; 12; 13])) = 5%nat.
Proof. by vm_compute. Qed.
Example ex_fourteen : tall (unpainted (hue [1; 2; 3; 4; 5; 6; 7; 8; 9; 10; 11; 12; 13; 14])) = 6%nat ∧
  tall (unpainted (hue [14; 13; 12; 11; 10; 9; 8; 7; 6; 5; 4; 3; 2; 1])) = 6%nat.
Proof. by vm_compute. Qed.
(** the same keys, the middle ones first, make four *)
Example ex_middle : tall (unpainted (hue [8; 4; 12; 2; 6; 10; 14; 1; 3; 5; 7; 9; 11; 13])) = 4%nat.
Proof. by vm_compute. Qed.
(** the hypotheses of [C92_rb_sorted] for the tree of the code *)
Example ex_sorted_code :
  ascending N.compare [(1, 10); (2, 20); (3, 30); (4, 40)] ∧
  rb_drawn (rb_after N.compare 4 (0, 0) (map (λ p : N * N, Some (MInsert p.1 p.2)) [(1, 10); (2, 20); (3, 30); (4, 40)]))
    (Knot false (Knot false Bare (1, 10) Bare) (2, 20) (Knot false Bare (3, 30) (Knot true Bare (4, 40) Bare))).
Proof.
  split; [repeat constructor|]. unfold rb_drawn.
  eapply rb_reads_node; [by vm_compute..| |].
  - eapply rb_reads_node; [by vm_compute..|constructor|constructor].
  - eapply rb_reads_node; [by vm_compute..|constructor|]. eapply rb_reads_node; [by vm_compute..|constructor|constructor].
Qed.
