(** * C91: the red-black tree is a recursive red-black tree on paper, node for node and colour for colour

    [hinsert] and [hremove] (HueSpec.v) are recursive insertion and deletion on painted drawings: no addresses, no parent registers, no walk back up;
    [hue_tree cmp cap o] is what they make of the calls [o] ([None] in the history is remove_root). [rb_drawn t b]: [b] is what one sees following the left and
    right registers from the root of [t], with the colours; [rb_after cmp ms d o] is the tree after the calls [o] on a new tree of capacity [ms]. *)
From Verif Require Import RBMain RBProps HueSpec HueMain.

Section props.
  Context `{Profile} {K V : Type} (cmp : K → K → comparison) (HO : OrdLaws cmp) (ms : nat) (d : K * V).
  Context (H0 : (0 < ms)%nat) (Hw : N.of_nat ms + 1 < W32).
  Notation after := (rb_after cmp ms d).
  Notation painted := (painted (K * V)).
  Notation ops := (list (option (om_op K V))).
  Notation hue o := (hue_tree cmp (N.of_nat ms) o).

  (** after whatever calls, the tree is the one on paper: every pair at its place, every node of its colour, and nothing else *)
  Theorem C91_rb_is_hue (o : ops) (b : painted) : rb_drawn (after o) b ↔ b = hue o.
  Proof. exact (hue_iff cmp HO ms d H0 Hw o b). Qed.
  (** one insertion, from whatever tree *)
  Theorem C91_rb_insert (o : ops) k v (b : painted) :
    rb_drawn (after o) b → lengthN (inorder (unpainted b)) < N.of_nat ms ∨ (∃ x, x ∈ inorder (unpainted b) ∧ cmp k x.1 = Eq) →
    ∃ i t', rb_insert cmp k v (after o) = Ret (Some i) t' ∧ rb_drawn t' (hinsert cmp k v b).
  Proof. exact (hue_insert_fact cmp HO ms d H0 Hw o k v b). Qed.
  (** one removal, from whatever tree, whether the key is there or not *)
  Theorem C91_rb_remove (o : ops) k (b : painted) :
    rb_drawn (after o) b →
    ∃ r t', rb_remove cmp k (after o) = Ret r t' ∧ rb_drawn t' (hremove cmp k b) ∧ (r = None ↔ om_find cmp k (inorder (unpainted b)) = None).
  Proof. exact (hue_remove_fact cmp HO ms d H0 Hw o k b). Qed.
  (** remove_root takes out the pair at the top; the greatest pair of the left side, or else the only child, comes to the top *)
  Theorem C91_rb_remove_root (o : ops) m (l r : painted) x :
    rb_drawn (after o) (Knot m l x r) → ∃ t', rb_remove_root (after o) = Ret (Some x) t' ∧ rb_drawn t' (blackened (without_root m l r).1).
  Proof. exact (hue_remove_root_fact cmp HO ms d H0 Hw o m l x r). Qed.
  (** the tree on paper holds what the map holds, its root is black, no red node has a red child, all ways down hold equally many black nodes *)
  Theorem C91_hue_contents (o : ops) :
    rb_holds cmp ms d o (inorder (unpainted (hue o))) ∧ is_red (hue o) = false ∧ ∃ n, proper n (hue o).
  Proof. exact (hue_contents cmp HO ms d H0 Hw o). Qed.
End props.
Print Assumptions C91_rb_is_hue.
Print Assumptions C91_rb_insert.
Print Assumptions C91_rb_remove.
Print Assumptions C91_rb_remove_root.
Print Assumptions C91_hue_contents.

(** places and colours do not depend on the build profile, on the capacity, on the value unused slots hold, or on the slots used:
    the same calls make the same tree while there is room *)
Theorem C91_rb_same_tree {K V} (P1 P2 : Profile) (cmp : K → K → comparison) (ms1 ms2 : nat) (d1 d2 : K * V) (o : list (option (om_op K V))) (b : painted (K * V)) :
  OrdLaws cmp → (0 < ms1)%nat → (0 < ms2)%nat → N.of_nat ms1 + 1 < W32 → N.of_nat ms2 + 1 < W32 →
  (length (filter inserts o) ≤ ms1 `min` ms2)%nat →
  @rb_drawn P1 K V (@rb_after P1 K V cmp ms1 d1 o) b ↔ @rb_drawn P2 K V (@rb_after P2 K V cmp ms2 d2 o) b.
Proof. exact (hue_same_tree P1 P2 cmp ms1 ms2 d1 d2 o b). Qed.
Print Assumptions C91_rb_same_tree.

(** ** Examples *)
Local Instance ex_profile : Profile := {| overflow_checks := true |}.
Notation hue o := (hue_tree N.compare 8 o).
Definition ins (k : N) : option (om_op N N) := Some (MInsert k (10 * k)).
Definition red (k : N) : painted (N * N) := Knot true Bare (k, 10 * k) Bare.
Definition black (k : N) : painted (N * N) := Knot false Bare (k, 10 * k) Bare.
(** one and two turns *)
Example ex_single : hue [ins 1; ins 2; ins 3] = Knot false (red 1) (2, 20) (red 3).
Proof. by vm_compute. Qed.
Example ex_double : hue [ins 3; ins 1; ins 2] = Knot false (red 1) (2, 20) (red 3).
Proof. by vm_compute. Qed.
(** a fourth pair recolours *)
Example ex_recolour : hue [ins 4; ins 2; ins 6; ins 1] = Knot false (Knot false (red 1) (2, 20) Bare) (4, 40) (black 6).
Proof. by vm_compute. Qed.
(** removing the root of it puts 2, the greatest key to its left, at the top *)
Example ex_root : hue [ins 4; ins 2; ins 6; ins 1; None] = Knot false (red 1) (2, 20) (red 6).
Proof. by vm_compute. Qed.
(** a changed value stays at its place *)
Example ex_changed : hue [ins 1; ins 2; Some (MInsert 3 0); Some (MGetMut 3 (λ _, 30))] = Knot false (red 1) (2, 20) (red 3).
Proof. by vm_compute. Qed.
(** the same from the code *)
Example ex_code : rb_drawn (rb_after N.compare 8 (0, 0) [ins 4; ins 2; ins 6; ins 1; Some (MRemove 2)]) (Knot false (red 1) (4, 40) (red 6)).
Proof.
  unfold rb_drawn, red. eapply rb_reads_node; [by vm_compute..| |]; (eapply rb_reads_node; [by vm_compute..|constructor|constructor]).
Qed.

(** The textbooks, removing a black node whose only child is red, paint that child black and are done; the rest of the tree is left as it is. The code goes
    through the repair for a missing black node instead: removing 2 from the tree of [ex_recolour] it leaves 1 red and paints 6, on the other side, red. *)
Theorem C91_rb_red_child_refuted :
  ∃ (P : Profile) (o : list (option (om_op N N))) (k : N) (x y : N * N) (r : painted (N * N)),
    rb_drawn (rb_after N.compare 8 (0, 0) o) (Knot false (Knot false (Knot true Bare x Bare) (k, 20) Bare) y r) ∧
    ¬ rb_drawn (rb_after N.compare 8 (0, 0) (o ++ [Some (MRemove k)])) (Knot false (Knot false Bare x Bare) y r).
Proof.
  exists ex_profile, [ins 4; ins 2; ins 6; ins 1], 2, (1, 10), (4, 40), (black 6).
  pose proof N_laws as HO.
  split.
  - apply (C91_rb_is_hue N.compare HO 8 (0, 0) ltac:(lia) ltac:(done)). by vm_compute.
  - intros E. apply (C91_rb_is_hue N.compare HO 8 (0, 0) ltac:(lia) ltac:(done)) in E. vm_compute in E. discriminate E.
Qed.
Print Assumptions C91_rb_red_child_refuted.
