(** * C90: the AVL tree is the textbook's AVL tree, node for node

    [book_insert] and [book_remove] (BookSpec.v) are the recursive insertion and deletion of the textbooks on drawings: no addresses, no height registers, no
    explicit path; [book_tree cmp cap o] is what they make of the calls [o]. [av_drawn t b] (DrawSpec.v): [b] is what one sees following the left and right
    registers from the root of [t]; [av_after pcmp ms d o] is the tree after the calls [o] on a new tree of capacity [ms]. *)
From Verif Require Import AVLMain AVLProps DrawSpec DrawPure DrawAv DrawMain BookSpec BookSorted BookMain.

Section props.
  Context `{Profile} {K V : Type} (pcmp : K → K → option comparison) (HO : OrdLaws (po_cmp pcmp)) (ms : nat) (d : K * V).
  Context (H0 : (0 < ms)%nat) (Hw : N.of_nat ms + 1 < W32).
  Notation cmp := (po_cmp pcmp).
  Notation after := (av_after pcmp ms d).
  Notation drawing := (drawing (K * V)).
  Notation book o := (book_tree cmp (N.of_nat ms) o).
  Notation inserts := (map (λ p : K * V, MInsert p.1 p.2)).

  (** after whatever calls, the tree is the one of the textbooks: every pair at its place, and nothing else *)
  Theorem C90_av_is_book (o : list (om_op K V)) (b : drawing) : av_drawn (after o) b ↔ b = book o.
  Proof. exact (book_iff pcmp HO ms d H0 Hw o b). Qed.
  (** one insertion, from whatever tree *)
  Theorem C90_av_insert (o : list (om_op K V)) k v (b : drawing) :
    av_drawn (after o) b → lengthN (inorder b) < N.of_nat ms ∨ (∃ x, x ∈ inorder b ∧ cmp k x.1 = Eq) →
    ∃ i t', av_insert pcmp k v (after o) = Ret (Some i) t' ∧ av_drawn t' (book_insert cmp k v b).
  Proof. exact (book_insert_fact pcmp HO ms d H0 Hw o k v b). Qed.
  (** one removal, from whatever tree, whether the key is there or not *)
  Theorem C90_av_remove (o : list (om_op K V)) k (b : drawing) :
    av_drawn (after o) b →
    ∃ r t', av_remove pcmp k (after o) = Ret r t' ∧ av_drawn t' (book_remove cmp k b) ∧ (r = None ↔ om_find cmp k (inorder b) = None).
  Proof. exact (book_remove_fact pcmp HO ms d H0 Hw o k b). Qed.
  (** the textbook's tree holds what the map holds and is balanced: read off from the code, not assumed *)
  Theorem C90_book_contents (o : list (om_op K V)) : inorder (book o) = av_contents pcmp ms o ∧ balanced (book o).
  Proof. exact (book_contents pcmp HO ms d H0 Hw o). Qed.
  (** pairs inserted in the order of their keys, or in the opposite order, make a tree as low as any tree of as many pairs can be *)
  Theorem C90_av_sorted (ps : list (K * V)) (b : drawing) :
    ascending cmp ps ∨ ascending cmp (reverse ps) → lengthN ps ≤ N.of_nat ms → av_drawn (after (inserts ps)) b →
    2 ^ N.of_nat (tall b) ≤ 2 * lengthN ps + 1 ∧ ∀ b' : drawing, length (inorder b') = length ps → (tall b ≤ tall b')%nat.
  Proof. exact (sorted_fact pcmp HO ms d H0 Hw ps b). Qed.
End props.
Print Assumptions C90_av_is_book.
Print Assumptions C90_av_insert.
Print Assumptions C90_av_remove.
Print Assumptions C90_book_contents.
Print Assumptions C90_av_sorted.

(** the places of the pairs do not depend on the build profile, on the capacity, on the value unused slots hold, or on the slots used:
    the same calls make the same tree while there is room *)
Theorem C90_av_same_tree {K V} (P1 P2 : Profile) (pcmp : K → K → option comparison) (ms1 ms2 : nat) (d1 d2 : K * V) (o : list (om_op K V)) (b : drawing (K * V)) :
  OrdLaws (po_cmp pcmp) → (0 < ms1)%nat → (0 < ms2)%nat → N.of_nat ms1 + 1 < W32 → N.of_nat ms2 + 1 < W32 →
  (length (filter is_insert o) ≤ ms1 `min` ms2)%nat →
  @av_drawn P1 K V (@av_after P1 K V pcmp ms1 d1 o) b ↔ @av_drawn P2 K V (@av_after P2 K V pcmp ms2 d2 o) b.
Proof. exact (same_tree P1 P2 pcmp ms1 ms2 d1 d2 o b). Qed.
Print Assumptions C90_av_same_tree.

(** ** Examples *)
Local Instance ex_profile : Profile := {| overflow_checks := true |}.
Notation book ops := (book_tree (po_cmp nat_pcmp) 8 ops).
Definition leaf (k : N) : drawing (N * N) := Fork Empty (k, 10 * k) Empty.
(** 1, 2 and 3 turn the tree once *)
Example ex_single : book [MInsert 1 10; MInsert 2 20; MInsert 3 30] = Fork (leaf 1) (2, 20) (leaf 3).
Proof. by vm_compute. Qed.
(** 3, 1 and 2 turn it twice *)
Example ex_double : book [MInsert 3 30; MInsert 1 10; MInsert 2 20] = Fork (leaf 1) (2, 20) (leaf 3).
Proof. by vm_compute. Qed.
(** removing a node with two children puts the next key in its place; here this also turns the left half up *)
Example ex_remove : book [MInsert 4 40; MInsert 2 20; MInsert 5 50; MInsert 1 10; MInsert 3 30; MRemove 4] =
  Fork (leaf 1) (2, 20) (Fork (leaf 3) (5, 50) Empty).
Proof. by vm_compute. Qed.
(** and the same from the code *)
Example ex_remove_code : av_drawn (av_after nat_pcmp 8 (0, 0) [MInsert 4 40; MInsert 2 20; MInsert 5 50; MInsert 1 10; MInsert 3 30; MRemove 4])
  (Fork (leaf 1) (2, 20) (Fork (leaf 3) (5, 50) Empty)).
Proof.
  unfold av_drawn, leaf. eapply av_reads_node; [by vm_compute..| |].
  - eapply av_reads_node; [by vm_compute..|constructor|constructor].
  - eapply av_reads_node; [by vm_compute..| |constructor]. eapply av_reads_node; [by vm_compute..|constructor|constructor].
Qed.
(** seven keys in order: all three levels full; in another order four levels *)
Example ex_sorted : tall (book (map (λ k, MInsert k 0) [1; 2; 3; 4; 5; 6; 7])) = 3%nat ∧ tall (book (map (λ k, MInsert k 0) [6; 4; 7; 2; 5; 8; 3])) = 4%nat.
Proof. by vm_compute. Qed.
(** a changed value stays at its place *)
Example ex_changed : book [MInsert 1 10; MInsert 2 20; MInsert 3 0; MGetMut 3 (λ _, 30)] = Fork (leaf 1) (2, 20) (leaf 3).
Proof. by vm_compute. Qed.
