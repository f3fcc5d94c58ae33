(** * Model of the structural unit tests of red_black_tree.rs (972-1226) and of its test [remove_root] (1368-1385)

    The keys the tests use are parameters ([k61] stands where the test writes 61). [assert!] and [assert_eq!] panic when they fail; an
    [assert!(a && b)] is a sequence of assertions. The tests start from [new_from_slice] of a zeroed buffer, which is [rb_new] (C43). The final
    [tree.pretty_print()] (1225) is left out: it only reads (C52). *)
From Verif Require Export TestModel RBApi.

(** The methods the tests call. The tests are programs over any implementation of them, so that one can say what they detect (C79); the
    implementation in the source is [rb_shape]. *)
Record shape (S K V : Type) := Shape {
  h_insert : K → V → M S (option N);
  h_left : S → N → res N; h_right : S → N → res N; h_parent : S → N → res N;
  h_black : S → N → res bool; h_red : S → N → res bool; h_leaf : S → N → res bool }.
Global Arguments Shape {S K V}.
Global Arguments h_insert {S K V}.
Global Arguments h_left {S K V}.
Global Arguments h_right {S K V}.
Global Arguments h_parent {S K V}.
Global Arguments h_black {S K V}.
Global Arguments h_red {S K V}.
Global Arguments h_leaf {S K V}.
Definition rb_shape `{Profile} {K V} (cmp : K → K → comparison) : shape (rbt K V) K V :=
  {| h_insert := rb_insert cmp; h_left := rb_get_left; h_right := rb_get_right; h_parent := rb_get_parent;
     h_black := rb_is_black; h_red := rb_is_red; h_leaf := rb_is_leaf |}.

Section tests.
  Context {S K V : Type} (tree : shape S K V) (z : V).
  Notation M := (M S).
  (** [tree.insert(k, 0).unwrap()] *)
  Definition s_insert (k : K) : M N := o ← h_insert tree k z; lift (unwrap o).
  (** [assert_eq!(tree.f(..), x)] *)
  Definition s_eq (f : S → res N) (x : N) : M () := a ← gets f; massert (bool_decide (a = x)).
  (** [assert!(tree.f(..))] *)
  Definition s_is (f : S → res bool) : M () := b ← gets f; massert b.
  Definition s_left (i x : N) : M () := s_eq (λ t, h_left tree t i) x.
  Definition s_right (i x : N) : M () := s_eq (λ t, h_right tree t i) x.
  Definition s_parent (i x : N) : M () := s_eq (λ t, h_parent tree t i) x.
  Definition s_black (i : N) : M () := s_is (λ t, h_black tree t i).
  Definition s_red (i : N) : M () := s_is (λ t, h_red tree t i).
  Definition s_leaf (i : N) : M () := s_is (λ t, h_leaf tree t i).

  (** red_black_tree.rs:972-1013 [test_insert_with_red_parent_and_uncle] *)
  Definition test_red_uncle (k52 k61 k76 k85 k93 k100 : K) : M () :=
    a0 ← s_insert k61; a1 ← s_insert k52; grandparent ← s_insert k85; uncle ← s_insert k76; parent ← s_insert k93;
    s_left a0 a1;; s_right a0 grandparent;; s_parent a1 a0;; s_parent grandparent a0;;
    s_left grandparent uncle;; s_right grandparent parent;; s_parent uncle grandparent;; s_parent parent grandparent;;
    s_black a0;; s_black a1;; s_black grandparent;;
    s_red uncle;; s_red parent;;
    leaf ← s_insert k100;
    s_black a0;; s_black a1;; s_black uncle;; s_black parent;;
    s_red grandparent;; s_red leaf.

  (** red_black_tree.rs:1015-1066 [test_right_insert_with_red_right_child_parent_and_black_uncle] *)
  Definition test_right_right (k52 k61 k85 k93 k100 : K) : M () :=
    a0 ← s_insert k61; a1 ← s_insert k52; grandparent ← s_insert k85; parent ← s_insert k93;
    s_black a0;; s_black a1;; s_black grandparent;; s_red parent;;
    s_left a0 a1;; s_right a0 grandparent;; s_parent a1 a0;; s_parent grandparent a0;;
    s_left grandparent SENTINEL;; s_right grandparent parent;; s_parent parent grandparent;;
    leaf ← s_insert k100;
    s_black a0;; s_black a1;; s_black parent;; s_red grandparent;; s_red leaf;;
    s_left a0 a1;; s_right a0 parent;; s_parent a1 a0;; s_parent parent a0;;
    s_left parent grandparent;; s_right parent leaf;; s_parent grandparent parent;; s_parent leaf parent;;
    s_leaf leaf;; s_leaf grandparent.

  (** red_black_tree.rs:1068-1119 [test_left_insert_with_red_right_child_parent_and_black_uncle] *)
  Definition test_right_left (k52 k61 k85 k87 k93 : K) : M () :=
    a0 ← s_insert k61; a1 ← s_insert k52; grandparent ← s_insert k85; parent ← s_insert k93;
    s_black a0;; s_black a1;; s_black grandparent;; s_red parent;;
    s_left a0 a1;; s_right a0 grandparent;; s_parent a1 a0;; s_parent grandparent a0;;
    s_left grandparent SENTINEL;; s_right grandparent parent;; s_parent parent grandparent;;
    leaf ← s_insert k87;
    s_black a0;; s_black a1;; s_black leaf;; s_red grandparent;; s_red parent;;
    s_left a0 a1;; s_right a0 leaf;; s_parent a1 a0;; s_parent leaf a0;;
    s_left leaf grandparent;; s_right leaf parent;; s_parent grandparent leaf;; s_parent parent leaf;;
    s_leaf parent;; s_leaf grandparent.

  (** red_black_tree.rs:1121-1172 [test_left_insert_with_red_left_child_parent_and_black_uncle] *)
  Definition test_left_left (k25 k41 k52 k61 k85 : K) : M () :=
    a0 ← s_insert k61; a1 ← s_insert k85; grandparent ← s_insert k52; parent ← s_insert k41;
    s_black a0;; s_black a1;; s_black grandparent;; s_red parent;;
    s_right a0 a1;; s_left a0 grandparent;; s_parent a1 a0;; s_parent grandparent a0;;
    s_right grandparent SENTINEL;; s_left grandparent parent;; s_parent parent grandparent;;
    leaf ← s_insert k25;
    s_black a0;; s_black a1;; s_black parent;; s_red grandparent;; s_red leaf;;
    s_right a0 a1;; s_left a0 parent;; s_parent a1 a0;; s_parent parent a0;;
    s_right parent grandparent;; s_left parent leaf;; s_parent grandparent parent;; s_parent leaf parent;;
    s_leaf leaf;; s_leaf grandparent.

  (** red_black_tree.rs:1174-1226 [test_right_insert_with_red_left_child_parent_and_black_uncle] *)
  Definition test_left_right (k41 k47 k52 k61 k85 : K) : M () :=
    a0 ← s_insert k61; a1 ← s_insert k85; grandparent ← s_insert k52; parent ← s_insert k41;
    s_black a0;; s_black a1;; s_black grandparent;; s_red parent;;
    s_right a0 a1;; s_left a0 grandparent;; s_parent a1 a0;; s_parent grandparent a0;;
    s_right grandparent SENTINEL;; s_left grandparent parent;; s_parent parent grandparent;;
    leaf ← s_insert k47;
    s_black a0;; s_black a1;; s_black leaf;; s_red grandparent;; s_red parent;;
    s_right a0 a1;; s_left a0 leaf;; s_parent a1 a0;; s_parent leaf a0;;
    s_right leaf grandparent;; s_left leaf parent;; s_parent grandparent leaf;; s_parent parent leaf;;
    s_leaf parent;; s_leaf grandparent.
End tests.

(** red_black_tree.rs:1368-1385 [remove_root], again for any implementation; the result is [root], which the test compares with (1, 5) *)
Definition test_remove_root {S K V} (insert : K → V → M S (option N)) (remove_root : M S (option (K * V))) (k0 k1 k2 : K) (v4 v5 v0 : V) : M S (K * V) :=
  o ← remove_root; massert (match o with None => true | Some _ => false end);;
  insert k1 v5;; insert k2 v0;; insert k0 v4;;
  o ← remove_root; lift (unwrap o).
