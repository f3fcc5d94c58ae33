(** * What the public navigation functions of a RedBlackTree and of a HashTable should tell *)
From Verif Require Import Spec HashApi.
From Verif Require Export RBModel HashModel.

(** A binary tree of numbered nodes, and a view of each node: its parent, number, content, left and right child
    ([SENTINEL] stands for "none") *)
Inductive btree (A : Type) := BLeaf | BNode (l : btree A) (i : N) (a : A) (r : btree A).
Global Arguments BLeaf {A}.
Global Arguments BNode {A} l i a r.
Record bview (A : Type) := View { v_parent : N; v_index : N; v_pair : A; v_left : N; v_right : N }.
Global Arguments View {A} _ _ _ _ _.
Global Arguments v_parent {A} _.
Global Arguments v_index {A} _.
Global Arguments v_pair {A} _.
Global Arguments v_left {A} _.
Global Arguments v_right {A} _.
Definition btop {A} (b : btree A) : N := match b with BLeaf => SENTINEL | BNode _ i _ _ => i end.
(** All nodes from left to right; [p] is the parent of the top node *)
Fixpoint bviews {A} (p : N) (b : btree A) : list (bview A) :=
  match b with
  | BLeaf => []
  | BNode l i a r => bviews i l ++ View p i a (btop l) (btop r) :: bviews i r
  end.

Section rb.
  Context `{Profile} {K V : Type} (cmp : K → K → comparison).
  Implicit Types t : rbt K V.
  (** Everything that can be asked about the node [n] *)
  Record rb_tells t (n : bview (K * V)) : Prop := {
    rt_node : rb_get_node t (v_index n) = Val (v_pair n);
    rt_left : rb_get_left t (v_index n) = Val (v_left n);
    rt_right : rb_get_right t (v_index n) = Val (v_right n);
    rt_parent : rb_get_parent t (v_index n) = Val (v_parent n);
    rt_child_left : rb_get_child t (v_index n) Left = Val (v_left n);
    rt_child_right : rb_get_child t (v_index n) Right = Val (v_right n);
    rt_dir : ∀ dir, rb_get_dir t (v_index n) dir = Val (if decide (dir = Left) then v_left n else v_right n);
    rt_leaf : rb_is_leaf t (v_index n) = Val (bool_decide (v_left n = SENTINEL ∧ v_right n = SENTINEL));
    rt_root : rb_is_root t (v_index n) = bool_decide (v_parent n = SENTINEL);
    rt_color : ∃ red : bool, rb_get_color t (v_index n) = Val (if red then Red else Black) ∧
      rb_is_red t (v_index n) = Val red ∧ rb_is_black t (v_index n) = Val (negb red);
    rt_addr : rb_get_addr cmp t (v_pair n).1 = Val (v_index n);
  }.
  (** The same questions about SENTINEL *)
  Record rb_tells_sentinel t : Prop := {
    rs_left : rb_get_left t SENTINEL = Val SENTINEL;
    rs_right : rb_get_right t SENTINEL = Val SENTINEL;
    rs_parent : rb_get_parent t SENTINEL = Val SENTINEL;
    rs_child : ∀ dir, rb_get_child t SENTINEL dir = Val SENTINEL;
    rs_dir : ∀ dir, rb_get_dir t SENTINEL dir = Val SENTINEL;
    rs_leaf : rb_is_leaf t SENTINEL = Val true;
    rs_root : rb_is_root t SENTINEL = bool_decide (rb_len t = 0);
    rs_color : rb_get_color t SENTINEL = Val Black ∧ rb_is_red t SENTINEL = Val false ∧ rb_is_black t SENTINEL = Val true;
  }.
End rb.

Section ht.
  Context `{Profile} {K V : Type} (keq : K → K → bool) (hash : K → N).
  (** [chains]: for each bucket the numbered pairs in it, from the head on *)
  Record ht_tells (h : htable K V) (chains : list (list (N * (K * V)))) : Prop := {
    hn_buckets : buckets h = map (λ c, default SENTINEL (head c.*1)) chains;
    hn_hash : ∀ b c i kv, chains !! b = Some c → (i, kv) ∈ c → hash kv.1 mod N.of_nat (length chains) = N.of_nat b;
    hn_nodup : NoDup (concat chains).*1;
    hn_sentinel : SENTINEL ∉ (concat chains).*1;
    hn_node : ∀ b c j i kv, chains !! b = Some c → c !! j = Some (i, kv) →
      ht_get_node h i = Val kv ∧
      ht_get_next h i = Val (default SENTINEL (c.*1 !! S j)) ∧
      ht_get_prev h i = Val (match j with O => SENTINEL | S j' => default SENTINEL (c.*1 !! j') end) ∧
      ht_get_addr keq hash h kv.1 = Val i;
    hn_iter : ∀ n, ht_iterate h (replicate n Fwd) = Val (de_spec (replicate n Fwd) (concat chains).*2);
  }.
End ht.
