(** * What [is_valid_red_black_tree] looks at: the coloured tree read from the registers *)
From Verif Require Export RBApi.

(** The colours of a binary tree; [CN c l r] is a node with colour register [c] *)
Inductive ctree := CL | CN (c : N) (l r : ctree).
Fixpoint csize (s : ctree) : nat := match s with CL => 0 | CN _ l r => S (csize l + csize r) end.
Definition ccolor (s : ctree) : N := match s with CL => Black | CN c _ _ => c end.

(** The registers below index [i] spell out the tree [s] *)
Inductive rb_reads {K V} `{Profile} (t : rbt K V) : N → ctree → Prop :=
| reads_none : rb_reads t SENTINEL CL
| reads_node i c l r sl sr :
    i ≠ SENTINEL → rb_get_color t i = Val c → rb_get_left t i = Val l → rb_get_right t i = Val r →
    rb_reads t l sl → rb_reads t r sr → rb_reads t i (CN c sl sr).

(** Some red node has a red child *)
Inductive red_red : ctree → Prop :=
| rr_left l r : ccolor l = Red → red_red (CN Red l r)
| rr_right l r : ccolor r = Red → red_red (CN Red l r)
| rr_in_left c l r : red_red l → red_red (CN c l r)
| rr_in_right c l r : red_red r → red_red (CN c l r).
(** The colours on a path from the root down to a node without children *)
Inductive leaf_path : ctree → list N → Prop :=
| lp_leaf c : leaf_path (CN c CL CL) [c]
| lp_left c l r p : leaf_path l p → leaf_path (CN c l r) (c :: p)
| lp_right c l r p : leaf_path r p → leaf_path (CN c l r) (c :: p).
Definition blacks (p : list N) : nat := length (filter (λ c, c = Black) p).
(** Every node is red or black and has no or two children *)
Fixpoint full (s : ctree) : Prop :=
  match s with
  | CL => True
  | CN c l r => (c = Red ∨ c = Black) ∧ (l = CL ↔ r = CL) ∧ full l ∧ full r
  end.
