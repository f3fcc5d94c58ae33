(** * C70: writing the key field through [get_node_mut]

    [get_node_mut] is public in every container and hands out [&mut RBNode] / [&mut AVLNode] / [&mut HashNode] / [&mut CritbitNode], whose
    field [key] is public; the assignments to the value are in the model files. *)
From Verif Require Export RekeySpec RBModel AVLModel HashModel CritModel CritApi.

Section rekey.
  Context `{Profile} {K V : Type}.
  (** red_black_tree.rs:329-331 [get_node_mut] followed by [.key = k] *)
  Definition rb_set_node_key (i : N) (k : K) : M (rbt K V) () := rb_on (na_get_mut i (λ n, node_set_value (k, (val n).2) n)).
  (** avl_tree.rs:259-261 [get_node_mut] followed by [.key = k] *)
  Definition av_set_node_key (i : N) (k : K) : M (avlt K V) () := av_on (na_get_mut i (λ n, node_set_value (k, (val n).2) n)).
  (** hash_table.rs:238-240 [get_node_mut] followed by [.key = k] *)
  Definition ht_set_node_key (i : N) (k : K) : M (htable K V) () := ht_on (na_get_mut i (λ n, node_set_value (k, (val n).2) n)).
  (** critbit.rs:260-262 [get_node_mut] followed by [.key = k] *)
  Definition cb_set_node_key (i k : N) : M (critbit V) () := cb_onn (na_get_mut i (λ n, node_set_value (CNode k (cn_prefix_len (val n))) n)).
End rekey.

(** One step of a client: a call, or [let i = m.get_addr(&k); let was = the pair at i; m.get_node_mut(i).key = k'] *)
Definition k_step {S Op Out K V} (step : Op → M S Out) (addr : S → K → res N) (node : S → N → res (K * V)) (set_key : N → K → M S ())
    (o : kop Op K) : M S (kans Out K V) :=
  match o with
  | KCall o => a ← step o; mret (KAns a)
  | KKey k k' => i ← gets (λ s, addr s k); kv ← gets (λ s, node s i); set_key i k';; mret (KWas kv)
  end.

(** the keys are of type u128 *)
Definition u128_kop {V} (o : kop (om_op N V) N) : Prop := match o with KCall o => u128_op o | KKey k k' => k < W128 ∧ k' < W128 end.
