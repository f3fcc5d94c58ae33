(** * The calls of an ordered map as operations of a history *)
From Verif Require Export MapSpec AllocModel.

(** The public operations of one of the tree models. [a_iter], [a_iter_mut] are whole sessions driven by a script. [a_addr]
    is [get_addr], [a_node] is [get_node]. *)
Record oapi (S K V : Type) := OApi {
  a_insert : K → V → M S (option N);
  a_remove : K → M S (option V);
  a_get : S → K → res (option V);
  a_get_mut : K → (V → V) → M S (option V);
  a_contains : S → K → res bool;
  a_len : S → N;
  a_capacity : S → N;
  a_min : S → res (option (K * V));
  a_max : S → res (option (K * V));
  a_index : S → K → res V;
  a_index_mut : K → (V → V) → M S V;
  a_iter : S → list fb → res (list (option (K * V)));
  a_iter_mut : list (fb * (V → V)) → M S (list (option (N * (K * V))));
  a_addr : S → K → res N;
  a_node : S → N → res (K * V);
}.
Global Arguments a_insert {S K V}.
Global Arguments a_remove {S K V}.
Global Arguments a_get {S K V}.
Global Arguments a_get_mut {S K V}.
Global Arguments a_contains {S K V}.
Global Arguments a_len {S K V}.
Global Arguments a_capacity {S K V}.
Global Arguments a_min {S K V}.
Global Arguments a_max {S K V}.
Global Arguments a_index {S K V}.
Global Arguments a_index_mut {S K V}.
Global Arguments a_iter {S K V}.
Global Arguments a_iter_mut {S K V}.
Global Arguments a_addr {S K V}.
Global Arguments a_node {S K V}.

(** One call. node_allocator.rs:43-45 [is_empty] is the provided method [self.len() == 0]. The slot returned by [insert] and the slots
    behind the references of [iter_mut] are not part of the abstract result (they have their own theorems). *)
Definition om_step {S K V} (api : oapi S K V) (o : om_op K V) : M S (om_out K V) :=
  match o with
  | MInsert k v => o ← a_insert api k v; mret (MBool (match o with Some _ => true | None => false end))
  | MRemove k => o ← a_remove api k; mret (MVal o)
  | MGet k => o ← gets (λ s, a_get api s k); mret (MVal o)
  | MGetMut k f => o ← a_get_mut api k f; mret (MVal o)
  | MContains k => b ← gets (λ s, a_contains api s k); mret (MBool b)
  | MLen => s ← mget; mret (MNum (a_len api s))
  | MIsEmpty => s ← mget; mret (MBool (bool_decide (a_len api s = 0)))
  | MCapacity => s ← mget; mret (MNum (a_capacity api s))
  | MGetMin => o ← gets (a_min api); mret (MPair o)
  | MGetMax => o ← gets (a_max api); mret (MPair o)
  | MIndex k => v ← gets (λ s, a_index api s k); mret (MRef v)
  | MIndexMut k f => v ← a_index_mut api k f; mret (MRef v)
  | MIter sc => l ← gets (λ s, a_iter api s sc); mret (MList l)
  | MIterMut sc => l ← a_iter_mut api sc; mret (MList (no_index l))
  end.
