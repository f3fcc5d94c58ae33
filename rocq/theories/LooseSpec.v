(** * Search trees without any assumption on the comparison of keys

    Rust lets [Ord] and [PartialOrd] be implemented in any way: not antisymmetric, not transitive, answering differently from [Eq],
    or, for [PartialOrd], not answering at all (a float that is NaN). This file says what a binary tree that is searched with such
    a comparison [cmp] does. Nothing is assumed of [cmp]. *)
From Verif Require Export MapSpec.

(** A binary tree: slot and pair at every node *)
Inductive bt (K V : Type) := BL | BN (l : bt K V) (i : N) (kv : K * V) (r : bt K V).
Global Arguments BL {K V}.
Global Arguments BN {K V} l i kv r.

(** Slots and pairs from left to right *)
Fixpoint bt_seq {K V} (T : bt K V) : list (N * (K * V)) :=
  match T with BL => [] | BN l i kv r => bt_seq l ++ (i, kv) :: bt_seq r end.
(** Without the values *)
Fixpoint bt_keys {K V} (T : bt K V) : bt K () :=
  match T with BL => BL | BN l i kv r => BN (bt_keys l) i (kv.1, ()) (bt_keys r) end.

Section loose.
  Context {K V : Type} (cmp : K → K → comparison).
  Implicit Types T l r : bt K V.

  (** The node at which a search for [k] stops: go left when [k] compares [Lt], right when it compares [Gt] *)
  Fixpoint bt_find (k : K) T : option (N * (K * V)) :=
    match T with
    | BL => None
    | BN l i kv r => match cmp k kv.1 with Eq => Some (i, kv) | Lt => bt_find k l | Gt => bt_find k r end
    end.
  (** The sequence with [x] added where the search for [k] leaves the tree *)
  Fixpoint bt_put (k : K) (x : N * (K * V)) T : list (N * (K * V)) :=
    match T with
    | BL => [x]
    | BN l i kv r => match cmp k kv.1 with
                     | Eq => bt_seq l ++ (i, kv) :: bt_seq r
                     | Lt => bt_put k x l ++ (i, kv) :: bt_seq r
                     | Gt => bt_seq l ++ (i, kv) :: bt_put k x r
                     end
    end.
  (** The sequence without the node at which the search for [k] stops *)
  Fixpoint bt_del (k : K) T : list (N * (K * V)) :=
    match T with
    | BL => []
    | BN l i kv r => match cmp k kv.1 with
                     | Eq => bt_seq l ++ bt_seq r
                     | Lt => bt_del k l ++ (i, kv) :: bt_seq r
                     | Gt => bt_seq l ++ (i, kv) :: bt_del k r
                     end
    end.
  (** The tree with the value changed at that node *)
  Fixpoint bt_upd (k : K) (f : V → V) T : bt K V :=
    match T with
    | BL => BL
    | BN l i kv r => match cmp k kv.1 with
                     | Eq => BN l i (kv.1, f kv.2) r
                     | Lt => BN (bt_upd k f l) i kv r
                     | Gt => BN l i kv (bt_upd k f r)
                     end
    end.

  Definition bt_get (k : K) T : option V := match bt_find k T with Some x => Some x.2.2 | None => None end.

  (** Answers of the calls that only read *)
  Definition bt_read (cap : N) (o : om_op K V) T : option (res (om_out K V)) :=
    match o with
    | MGet k => Some (Val (MVal (bt_get k T)))
    | MContains k => Some (Val (MBool (match bt_find k T with Some _ => true | None => false end)))
    | MLen => Some (Val (MNum (lengthN (bt_seq T))))
    | MIsEmpty => Some (Val (MBool (bool_decide (lengthN (bt_seq T) = 0))))
    | MCapacity => Some (Val (MNum cap))
    | MGetMin => Some (Val (MPair (head (bt_seq T).*2)))
    | MGetMax => Some (Val (MPair (last (bt_seq T).*2)))
    | MIndex k => Some (match bt_get k T with Some v => Val (MRef v) | None => Err Panic end)
    | MIter sc => Some (Val (MList (de_spec sc (bt_seq T).*2)))
    | _ => None
    end.

  (** [bt_step cap o T a T']: on tree [T] the call [o] may answer [a] and leave tree [T']. [None] is [remove_root]. How a tree is
      reshaped by rebalancing is left open ([T'] of [bs_new], [bs_remove], [bs_root]); the sequence of its nodes is not. *)
  Inductive bt_step (cap : N) : option (om_op K V) → bt K V → res (om_out K V) → bt K V → Prop :=
  | bs_present k v x T :
      bt_find k T = Some x → bt_step cap (Some (MInsert k v)) T (Val (MBool true)) (bt_upd k (λ _, v) T)
  | bs_new k v i T T' :
      bt_find k T = None → lengthN (bt_seq T) < cap → i ∉ (bt_seq T).*1 → i ≠ 0 → i ≤ cap →
      bt_seq T' = bt_put k (i, (k, v)) T → bt_step cap (Some (MInsert k v)) T (Val (MBool true)) T'
  | bs_full k v T :
      bt_find k T = None → lengthN (bt_seq T) = cap → bt_step cap (Some (MInsert k v)) T (Val (MBool false)) T
  | bs_remove k x T T' :
      bt_find k T = Some x → bt_seq T' = bt_del k T → bt_step cap (Some (MRemove k)) T (Val (MVal (Some x.2.2))) T'
  | bs_absent k T :
      bt_find k T = None → bt_step cap (Some (MRemove k)) T (Val (MVal None)) T
  | bs_read o (a : res (om_out K V)) T :
      bt_read cap o T = Some a → bt_step cap (Some o) T a T
  | bs_get_mut k f T :
      bt_step cap (Some (MGetMut k f)) T (Val (MVal (bt_get k T))) (bt_upd k f T)
  | bs_index_mut k f T :
      bt_step cap (Some (MIndexMut k f)) T (match bt_get k T with Some v => Val (MRef v) | None => Err Panic end) (bt_upd k f T)
  | bs_iter_mut sc T T' :
      bt_keys T' = bt_keys T →
      (bt_seq T').*2 = (de_mut_spec (λ (f : V → V) x, (x.1, f x.2)) sc (bt_seq T).*2).2 →
      bt_step cap (Some (MIterMut sc)) T (Val (MList (de_mut_spec (λ (f : V → V) x, (x.1, f x.2)) sc (bt_seq T).*2).1)) T'
  | bs_root_empty : bt_step cap None BL (Val (MPair None)) BL
  | bs_root l i kv r T' :
      bt_seq T' = bt_seq l ++ bt_seq r → bt_step cap None (BN l i kv r) (Val (MPair (Some kv))) T'.

  (** Histories *)
  Inductive bt_run (cap : N) : list (option (om_op K V)) → bt K V → list (res (om_out K V)) → bt K V → Prop :=
  | bt_run_nil T : bt_run cap [] T [] T
  | bt_run_cons o ops T (a : res (om_out K V)) T1 rs T2 :
      bt_step cap o T a T1 → bt_run cap ops T1 rs T2 → bt_run cap (o :: ops) T (a :: rs) T2.
End loose.

(** The tree that can be read from a structure: [node i] is the pair in slot [i], [left i] and [right i] its child registers *)
Inductive bt_at {K V} (node : N → res (K * V)) (left right : N → res N) : N → bt K V → Prop :=
| bt_at_none : bt_at node left right 0 BL
| bt_at_node i kv l r a b :
    i ≠ 0 → node i = Val kv → left i = Val a → right i = Val b →
    bt_at node left right a l → bt_at node left right b r → bt_at node left right i (BN l i kv r).
