(** * Laws of calculation for the calls of a container: which sequences of calls may stand for each other *)
From Verif Require Export MapSpec HashSpec.

(** The key a call is about *)
Definition om_key {K V} (o : om_op K V) : option K :=
  match o with
  | MInsert k _ | MRemove k | MGet k | MGetMut k _ | MContains k | MIndex k | MIndexMut k _ => Some k
  | _ => None
  end.
Definition hm_key {K V} (o : hm_op K V) : option K :=
  match o with
  | HInsert k _ | HRemove k | HGet k | HGetMut k _ | HContains k | HContainsInherent k | HIndex k | HIndexMut k _ => Some k
  | _ => None
  end.
(** How many slots a call may need: an insertion, one *)
Definition om_needs {K V} (o : om_op K V) : N := match o with MInsert _ _ => 1 | _ => 0 end.
Definition hm_needs {K V} (o : hm_op K V) : N := match o with HInsert _ _ => 1 | _ => 0 end.
(** Calls that only read *)
Definition om_reads {K V} (o : om_op K V) : Prop :=
  match o with MInsert _ _ | MRemove _ | MGetMut _ _ | MIndexMut _ _ | MIterMut _ => False | _ => True end.
Definition hm_reads {K V} (o : hm_op K V) : Prop :=
  match o with HInsert _ _ | HRemove _ | HGetMut _ _ | HIndexMut _ _ | HIterMut _ => False | _ => True end.

(** Calls about different keys; [key] gives the key of a call *)
Fixpoint apart {K O} (same : K → K → Prop) (key : O → option K) (x : list O) : Prop :=
  match x with
  | [] => True
  | a :: x => (∃ k, key a = Some k ∧ Forall (λ b, ∀ k', key b = Some k' → ¬ same k k') x) ∧ apart same key x
  end.
(** The slots that a sequence of calls may need *)
Fixpoint total {O} (needs : O → N) (x : list O) : N := match x with [] => 0 | a :: x => needs a + total needs x end.

(** [om_law same tight room x y]: on a map with [room] places left, the calls [x] have the effect of the calls [y]. [same] says which keys are
    equal; [tight] is for a map that refuses to overwrite when it is full. *)
Inductive om_law {K V} (same : K → K → Prop) (tight : bool) (room : N) : list (om_op K V) → list (om_op K V) → Prop :=
| om_swap a b ka kb :
    om_key a = Some ka → om_key b = Some kb → ¬ same ka kb → om_needs a + om_needs b ≤ room → om_law same tight room [a; b] [b; a]
| om_read a : om_reads a → om_law same tight room [a] []
| om_insert_insert k k' v w : same k k' → (tight = true → 2 ≤ room) → om_law same tight room [MInsert k v; MInsert k' w] [MInsert k w]
| om_insert_remove k k' v : same k k' → om_law same tight room [MInsert k v; MRemove k'] [MRemove k']
| om_insert_mut k k' v f : same k k' → (tight = true → 1 ≤ room) → om_law same tight room [MInsert k v; MGetMut k' f] [MInsert k (f v)]
| om_remove_remove k k' : same k k' → om_law same tight room [MRemove k; MRemove k'] [MRemove k]
| om_remove_mut k k' f : same k k' → om_law same tight room [MRemove k; MGetMut k' f] [MRemove k]
| om_mut_insert k k' v f : same k k' → (tight = true → 1 ≤ room) → om_law same tight room [MGetMut k f; MInsert k' v] [MInsert k' v]
| om_mut_remove k k' f : same k k' → om_law same tight room [MGetMut k f; MRemove k'] [MRemove k']
| om_mut_mut k k' f g : same k k' → om_law same tight room [MGetMut k f; MGetMut k' g] [MGetMut k (λ v, g (f v))].

Inductive hm_law {K V} (same : K → K → Prop) (room : N) : list (hm_op K V) → list (hm_op K V) → Prop :=
| hm_swap a b ka kb : hm_key a = Some ka → hm_key b = Some kb → ¬ same ka kb → hm_needs a + hm_needs b ≤ room → hm_law same room [a; b] [b; a]
| hm_read a : hm_reads a → hm_law same room [a] []
| hm_insert_insert k k' v w : same k k' → hm_law same room [HInsert k v; HInsert k' w] [HInsert k w]
| hm_insert_remove k k' v : same k k' → hm_law same room [HInsert k v; HRemove k'] [HRemove k']
| hm_remove_insert k k' v : same k k' → hm_law same room [HRemove k; HInsert k' v] [HInsert k' v]
| hm_insert_mut k k' v f : same k k' → hm_law same room [HInsert k v; HGetMut k' f] [HInsert k (f v)]
| hm_remove_remove k k' : same k k' → hm_law same room [HRemove k; HRemove k'] [HRemove k]
| hm_remove_mut k k' f : same k k' → hm_law same room [HRemove k; HGetMut k' f] [HRemove k]
| hm_mut_insert k k' v f : same k k' → hm_law same room [HGetMut k f; HInsert k' v] [HInsert k' v]
| hm_mut_remove k k' f : same k k' → hm_law same room [HGetMut k f; HRemove k'] [HRemove k']
| hm_mut_mut k k' f g : same k k' → hm_law same room [HGetMut k f; HGetMut k' g] [HGetMut k (λ v, g (f v))].

(** The deque: a call at the front and one at the back, with [len] values and [room] places left *)
Definition at_front {T} (o : dq_op T) : Prop := match o with DPushFront _ | DPopFront | DFront => True | _ => False end.
Definition at_back {T} (o : dq_op T) : Prop := match o with DPushBack _ | DPopBack | DBack => True | _ => False end.
Definition dq_needs {T} (o : dq_op T) : N := match o with DPushFront _ | DPushBack _ => 1 | _ => 0 end.
Definition dq_wants {T} (o : dq_op T) : N := match o with DPopFront | DPopBack | DFront | DBack => 1 | _ => 0 end.
