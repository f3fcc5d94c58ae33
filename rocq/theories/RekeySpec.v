(** * C70: overwriting the key of a stored entry — what the caller may rely on *)
From Verif Require Export MapSpec.

(** A call of the map ([KCall]), or [m.get_node_mut(m.get_addr(&k)).key = k'] ([KKey k k']). The latter is seen to answer the pair that was
    in the node before. *)
Inductive kop (Op K : Type) := KCall (o : Op) | KKey (k k' : K).
Global Arguments KCall {Op K}.
Global Arguments KKey {Op K}.
Inductive kans (Out K V : Type) := KAns (a : Out) | KWas (kv : K * V).
Global Arguments KAns {Out K V}.
Global Arguments KWas {Out K V}.
Definition kans_of {Out K V} (r : res Out) : res (kans Out K V) := match r with Val a => Val (KAns a) | Err e => Err e end.

Section run.
  Context {Op Out K V : Type}.
  (** [R o l r l']: on a map holding [l] the call [o] may answer [r] and leave [l'] *)
  Context (R : Op → list (K * V) → res Out → list (K * V) → Prop).
  (** which keys are the same to the map *)
  Context (same : K → K → bool).
  (** [fits x k k']: as far as the stored key [x] is concerned, [k] may be overwritten with [k'] *)
  Context (fits : K → K → K → bool).

  Definition may_rekey (l : list (K * V)) (k k' : K) : bool :=
    existsb (λ kv, same kv.1 k) l && forallb (λ kv, fits kv.1 k k') l.
  (** the contents afterwards: the entry has the new key and its old value, in its old place *)
  Definition rekeyed (k k' : K) (l : list (K * V)) : list (K * V) := map (λ kv, if same kv.1 k then (k', kv.2) else kv) l.

  (** [k_run ops l rs]: a map holding [l] may answer [rs] to the calls [ops]. Nothing is said from the first overwriting on that is not
      allowed. *)
  Inductive k_run : list (kop Op K) → list (K * V) → list (res (kans Out K V)) → Prop :=
  | kr_nil l : k_run [] l []
  | kr_call o ops l r l' rs : R o l r l' → k_run ops l' rs → k_run (KCall o :: ops) l (kans_of r :: rs)
  | kr_key k k' ops l kv rs :
      may_rekey l k k' = true → kv ∈ l → same kv.1 k = true → k_run ops (rekeyed k k' l) rs →
      k_run (KKey k k' :: ops) l (Val (KWas kv) :: rs)
  | kr_else k k' ops l rs : may_rekey l k k' = false → k_run (KKey k k' :: ops) l rs.
End run.

(** Ordered maps: [k'] compares with every other stored key as [k] does *)
Definition eq_of {K} (cmp : K → K → comparison) (x k : K) : bool := bool_decide (cmp x k = Eq).
Definition fits_order {K} (cmp : K → K → comparison) (x k k' : K) : bool := eq_of cmp x k || bool_decide (cmp x k' = cmp x k).
(** Hash tables: [k'] hashes into the bucket of [k] and equals no other stored key *)
Definition fits_bucket {K} (keq : K → K → bool) (hash : K → N) (nb : N) (x k k' : K) : bool :=
  bool_decide (hash k' mod nb = hash k mod nb) && (keq x k || negb (keq x k')).
(** Critbit trees: the highest bit at which [k'] differs from another stored key is the one at which [k] does *)
Definition fits_bits (x k k' : N) : bool :=
  (x =? k) || (negb (x =? k') && (N.log2 (N.lxor x k') =? N.log2 (N.lxor x k))).
