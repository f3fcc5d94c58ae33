(** * The order of a hash table with chaining

    The abstract state is the list of buckets, each a list of pairs. Unlike HashSpec.v this says in which order the pairs are iterated, and
    it says what happens for every [==] and every hash function, also ones that break the contracts of [Eq] and [Hash]. Nothing here refers
    to the models. *)
From Verif Require Export HashSpec.

Section order.
  Context {K V : Type} (keq : K → K → bool) (hash : K → N) (cap : N).
  Notation chain := (list (K * V)).
  Notation table := (list (list (K * V))).

  (** A chain split at its first pair whose key is equal to [k] *)
  Fixpoint hb_split (k : K) (c : chain) : option (chain * (K * V) * chain) :=
    match c with
    | [] => None
    | x :: c => if keq x.1 k then Some ([], x, c) else
        match hb_split k c with Some (c1, y, c2) => Some (x :: c1, y, c2) | None => None end
    end.
  (** The bucket of a key, and its chain *)
  Definition hb_index (bs : table) (k : K) : nat := N.to_nat (hash k mod lengthN bs).
  Definition hb_chain (bs : table) (k : K) : chain := default [] (bs !! hb_index bs k).
  Definition hb_put (bs : table) (k : K) (c : chain) : table := <[hb_index bs k := c]> bs.
  Definition hb_get (bs : table) (k : K) : option V :=
    match hb_split k (hb_chain bs k) with Some (_, x, _) => Some x.2 | None => None end.

  (** [insert]: a pair found keeps its place and key; a new one goes to the front of its chain *)
  Definition hb_insert (bs : table) (k : K) (v : V) : bool * table :=
    match hb_split k (hb_chain bs k) with
    | Some (c1, x, c2) => (true, hb_put bs k (c1 ++ (x.1, v) :: c2))
    | None => if decide (lengthN (concat bs) < cap) then (true, hb_put bs k ((k, v) :: hb_chain bs k)) else (false, bs)
    end.
  (** [remove]: the first pair found goes *)
  Definition hb_remove (bs : table) (k : K) : table :=
    match hb_split k (hb_chain bs k) with Some (c1, x, c2) => hb_put bs k (c1 ++ c2) | None => bs end.
  (** [get_mut]: the first pair found goes to the front of its chain; [f] is what the caller does to the value *)
  Definition hb_get_mut (bs : table) (k : K) (f : V → V) : table :=
    match hb_split k (hb_chain bs k) with Some (c1, x, c2) => hb_put bs k ((x.1, f x.2) :: c1 ++ c2) | None => bs end.

  (** The caller applies [fs] one after the other to the values, in iteration order *)
  Fixpoint chain_apply (fs : list (V → V)) (c : chain) : chain :=
    match fs, c with f :: fs, x :: c => (x.1, f x.2) :: chain_apply fs c | _, _ => c end.
  Fixpoint table_apply (fs : list (V → V)) (bs : table) : table :=
    match bs with [] => [] | c :: bs => chain_apply fs c :: table_apply (drop (length c) fs) bs end.

  (** What [n] calls of [next] give on a sequence *)
  Definition nexts (n : nat) (c : chain) : list (option (K * V)) := map (λ i, c !! i) (seq 0 n).

  Definition hb_ref (o : option V) : res (hm_out K V) := match o with Some v => Val (HRef v) | None => Err Panic end.
  Definition hb_spec (o : hm_op K V) (bs : table) : res (hm_out K V) * table :=
    match o with
    | HInsert k v => let '(b, bs') := hb_insert bs k v in (Val (HBool b), bs')
    | HRemove k => (Val (HVal (hb_get bs k)), hb_remove bs k)
    | HGet k => (Val (HVal (hb_get bs k)), bs)
    | HGetMut k f => (Val (HVal (hb_get bs k)), hb_get_mut bs k f)
    | HContains k | HContainsInherent k => (Val (HBool (is_found (hb_get bs k))), bs)
    | HLen => (Val (HNum (lengthN (concat bs))), bs)
    | HIsEmpty => (Val (HBool (match concat bs with [] => true | _ => false end)), bs)
    | HCapacity => (Val (HNum cap), bs)
    | HIndex k => (hb_ref (hb_get bs k), bs)
    | HIndexMut k f => (hb_ref (hb_get bs k), hb_get_mut bs k f)
    | HIter n => (Val (HList (nexts n (concat bs))), bs)
    | HIterMut fs => (Val (HList (nexts (length fs) (concat bs))), table_apply fs bs)
    end.
End order.
