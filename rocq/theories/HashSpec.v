(** * Specification of finite maps with bounded capacity, without key order

    The abstract state is a list of pairs with pairwise different keys, whose order does not matter. Nothing here refers to the models. *)
From Verif Require Export Spec.

(** The contracts of Rust's [Eq] and of [Hash] *)
Record HashLaws {K} (keq : K → K → bool) (hash : K → N) : Prop := {
  keq_refl : ∀ a, keq a a = true;
  keq_sym : ∀ a b, keq a b = keq b a;
  keq_trans : ∀ a b c, keq a b = true → keq b c = true → keq a c = true;
  hash_keq : ∀ a b, keq a b = true → hash a = hash b;
}.

Section hmap.
  Context {K V : Type} (keq : K → K → bool).

  Definition distinct_keys (l : list (K * V)) : Prop := ForallOrdPairs (λ x y, keq x.1 y.1 = false) l.

  (** The pair stored for a key *)
  Fixpoint hm_find (k : K) (l : list (K * V)) : option (K * V) :=
    match l with [] => None | x :: l => if keq x.1 k then Some x else hm_find k l end.
  Definition hm_get (k : K) (l : list (K * V)) : option V := snd <$> hm_find k l.
  (** Apply [f] to the value of [k], if any *)
  Definition hm_alter (k : K) (f : V → V) (l : list (K * V)) : list (K * V) :=
    map (λ x, if keq x.1 k then (x.1, f x.2) else x) l.
  Definition hm_remove (k : K) (l : list (K * V)) : list (K * V) := List.filter (λ x, negb (keq x.1 k)) l.
  (** Insert; an equal key already present keeps its identity and gets the new value *)
  Definition hm_insert (k : K) (v : V) (l : list (K * V)) : list (K * V) :=
    match hm_find k l with Some _ => hm_alter k (λ _, v) l | None => (k, v) :: l end.

  (** The calls of the trait NodeAllocatorMap, Index/IndexMut, and the inherent [contains]. [HIter n] is an [iter()] session of [n] calls
      of [next]; [HIterMut fs] an [iter_mut()] session of calls of [next], the caller applying the functions [fs] through the
      references obtained. *)
  Inductive hm_op :=
  | HInsert (k : K) (v : V) | HRemove (k : K) | HGet (k : K) | HGetMut (k : K) (f : V → V) | HContains (k : K) | HContainsInherent (k : K)
  | HLen | HIsEmpty | HCapacity | HIndex (k : K) | HIndexMut (k : K) (f : V → V)
  | HIter (n : nat) | HIterMut (fs : list (V → V)).
  Inductive hm_out :=
  | HBool (b : bool) | HVal (o : option V) | HNum (n : N) | HRef (v : V) | HList (l : list (option (K * V))).

  Definition is_found {A} (o : option A) : bool := match o with Some _ => true | None => false end.
  (** [hm_step cap o l r l']: on a map with contents [l] the call [o] may answer [r] and leave the contents [l']. Only the order of
      iteration is not determined. *)
  Inductive hm_step (cap : N) : hm_op → list (K * V) → res hm_out → list (K * V) → Prop :=
  | st_update k v l x : hm_find k l = Some x → hm_step cap (HInsert k v) l (Val (HBool true)) (hm_insert k v l)
  | st_insert k v l :
      hm_find k l = None → lengthN l < cap → hm_step cap (HInsert k v) l (Val (HBool true)) (hm_insert k v l)
  | st_full k v l : hm_find k l = None → cap ≤ lengthN l → hm_step cap (HInsert k v) l (Val (HBool false)) l
  | st_remove k l : hm_step cap (HRemove k) l (Val (HVal (hm_get k l))) (hm_remove k l)
  | st_get k l : hm_step cap (HGet k) l (Val (HVal (hm_get k l))) l
  | st_get_mut k f l : hm_step cap (HGetMut k f) l (Val (HVal (hm_get k l))) (hm_alter k f l)
  | st_contains k l : hm_step cap (HContains k) l (Val (HBool (is_found (hm_find k l)))) l
  | st_contains' k l : hm_step cap (HContainsInherent k) l (Val (HBool (is_found (hm_find k l)))) l
  | st_len l : hm_step cap HLen l (Val (HNum (lengthN l))) l
  | st_is_empty l : hm_step cap HIsEmpty l (Val (HBool (match l with [] => true | _ => false end))) l
  | st_capacity l : hm_step cap HCapacity l (Val (HNum cap)) l
  | st_index k l : hm_step cap (HIndex k) l (match hm_get k l with Some v => Val (HRef v) | None => Err Panic end) l
  | st_index_mut k f l :
      hm_step cap (HIndexMut k f) l (match hm_get k l with Some v => Val (HRef v) | None => Err Panic end) (hm_alter k f l)
  | st_iter n l l' : l' ≡ₚ l → hm_step cap (HIter n) l (Val (HList (de_spec (replicate n Fwd) l'))) l
  | st_iter_mut fs l l' out l'' :
      l' ≡ₚ l → de_mut_spec (λ f x, (x.1, f x.2)) (map (λ f, (Fwd, f)) fs) l' = (out, l'') →
      hm_step cap (HIterMut fs) l (Val (HList out)) l''.

  Inductive hm_run (cap : N) : list hm_op → list (K * V) → list (res hm_out) → list (K * V) → Prop :=
  | hrun_nil l : hm_run cap [] l [] l
  | hrun_cons o ops l r l1 rs l2 : hm_step cap o l r l1 → hm_run cap ops l1 rs l2 → hm_run cap (o :: ops) l (r :: rs) l2.
End hmap.
Global Arguments hm_op : clear implicits.
Global Arguments hm_out : clear implicits.

(** What an iterator over [l] answers whose [next_back] always says [None] (C16); the references as in [de_mut_spec] *)
Fixpoint fw_spec {A} (script : list fb) (l : list A) : list (option A) :=
  match script with
  | [] => []
  | Fwd :: s => match l with [] => None :: fw_spec s [] | x :: l => Some x :: fw_spec s l end
  | Bwd :: s => None :: fw_spec s l
  end.
Fixpoint fw_mut_spec {A V} (upd : (V → V) → A → A) (script : list (fb * (V → V))) (l : list A) : list (option A) * list A :=
  match script with
  | [] => ([], l)
  | (Fwd, f) :: s =>
      match l with
      | [] => let '(o, r) := fw_mut_spec upd s [] in (None :: o, r)
      | x :: l => let '(o, r) := fw_mut_spec upd s l in (Some x :: o, upd f x :: r)
      end
  | (Bwd, f) :: s => let '(o, r) := fw_mut_spec upd s l in (None :: o, r)
  end.
