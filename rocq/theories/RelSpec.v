(** * Two structures that differ only in the keys and values they hold

    [R], [RK], [RV] relate the payloads (keys, values) of one structure to those of another, possibly of another type. Everything
    else - indices, registers, counters, colours - is required to be the same. *)
From Verif Require Export AllocApi DequeApi HashApi RBApi AVLApi CritApi.

(** ** Values *)
Definition orel {A A'} (R : A → A' → Prop) (o : option A) (o' : option A') : Prop :=
  match o, o' with Some x, Some y => R x y | None, None => True | _, _ => False end.
Definition prel {A A' B B'} (Q : A → A' → Prop) (R : B → B' → Prop) (x : A * B) (y : A' * B') : Prop := Q x.1 y.1 ∧ R x.2 y.2.
(** Both return related values, or both fail in the same way *)
Definition rrel {A A'} (R : A → A' → Prop) (r : res A) (r' : res A') : Prop :=
  match r, r' with Val x, Val y => R x y | Err e, Err e' => e = e' | _, _ => False end.
(** What a caller does through a mutable reference *)
Definition frel {A A'} (R : A → A' → Prop) (f : A → A) (f' : A' → A') : Prop := ∀ x y, R x y → R (f x) (f' y).

(** ** States *)
Section states.
  Context {T T' : Type} (R : T → T' → Prop).
  Definition nodr (n : node T) (n' : node T') : Prop := regs n = regs n' ∧ R (val n) (val n').
  Definition alr (a : alloc T) (a' : alloc T') : Prop :=
    size a = size a' ∧ bump_index a = bump_index a' ∧ free_list_head a = free_list_head a' ∧ Forall2 nodr (nodes a) (nodes a').
  Definition dqr (d : deque T) (d' : deque T') : Prop :=
    dq_seqno d = dq_seqno d' ∧ dq_head d = dq_head d' ∧ dq_tail d = dq_tail d' ∧ alr (dq_al d) (dq_al d').
  (** Critbit: the keys are u128 numbers and their bits matter; only the values (the leaves) may differ *)
  Definition cbr (t : critbit T) (t' : critbit T') : Prop :=
    cb_root t = cb_root t' ∧ cb_nodes t = cb_nodes t' ∧ alr (cb_leaves t) (cb_leaves t').
End states.
Section maps.
  Context {K K' V V' : Type} (RK : K → K' → Prop) (RV : V → V' → Prop).
  Definition rbr (t : rbt K V) (t' : rbt K' V') : Prop := rb_root t = rb_root t' ∧ alr (prel RK RV) (rb_al t) (rb_al t').
  Definition avr (t : avlt K V) (t' : avlt K' V') : Prop := av_root t = av_root t' ∧ alr (prel RK RV) (av_al t) (av_al t').
  Definition htr (h : htable K V) (h' : htable K' V') : Prop := buckets h = buckets h' ∧ alr (prel RK RV) (ht_al h) (ht_al h').
End maps.

(** ** Calls and answers *)
Section calls.
  Context {T T' : Type} (R : T → T' → Prop).
  Definition al_op_rel (o : al_op T) (o' : al_op T') : Prop :=
    match o, o' with
    | AlAdd v, AlAdd v' => R v v'
    | AlRemove i, AlRemove i' => i = i'
    | AlSet i v r, AlSet i' v' r' => i = i' ∧ v = v' ∧ r = r'
    | AlClear i r, AlClear i' r' => i = i' ∧ r = r'
    | AlConnect i j r s, AlConnect i' j' r' s' | AlDisconnect i j r s, AlDisconnect i' j' r' s' => i = i' ∧ j = j' ∧ r = r' ∧ s = s'
    | AlWrite i f, AlWrite i' f' => i = i' ∧ frel R f f'
    | _, _ => False
    end.
  Definition al_out_rel (o : al_out T) (o' : al_out T') : Prop :=
    match o, o' with
    | AlIdx i, AlIdx i' => i = i' | AlVal v, AlVal v' => orel R v v' | AlUnit, AlUnit => True | _, _ => False
    end.
  Definition dq_op_rel (o : dq_op T) (o' : dq_op T') : Prop :=
    match o, o' with
    | DPushFront v, DPushFront v' | DPushBack v, DPushBack v' => R v v'
    | DPopFront, DPopFront | DPopBack, DPopBack | DFront, DFront | DBack, DBack | DLen, DLen | DIsEmpty, DIsEmpty => True
    | DIter sc, DIter sc' => sc = sc'
    | DIterMut sc, DIterMut sc' => Forall2 (prel eq (frel R)) sc sc'
    | _, _ => False
    end.
  Definition dq_out_rel (o : dq_out T) (o' : dq_out T') : Prop :=
    match o, o' with
    | DUnit, DUnit => True | DVal v, DVal v' => orel R v v' | DNum n, DNum n' => n = n' | DBool b, DBool b' => b = b'
    | DList l, DList l' => Forall2 (orel R) l l' | _, _ => False
    end.
End calls.
Section map_calls.
  Context {K K' V V' : Type} (RK : K → K' → Prop) (RV : V → V' → Prop).
  Definition om_op_rel (o : om_op K V) (o' : om_op K' V') : Prop :=
    match o, o' with
    | MInsert k v, MInsert k' v' => RK k k' ∧ RV v v'
    | MRemove k, MRemove k' | MGet k, MGet k' | MContains k, MContains k' | MIndex k, MIndex k' => RK k k'
    | MGetMut k f, MGetMut k' f' | MIndexMut k f, MIndexMut k' f' => RK k k' ∧ frel RV f f'
    | MLen, MLen | MIsEmpty, MIsEmpty | MCapacity, MCapacity | MGetMin, MGetMin | MGetMax, MGetMax => True
    | MIter sc, MIter sc' => sc = sc'
    | MIterMut sc, MIterMut sc' => Forall2 (prel eq (frel RV)) sc sc'
    | _, _ => False
    end.
  Definition om_out_rel (o : om_out K V) (o' : om_out K' V') : Prop :=
    match o, o' with
    | MBool b, MBool b' => b = b' | MVal v, MVal v' => orel RV v v' | MNum n, MNum n' => n = n'
    | MPair p, MPair p' => orel (prel RK RV) p p' | MRef v, MRef v' => RV v v'
    | MList l, MList l' => Forall2 (orel (prel RK RV)) l l' | _, _ => False
    end.
  Definition hm_op_rel (o : hm_op K V) (o' : hm_op K' V') : Prop :=
    match o, o' with
    | HInsert k v, HInsert k' v' => RK k k' ∧ RV v v'
    | HRemove k, HRemove k' | HGet k, HGet k' | HContains k, HContains k' | HContainsInherent k, HContainsInherent k'
    | HIndex k, HIndex k' => RK k k'
    | HGetMut k f, HGetMut k' f' | HIndexMut k f, HIndexMut k' f' => RK k k' ∧ frel RV f f'
    | HLen, HLen | HIsEmpty, HIsEmpty | HCapacity, HCapacity => True
    | HIter n, HIter n' => n = n'
    | HIterMut fs, HIterMut fs' => Forall2 (frel RV) fs fs'
    | _, _ => False
    end.
  Definition hm_out_rel (o : hm_out K V) (o' : hm_out K' V') : Prop :=
    match o, o' with
    | HBool b, HBool b' => b = b' | HVal v, HVal v' => orel RV v v' | HNum n, HNum n' => n = n' | HRef v, HRef v' => RV v v'
    | HList l, HList l' => Forall2 (orel (prel RK RV)) l l' | _, _ => False
    end.
End map_calls.

(** ** Renaming the keys of a history *)
Section rename.
  Context {K K' V : Type} (f : K → K').
  Definition om_rename (o : om_op K V) : om_op K' V :=
    match o with
    | MInsert k v => MInsert (f k) v | MRemove k => MRemove (f k) | MGet k => MGet (f k) | MGetMut k g => MGetMut (f k) g
    | MContains k => MContains (f k) | MLen => MLen | MIsEmpty => MIsEmpty | MCapacity => MCapacity | MGetMin => MGetMin | MGetMax => MGetMax
    | MIndex k => MIndex (f k) | MIndexMut k g => MIndexMut (f k) g | MIter sc => MIter sc | MIterMut sc => MIterMut sc
    end.
  Definition hm_rename (o : hm_op K V) : hm_op K' V :=
    match o with
    | HInsert k v => HInsert (f k) v | HRemove k => HRemove (f k) | HGet k => HGet (f k) | HGetMut k g => HGetMut (f k) g
    | HContains k => HContains (f k) | HContainsInherent k => HContainsInherent (f k) | HLen => HLen | HIsEmpty => HIsEmpty | HCapacity => HCapacity
    | HIndex k => HIndex (f k) | HIndexMut k g => HIndexMut (f k) g | HIter n => HIter n | HIterMut fs => HIterMut fs
    end.
End rename.
(** The keys passed to a call *)
Definition om_key {K V} (o : om_op K V) : list K :=
  match o with
  | MInsert k _ | MRemove k | MGet k | MGetMut k _ | MContains k | MIndex k | MIndexMut k _ => [k] | _ => []
  end.
Definition hm_key {K V} (o : hm_op K V) : list K :=
  match o with
  | HInsert k _ | HRemove k | HGet k | HGetMut k _ | HContains k | HContainsInherent k | HIndex k | HIndexMut k _ => [k] | _ => []
  end.
