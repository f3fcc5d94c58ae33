(** * Specification of ordered finite maps with bounded capacity

    The abstract state is the list of pairs in ascending key order. Nothing here refers to the models. *)
From Verif Require Export Spec.

(** The contract of Rust's [Ord]: a total preorder. Keys comparing [Equal] need not be identical. *)
Record OrdLaws {K} (cmp : K → K → comparison) : Prop := {
  cmp_sym : ∀ a b, cmp b a = CompOpp (cmp a b);
  cmp_trans : ∀ a b c, cmp a b = Lt → cmp b c = Lt → cmp a c = Lt;
  cmp_eq : ∀ a b c, cmp a b = Eq → cmp a c = cmp b c;
}.

(** The outcome of [if a < b {..} else if a > b {..} else {..}] for a [PartialOrd] key type whose [partial_cmp] is [pcmp] *)
Definition po_cmp {K} (pcmp : K → K → option comparison) (a b : K) : comparison :=
  match pcmp a b with Some Lt => Lt | Some Gt => Gt | Some Eq | None => Eq end.

Section omap.
  Context {K V : Type} (cmp : K → K → comparison).

  (** Strictly ascending keys *)
  Definition ascending (l : list (K * V)) : Prop := StronglySorted (λ x y, cmp x.1 y.1 = Lt) l.

  (** The pair stored for a key *)
  Fixpoint om_find (k : K) (l : list (K * V)) : option (K * V) :=
    match l with
    | [] => None
    | x :: l => match cmp k x.1 with Eq => Some x | _ => om_find k l end
    end.
  Definition om_get (k : K) (l : list (K * V)) : option V := snd <$> om_find k l.
  (** Insert; an equal key already present keeps its identity and gets the new value *)
  Fixpoint om_insert (k : K) (v : V) (l : list (K * V)) : list (K * V) :=
    match l with
    | [] => [(k, v)]
    | x :: l => match cmp k x.1 with
                | Lt => (k, v) :: x :: l
                | Eq => (x.1, v) :: l
                | Gt => x :: om_insert k v l
                end
    end.
  Fixpoint om_remove (k : K) (l : list (K * V)) : list (K * V) :=
    match l with
    | [] => []
    | x :: l => match cmp k x.1 with Eq => l | _ => x :: om_remove k l end
    end.
  (** Apply [f] to the value of [k], if any *)
  Fixpoint om_alter (k : K) (f : V → V) (l : list (K * V)) : list (K * V) :=
    match l with
    | [] => []
    | x :: l => match cmp k x.1 with Eq => (x.1, f x.2) :: l | _ => x :: om_alter k f l end
    end.

  (** The calls of the traits NodeAllocatorMap and OrderedNodeAllocatorMap, and Index/IndexMut. A [get_mut] or [iter_mut] comes with
      the function(s) the caller applies through the reference(s) obtained. *)
  Inductive om_op :=
  | MInsert (k : K) (v : V) | MRemove (k : K) | MGet (k : K) | MGetMut (k : K) (f : V → V) | MContains (k : K)
  | MLen | MIsEmpty | MCapacity | MGetMin | MGetMax | MIndex (k : K) | MIndexMut (k : K) (f : V → V)
  | MIter (script : list fb) | MIterMut (script : list (fb * (V → V))).
  Inductive om_out :=
  | MBool (b : bool) | MVal (o : option V) | MNum (n : N) | MPair (o : option (K * V)) | MRef (v : V)
  | MList (l : list (option (K * V))).

  (** Answers: [insert] is abstracted to whether it returned [Some _] (addresses have their own theorems). *)
  Definition om_spec (cap : N) (o : om_op) (l : list (K * V)) : res om_out * list (K * V) :=
    match o with
    | MInsert k v =>
        match om_find k l with
        | Some _ => (Val (MBool true), om_insert k v l)
        | None => if decide (lengthN l < cap) then (Val (MBool true), om_insert k v l) else (Val (MBool false), l)
        end
    | MRemove k => (Val (MVal (om_get k l)), om_remove k l)
    | MGet k => (Val (MVal (om_get k l)), l)
    | MGetMut k f => (Val (MVal (om_get k l)), om_alter k f l)
    | MContains k => (Val (MBool (match om_find k l with Some _ => true | None => false end)), l)
    | MLen => (Val (MNum (lengthN l)), l)
    | MIsEmpty => (Val (MBool (match l with [] => true | _ => false end)), l)
    | MCapacity => (Val (MNum cap), l)
    | MGetMin => (Val (MPair (head l)), l)
    | MGetMax => (Val (MPair (last l)), l)
    | MIndex k => (match om_get k l with Some v => Val (MRef v) | None => Err Panic end, l)
    | MIndexMut k f => (match om_get k l with Some v => Val (MRef v) | None => Err Panic end, om_alter k f l)
    | MIter sc => (Val (MList (de_spec sc l)), l)
    | MIterMut sc => let '(o, l) := de_mut_spec (λ f x, (x.1, f x.2)) sc l in (Val (MList o), l)
    end.
End omap.
Global Arguments om_op : clear implicits.
Global Arguments om_out : clear implicits.

(** Histories that may also contain [remove_root] (RedBlackTree only; written [None]): it may remove any pair, but answers which
    one. [om_run ops l rs l']: from contents [l] the calls [ops] may answer [rs] and end in contents [l']. *)
Inductive om_run {K V} (cmp : K → K → comparison) (cap : N) :
    list (option (om_op K V)) → list (K * V) → list (res (om_out K V)) → list (K * V) → Prop :=
| run_nil l : om_run cmp cap [] l [] l
| run_op o ops l rs l' :
    om_run cmp cap ops (om_spec cmp cap o l).2 rs l' → om_run cmp cap (Some o :: ops) l ((om_spec cmp cap o l).1 :: rs) l'
| run_root_empty ops rs l' :
    om_run cmp cap ops [] rs l' → om_run cmp cap (None :: ops) [] (Val (MPair None) :: rs) l'
| run_root kv ops l rs l' :
    kv ∈ l → om_run cmp cap ops (om_remove cmp kv.1 l) rs l' → om_run cmp cap (None :: ops) l (Val (MPair (Some kv)) :: rs) l'.

(** No call of the history removes key [k] *)
Definition never_removed {K V} (cmp : K → K → comparison) (k : K) (ops : list (option (om_op K V))) (rs : list (res (om_out K V))) : Prop :=
  (∀ k', Some (MRemove k') ∈ ops → cmp k' k ≠ Eq) ∧
  (∀ kv, (None, Val (MPair (Some kv))) ∈ zip ops rs → cmp kv.1 k ≠ Eq).
