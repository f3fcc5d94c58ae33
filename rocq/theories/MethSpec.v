(** * What the provided methods must answer over a sequence *)
From Verif Require Export Spec MethModel.

Inductive meth A := INext | INth (n : nat) | ICount | ILast | ICollect | IFind (p : A → bool) | IPosition (p : A → bool) | IAny (p : A → bool) | IAll (p : A → bool).
Global Arguments INext {A}.
Global Arguments INth {A} n.
Global Arguments ICount {A}.
Global Arguments ILast {A}.
Global Arguments ICollect {A}.
Global Arguments IFind {A} p.
Global Arguments IPosition {A} p.
Global Arguments IAny {A} p.
Global Arguments IAll {A} p.
Inductive reply A := RItem (o : option A) | RNum (n : N) | RPos (o : option N) | RBool (b : bool) | RItems (l : list A).
Global Arguments RItem {A} o.
Global Arguments RNum {A} n.
Global Arguments RPos {A} o.
Global Arguments RBool {A} b.
Global Arguments RItems {A} l.

(** ** Asking an iterator: method by method, from either end, the iterator being passed on ([by_ref()]) *)
Section ask.
  Context {IT A : Type}.
  Definition ask (fuel : nat) (next : IT → res (option A * IT)) (m : meth A) (it : IT) : res (reply A * IT) :=
    match m with
    | INext => r ← next it; Val (RItem r.1, r.2)
    | INth n => r ← it_nth next n it; Val (RItem r.1, r.2)
    | ICount => r ← it_count next fuel it; Val (RNum r.1, r.2)
    | ILast => r ← it_last next fuel it; Val (RItem r.1, r.2)
    | ICollect => r ← it_collect next fuel it; Val (RItems r.1, r.2)
    | IFind p => r ← it_find next fuel p it; Val (RItem r.1, r.2)
    | IPosition p => r ← it_position next fuel p it; Val (RPos r.1, r.2)
    | IAny p => r ← it_any next fuel p it; Val (RBool r.1, r.2)
    | IAll p => r ← it_all next fuel p it; Val (RBool r.1, r.2)
    end.
  Fixpoint asks (fuel : nat) (next next_back : IT → res (option A * IT)) (ms : list (fb * meth A)) (it : IT) : res (list (reply A)) :=
    match ms with
    | [] => Val []
    | (e, m) :: ms =>
        r ← ask fuel (match e with Fwd => next | Bwd => next_back end) m it;
        rs ← asks fuel next next_back ms r.2;
        Val (r.1 :: rs)
    end.
End ask.

(** ** The answers, and what is left, for a sequence *)
Section spec.
  Context {A : Type}.
  (** how many items come before the first that satisfies [p] *)
  Fixpoint before (p : A → bool) (l : list A) : nat := match l with [] => O | x :: l => if p x then O else S (before p l) end.
  Definition answer (m : meth A) (l : list A) : reply A * list A :=
    match m with
    | INext => (RItem (head l), tail l)
    | INth n => (RItem (l !! n), drop (S n) l)
    | ICount => (RNum (lengthN l), [])
    | ILast => (RItem (last l), [])
    | ICollect => (RItems l, [])
    | IFind p => (RItem (l !! before p l), drop (S (before p l)) l)
    | IPosition p => (RPos (if existsb p l then Some (N.of_nat (before p l)) else None), drop (S (before p l)) l)
    | IAny p => (RBool (existsb p l), drop (S (before p l)) l)
    | IAll p => (RBool (forallb p l), drop (S (before (λ x, negb (p x)) l)) l)
    end.
  (** from either end *)
  Fixpoint answers (ms : list (fb * meth A)) (l : list A) : list (reply A) :=
    match ms with
    | [] => []
    | (Fwd, m) :: ms => let '(r, l) := answer m l in r :: answers ms l
    | (Bwd, m) :: ms => let '(r, l) := answer m (reverse l) in r :: answers ms (reverse l)
    end.
  (** from the front only; at the back the sequence seems empty (HashTable) *)
  Fixpoint front_answers (ms : list (fb * meth A)) (l : list A) : list (reply A) :=
    match ms with
    | [] => []
    | (Fwd, m) :: ms => let '(r, l) := answer m l in r :: front_answers ms l
    | (Bwd, m) :: ms => (answer m []).1 :: front_answers ms l
    end.
  Fixpoint same_items (same : A → A → bool) (l l' : list A) : bool :=
    match l, l' with [], [] => true | x :: l, y :: l' => same x y && same_items same l l' | _, _ => false end.
  (** [fold] and [rfold] (also [for_each], [sum], [max_by], …, [extend] of another collection) with any function *)
  Definition folds {IT} (fuel : nat) (next next_back : IT → res (option A * IT)) (it : IT) (l l' : list A) : Prop :=
    ∀ (B : Type) (f : B → A → B) (z : B),
      (∃ it', it_fold next fuel f z it = Val (fold_left f l z, it')) ∧ (∃ it', it_fold next_back fuel f z it = Val (fold_left f l' z, it')).
End spec.
