(** * Specification vocabulary, independent of the models

    Histories of calls, double-ended traversal, bounded sequences and bounded finite maps. *)
From Verif Require Export Prelude.

(** ** Histories *)

(** Result and final state of one call; after a panic the state left behind is kept (as after [catch_unwind]). *)
Definition call {S A} (m : M S A) (s : S) : res A * S :=
  match m s with Ret a s' => (Val a, s') | Fail e s' => (Err e, s') end.

(** Results of a sequence of calls and the final state. *)
Fixpoint history {S O A} (step : O → M S A) (ops : list O) (s : S) : list (res A) * S :=
  match ops with
  | [] => ([], s)
  | o :: ops =>
      let '(r, s) := call (step o) s in
      let '(rs, s) := history step ops s in (r :: rs, s)
  end.

(** The same for a specification: a function from abstract states. *)
Fixpoint spec_history {S O A} (step : O → S → A * S) (ops : list O) (s : S) : list A * S :=
  match ops with
  | [] => ([], s)
  | o :: ops =>
      let '(r, s) := step o s in
      let '(rs, s) := spec_history step ops s in (r :: rs, s)
  end.

(** ** Iterators *)

(** Which end of a DoubleEndedIterator is asked. *)
Inductive fb := Fwd | Bwd.

(** Ask an iterator according to a script; the answers. *)
Fixpoint drive {IT A} (next next_back : IT → res (option A * IT)) (script : list fb) (it : IT) :
    res (list (option A)) :=
  match script with
  | [] => Val []
  | e :: script =>
      r ← (match e with Fwd => next it | Bwd => next_back it end);
      rs ← drive next next_back script r.2;
      Val (r.1 :: rs)
  end.

(** Ask a mutable iterator according to a script; through the i-th reference obtained the caller applies the i-th function. *)
Fixpoint drive_mut {S A V} (next next_back : (V → V) → M S (option A)) (script : list (fb * (V → V))) :
    M S (list (option A)) :=
  match script with
  | [] => mret []
  | (e, f) :: script =>
      r ← (match e with Fwd => next f | Bwd => next_back f end);
      rs ← drive_mut next next_back script;
      mret (r :: rs)
  end.

(** Forget the slot index in the answers of an iterator. *)
Definition no_index {A} (l : list (option (N * A))) : list (option A) := map (option_map snd) l.

(** The last element of a list and the rest. *)
Fixpoint unsnoc {A} (l : list A) : option (list A * A) :=
  match l with
  | [] => None
  | x :: l => match unsnoc l with None => Some ([], x) | Some (l', y) => Some (x :: l', y) end
  end.

(** What a double-ended iterator over the sequence [l] must answer. *)
Fixpoint de_spec {A} (script : list fb) (l : list A) : list (option A) :=
  match script with
  | [] => []
  | Fwd :: s => match l with [] => None :: de_spec s [] | x :: l => Some x :: de_spec s l end
  | Bwd :: s => match unsnoc l with None => None :: de_spec s [] | Some (l, x) => Some x :: de_spec s l end
  end.

(** Same for a mutable iterator; also the contents after the updates. [upd f x] is the element [x] after the caller
    has applied [f] through the reference. *)
Fixpoint de_mut_spec {A V} (upd : (V → V) → A → A) (script : list (fb * (V → V))) (l : list A) :
    list (option A) * list A :=
  match script with
  | [] => ([], l)
  | (Fwd, f) :: s =>
      match l with
      | [] => let '(o, r) := de_mut_spec upd s [] in (None :: o, r)
      | x :: l => let '(o, r) := de_mut_spec upd s l in (Some x :: o, upd f x :: r)
      end
  | (Bwd, f) :: s =>
      match unsnoc l with
      | None => let '(o, r) := de_mut_spec upd s [] in (None :: o, r)
      | Some (l, x) => let '(o, r) := de_mut_spec upd s l in (Some x :: o, r ++ [upd f x])
      end
  end.

(** ** Bounded double-ended queues *)

Section dq.
  Context {T : Type}.
  Inductive dq_op :=
  | DPushFront (v : T) | DPushBack (v : T) | DPopFront | DPopBack
  | DFront | DBack | DLen | DIsEmpty
  | DIter (script : list fb) | DIterMut (script : list (fb * (T → T))).
  Inductive dq_out :=
  | DUnit | DVal (o : option T) | DNum (n : N) | DBool (b : bool) | DList (l : list (option T)).

  (** Abstract state: the sequence, and the number of successful pushes and pops. *)
  Definition dq_spec (cap : N) (o : dq_op) (s : list T * N) : res dq_out * (list T * N) :=
    let '(l, n) := s in
    match o with
    | DPushFront v => if decide (lengthN l < cap) then (Val DUnit, (v :: l, n + 1)) else (Err Panic, s)
    | DPushBack v => if decide (lengthN l < cap) then (Val DUnit, (l ++ [v], n + 1)) else (Err Panic, s)
    | DPopFront => match l with [] => (Val (DVal None), s) | v :: l => (Val (DVal (Some v)), (l, n + 1)) end
    | DPopBack => match unsnoc l with
                  | None => (Val (DVal None), s) | Some (l, v) => (Val (DVal (Some v)), (l, n + 1)) end
    | DFront => (Val (DVal (head l)), s)
    | DBack => (Val (DVal (last l)), s)
    | DLen => (Val (DNum (lengthN l)), s)
    | DIsEmpty => (Val (DBool (match l with [] => true | _ => false end)), s)
    | DIter sc => (Val (DList (de_spec sc l)), s)
    | DIterMut sc => let '(o, l) := de_mut_spec (λ f x, f x) sc l in (Val (DList o), (l, n))
    end.
End dq.
Global Arguments dq_op : clear implicits.
Global Arguments dq_out : clear implicits.
