(** * What it means that two containers cannot be told apart *)
From Verif Require Export HashSpec.

(** No sequence of calls of which [P] holds gets different answers from [s] (called by [step]) and from [s'] (called by [step']) *)
Definition alike {S S' O A} (P : list O → Prop) (step : O → M S A) (step' : O → M S' A) (s : S) (s' : S') : Prop :=
  ∀ o, P o → (history step o s).1 = (history step' o s').1.
Definition any {O} (o : list O) : Prop := True.

(** Reading with [next] gives the same, however often it is called; [it] and [it'] are sessions of an iterator *)
Definition same_read {B} (it it' : list fb → B) : Prop := ∀ n, it (replicate n Fwd) = it' (replicate n Fwd).

(** The calls of a hash table other than iteration *)
Definition no_iter {K V} (o : hm_op K V) : Prop := match o with HIter _ | HIterMut _ => False | _ => True end.
