(** * Two wrong maps, to measure the repository's tests with

    They implement the methods of the trait NodeAllocatorMap that the tests call ([nam], FuzzModel.v). *)
From Verif Require Export TestModel.

(** A map that never forgets: [remove] answers with the value and leaves the entry where it is. The iterators never yield anything, [len] and
    [capacity] are always 0. Keys are ordered by [cmp], the state is the list of entries. *)
Definition forgetless {K V} (cmp : K → K → comparison) : nam (list (K * V)) K V := {|
  n_insert k v l := Ret (Some 0) (om_insert cmp k v l);
  n_remove k l := Ret (om_get cmp k l) l;
  n_get l k := Val (om_get cmp k l);
  n_get_mut k f l := Ret (om_get cmp k l) (om_alter cmp k f l);
  n_len _ := 0;
  n_capacity _ := 0;
  n_iter _ script := Val (replicate (length script) None);
  n_iter_mut script l := Ret (replicate (length script) None) l |}.

(** A map that stores nothing but a number: how many entries it should have. [remove] and [get_mut] answer [v0] whatever the key, [get] panics, the iterators
    never yield anything. [cap] is the capacity. *)
Definition counter {K V} (cap : N) (v0 : V) : nam N K V := {|
  n_insert _ _ n := if decide (n < cap) then Ret (Some 0) (n + 1) else Ret None n;
  n_remove _ n := if decide (n = 0) then Ret None n else Ret (Some v0) (n - 1);
  n_get _ _ := Err Panic;
  n_get_mut _ _ n := Ret (Some v0) n;
  n_len n := n;
  n_capacity _ := cap;
  n_iter _ script := Val (replicate (length script) None);
  n_iter_mut script n := Ret (replicate (length script) None) n |}.

(** As far as the answers [l] go before the first [None] they are the entries of [m]: equal keys, the same values *)
Definition agree {K V} (cmp : K → K → comparison) (m : list (K * V)) (l : list (option (K * V))) : Prop :=
  ∀ i x y, m !! i = Some x → l !! i = Some (Some y) → (∀ j, (j < i)%nat → ∃ z, l !! j = Some (Some z)) → cmp x.1 y.1 = Eq ∧ x.2 = y.2.
