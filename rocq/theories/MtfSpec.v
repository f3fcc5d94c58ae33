(** * What a lookup costs in a hash table with chaining, and what it would cost had the chains another order

    A table is a list of chains as in OrderSpec.v. Nothing here refers to the models. *)
From Verif Require Export OrderSpec.

Section looks.
  Context {K V : Type} (keq : K → K → bool) (hash : K → N).

  (** The number of looks at a chain until [k] is found: one at each pair up to the first whose key is equal to [k], or one at each pair
      and one at the end *)
  Fixpoint looks (k : K) (c : list (K * V)) : nat :=
    match c with [] => 1 | x :: c => if keq x.1 k then 1 else S (looks k c) end.
  (** The same for the chain of [k] in a table *)
  Definition looks_in (bs : list (list (K * V))) (k : K) : nat := looks k (hb_chain hash bs k).
End looks.

(** [bs'] has the keys of [bs] in the same chains but in any other order. What the values are does not matter. *)
Definition rearranged {K V} (bs bs' : list (list (K * V))) : Prop := Forall2 (λ c c', c.*1 ≡ₚ c'.*1) bs bs'.
(** The number of unordered pairs of entries that share a chain *)
Definition sharing {A} (bs : list (list A)) : nat := sum_list (map (λ c, (length c * (length c - 1) / 2)%nat) bs).
