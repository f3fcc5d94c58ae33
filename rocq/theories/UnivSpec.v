(** * What lookups cost on the average over a family of hash functions

    Nothing here refers to the models, except [keys_after], which speaks of the calls. *)
From Verif Require Export HashSpec.
Local Open Scope nat_scope.

Section univ.
  Context {K V : Type} (keq : K → K → bool).
  (** The keys a map of capacity [cap] holds after a call: no hash function is needed to say it *)
  Definition keys_step (cap : N) (ks : list K) (o : hm_op K V) : list K :=
    match o with
    | HInsert k _ => if existsb (λ x, keq x k) ks then ks else if decide (lengthN ks < cap)%N then k :: ks else ks
    | HRemove k => filter (λ x, keq x k = false) ks
    | _ => ks
    end.
  Definition keys_after (cap : N) (o : list (hm_op K V)) : list K := fold_left (keys_step cap) o [].
  (** Two keys with the same of [nb] buckets *)
  Definition clash (nb : nat) (hash : K → N) (x y : K) : bool := (hash x mod N.of_nat nb =? hash y mod N.of_nat nb)%N.
  Definition count {A} (p : A → bool) (l : list A) : nat := sum_list (map (λ x, if p x then 1 else 0) l).
  (** The number of unordered pairs that clash *)
  Fixpoint clashes (nb : nat) (hash : K → N) (ks : list K) : nat :=
    match ks with [] => 0 | x :: ks => count (clash nb hash x) ks + clashes nb hash ks end.
  (** A universal family (Carter and Wegman): two different keys of [ks] clash under at most one in [nb] of the functions *)
  Definition universal (nb : nat) (hashes : list (K → N)) (ks : list K) : Prop :=
    ∀ x y, x ∈ ks → y ∈ ks → keq x y = false → nb * count (λ h, clash nb h x y) hashes ≤ length hashes.
End univ.

(** A family of hash functions on numbers below [p ^ m]: the [m] digits in base [p], each times a coefficient below [p], added up *)
Fixpoint linear_family (p m : nat) : list (N → N) :=
  match m with
  | O => [λ _, 0%N]
  | S m => concat (map (λ a, map (λ f k, N.of_nat a * (k mod N.of_nat p) + f (k / N.of_nat p))%N (linear_family p m)) (seq 0 p))
  end.
(** Of a family for [a] buckets and one for [b] buckets: a family for [a * b] buckets *)
Definition product_family {K} (a b : nat) (fs gs : list (K → N)) : list (K → N) :=
  concat (map (λ f, map (λ g k, f k mod N.of_nat a + N.of_nat a * (g k mod N.of_nat b))%N gs) fs).
