(** * Specification for C79: runs of insertions and removals of any implementation, and how it shows a tree *)
From Verif Require Export Prelude.

Section runs.
  Context {S K : Type}.
  (** Inserting the keys one after the other leads from [s] to [s']; the answers are the addresses; [ok] holds after each insertion *)
  Fixpoint filled (ins : K → S → outcome S (option N)) (ok : S → Prop) (keys : list K) (addrs : list N) (s s' : S) : Prop :=
    match keys, addrs with
    | [], [] => s' = s
    | k :: keys, a :: addrs => ∃ s1, ins k s = Ret (Some a) s1 ∧ ok s1 ∧ filled ins ok keys addrs s1 s'
    | _, _ => False
    end.
  (** Removing them answers some value each time; [ok] holds after each removal *)
  Fixpoint drained {V} (rem : K → S → outcome S (option V)) (ok : S → Prop) (keys : list K) (s s' : S) : Prop :=
    match keys with
    | [] => s' = s
    | k :: keys => ∃ v s1, rem k s = Ret (Some v) s1 ∧ ok s1 ∧ drained rem ok keys s1 s'
    end.
End runs.
(** [c] hangs below [p]: the child as the parent says, the parent as the child says *)
Definition hangs {S} (child parent : S → N → res N) (s : S) (p c : N) : Prop := child s p = Val c ∧ parent s c = Val p.
(** The predicate says yes of each of them *)
Definition all_say {S} (f : S → N → res bool) (s : S) (l : list N) : Prop := Forall (λ i, f s i = Val true) l.
