(** * Specification: calls that are broken off *)
From Verif Require Export Prelude.

(** Asked for [a], the user's code answers [a] or panics *)
Definition answers {A} (r : res A) (a : A) : Prop := r = Val a ∨ r = Err Panic.
(** The elements of [l] at the places where [bits] has [true] *)
Fixpoint kept {A} (bits : list bool) (l : list A) : list A :=
  match bits, l with
  | b :: bits, x :: l => if b then x :: kept bits l else kept bits l
  | _, _ => []
  end.
