(** * What it means that some calls of a history leave no trace *)
From Verif Require Export Spec.

(** [rs] with [xs] put in after the first [n] *)
Definition put_in {A} (n : nat) (xs rs : list A) : list A := take n rs ++ xs ++ drop n rs.

(** Between two histories of calls, the second of which has the calls [x] in addition after the first [n]: [r] and [r'] are the answers and
    the state at the end, [xs] the answers to [x]. All other answers are the same, and so is [look] of the final state for every [k]
    that is [there]. *)
Record no_trace {S A K B} (n : nat) (xs : list A) (there : K → Prop) (look : S → K → B) (r r' : list A * S) : Prop := {
  nt_answers : r'.1 = put_in n xs r.1;
  nt_look : ∀ k, there k → look r'.2 k = look r.2 k;
}.
