(** * Histories of calls on a NodeAllocator *)
From Verif Require Export Spec AllocModel.

Section pool.
  Context `{Profile} {T : Type}.

  (** The mutating calls of the public API. [AlWrite i f]: [get_mut(i)] and a write of the node's value through it. *)
  Inductive al_op :=
  | AlAdd (v : T) | AlRemove (i : N)
  | AlSet (i v r : N) | AlClear (i r : N) | AlConnect (i j ri rj : N) | AlDisconnect (i j ri rj : N)
  | AlWrite (i : N) (f : T → T).
  Inductive al_out := AlIdx (i : N) | AlVal (o : option T) | AlUnit.

  Definition al_step (o : al_op) : M (alloc T) al_out :=
    match o with
    | AlAdd v => i ← na_add_node v; mret (AlIdx i)
    | AlRemove i => o ← na_remove_node i; mret (AlVal o)
    | AlSet i v r => na_set_register i v r;; mret AlUnit
    | AlClear i r => na_clear_register i r;; mret AlUnit
    | AlConnect i j ri rj => na_connect i j ri rj;; mret AlUnit
    | AlDisconnect i j ri rj => na_disconnect i j ri rj;; mret AlUnit
    | AlWrite i f => na_get_mut i (λ n, Val (Node (regs n) (f (val n))));; mret AlUnit
    end.

  (** An index a caller may pass: SENTINEL or allocated. *)
  Definition ok_index (live : list N) (i : N) : Prop := i = SENTINEL ∨ i ∈ live.

  (** Callers use allocated indices (or SENTINEL) and existing registers. *)
  Definition al_pre (nr : nat) (live : list N) (o : al_op) : Prop :=
    match o with
    | AlAdd _ => True
    | AlRemove i => ok_index live i
    | AlSet i _ r | AlClear i r => ok_index live i ∧ r < N.of_nat nr
    | AlConnect i j ri rj | AlDisconnect i j ri rj =>
        ok_index live i ∧ ok_index live j ∧ ri < N.of_nat nr ∧ rj < N.of_nat nr
    | AlWrite i _ => i ∈ live
    end.

  (** The allocated indices after a call with the given result. *)
  Definition al_live (o : al_op) (r : res al_out) (live : list N) : list N :=
    match o, r with
    | AlAdd _, Val (AlIdx i) => i :: live
    | AlRemove i, Val _ => filter (λ j, j ≠ i) live
    | _, _ => live
    end.

  (** [pool ms nr d a live]: [a] is reached from [NodeAllocator::<T, ms, nr>::new()] by calls as above,
      and [live] are the indices handed out by add_node and not yet removed. *)
  Inductive pool (ms nr : nat) (d : T) : alloc T → list N → Prop :=
  | pool_new a : na_default ms nr d = Some a → pool ms nr d a []
  | pool_call a live o :
      pool ms nr d a live → al_pre nr live o →
      pool ms nr d (call (al_step o) a).2 (al_live o (call (al_step o) a).1 live).
End pool.
Global Arguments al_op : clear implicits.
Global Arguments al_out : clear implicits.

(** ** Vocabulary for register operations *)
Section reg_spec.
  Context `{Profile} {T : Type}.
  (** every node has NUM_REGISTERS registers *)
  Definition wf_nodes (nr : nat) (a : alloc T) : Prop := Forall (λ n, length (regs n) = nr) (nodes a).
  Definition addressable (a : alloc T) (i : N) : Prop := i = SENTINEL ∨ 1 ≤ i ≤ MAX_SIZE a.
  (** [a.get(i).get_value()] *)
  Definition get_value (a : alloc T) (i : N) : res T := n ← na_get a i; Val (val n).
  (** [a'] differs from [a] in the registers only: register [s] of node [k] is [v] if [w k s = Some v], else unchanged. *)
  Definition registers_changed (a a' : alloc T) (w : N → N → option N) : Prop :=
    MAX_SIZE a' = MAX_SIZE a ∧ size a' = size a ∧ bump_index a' = bump_index a ∧
    free_list_head a' = free_list_head a ∧
    (∀ k, k ≠ SENTINEL → get_value a' k = get_value a k) ∧
    ∀ k s, na_get_register a' k s =
      if decide (k = SENTINEL) then Val SENTINEL
      else match w k s with Some v => Val v | None => na_get_register a k s end.
End reg_spec.
