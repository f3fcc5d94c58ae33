(** * The NodeAllocator outside its contract: vocabulary *)
From Verif Require Export AllocApi.

Section spec.
  Context `{Profile} {T : Type}.
  (** Successive calls of [add_node] on [a] answer the indices [is]; every further call panics. *)
  Definition adds_give (a : alloc T) (is : list N) : Prop :=
    ∀ vs, (history al_step (AlAdd <$> vs) a).1 =
      take (length vs) (((λ i, Val (AlIdx i)) <$> is) ++ replicate (length vs) (Err Panic)).
  (** The state left by a call, also when it panics *)
  Definition left_by (o : al_op T) (a : alloc T) : alloc T := (call (al_step o) a).2.
  (** Slot [j] is not handed out while the calls [ops] are made, all of them with allocated indices *)
  Fixpoint stays_free (nr : nat) (j : N) (live : list N) (ops : list (al_op T)) (a : alloc T) : Prop :=
    j ∉ live ∧
    match ops with
    | [] => True
    | o :: ops => al_pre nr live o ∧ stays_free nr j (al_live o (call (al_step o) a).1 live) ops (left_by o a)
    end.
End spec.
