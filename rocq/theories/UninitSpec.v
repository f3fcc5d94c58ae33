(** * Structures used before [initialize]: vocabulary *)
From Verif Require Export DequeApi HashApi RBApi AVLApi CritApi.

(** The calls that allocate a slot *)
Definition dq_inserts {T} (o : dq_op T) : bool := match o with DPushFront _ | DPushBack _ => true | _ => false end.
Definition hm_inserts {K V} (o : hm_op K V) : bool := match o with HInsert _ _ => true | _ => false end.
Definition om_inserts {K V} (o : om_op K V) : bool := match o with MInsert _ _ => true | _ => false end.
Definition rb_inserts {K V} (o : option (om_op K V)) : bool := match o with Some o => om_inserts o | None => false end.

(** [as_new step z n reads]: with any calls [reads] the structure [z] answers as [n] does, and neither changes *)
Definition as_new {S O A} (step : O → M S A) (z n : S) (reads : list O) : Prop :=
  history step reads z = ((history step reads n).1, z) ∧ (history step reads n).2 = n.
