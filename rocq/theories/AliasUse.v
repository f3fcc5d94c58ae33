(** * What a program may do with the references it keeps *)
From Verif Require Export HeldModel AliasSpec.
Local Open Scope nat_scope.

(** How often the iterator is asked *)
Fixpoint calls {V} (script : list (hact V)) : nat :=
  match script with HNext _ :: script => S (calls script) | _ :: script => calls script | [] => 0 end.
(** Only the item of the last call is used, as in a [for] loop; with [keys], keys of earlier items may be read too. [n]: calls so far *)
Fixpoint streaming {V} (keys : bool) (n : nat) (script : list (hact V)) : Prop :=
  match script with
  | [] => True
  | HNext _ :: script => streaming keys (S n) script
  | HKey j :: script => (keys = true ∨ S j = n) ∧ streaming keys n script
  | HUse j _ :: script => S j = n ∧ streaming keys n script
  end.
(** No value is used, then the iterator asked, and then the same value used again *)
Definition one_phase {V} (script : list (hact V)) : Prop :=
  ∀ s0 j f s1 e s2 g s3, script ≠ s0 ++ HUse j f :: s1 ++ HNext e :: s2 ++ HUse j g :: s3.
(** The index of the item the iterator gave *)
Definition got {K V} (a : hans K V) : option N := match a with HGot i => i | _ => None end.
(** There was an item *)
Definition answered {K V} (a : hans K V) : Prop := match a with HGot o => is_Some o | HKeyIs o => is_Some o | HFound o => is_Some o end.
(** The memory events of a run *)
Definition trace_of {C A} (o : outcome (C * trace) A) : trace := match o with Ret _ s | Fail _ s => s.2 end.
(** The same run without them *)
Definition forget {C A} (o : outcome (C * trace) A) : outcome C A := match o with Ret a s => Ret a s.1 | Fail e s => Fail e s.1 end.
