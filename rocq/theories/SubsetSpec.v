(** * Key types of which only some values are lawfully ordered (or compared and hashed)

    [P] picks out some of the keys: for [f64] those that are not NaN. *)
From Verif Require Export MapSpec HashSpec.

(** Among the keys in [P], [cmp] is a total order; nothing is said of the others. Compare [OrdLaws] (MapSpec.v). *)
Record OrdLawsOn {K} (P : K → bool) (cmp : K → K → comparison) : Prop := {
  on_sym : ∀ a b, P a = true → P b = true → cmp b a = CompOpp (cmp a b);
  on_trans : ∀ a b c, P a = true → P b = true → P c = true → cmp a b = Lt → cmp b c = Lt → cmp a c = Lt;
  on_eq : ∀ a b c, P a = true → P b = true → P c = true → cmp a b = Eq → cmp a c = cmp b c;
}.
(** The key a call is given, if any, is in [P]; [None] is [remove_root] *)
Definition om_key_in {K V} (P : K → bool) (o : option (om_op K V)) : Prop :=
  match o with
  | Some (MInsert k _ | MRemove k | MGet k | MGetMut k _ | MContains k | MIndex k | MIndexMut k _) => P k = true
  | _ => True
  end.

(** Among the keys in [P], [keq] is an equivalence that the hash respects. Compare [HashLaws] (HashSpec.v). *)
Record HashLawsOn {K} (P : K → bool) (keq : K → K → bool) (hash : K → N) : Prop := {
  on_refl : ∀ a, P a = true → keq a a = true;
  on_keq_sym : ∀ a b, P a = true → P b = true → keq a b = keq b a;
  on_keq_trans : ∀ a b c, P a = true → P b = true → P c = true → keq a b = true → keq b c = true → keq a c = true;
  on_hash : ∀ a b, P a = true → P b = true → keq a b = true → hash a = hash b;
}.
Definition hm_key_in {K V} (P : K → bool) (o : hm_op K V) : Prop :=
  match o with
  | HInsert k _ | HRemove k | HGet k | HGetMut k _ | HContains k | HContainsInherent k | HIndex k | HIndexMut k _ => P k = true
  | _ => True
  end.
