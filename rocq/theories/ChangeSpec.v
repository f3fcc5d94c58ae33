(** * One structure used by several programs

    A structure lies in a buffer that outlives the program working on it. The next program may be another version, compiled with another
    standard library: its [Hash], [==] or [Ord] of the key type, and the hasher behind [DefaultHasher] (whose algorithm the standard
    library leaves open from release to release), may be others. Here every call comes with the functions of the program that makes it. *)
From Verif Require Export OrderSpec LooseSpec.

(** A call on a hash table *)
Record hcall (K V : Type) := HC { hc_eq : K → K → bool; hc_hash : K → N; hc_op : hm_op K V }.
Global Arguments HC {K V} hc_eq hc_hash hc_op.
Global Arguments hc_eq {K V} h.
Global Arguments hc_hash {K V} h.
Global Arguments hc_op {K V} h.
(** What a table of chains (OrderSpec.v) does with it *)
Definition hcall_spec {K V} (cap : N) (c : hcall K V) : list (list (K * V)) → res (hm_out K V) * list (list (K * V)) :=
  hb_spec (hc_eq c) (hc_hash c) cap (hc_op c).

(** Calls on a search tree (LooseSpec.v): the comparison of each, and what is called; [None] is [remove_root] *)
Inductive bt_runs {K V} (cap : N) : list ((K → K → comparison) * option (om_op K V)) → bt K V → list (res (om_out K V)) → bt K V → Prop :=
| bt_runs_nil T : bt_runs cap [] T [] T
| bt_runs_cons cmp o cs T a T1 rs T2 :
    bt_step cmp cap o T a T1 → bt_runs cap cs T1 rs T2 → bt_runs cap ((cmp, o) :: cs) T (a :: rs) T2.
