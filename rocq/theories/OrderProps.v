(** * C53: the exact order of the HashTable's chains, for every [==] and every hash function *)
From Verif Require Import OrderProof.

(** [h0] is [HashTable::<K, V, nb, ms>::new()]. [keq] and [hash] are arbitrary functions: no law is assumed of them. [hb_spec]
    (OrderSpec.v) is a table of [nb] chains, deterministic down to the order of iteration. *)
Section props.
  Context `{Profile} {K V : Type} (keq : K → K → bool) (hash : K → N) (nb ms : nat) (d : K * V).
  Context (h0 : htable K V) (Hnew : ht_new nb ms d = Some h0) (Hnb : (0 < nb)%nat) (Hw : N.of_nat ms + 1 < W32).
  Notation cap := (N.of_nat ms).
  Notation tables o := (spec_history (hb_spec keq hash cap) o (replicate nb [])).

  (** Every history gets exactly the answers of the table of chains: in particular nothing is undefined, nothing runs out of fuel, and
      nothing panics but [Index] on a key that is not found. *)
  Theorem C53_ht_order (o : list (hm_op K V)) : (history (ht_step keq hash) o h0).1 = (tables o).1.
  Proof. exact (order_answers_fact keq hash nb ms d h0 Hnew Hnb Hw o). Qed.
  (** The same for any mix of [next] and [next_back] on the table reached: the chains in the order of the buckets, [next_back] never
      giving anything (C16). *)
  Theorem C53_ht_iter_order (o : list (hm_op K V)) script :
    ht_iterate (history (ht_step keq hash) o h0).2 script = Val (fw_spec script (concat (tables o).2)).
  Proof. exact (order_iter_fact keq hash nb ms d h0 Hnew Hnb Hw o script). Qed.
End props.
Print Assumptions C53_ht_order.
Print Assumptions C53_ht_iter_order.

(** Two buckets, the hash the identity: 2 and 4 collide with 0; [get_mut] on 0 moves it to the front of its chain, [get] on 4 and the
    update of 2 do not move anything. *)
Section example.
  Local Instance release : Profile := {| overflow_checks := false |}.
  Let ops : list (hm_op N N) := [HInsert 0 10; HInsert 2 12; HInsert 1 11; HInsert 4 14; HIter 4; HGet 4; HInsert 2 22; HGetMut 0 (N.add 1);
    HIter 5; HRemove 4; HIter 3; HInsert 6 16; HInsert 8 18].
  Example C53_order : option_map (λ h0, (history (ht_step N.eqb id) ops h0).1) (ht_new 2 4 (0, 0)) =
    Some [Val (HBool true); Val (HBool true); Val (HBool true); Val (HBool true);
     Val (HList [Some (4, 14); Some (2, 12); Some (0, 10); Some (1, 11)]); Val (HVal (Some 14)); Val (HBool true); Val (HVal (Some 10));
     Val (HList [Some (0, 11); Some (4, 14); Some (2, 22); Some (1, 11); None]); Val (HVal (Some 14));
     Val (HList [Some (0, 11); Some (2, 22); Some (1, 11)]); Val (HBool true); Val (HBool false)].
  Proof. vm_compute. reflexivity. Qed.
  (** A key type whose [==] is never true: every insert adds a pair until the table is full, nothing is ever found *)
  Example C53_never_equal : option_map (λ h0, (history (ht_step (λ _ _, false) id)
      [HInsert 0 0; HInsert 0 1; HInsert 0 2; HGet 0; HRemove 0; HLen; HIter 3; HInsert 0 3; HIndex 0] h0).1) (ht_new 2 3 (0, 0)) =
    Some [Val (HBool true); Val (HBool true); Val (HBool true); Val (HVal None); Val (HVal None); Val (HNum 3);
     Val (HList [Some (0, 2); Some (0, 1); Some (0, 0)]); Val (HBool false);
     Err Panic].
  Proof. vm_compute. reflexivity. Qed.
End example.
