(** * Overwriting the key of a stored entry through [get_node_mut]: C70

    The documentation of the crate says nothing about it. The theorems say how far it is safe: if the new key stands to every other stored
    key as the old one does ([fits_order], [fits_bucket], [fits_bits] of RekeySpec.v), then every later call answers as for a map in which
    the entry has the new key and its old value. The refutations show that for other keys this fails. *)
From Verif Require Import Spec RBMain AVLMain HashMain CritMain TypedProof.
From Verif Require Import RekeyModel RekeyProof RekeyAv RekeyHt RekeyCb.

Section props.
  Context `{Profile} {K V : Type}.
  (** RedBlackTree: all sequences of calls and overwritings, from the new map *)
  Theorem C70_rb (cmp : K → K → comparison) ms (d : K * V) ops :
    OrdLaws cmp → (0 < ms)%nat → N.of_nat ms + 1 < W32 →
    k_run (λ o l r l', om_spec cmp (N.of_nat ms) o l = (r, l')) (eq_of cmp) (fits_order cmp) ops []
      (history (k_step (om_step (rb_api cmp)) (rb_get_addr cmp) rb_get_node rb_set_node_key) ops (rb_new ms d)).1.
  Proof. intros HO H0 Hw. apply rb_rekey_run; [done|lia|]. exists Lf. split; [by apply rbok_new|done]. Qed.
  (** AVLTree *)
  Theorem C70_av (pcmp : K → K → option comparison) ms (d : K * V) ops :
    OrdLaws (po_cmp pcmp) → (0 < ms)%nat → N.of_nat ms + 1 < W32 →
    k_run (λ o l r l', om_spec (po_cmp pcmp) (N.of_nat ms) o l = (r, l')) (eq_of (po_cmp pcmp)) (fits_order (po_cmp pcmp)) ops []
      (history (k_step (om_step (av_api pcmp)) (av_get_addr pcmp) av_get_node av_set_node_key) ops (av_new ms d)).1.
  Proof. intros HO H0 Hw. apply av_rekey_run; [done|lia|]. exists Lf. split; [by apply avok_new|done]. Qed.
  (** HashTable *)
  Theorem C70_ht (keq : K → K → bool) (hash : K → N) nb ms (d : K * V) h0 ops :
    HashLaws keq hash → (0 < nb)%nat → N.of_nat ms + 1 < W32 → ht_new nb ms d = Some h0 →
    k_run (hm_step keq (N.of_nat ms)) keq (fits_bucket keq hash (N.of_nat nb)) ops []
      (history (k_step (ht_step keq hash) (ht_get_addr keq hash) ht_get_node ht_set_node_key) ops h0).1.
  Proof.
    intros HL H0 Hw Hn. apply ht_rekey_run; [done|done|]. split; [by eapply th_new|].
    exists []. split; [|done]. by eapply ht_new_ok.
  Qed.
  (** Critbit *)
  Theorem C70_cb nn ms (d : V) t0 ops :
    (0 < ms)%nat → N.of_nat nn + 1 < W32 → cb_new nn ms d = Some t0 → Forall u128_kop ops →
    k_run (λ o l r l', cb_spec (N.of_nat ms) o l = (r, l')) N.eqb fits_bits ops []
      (history (k_step cb_step cb_get_addr cb_entry cb_set_node_key) ops t0).1.
  Proof.
    intros H0 Hw Hn Hu. destruct (CritMain.new_ok nn ms d t0 H0 Hw Hn) as (Hok & H1 & H2).
    apply (cb_rekey_run (N.of_nat nn)); [done|done|done|]. by exists [].
  Qed.
End props.
Print Assumptions C70_rb.
Print Assumptions C70_av.
Print Assumptions C70_ht.
Print Assumptions C70_cb.

(** ** Examples *)
Local Instance ex_profile : Profile := {| overflow_checks := true |}.
Notation ocmp := (λ a b, Some (N.compare a b)).
Definition ex_ops : list (kop (om_op N N) N) :=
  [KCall (MInsert 10 1); KCall (MInsert 20 2); KCall (MInsert 30 3); KKey 20 25; KCall (MGet 20); KCall (MGet 25); KCall (MInsert 22 4);
   KCall (MRemove 10); KCall (MIter [Fwd; Fwd; Fwd; Fwd])].
Definition ex_out : list (res (kans (om_out N N) N N)) :=
  map (λ a, Val (KAns a)) [MBool true; MBool true; MBool true] ++ [Val (KWas (20, 2))] ++
  map (λ a, Val (KAns a)) [MVal None; MVal (Some 2); MBool true; MVal (Some 1); MList [Some (22, 4); Some (25, 2); Some (30, 3); None]].
(** the overwriting is allowed, and the theorem leaves only these answers *)
Example ex_C70_may : may_rekey (eq_of N.compare) (fits_order N.compare) [(10, 1); (20, 2); (30, 3)] 20 25 = true.
Proof. done. Qed.
Example ex_C70_may_not : may_rekey (eq_of N.compare) (fits_order N.compare) [(10, 1); (20, 2); (30, 3)] 20 31 = false ∧
  may_rekey (eq_of N.compare) (fits_order N.compare) [(10, 1); (20, 2); (30, 3)] 20 30 = false ∧
  may_rekey (eq_of N.compare) (fits_order N.compare) [(10, 1); (20, 2); (30, 3)] 21 22 = false.
Proof. done. Qed.
Example ex_C70_only rs :
  k_run (λ o l r l', om_spec N.compare 8 o l = (r, l')) (eq_of N.compare) (fits_order N.compare) ex_ops [] rs → rs = ex_out.
Proof.
  unfold ex_ops. intros Hr.
  repeat match goal with
  | Hr : k_run _ _ _ (KCall _ :: _) _ _ |- _ => inversion Hr; clear Hr; subst;
      match goal with He : om_spec _ _ _ _ = _ |- _ => vm_compute in He; injection He as <- <- end
  | Hr : k_run _ _ _ (KKey _ _ :: _) _ _ |- _ => inversion Hr; clear Hr; subst; [|done]
  | Hr : k_run _ _ _ [] _ _ |- _ => inversion Hr; clear Hr; subst
  | Hr : k_run _ _ _ _ (rekeyed _ _ _ _) _ |- _ => vm_compute in Hr
  end.
  match goal with Hin : _ ∈ [_; _; _], Hs : eq_of _ _ _ = true |- _ =>
    apply elem_of_list_In in Hin; cbn in Hin; destruct Hin as [<-|[<-|[<-|[]]]]; try done end.
Qed.
Example ex_C70_rb : (history (k_step (om_step (rb_api N.compare)) (rb_get_addr N.compare) rb_get_node rb_set_node_key) ex_ops (rb_new 8 (0, 0))).1 = ex_out.
Proof. by vm_compute. Qed.
Example ex_C70_av : (history (k_step (om_step (av_api ocmp)) (av_get_addr ocmp) av_get_node av_set_node_key) ex_ops (av_new 8 (0, 0))).1 = ex_out.
Proof. by vm_compute. Qed.
(** Critbit: 20 and 25 are 10100 and 11001 in binary; 10 and 30 are 01010 and 11110. With 30 the highest difference moves from bit 3 to
    bit 2, so 20 may not become 25, but it may become 23 *)
Example ex_C70_cb : ∃ t0, cb_new 16 8 0 = Some t0 ∧ Forall u128_kop [KKey (Op:=om_op N N) 20 23] ∧
  may_rekey N.eqb fits_bits [(10, 1); (20, 2); (30, 3)] 20 25 = false ∧ may_rekey N.eqb fits_bits [(10, 1); (20, 2); (30, 3)] 20 23 = true ∧
  (history (k_step cb_step cb_get_addr cb_entry cb_set_node_key)
     [KCall (MInsert 10 1); KCall (MInsert 20 2); KCall (MInsert 30 3); KKey 20 23; KCall (MGet 23); KCall (MIter [Fwd; Fwd; Fwd])] t0).1 =
  map (λ a, Val (KAns a)) [MBool true; MBool true; MBool true] ++ [Val (KWas (20, 2))] ++
  map (λ a, Val (KAns a)) [MVal (Some 2); MList [Some (10, 1); Some (23, 2); Some (30, 3)]].
Proof. eexists. split; [reflexivity|]. split; [repeat constructor|]. split; [done|]. split; [done|]. by vm_compute. Qed.
(** HashTable, two buckets, the key is its hash: 1 may become 5 *)
Example ex_C70_ht : ∃ h0, ht_new 2 8 (0, 0) = Some h0 ∧
  may_rekey N.eqb (fits_bucket N.eqb (λ k, k) 2) [(1, 1); (2, 2); (3, 3)] 1 5 = true ∧
  may_rekey N.eqb (fits_bucket N.eqb (λ k, k) 2) [(1, 1); (2, 2); (3, 3)] 1 4 = false ∧
  may_rekey N.eqb (fits_bucket N.eqb (λ k, k) 2) [(1, 1); (2, 2); (3, 3)] 1 3 = false ∧
  (history (k_step (ht_step N.eqb (λ k, k)) (ht_get_addr N.eqb (λ k, k)) ht_get_node ht_set_node_key)
     [KCall (HInsert 1 1); KCall (HInsert 2 2); KCall (HInsert 3 3); KKey 1 5; KCall (HGet 1); KCall (HGet 5)] h0).1 =
  map (λ a, Val (KAns a)) [HBool true; HBool true; HBool true] ++ [Val (KWas (1, 1))] ++ map (λ a, Val (KAns a)) [HVal None; HVal (Some 1)].
Proof. eexists. split; [reflexivity|]. split; [done|]. split; [done|]. split; [done|]. by vm_compute. Qed.

(** ** Other keys *)
(** A red-black tree in which an entry that iteration shows is not found, though [is_valid_red_black_tree] is content *)
Theorem C70_rb_any_key_refuted : ∃ ops : list (kop (om_op N N) N),
  let t := (history (k_step (om_step (rb_api N.compare)) (rb_get_addr N.compare) rb_get_node rb_set_node_key) ops (rb_new 8 (0, 0))).2 in
  rb_iterate t [Fwd; Fwd; Fwd] = Val [Some (1, 1); Some (10, 2); Some (3, 3)] ∧ rb_get N.compare t 3 = Val None ∧ rb_is_valid t = Val true.
Proof. exists [KCall (MInsert 1 1); KCall (MInsert 2 2); KCall (MInsert 3 3); KKey 2 10]. by vm_compute. Qed.
Theorem C70_av_any_key_refuted : ∃ ops : list (kop (om_op N N) N),
  let t := (history (k_step (om_step (av_api ocmp)) (av_get_addr ocmp) av_get_node av_set_node_key) ops (av_new 8 (0, 0))).2 in
  av_iterate t [Fwd; Fwd; Fwd] = Val [Some (1, 1); Some (10, 2); Some (3, 3)] ∧ av_get ocmp t 3 = Val None.
Proof. exists [KCall (MInsert 1 1); KCall (MInsert 2 2); KCall (MInsert 3 3); KKey 2 10]. by vm_compute. Qed.
(** The new key itself is not found if it belongs to another bucket *)
Theorem C70_ht_any_key_refuted : ∃ h0 (ops : list (kop (hm_op N N) N)), ht_new 2 8 (0, 0) = Some h0 ∧
  let h := (history (k_step (ht_step N.eqb (λ k, k)) (ht_get_addr N.eqb (λ k, k)) ht_get_node ht_set_node_key) ops h0).2 in
  ht_iterate h [Fwd; Fwd] = Val [Some (4, 1); None] ∧ ht_get N.eqb (λ k, k) h 4 = Val None.
Proof. eexists. exists [KCall (HInsert 1 1); KKey 1 4]. split; [reflexivity|]. by vm_compute. Qed.
(** In a critbit tree keeping the order is not enough: 25 lies between 10 and 30 as 20 does *)
Theorem C70_cb_any_key_refuted : ∃ t0 (ops : list (kop (om_op N N) N)), cb_new 16 8 0 = Some t0 ∧
  may_rekey (eq_of N.compare) (fits_order N.compare) [(10, 1); (20, 2); (30, 3)] 20 25 = true ∧
  let t := (history (k_step cb_step cb_get_addr cb_entry cb_set_node_key) ops t0).2 in
  cb_iterate t [Fwd; Fwd; Fwd] = Val [Some (10, 1); Some (25, 2); Some (30, 3)] ∧ cb_get t 25 = Val None.
Proof.
  eexists. exists [KCall (MInsert 10 1); KCall (MInsert 20 2); KCall (MInsert 30 3); KKey 20 25]. split; [reflexivity|]. split; [done|].
  by vm_compute.
Qed.
Print Assumptions C70_rb_any_key_refuted.
Print Assumptions C70_av_any_key_refuted.
Print Assumptions C70_ht_any_key_refuted.
Print Assumptions C70_cb_any_key_refuted.
