(** * C45: the ordered maps are interchangeable *)
From Verif Require Import CmpMain CritApi AVLApi RBApi MapProof.

(** [history .. ops (.._new ms d)] are the answers to the calls [ops] on a new map of capacity [ms] (and the final map). All calls of the
    traits NodeAllocatorMap and OrderedNodeAllocatorMap and Index/IndexMut may occur; of [insert] the answer is whether a slot was
    returned (addresses differ between the maps). *)
Section props.
  Context `{Profile} {K V : Type} (ms : nat) (H0 : (0 < ms)%nat) (Hw : N.of_nat ms + 1 < W32).
  (** RedBlackTree and AVLTree, any key type with a total order ([Ord] and [PartialOrd] agreeing) *)
  Theorem C45_rb_av cmp pcmp (d d' : K * V) ops :
    OrdLaws cmp → (∀ a b, pcmp a b = Some (cmp a b)) →
    (history (om_step (av_api pcmp)) ops (av_new ms d')).1 = (history (om_step (rb_api cmp)) ops (rb_new ms d)).1.
  Proof. exact (rb_av_fact ms H0 Hw cmp pcmp d d' ops). Qed.
End props.
Section props.
  Context `{Profile} {V : Type} (ms nn : nat) (H0 : (0 < ms)%nat) (Hn : N.of_nat nn + 1 < W32).
  (** Critbit and RedBlackTree with u128 keys, if whenever a key is inserted the (RedBlackTree) map is not full or does not contain it *)
  Theorem C45_rb_cb (d : N * V) d' t0 ops :
    cb_new nn ms d' = Some t0 → Forall u128_op ops →
    (∀ pre k v post, ops = pre ++ MInsert k v :: post →
       let t := (history (om_step (rb_api N.compare)) pre (rb_new ms d)).2 in
       rb_len t < N.of_nat ms ∨ rb_contains N.compare t k = Val false) →
    (history (om_step cb_api) ops t0).1 = (history (om_step (rb_api N.compare)) ops (rb_new ms d)).1.
  Proof. exact (rb_cb_fact ms nn H0 Hn d d' t0 ops). Qed.
End props.
(** Without the condition on Critbit the answers may differ: overwriting a value in a full map *)
Theorem C45_cb_full_refuted `{Profile} :
  ∃ (ops : list (om_op N N)) t0, cb_new 2 1 0 = Some t0 ∧ Forall u128_op ops ∧
    (history (om_step cb_api) ops t0).1 ≠ (history (om_step (rb_api N.compare)) ops (rb_new 1 (0, 0))).1.
Proof.
  exists [MInsert 7 1; MInsert 7 2; MGet 7]. eexists. split; [reflexivity|]. split; [by repeat constructor|].
  destruct H as [[]]; by vm_compute.
Qed.
Print Assumptions C45_rb_av.
Print Assumptions C45_rb_cb.
Print Assumptions C45_cb_full_refuted.

Definition ex_ops : list (om_op N N) :=
  [MInsert 9 1; MInsert 4 2; MGet 9; MInsert 5 3; MIter [Fwd; Bwd; Fwd]; MRemove 9; MInsert 6 4; MGetMax].
Example ex_C45 `{Profile} :
  (history (om_step (av_api (λ a b, Some (N.compare a b)))) ex_ops (av_new 2 (0, 0))).1 =
    (history (om_step (rb_api N.compare)) ex_ops (rb_new 2 (0, 0))).1 ∧
  (history (om_step (rb_api N.compare)) ex_ops (rb_new 2 (0, 0))).1 =
    [Val (MBool true); Val (MBool true); Val (MVal (Some 1)); Val (MBool false); Val (MList [Some (4, 2); Some (9, 1); None]);
     Val (MVal (Some 1)); Val (MBool true); Val (MPair (Some (6, 4)))].
Proof. split; [by apply (C45_rb_av 2 ltac:(lia) ltac:(done) N.compare _ _ _ _ N_laws)|]. destruct H as [[]]; by vm_compute. Qed.
(** The full map is asked to insert a new key *)
Example ex_C45_cb `{Profile} :
  ∃ t0, cb_new 4 2 0 = Some t0 ∧
    (history (om_step cb_api) ex_ops t0).1 = (history (om_step (rb_api N.compare)) ex_ops (rb_new 2 (0, 0))).1.
Proof.
  eexists. split; [reflexivity|]. apply (C45_rb_cb 2 4 ltac:(lia) ltac:(done) (0, 0) 0); [done|by repeat constructor|].
  intros pre k v post Hp. unfold ex_ops in Hp.
  repeat (destruct pre as [|? pre]; simpl in Hp; [try discriminate Hp; injection Hp as <- <- <-; destruct H as [[]]; vm_compute; by auto|
    try discriminate Hp; injection Hp as <- Hp]).
Qed.
