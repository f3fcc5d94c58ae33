(** * C93: the methods Rust provides for iterators give the right answers on the iterators of the crate

    [asks n next next_back ms it] (MethSpec.v): the iterator [it] is asked the methods [ms] one after the other, each from the front or, as with [rev()], [rfind],
    [nth_back], …, from the back; the loops of the methods (MethModel.v) have fuel [n]. [answers ms l] is what a sequence [l] answers. [folds]: the same for
    [fold] and [rfold] with any function of the caller. *)
From Verif Require Import MapSpec HashSpec OrderSpec RBMain RBProps AVLMain AVLProps CritMain CritProps DequeProof DequeProps OrderProps HashApi MethSpec MethMain.

Theorem C93_dq_methods `{Profile} {T : Type} (ms : nat) (v : T) (o : list (dq_op T)) : N.of_nat ms + 1 < W32 → few o →
  let d := dq_after ms v o in
  ∃ es : list (N * T), es.*2 = contents ms o ∧
    ∀ n, (length es < n)%nat →
      (∀ cs, asks n (dq_iter_next d) (dq_iter_next_back d) cs (dq_mk_iter d) = Val (answers cs es)) ∧
      folds n (dq_iter_next d) (dq_iter_next_back d) (dq_mk_iter d) es (reverse es).
Proof.
  intros Hw Hf d. destruct (C09_deque_iter ms v o Hw Hf) as (es & He & _ & _ & Hi). exists es. split; [done|]. intros n Hn.
  split; [intros cs; by apply asks_ok|by apply folds_ok].
Qed.
Theorem C93_rb_methods `{Profile} {K V : Type} (cmp : K → K → comparison) (ms : nat) (d : K * V) (o : list (option (om_op K V))) (l : list (K * V)) n :
  OrdLaws cmp → (0 < ms)%nat → N.of_nat ms + 1 < W32 → rb_holds cmp ms d o l → (length l < n)%nat →
  let t := rb_after cmp ms d o in
  (∀ cs, asks n (rb_iter_next t) (rb_iter_next_back t) cs (rb_iter t) = Val (answers cs l)) ∧
  folds n (rb_iter_next t) (rb_iter_next_back t) (rb_iter t) l (reverse l).
Proof.
  intros HO H0 Hw Hl Hn t. destruct (C20_rb_iter cmp HO ms d H0 Hw o l Hl) as [_ Hi]. split; [intros cs; by apply asks_ok|by apply folds_ok].
Qed.
Theorem C93_av_methods `{Profile} {K V : Type} (pcmp : K → K → option comparison) (ms : nat) (d : K * V) (o : list (om_op K V)) n :
  OrdLaws (po_cmp pcmp) → (0 < ms)%nat → N.of_nat ms + 1 < W32 →
  let t := av_after pcmp ms d o in let l := av_contents pcmp ms o in (length l < n)%nat →
  (∀ cs, asks n (av_iter_next t) (av_iter_next_back t) cs (av_iter t) = Val (answers cs l)) ∧
  folds n (av_iter_next t) (av_iter_next_back t) (av_iter t) l (reverse l).
Proof.
  intros HO H0 Hw t l Hn. destruct (C28_av_iter pcmp HO ms d H0 Hw o) as [_ Hi]. split; [intros cs; by apply asks_ok|by apply folds_ok].
Qed.
Theorem C93_cb_methods `{Profile} {V : Type} (nn ms : nat) (d : V) (t0 : critbit V) (o : list (om_op N V)) n :
  (0 < ms)%nat → N.of_nat nn + 1 < W32 → cb_new nn ms d = Some t0 → Forall u128_op o →
  let t := (history cb_step o t0).2 in let l := cb_contents ms o in (length l < n)%nat →
  (∀ cs, asks n (cb_iter_next t) (cb_iter_next_back t) cs (cb_iter t) = Val (answers cs l)) ∧
  folds n (cb_iter_next t) (cb_iter_next_back t) (cb_iter t) l (reverse l).
Proof.
  intros H0 Hw Hnew Hu t l Hn. destruct (C34_cb_iter nn ms d t0 H0 Hw Hnew o Hu) as (_ & _ & Hi). split; [intros cs; by apply asks_ok|by apply folds_ok].
Qed.
(** HashTable, whatever == and the hash do: from the front the chains in order; from the back every method sees an empty sequence and takes nothing away (C16) *)
Theorem C93_ht_methods `{Profile} {K V : Type} (keq : K → K → bool) (hash : K → N) (nb ms : nat) (d : K * V) (h0 : htable K V) (o : list (hm_op K V)) n :
  ht_new nb ms d = Some h0 → (0 < nb)%nat → N.of_nat ms + 1 < W32 →
  let h := (history (ht_step keq hash) o h0).2 in
  let l := concat (spec_history (hb_spec keq hash (N.of_nat ms)) o (replicate nb [])).2 in (length l < n)%nat →
  ∃ it, ht_mk_iter h = Val it ∧
    (∀ cs, asks n (ht_iter_next h) (ht_iter_next_back h) cs it = Val (front_answers cs l)) ∧
    folds n (ht_iter_next h) (ht_iter_next_back h) it l [].
Proof.
  intros Hnew Hnb Hw h l Hn. pose proof (C53_ht_iter_order keq hash nb ms d h0 Hnew Hnb Hw o) as Hi. fold h l in Hi. unfold ht_iterate in Hi.
  destruct (ht_mk_iter h) as [it|e]; [|by specialize (Hi [])]. exists it. split; [done|]. split; [intros cs; by apply half_asks_ok|by apply half_folds_ok].
Qed.
(** [a.iter().eq(b.iter())] compares the contents: here of a RedBlackTree and an AVLTree, of whatever capacities and histories *)
Theorem C93_rb_av_eq `{Profile} {K V : Type} (cmp : K → K → comparison) (pcmp : K → K → option comparison) (same : K * V → K * V → bool)
    (ms ms' : nat) (d d' : K * V) (o : list (option (om_op K V))) (o' : list (om_op K V)) (l : list (K * V)) n :
  OrdLaws cmp → OrdLaws (po_cmp pcmp) → (0 < ms)%nat → (0 < ms')%nat → N.of_nat ms + 1 < W32 → N.of_nat ms' + 1 < W32 →
  rb_holds cmp ms d o l → (length l < n)%nat →
  let t := rb_after cmp ms d o in let t' := av_after pcmp ms' d' o' in
  it_eq (rb_iter_next t) (av_iter_next t') same n (rb_iter t) (av_iter t') = Val (same_items same l (av_contents pcmp ms' o')).
Proof.
  intros HO HO' H0 H0' Hw Hw' Hl Hn t t'. destruct (C20_rb_iter cmp HO ms d H0 Hw o l Hl) as [_ Hi]. destruct (C28_av_iter pcmp HO' ms' d' H0' Hw' o') as [_ Hi'].
  by apply (eq_ok (rb_iter_next t) (rb_iter_next_back t) (av_iter_next t') (av_iter_next_back t')).
Qed.
Print Assumptions C93_dq_methods.
Print Assumptions C93_rb_methods.
Print Assumptions C93_av_methods.
Print Assumptions C93_cb_methods.
Print Assumptions C93_ht_methods.
Print Assumptions C93_rb_av_eq.

(** ** Examples *)
Local Instance ex_profile : Profile := {| overflow_checks := true |}.
Notation ins := (λ k : N, MInsert k (10 * k)).
(** five pairs: the third from the front, a search from the back, what is left counted *)
Notation calls := [(Fwd, INth 1); (Bwd, IFind (λ x : N * N, x.1 <? 5)); (Fwd, IPosition (λ x : N * N, x.1 =? 9)); (Fwd, ICount); (Bwd, INext)].
Example ex_answers : answers calls [(1, 10); (2, 20); (3, 30); (4, 40); (5, 50)] = [RItem (Some (2, 20)); RItem (Some (4, 40)); RPos None; RNum 0; RItem None].
Proof. by vm_compute. Qed.
Definition ex_rb : rbt N N := rb_after N.compare 8 (0, 0) (Some <$> [ins 4; ins 2; ins 5; ins 1; ins 3]).
Example ex_rb_code : asks 9 (rb_iter_next ex_rb) (rb_iter_next_back ex_rb) calls (rb_iter ex_rb) =
  Val [RItem (Some (2, 20)); RItem (Some (4, 40)); RPos None; RNum 0; RItem None].
Proof. by vm_compute. Qed.
(** a position found leaves the rest *)
Example ex_av_code : let t := av_after (λ a b, Some (N.compare a b)) 8 (0, 0) [ins 4; ins 2; ins 5; ins 1; ins 3] in
  asks 9 (av_iter_next t) (av_iter_next_back t) [(Fwd, IPosition (λ x, x.1 =? 2)); (Bwd, ILast); (Fwd, INext)] (av_iter t) = Val [RPos (Some 1); RItem (Some (3, 30)); RItem None] ∧
  asks 9 (av_iter_next t) (av_iter_next_back t) [(Fwd, IAll (λ x, x.1 <? 3)); (Fwd, IAny (λ x, x.1 =? 4)); (Bwd, ICollect)] (av_iter t) = Val [RBool false; RBool true; RItems [(5, 50)]].
Proof. by vm_compute. Qed.
(** a HashTable of three pairs, asked for the last and for the number from the back *)
Example ex_ht_code :
  match ht_new 2 4 (0, 0) with
  | Some h0 => let h := (history (ht_step N.eqb id) [HInsert 1 10; HInsert 2 20; HInsert 3 30] h0).2 in
      match ht_mk_iter h with
      | Val it => asks 5 (ht_iter_next h) (ht_iter_next_back h) [(Bwd, ICount); (Bwd, ILast); (Fwd, ILast)] it = Val [RNum 0; RItem None; RItem (Some (1, 10))]
      | _ => False
      end
  | None => False
  end.
Proof. by vm_compute. Qed.
(** too little fuel shows *)
Example ex_fuel : asks 5 (rb_iter_next ex_rb) (rb_iter_next_back ex_rb) [(Fwd, ICount)] (rb_iter ex_rb) = Err OutOfFuel.
Proof. by vm_compute. Qed.
