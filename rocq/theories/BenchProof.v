(** * The benchmarks (for C69) *)
From Verif Require Import BenchModel FuzzProof HashMain FuzzMain.
From Verif Require Import RBProps AVLProps CritProps FuzzTrees.
From Verif Require Import MapProof.

Lemma keys_to_in n k : k ∈ keys_to n ↔ k < N.of_nat n.
Proof.
  unfold keys_to. rewrite elem_of_list_In, in_map_iff. setoid_rewrite in_seq. split; [intros (x & <- & ?); lia|].
  intros Hk. exists (N.to_nat k). lia.
Qed.
Lemma keys_to_S n : keys_to (S n) = keys_to n ++ [N.of_nat n].
Proof. unfold keys_to. by rewrite seq_S, map_app. Qed.
Lemma keys_to_len n : length (keys_to n) = n.
Proof. unfold keys_to. by rewrite map_length, seq_length. Qed.
Lemma for_each_app {S A B} (xs ys : list A) (f : A → M S B) s bs s' :
  for_each xs f s = Ret bs s' → for_each (xs ++ ys) f s = (cs ← for_each ys f; mret (bs ++ cs)) s'.
Proof.
  revert s bs s'. induction xs as [|x xs IH]; intros s bs s'; cbn [app for_each]; unfold mbind, M_bind, mret, M_ret in *.
  - intros [= <- <-]. by destruct (for_each ys f s).
  - destruct (f x s) as [b s1|] eqn:E; [|done]. destruct (for_each xs f s1) as [cs s2|] eqn:E2; [|done]. intros [= <- <-].
    rewrite (IH _ _ _ E2). by destruct (for_each ys f s2).
Qed.

Section generic.
  Context {S V : Type} `{EqDecision V} (api : nam S N V) (keq : N → N → bool) (cap : N) (up : bool) (Rep : S → (N → option V) → N → Prop).
  Context (dom : N → Prop) (Hd : ∀ k, k < W128 → dom k) (OK : fz_ok api keq dom cap up Rep) (Hkeq : ∀ a b, keq a b = true ↔ a = b).
  Context (Hrem : ∀ s g n k, Rep s g n → k < W128 → g k = None → ∃ s', n_remove api k s = Ret None s' ∧ Rep s' g n).
  Lemma upd_eq (g : N → option V) k o k' : upd keq g k o k' = if decide (k' = k) then o else g k'.
  Proof using Hkeq.
    unfold upd. destruct (keq k k') eqn:E; [apply Hkeq in E; by rewrite decide_True|]. rewrite decide_False; [done|]. intros ->.
    by rewrite (proj2 (Hkeq k k) eq_refl) in E.
  Qed.
  (** [draw] for the keys below [m], [g] for the rest *)
  Definition over (draw : N → V) (m : nat) (g : N → option V) (k : N) : option V := if decide (k < N.of_nat m) then Some (draw k) else g k.
  Lemma over_S draw m g k : upd keq (over draw m g) (N.of_nat m) (Some (draw (N.of_nat m))) k = over draw (1 + m) g k.
  Proof using Hkeq.
    rewrite upd_eq. unfold over. destruct (decide (k = _)) as [->|Hn]; [by rewrite decide_True by lia|].
    destruct (decide (k < N.of_nat m)) as [Hl|Hl]; [by rewrite decide_True by lia|by rewrite decide_False by lia].
  Qed.
  (** The first pass *)
  Lemma fill_new s m draw :
    Rep s (λ _, None) 0 → N.of_nat m ≤ cap → N.of_nat m < W128 →
    ∃ out s', bench_fill api m draw s = Ret out s' ∧ length out = m ∧ Forall is_Some out ∧ Rep s' (over draw m (λ _, None)) (N.of_nat m).
  Proof using Hd OK Hkeq.
    intros HR. induction m as [|m IH]; intros Hc Hw.
    { exists [], s. split_and!; [done|done|by apply Forall_nil|]. eapply (fo_ext _ _ _ _ _ _ OK); [exact HR|]. intros k. unfold over. by rewrite decide_False by lia. }
    destruct IH as (out & s1 & He & Hl & Ho & HR1); [lia|lia|].
    destruct (fo_insert_new _ _ _ _ _ _ OK s1 _ _ (N.of_nat m) (draw (N.of_nat m)) HR1) as (o & s2 & Hi & Hr); [apply Hd; lia|unfold over; by rewrite decide_False by lia|].
    rewrite decide_True in Hr by lia. destruct Hr as [Hs HR2]. exists (out ++ [o]), s2. unfold bench_fill in *. rewrite keys_to_S.
    rewrite (for_each_app _ _ _ _ _ _ He). cbn [for_each]. unfold mbind, M_bind. rewrite Hi. split_and!; [done| | |].
    - rewrite app_length, Hl. simpl. lia.
    - apply Forall_app. split; [done|]. constructor; [done|by apply Forall_nil].
    - replace (N.of_nat (Datatypes.S m)) with (N.of_nat m + 1) by lia. eapply (fo_ext _ _ _ _ _ _ OK); [exact HR2|]. intros k. symmetry. apply over_S.
  Qed.
  (** A later pass: all the keys are there *)
  Lemma fill_old s n m draw g :
    Rep s g n → (∀ k, k < N.of_nat m → is_Some (g k)) → (up = true ∨ n < cap) → N.of_nat m < W128 →
    ∃ out s', bench_fill api m draw s = Ret out s' ∧ length out = m ∧ Forall is_Some out ∧ Rep s' (over draw m g) n.
  Proof using Hd OK Hkeq.
    intros HR. induction m as [|m IH]; intros Hg Hc Hw.
    { exists [], s. split_and!; [done|done|by apply Forall_nil|]. eapply (fo_ext _ _ _ _ _ _ OK); [exact HR|]. intros k. unfold over. by rewrite decide_False by lia. }
    destruct IH as (out & s1 & He & Hl & Ho & HR1); [intros; apply Hg; lia|done|lia|].
    destruct (Hg (N.of_nat m)) as [v0 Hv0]; [lia|].
    destruct (fo_insert_old _ _ _ _ _ _ OK s1 _ _ (N.of_nat m) (draw (N.of_nat m)) v0 HR1) as (o & s2 & Hi & Hr); [apply Hd; lia|unfold over; by rewrite decide_False by lia|].
    assert (up || bool_decide (n < cap) = true) as Hup.
    { destruct Hc as [->|Hc]; [done|]. rewrite bool_decide_eq_true_2 by done. apply orb_true_r. }
    rewrite Hup in Hr. destruct Hr as [Hs HR2]. exists (out ++ [o]), s2. unfold bench_fill in *. rewrite keys_to_S.
    rewrite (for_each_app _ _ _ _ _ _ He). cbn [for_each]. unfold mbind, M_bind. rewrite Hi. split_and!; [done| | |].
    - rewrite app_length, Hl. simpl. lia.
    - apply Forall_app. split; [done|]. constructor; [done|by apply Forall_nil].
    - eapply (fo_ext _ _ _ _ _ _ OK); [exact HR2|]. intros k. symmetry. apply over_S.
  Qed.
  Lemma insert_ok s n draws :
    Rep s (λ _, None) 0 → N.of_nat n ≤ cap → (up = true ∨ N.of_nat n < cap) → N.of_nat n < W128 →
    ∃ out s', bench_insert api n draws s = Ret out s' ∧ length out = length draws ∧ Forall (λ r, length r = n ∧ Forall is_Some r) out ∧
      match last draws with
      | Some draw => Rep s' (over draw n (λ _, None)) (N.of_nat n)
      | None => Rep s' (λ _, None) 0
      end.
  Proof using Hd OK Hkeq.
    intros HR Hc Hup Hw. induction draws as [|draw draws IH] using rev_ind; [exists [], s; by split_and!|].
    destruct IH as (out & s1 & He & Hl & Ho & HR1).
    assert (∃ r s2, bench_fill api n draw s1 = Ret r s2 ∧ length r = n ∧ Forall is_Some r ∧ Rep s2 (over draw n (λ _, None)) (N.of_nat n))
      as (r & s2 & Hf & Hrl & Hr & HR2).
    { destruct (last draws) as [d0|]; [|by apply fill_new]. destruct (fill_old s1 _ n draw _ HR1) as (r & s2 & ? & ? & ? & HR2).
      - intros k Hk. unfold over. rewrite decide_True by done. by eauto.
      - done.
      - done.
      - exists r, s2. split_and!; [done..|]. eapply (fo_ext _ _ _ _ _ _ OK); [exact HR2|]. intros k. unfold over. by destruct (decide _). }
    exists (out ++ [r]), s2. unfold bench_insert in *. rewrite (for_each_app _ _ _ _ _ _ He). cbn [for_each]. unfold mbind, M_bind.
    rewrite Hf, last_snoc. split_and!; [done| | |done].
    - rewrite !app_length, Hl. done.
    - apply Forall_app. split; [done|]. constructor; [done|by apply Forall_nil].
  Qed.
  Lemma lookups_ok s g n ks : Rep s g n → Forall (λ k, k < W128) ks → for_each ks (λ v, gets (λ s, n_get api s v)) s = Ret (map g ks) s.
  Proof using Hd OK.
    intros HR. induction 1 as [|k ks Hk _ IH]; [done|]. cbn [for_each map]. unfold mbind, M_bind, gets. rewrite (fo_get _ _ _ _ _ _ OK _ _ _ _ HR (Hd _ Hk)).
    unfold gets in IH. by rewrite IH.
  Qed.
  Lemma passes_same {B} s (f : M S B) b m iters : f s = Ret b s → for_each (seq m iters) (λ _, f) s = Ret (replicate iters b) s.
  Proof using Type. intros Hf. revert m. induction iters as [|i IH]; intros m; [done|]. cbn [seq for_each replicate]. unfold mbind, M_bind. by rewrite Hf, IH. Qed.
  Lemma keys_dom n : N.of_nat n < W128 → Forall (λ k, k < W128) (keys_to n).
  Proof using Type. intros Hw. apply Forall_forall. intros k Hk%keys_to_in. lia. Qed.
  Lemma over_keys n (draw : N → V) (l : list N) : (∀ k, k ∈ l → k < N.of_nat n) → map (over draw n (λ _, None)) l = map (λ k, Some (draw k)) l.
  Proof using Type.
    intros Hl. apply map_ext_in. intros k Hk%elem_of_list_In. unfold over. rewrite decide_True; [done|by apply Hl].
  Qed.
  Lemma lookup_ok s n draw iters :
    Rep s (λ _, None) 0 → N.of_nat n ≤ cap → N.of_nat n < W128 →
    ∃ s', bench_lookup api n draw iters s = Ret (replicate iters (map (λ k, Some (draw k)) (keys_to n))) s'.
  Proof using Hd OK Hkeq.
    intros HR Hc Hw. destruct (fill_new s n draw HR Hc Hw) as (out & s1 & He & _ & _ & HR1). exists s1.
    unfold bench_lookup. unfold mbind, M_bind. rewrite He. apply passes_same. rewrite (lookups_ok _ _ _ _ HR1) by by apply keys_dom.
    rewrite over_keys; [done|]. intros k Hk. by apply keys_to_in.
  Qed.
  (** Removing absent keys *)
  Lemma removes_none s n ks : Rep s (λ _, None) n → Forall (λ k, k < W128) ks → ∃ s', for_each ks (n_remove api) s = Ret (map (λ _, None) ks) s' ∧ Rep s' (λ _, None) n.
  Proof using Hrem.
    intros HR Hk. revert s HR. induction Hk as [|k ks Hk _ IH]; intros s HR; [by exists s|]. cbn [for_each map]. unfold mbind, M_bind.
    destruct (Hrem s _ _ k HR Hk eq_refl) as (s1 & -> & HR1). destruct (IH s1 HR1) as (s2 & -> & HR2). by exists s2.
  Qed.
  Lemma passes_none s n ks m iters : Rep s (λ _, None) n → Forall (λ k, k < W128) ks →
    ∃ s', for_each (seq m iters) (λ _, for_each ks (n_remove api)) s = Ret (replicate iters (map (λ _, None) ks)) s' ∧ Rep s' (λ _, None) n.
  Proof using Hrem.
    intros HR Hk. revert s HR m. induction iters as [|i IH]; intros s HR m; [by exists s|]. cbn [seq for_each replicate]. unfold mbind, M_bind.
    destruct (removes_none s n ks HR Hk) as (s1 & -> & HR1). destruct (IH s1 HR1 (Datatypes.S m)) as (s2 & -> & HR2). by exists s2.
  Qed.
  (** Removing present keys *)
  Lemma removes_some s g n ks (f : N → V) :
    Rep s g n → Forall (λ k, k < W128) ks → NoDup ks → (∀ k, k ∈ ks → g k = Some (f k)) → (length ks ≤ N.to_nat n)%nat →
    ∃ s', for_each ks (n_remove api) s = Ret (map (λ k, Some (f k)) ks) s' ∧
      Rep s' (λ k, if decide (k ∈ ks) then None else g k) (n - lengthN ks).
  Proof using Hd OK Hkeq.
    intros HR Hk. revert s g n HR. induction Hk as [|k ks Hk _ IH]; intros s g n HR Hnd Hg Hl.
    { exists s. split; [done|]. unfold lengthN. cbn [length]. replace (n - N.of_nat 0) with n by lia. eapply (fo_ext _ _ _ _ _ _ OK); [exact HR|]. intros k.
      rewrite decide_False; [done|apply not_elem_of_nil]. }
    apply NoDup_cons in Hnd as [Hni Hnd]. cbn [for_each map]. unfold mbind, M_bind. cbn [length] in Hl.
    destruct (fo_remove _ _ _ _ _ _ OK s g n k (f k) HR (Hd _ Hk)) as (s1 & -> & HR1); [apply Hg; left|].
    destruct (IH s1 _ _ HR1) as (s2 & -> & HR2); [done| |lia|].
    { intros k' Hk'. rewrite upd_eq, decide_False by (intros ->; done). apply Hg. by right. }
    exists s2. split; [done|]. unfold lengthN in *. cbn [length]. replace (n - N.of_nat (Datatypes.S (length ks))) with (n - 1 - N.of_nat (length ks)) by lia.
    eapply (fo_ext _ _ _ _ _ _ OK); [exact HR2|]. intros k'. cbv beta. rewrite upd_eq. destruct (decide (k' ∈ ks)) as [Hi|Hi].
    - by rewrite decide_True by by right.
    - destruct (decide (k' = k)) as [->|Hn]; [by rewrite decide_True by left|]. rewrite decide_False; [done|]. intros [?|?]%elem_of_cons; done.
  Qed.
  Lemma remove_ok s n draw slice iters :
    Rep s (λ _, None) 0 → N.of_nat n ≤ cap → N.of_nat n < W128 → slice ≡ₚ keys_to n →
    ∃ s', bench_remove api n draw slice iters s =
        Ret (match iters with O => [] | Datatypes.S m => map (λ k, Some (draw k)) slice :: replicate m (map (λ _, None) slice) end) s' ∧
      ((0 < iters)%nat → Rep s' (λ _, None) 0).
  Proof using Hd OK Hkeq Hrem.
    intros HR Hc Hw Hp. destruct (fill_new s n draw HR Hc Hw) as (out & s1 & He & _ & _ & HR1). unfold bench_remove, mbind, M_bind. rewrite He.
    destruct iters as [|m]; [exists s1; split; [done|lia]|].
    assert (Forall (λ k, k < W128) slice) as Hsl by (rewrite Hp; by apply keys_dom).
    destruct (removes_some s1 _ _ slice draw HR1 Hsl) as (s2 & Hr & HR2).
    - rewrite Hp. unfold keys_to. apply NoDup_fmap_2; [intros ???; lia|apply NoDup_seq].
    - intros k Hk. rewrite Hp in Hk. unfold over. rewrite decide_True; [done|by apply keys_to_in].
    - rewrite Hp, keys_to_len. lia.
    - cbn [seq for_each]. unfold mbind, M_bind. rewrite Hr. assert (lengthN slice = N.of_nat n) as Hls by (unfold lengthN; by rewrite Hp, keys_to_len).
      destruct (passes_none s2 0 slice 1 m) as (s3 & -> & HR3); [|done|by exists s3].
      rewrite Hls, N.sub_diag in HR2. eapply (fo_ext _ _ _ _ _ _ OK); [exact HR2|]. intros k. cbv beta. unfold over.
      destruct (decide (k ∈ slice)) as [|Hi]; [done|]. rewrite decide_False; [done|]. rewrite <- keys_to_in. by rewrite <- Hp.
  Qed.

  (** All that the theorems say, through the methods *)
  Definition insert_fact (s0 : S) : Prop := ∀ n draws, N.of_nat n ≤ cap → (up = true ∨ N.of_nat n < cap) →
    ∃ out s', bench_insert api n draws s0 = Ret out s' ∧ length out = length draws ∧ Forall (λ r, length r = n ∧ Forall is_Some r) out ∧
      ∀ draw, last draws = Some draw →
        n_len api s' = N.of_nat n ∧ ∀ k, k < W128 → n_get api s' k = Val (if k <? N.of_nat n then Some (draw k) else None).
  Definition lookup_fact (s0 : S) : Prop := ∀ n draw iters, N.of_nat n ≤ cap →
    ∃ s', bench_lookup api n draw iters s0 = Ret (replicate iters (map (λ k, Some (draw k)) (keys_to n))) s'.
  Definition remove_fact (s0 : S) : Prop := ∀ n draw slice iters, N.of_nat n ≤ cap → slice ≡ₚ keys_to n →
    ∃ s', bench_remove api n draw slice iters s0 =
        Ret (match iters with O => [] | Datatypes.S m => map (λ k, Some (draw k)) slice :: replicate m (map (λ _, None) slice) end) s' ∧
      ((0 < iters)%nat → n_len api s' = 0).
  Lemma bench_facts s0 : Rep s0 (λ _, None) 0 → cap < W128 → insert_fact s0 ∧ lookup_fact s0 ∧ remove_fact s0.
  Proof using Hd OK Hkeq Hrem.
    intros HR Hw. split_and!.
    - intros n draws Hc Hup. destruct (insert_ok s0 n draws HR Hc Hup) as (out & s' & He & Hl & Ho & HR'); [lia|]. exists out, s'.
      split_and!; [done..|]. intros draw Hdr. rewrite Hdr in HR'. split; [by apply (fo_len _ _ _ _ _ _ OK _ _ _ HR')|]. intros k Hk.
      rewrite (fo_get _ _ _ _ _ _ OK _ _ _ _ HR' (Hd _ Hk)). unfold over. destruct (decide _) as [E|E]; [apply N.ltb_lt in E|apply N.ltb_nlt in E]; by rewrite E.
    - intros n draw iters Hc. apply lookup_ok; [done|done|lia].
    - intros n draw slice iters Hc Hp. destruct (remove_ok s0 n draw slice iters HR Hc) as (s' & He & HR'); [lia|done|]. exists s'. split; [done|].
      intros Hi. by apply (fo_len _ _ _ _ _ _ OK _ _ _ (HR' Hi)).
  Qed.
End generic.

(** ** Removing an absent key *)
Section trees.
  Context {S V : Type} (api : oapi S N V) (cmp : N → N → comparison) (HO : OrdLaws cmp) (Hcmp : ∀ a b, cmp a b = Eq ↔ a = b) (dom : N → Prop) (cap : N) (up : bool)
    (sp : om_op N V → list (N * V) → res (om_out N V) * list (N * V)) (s0 : S).
  Hypothesis Hsp : ∀ o l, sp o l =
    match o with
    | MInsert k v => if up || bool_decide (lengthN l < cap) then om_spec cmp cap o l else (Val (MBool false), l)
    | _ => om_spec cmp cap o l
    end.
  Hypothesis Hist : ∀ ops, Forall (dom_op dom) ops → (history (om_step api) ops s0).1 = (spec_history sp ops []).1.
  Lemma tr_remove_none s g n k : tr_rep api cmp dom sp s0 s g n → dom k → g k = None →
    ∃ s', n_remove (nam_of_oapi api) k s = Ret None s' ∧ tr_rep api cmp dom sp s0 s' g n.
  Proof using Hsp Hist HO.
    intros (l & Ha & -> & Hg) Hk Hn. destruct (tr_call api dom sp s0 Hist s l (MRemove k) Ha Hk) as [H1 H2]. rewrite Hsp in H1, H2.
    unfold call, om_step, mbind, M_bind in H1, H2. cbn in H1, H2. rewrite Hg in Hn. rewrite Hn in H1. cbn [nam_of_oapi n_remove].
    destruct (a_remove api k s) as [o s'|]; [|done]. cbn in H1, H2. injection H1 as ->. exists s'. split; [done|].
    destruct (tr_inv api cmp HO dom cap up sp s0 Hsp s l Ha) as (Has & _ & _). exists l. split_and!; [|done|done].
    unfold om_get in Hn. destruct (asc_cases cmp HO k l Has) as [(l1 & y & l2 & -> & Hb & Hx & Hab)|(l1 & l2 & -> & Hb & Hab)].
    - rewrite om_find_found in Hn; done.
    - by rewrite om_remove_absent in H2 by done.
  Qed.
  Lemma tr_bench `{EqDecision V} : (∀ k, k < W128 → dom k) → cap < W128 →
    insert_fact (nam_of_oapi api) cap up s0 ∧ lookup_fact (nam_of_oapi api) cap s0 ∧ remove_fact (nam_of_oapi api) cap s0.
  Proof using Hsp Hist HO Hcmp.
    intros Hd Hw. eapply (bench_facts _ (tr_keq cmp) cap up _ dom Hd (tr_ok api cmp HO dom cap up sp s0 Hsp Hist)).
    - intros a b. unfold tr_keq. rewrite bool_decide_eq_true. apply Hcmp.
    - intros. by apply tr_remove_none; [..|apply Hd|].
    - apply tr_start.
    - done.
  Qed.
End trees.

Lemma W32_W128 (n : nat) : N.of_nat n + 1 < W32 → N.of_nat n < W128.
Proof. unfold W32, W128. lia. Qed.
Lemma po_laws : OrdLaws (po_cmp (λ a b, Some (N.compare a b))).
Proof.
  assert (∀ a b, po_cmp (λ a b, Some (N.compare a b)) a b = N.compare a b) as He by (intros; unfold po_cmp; by destruct (_ ?= _)).
  split.
  - intros a b. rewrite !He. apply (cmp_sym _ N_laws).
  - intros a b c. rewrite !He. apply (cmp_trans _ N_laws).
  - intros a b c. rewrite !He. apply (cmp_eq _ N_laws).
Qed.
Lemma po_eq a b : po_cmp (λ a b, Some (N.compare a b)) a b = Eq ↔ a = b.
Proof. rewrite <- N.compare_eq_iff. unfold po_cmp. by destruct (_ ?= _). Qed.
Section main.
  Context `{Profile} {V : Type} {HV : EqDecision V}.
  Lemma rb_bench ms (d : N * V) : (0 < ms)%nat → N.of_nat ms + 1 < W32 →
    let api := nam_of_oapi (rb_api N.compare) in
    insert_fact api (N.of_nat ms) true (rb_new ms d) ∧ lookup_fact api (N.of_nat ms) (rb_new ms d) ∧ remove_fact api (N.of_nat ms) (rb_new ms d).
  Proof using HV.
    intros H0 Hw api. apply (tr_bench (rb_api N.compare) N.compare N_laws N.compare_eq_iff (λ _, True) (N.of_nat ms) true (om_spec N.compare (N.of_nat ms)) (rb_new ms d)).
    - by intros [].
    - intros ops _. by apply (C19_rb_is_map N.compare N_laws ms d H0 Hw).
    - exact _.
    - done.
    - by apply W32_W128.
  Qed.
  Lemma av_bench ms (d : N * V) : (0 < ms)%nat → N.of_nat ms + 1 < W32 →
    let api := nam_of_oapi (av_api (λ a b, Some (N.compare a b))) in
    insert_fact api (N.of_nat ms) true (av_new ms d) ∧ lookup_fact api (N.of_nat ms) (av_new ms d) ∧ remove_fact api (N.of_nat ms) (av_new ms d).
  Proof using HV.
    intros H0 Hw api. apply (tr_bench (av_api (λ a b, Some (N.compare a b))) (po_cmp (λ a b, Some (N.compare a b))) po_laws po_eq (λ _, True) (N.of_nat ms) true (om_spec (po_cmp (λ a b, Some (N.compare a b))) (N.of_nat ms)) (av_new ms d)).
    - by intros [].
    - intros ops _. by apply (C27_av_is_map (λ a b, Some (N.compare a b)) po_laws ms d H0 Hw).
    - exact _.
    - done.
    - by apply W32_W128.
  Qed.
  Lemma cb_bench nn ms (d : V) t0 : (0 < ms)%nat → N.of_nat nn + 1 < W32 → cb_new nn ms d = Some t0 → N.of_nat ms < W128 →
    let api := nam_of_oapi cb_api in insert_fact api (N.of_nat ms) false t0 ∧ lookup_fact api (N.of_nat ms) t0 ∧ remove_fact api (N.of_nat ms) t0.
  Proof using HV.
    intros H0 Hw Hn Hm api. apply (tr_bench cb_api N.compare N_laws N.compare_eq_iff (λ k, k < W128) (N.of_nat ms) false (cb_spec (N.of_nat ms)) t0).
    - apply cb_sp.
    - by eapply cb_hist.
    - exact _.
    - done.
    - done.
  Qed.
  Lemma Neqb_laws (hash : N → N) : HashLaws N.eqb hash.
  Proof using Type. clear. split. - apply N.eqb_refl. - apply N.eqb_sym. - intros a b c. rewrite !N.eqb_eq. congruence. - intros a b. rewrite N.eqb_eq. congruence. Qed.
  Lemma ht_bench (hash : N → N) nb ms (d : N * V) h0 : (0 < nb)%nat → N.of_nat ms + 1 < W32 → ht_new nb ms d = Some h0 →
    let api := ht_nam N.eqb hash in insert_fact api (N.of_nat ms) true h0 ∧ lookup_fact api (N.of_nat ms) h0 ∧ remove_fact api (N.of_nat ms) h0.
  Proof using HV.
    intros Hnb Hw Hn api. eapply (bench_facts _ N.eqb (N.of_nat ms) true _ (λ _, True) (λ _ _, I) (hs_ok N.eqb hash (Neqb_laws hash) (N.of_nat ms))).
    - apply N.eqb_eq.
    - intros h g n k (E & Hi & -> & Hg) _ Hk. destruct (ht_step_ok N.eqb hash (Neqb_laws hash) _ (HRemove k) h E Hi) as (E' & Hi' & Hs & _).
      rewrite Hg in Hk. unfold call, ht_step, mbind, M_bind in Hs, Hi'. cbn [ht_nam n_remove].
      destruct (ht_remove N.eqb hash k h) as [o h1|]; [|by inversion Hs]. cbn in Hs, Hi'. inversion Hs as [| | |? ? | | | | | | | | | | |]; subst.
      rewrite Hk. exists h1. split; [done|]. exists E'. match goal with Hq : _ = E'.*2 |- _ => rename Hq into HE end.
      assert (hm_remove N.eqb k E.*2 = E.*2) as Hr.
      { assert (Forall (λ x, N.eqb x.1 k = false) E.*2) as Hf by (apply hm_find_None; unfold hm_get in Hk; by destruct (hm_find _ _ _)).
        unfold hm_remove. clear -Hf. induction Hf as [|x l Hx _ IH]; [done|]. cbn. by rewrite Hx, IH. }
      rewrite Hr in HE. split_and!; [done| |].
      + by rewrite <- (lengthN_fmap snd E'), <- HE, lengthN_fmap.
      + intros k'. by rewrite <- HE.
    - exists []. split_and!; [by eapply ht_new_ok|done|done].
    - by apply W32_W128.
  Qed.
End main.
