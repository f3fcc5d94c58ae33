(** * The fuzzing harness: C55 *)
From Verif Require Import FuzzModel FuzzMain FuzzTrees.

(** A run of a fuzz target takes any list of actions, each with the number its random generator yields, and starts with the new map and no
    keys. [Ret () (t, ks)] says that the whole run ends without any assertion, [unwrap] or index failing, [t] being the map and
    [ks] the harness's vector of keys at the end. *)
Section props.
  Context `{Profile} {K V : Type} `{EqDecision V}.
  (** RedBlackTree; the target also asserts [is_valid_red_black_tree] after every action *)
  Theorem C55_rb_fuzz (cmp : K → K → comparison) ms (d : K * V) (acts : list (fz_action K V * N)) :
    OrdLaws cmp → (0 < ms)%nat → N.of_nat ms + 1 < W32 →
    ∃ t ks, fuzz_rb cmp acts (rb_new ms d, []) = Ret () (t, ks) ∧ rb_len t = lengthN ks ∧ ForallOrdPairs (λ a b, cmp a b ≠ Eq) ks ∧
      ∀ k, (∃ v, rb_get cmp t k = Val (Some v)) ↔ ∃ k', k' ∈ ks ∧ cmp k' k = Eq.
  Proof using Type. exact (λ HO H0 Hw, rb_fuzz_fact ms d H0 Hw cmp HO acts). Qed.
  Theorem C55_av_fuzz (pcmp : K → K → option comparison) ms (d : K * V) (acts : list (fz_action K V * N)) :
    OrdLaws (po_cmp pcmp) → (0 < ms)%nat → N.of_nat ms + 1 < W32 →
    ∃ t ks, fuzz_avl pcmp acts (av_new ms d, []) = Ret () (t, ks) ∧ av_len t = lengthN ks ∧ ForallOrdPairs (λ a b, po_cmp pcmp a b ≠ Eq) ks ∧
      ∀ k, (∃ v, av_get pcmp t k = Val (Some v)) ↔ ∃ k', k' ∈ ks ∧ po_cmp pcmp k' k = Eq.
  Proof using Type. exact (λ HO H0 Hw, av_fuzz_fact ms d H0 Hw pcmp HO acts). Qed.
  Theorem C55_ht_fuzz (keq : K → K → bool) hash nb ms (d : K * V) h0 (acts : list (fz_action K V * N)) :
    HashLaws keq hash → ht_new nb ms d = Some h0 → (0 < nb)%nat → N.of_nat ms + 1 < W32 →
    ∃ h ks, fuzz_hash keq hash acts (h0, []) = Ret () (h, ks) ∧ ht_len h = lengthN ks ∧ ForallOrdPairs (λ a b, keq a b = false) ks ∧
      ∀ k, (∃ v, ht_get keq hash h k = Val (Some v)) ↔ ∃ k', k' ∈ ks ∧ keq k' k = true.
  Proof using Type. exact (λ HL Hn Hnb Hw, ht_fuzz_fact keq hash HL nb ms d h0 Hn Hnb Hw acts). Qed.

  (** Critbit: the run succeeds if no upsert meets a full tree *)
  Theorem C55_cb_fuzz nn ms (d : V) t0 (acts : list (fz_action N V * N)) :
    (0 < ms)%nat → N.of_nat nn + 1 < W32 → cb_new nn ms d = Some t0 →
    (∀ k v rnd, (FInsert k v, rnd) ∈ acts → k < W128) →
    (∀ pre v rnd post t ks, acts = pre ++ (FUpsert v, rnd) :: post → fuzz_critbit pre (t0, []) = Ret () (t, ks) → cb_len t < N.of_nat ms) →
    ∃ t ks, fuzz_critbit acts (t0, []) = Ret () (t, ks) ∧ cb_len t = lengthN ks ∧ NoDup ks ∧
      ∀ k, k < W128 → ((∃ v, cb_get t k = Val (Some v)) ↔ k ∈ ks).
  Proof using Type. exact (λ H0 Hw Hn, cb_fuzz_fact nn ms d t0 H0 Hw Hn acts). Qed.
  (** ... and fails otherwise: fill the tree with any distinct keys and upsert another value, whatever key the harness picks *)
  Theorem C55_cb_fuzz_refuted nn ms (d : V) t0 (ks : list N) (v v' : V) rnd :
    (0 < ms)%nat → N.of_nat nn + 1 < W32 → cb_new nn ms d = Some t0 → Forall (λ k, k < W128) ks → NoDup ks → length ks = ms → v ≠ v' →
    ∃ st, fuzz_critbit (map (λ k, (FInsert k v, 0)) ks ++ [(FUpsert v', rnd)]) (t0, []) = Fail Panic st.
  Proof using Type. exact (λ H0 Hw Hn, cb_fuzz_fails nn ms d t0 H0 Hw Hn ks v v' rnd). Qed.
End props.
Print Assumptions C55_rb_fuzz.
Print Assumptions C55_av_fuzz.
Print Assumptions C55_ht_fuzz.
Print Assumptions C55_cb_fuzz.
Print Assumptions C55_cb_fuzz_refuted.

(** ** Concrete cases *)
Local Instance ex_profile : Profile := {| overflow_checks := true |}.
(** Five inserts into maps of capacity 4 (the fourth of a key already there), then an upsert, a replacement, two removals and iterations *)
Definition ex_acts : list (fz_action N N * N) :=
  [(FInsert 5 50, 0); (FInsert 3 30, 0); (FInsert 8 80, 0); (FInsert 3 31, 0); (FUpsert 1, 7); (FInsert 9 90, 0); (FInsert 4 40, 0);
   (FReplace 2, 12); (FIter, 0); (FIterRev, 0); (FRemove, 6); (FIterMut, 0); (FRemove, 1); (FIterMutRev, 0); (FUpsert 6, 3); (FIter, 0)].
Definition fz_end {S A} (o : outcome (S * list N) A) : option (list N) := match o with Ret _ st => Some st.2 | Fail _ _ => None end.
Example ex_rb_fuzz : fz_end (fuzz_rb N.compare ex_acts (rb_new 4 (0, 0), [])) = Some [5; 9].
Proof. by vm_compute. Qed.
Example ex_av_fuzz : fz_end (fuzz_avl (λ a b, Some (N.compare a b)) ex_acts (av_new 4 (0, 0), [])) = Some [5; 9].
Proof. by vm_compute. Qed.
Example ex_ht_fuzz : ∃ h0, ht_new 2 4 (0, 0) = Some h0 ∧ fz_end (fuzz_hash N.eqb (λ k, k) ex_acts (h0, [])) = Some [5; 9].
Proof. eexists. split; [reflexivity|]. by vm_compute. Qed.
(** The critbit run never upserts when full *)
Example ex_cb_fuzz : ∃ t0, cb_new 8 4 0 = Some t0 ∧ fz_end (fuzz_critbit ex_acts (t0, [])) = Some [5; 9].
Proof. eexists. split; [reflexivity|]. by vm_compute. Qed.
Example ex_cb_fuzz_fails : ∃ t0 st, cb_new 4 2 0 = Some t0 ∧
  fuzz_critbit [(FInsert 7 1, 0); (FInsert 9 1, 0); (FUpsert 2, 5)] (t0, []) = Fail Panic st ∧ cb_len st.1 = 2.
Proof. do 2 eexists. split; [reflexivity|]. split; [by vm_compute|]. by vm_compute. Qed.
