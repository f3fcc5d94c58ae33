(** * C76: what the fuzzing harness and the randomised test can detect, of any implementation of a map

    [nam S K V] (FuzzModel.v): the methods of the trait NodeAllocatorMap, here of any map, right or wrong. *)
From Verif Require Import FuzzModel TestModel DetectSpec DetectProof DetectSim MapProof.

Section fuzz.
  Context {S K V : Type} `{EqDecision V} (api : nam S K V).
  (** fuzz/src/lib.rs: an action passes exactly if [get] confirms it. [s], [ks]: the map and the harness's keys before it, [s'], [ks'] after it *)
  Theorem C76_fuzz_action (s : S) (ks : list K) rnd s' ks' :
    let picked k := ks !! N.to_nat (rnd mod lengthN ks) = Some k in
    let no_keys := ks = [] ∧ s' = s ∧ ks' = [] in
    (∀ k v, perform_action api (FInsert k v) rnd (s, ks) = Ret () (s', ks') ↔
      (∃ v0, n_get api s k = Val (Some v0) ∧ s' = s ∧ ks' = ks) ∨
      (n_get api s k = Val None ∧ ∃ o, n_insert api k v s = Ret o s' ∧
        match o with None => ks' = ks | Some _ => ks' = ks ++ [k] ∧ n_get api s' k = Val (Some v) end)) ∧
    (∀ v, perform_action api (FUpsert v) rnd (s, ks) = Ret () (s', ks') ↔
      no_keys ∨ ∃ k o, picked k ∧ n_insert api k v s = Ret o s' ∧ n_get api s' k = Val (Some v) ∧ ks' = ks) ∧
    (∀ v, perform_action api (FReplace v) rnd (s, ks) = Ret () (s', ks') ↔
      no_keys ∨ ∃ k v0, picked k ∧ n_get_mut api k (λ _, v) s = Ret (Some v0) s' ∧ n_get api s' k = Val (Some v) ∧ ks' = ks) ∧
    (perform_action api FRemove rnd (s, ks) = Ret () (s', ks') ↔
      no_keys ∨ ∃ k v, picked k ∧ n_get api s k = Val (Some v) ∧ n_remove api k s = Ret (Some v) s' ∧
        ks' = swap_remove (N.to_nat (rnd mod lengthN ks)) ks).
  Proof.
    cbv zeta. split_and!; [intros k v; apply insert_iff|intros v; apply upsert_iff|intros v; apply replace_iff|apply remove_iff].
  Qed.
  (** An iteration passes exactly if it ends within capacity + 1 calls and, for the shared iterators, [get] confirms every pair seen before the first [None] *)
  Theorem C76_fuzz_iter (s : S) (ks : list K) rnd s' ks' :
    let calls := N.to_nat (n_capacity api s + 1) in
    let iter e := s' = s ∧ ks' = ks ∧ ∃ xs rest, n_iter api s (replicate calls e) = Val (map Some xs ++ None :: rest) ∧
      ∀ kv, kv ∈ xs → n_get api s kv.1 = Val (Some kv.2) in
    let iter_mut e := ks' = ks ∧ ∃ xs rest, n_iter_mut api (replicate calls (e, λ v, v)) s = Ret (map Some xs ++ None :: rest) s' in
    let passes a := perform_action api a rnd (s, ks) = Ret () (s', ks') in
    (passes FIter ↔ iter Fwd) ∧ (passes FIterRev ↔ iter Bwd) ∧ (passes FIterMut ↔ iter_mut Fwd) ∧ (passes FIterMutRev ↔ iter_mut Bwd).
  Proof. cbv zeta. split_and!; [apply iter_iff|apply iter_iff|apply iter_mut_iff|apply iter_mut_iff]. Qed.
  (** A run of a target passes exactly if every action does and the target's own assertion holds after each *)
  Theorem C76_fuzz_run (check : S → res bool) a rnd acts st st' :
    fz_target api check ((a, rnd) :: acts) st = Ret () st' ↔
    ∃ st1, perform_action api a rnd st = Ret () st1 ∧ check st1.1 = Val true ∧ fz_target api check acts st1 = Ret () st'.
  Proof. apply run_iff. Qed.
End fuzz.
Print Assumptions C76_fuzz_action.
Print Assumptions C76_fuzz_iter.
Print Assumptions C76_fuzz_run.

(** "A map that passes every run of the harness removes what it is told to remove, and its iterators yield what is in it" is false: the map of which [remove]
    only reads and whose iterators are always empty passes every run *)
Theorem C76_fuzz_refuted {K V : Type} `{EqDecision V} (cmp : K → K → comparison) : OrdLaws cmp →
  let api := forgetless (V:=V) cmp in
  (∀ acts, ∃ st, fz_target api (λ _, Val true) acts ([], []) = Ret () st) ∧
  (∀ k l, n_remove api k l = Ret (om_get cmp k l) l) ∧ (∀ l script, n_iter api l script = Val (replicate (length script) None)).
Proof.
  intros HO api. split; [|done]. intros acts. apply (forgetless_run cmp HO). intros k Hk. by inversion Hk.
Qed.
Print Assumptions C76_fuzz_refuted.

(** tests/test.rs, the assertions about the ordered maps, for any map: [t_same] (132-146) compares as far as the map's iterator goes, forwards and backwards;
    [t_consumed] (194-213) says that an iterator yields exactly [len] entries from either side; [t_double_ended] (165-193) and [t_double_ended_mut] (215-250)
    that taken from both sides the entries are those of the BTreeMap, all of them *)
Theorem C76_simulate_asserts `{Profile} {S K V : Type} `{EqDecision V} (api : nam S K V) (cmp : K → K → comparison) (R : rng K V) (st : sim S K V) (m : list (K * V)) st' :
  let iter script := n_iter api (m_tree st) script in
  let n := N.to_nat (n_len api (m_tree st)) in
  let exactly (l : list (option (K * V))) := Forall is_Some (take n l) ∧ Forall (λ o, o = None) (drop n l) in
  (* the random place where the test changes from the front to the back *)
  let b := N.to_nat (1 + r_num R (m_draws st) mod (lengthN m - 2)) in
  let ends b := replicate b Fwd ++ replicate (length m - b) Bwd ++ [Fwd; Bwd; Fwd; Bwd] in
  let all_of_m (l : list (option (K * V))) :=
    Forall2 (λ a x, ∃ y, a = Some y ∧ cmp y.1 x.1 = Eq ∧ y.2 = x.2) (take (length m) l) (take b m ++ rev (drop b m)) ∧
    Forall (λ o, o = None) (drop (length m) l) in
  (* the random values written *)
  let new := (λ i _, r_val R (m_draws st + 1 + N.of_nat i)) <$> seq 0 (length m + 4) in
  (t_same api cmp true m st = Ret () st' ↔
    st' = st ∧ ∃ l l', iter (replicate (length m) Fwd) = Val l ∧ agree cmp m l ∧ iter (replicate (length m) Bwd) = Val l' ∧ agree cmp (rev m) l') ∧
  (t_consumed api st = Ret () st' ↔
    st' = st ∧ ∃ l l', iter (replicate n Fwd ++ [Fwd; Bwd; Fwd; Bwd]) = Val l ∧ exactly l ∧ iter (replicate n Bwd ++ [Bwd; Fwd; Bwd; Fwd]) = Val l' ∧ exactly l') ∧
  (t_double_ended api cmp R m st = Ret () st' ↔
    (2 < length m)%nat ∧ st' = set_draws (m_draws st + 1) st ∧ ∃ l, iter (ends b) = Val l ∧ all_of_m l) ∧
  (t_double_ended_mut api cmp R m st = Ret () st' ↔
    (2 < length m)%nat ∧ ∃ l t, n_iter_mut api (zip (ends b) new) (m_tree st) = Ret l t ∧ st' = set_draws (m_draws st + 1 + lengthN m) (set_tree t st) ∧
      all_of_m (no_index l)).
Proof. cbv zeta. split_and!; [apply t_same_iff|apply t_consumed_iff|apply t_double_ended_iff|apply t_double_ended_mut_iff]. Qed.
Print Assumptions C76_simulate_asserts.

(** "A map that passes the test of HashTable stores what is put into it" is false: a map that keeps nothing but a number passes, for every outcome of the
    random choices *)
Theorem C76_simulate_ht_refuted `{Profile} {K V : Type} `{EqDecision V} (cmp : K → K → comparison) (R : rng K V) (ms : nat) (v0 : V) :
  (∀ n l, length (r_shuffle R n l) = length l) →
  ∃ st, simulate (counter (K:=K) (N.of_nat ms) v0) cmp R ms false (sim_start 0) = Ret () st.
Proof. apply counter_passes. Qed.
Print Assumptions C76_simulate_ht_refuted.

(** No method of the map but [insert], [remove], [get_mut], [len], [capacity] and the iterators is called: with any other [get] the test gives the same *)
Theorem C76_simulate_no_get `{Profile} {S K V : Type} `{EqDecision V} (api : nam S K V) (cmp : K → K → comparison) (R : rng K V) (ms : nat) (sorted : bool) (get' : S → K → res (option V)) (st : sim S K V) :
  let api' := {| n_insert := n_insert api; n_remove := n_remove api; n_get := get'; n_get_mut := n_get_mut api; n_len := n_len api;
    n_capacity := n_capacity api; n_iter := n_iter api; n_iter_mut := n_iter_mut api |} in
  simulate api' cmp R ms sorted st = simulate api cmp R ms sorted st.
Proof. done. Qed.
Print Assumptions C76_simulate_no_get.

(** ** Cases *)
Local Instance ex_profile : Profile := {| overflow_checks := true |}.
(** insert 1, insert 2, iterate, remove one of them: passes, and both are still there *)
Definition ex_acts : list (fz_action N N * N) := [(FInsert 1 10, 0); (FInsert 2 20, 0); (FIter, 0); (FRemove, 0); (FInsert 1 11, 0); (FReplace 7, 0)].
Example ex_C76_fuzz :
  fz_target (forgetless N.compare) (λ _, Val true) ex_acts ([], []) = Ret () ([(1, 10); (2, 7)], [2]) ∧
  (* a map whose insert stores the value 0 is found out *)
  let bad := {| n_insert := λ k _ l, Ret (Some 0) (om_insert N.compare k 0 l); n_remove := n_remove (forgetless N.compare);
    n_get := n_get (forgetless N.compare); n_get_mut := n_get_mut (forgetless N.compare); n_len := λ _, 0; n_capacity := λ _, 0;
    n_iter := n_iter (forgetless N.compare); n_iter_mut := n_iter_mut (forgetless N.compare) |} in
  fz_target bad (λ _, Val true) ex_acts ([], []) = Fail Panic ([(1, 0)], [1]).
Proof. by vm_compute. Qed.
(** the number passes the test of HashTable, but not that of the ordered maps *)
Definition ex_rng : rng N N := {| r_key := λ n, 7 * n; r_val := λ n, n; r_third := λ n, if n mod 3 =? 0 then Low else if n mod 3 =? 1 then Mid else High;
  r_num := λ n, n * n; r_shuffle := λ _ l, rev l |}.
Example ex_C76_simulate :
  match simulate (counter (K:=N) 8 0) N.compare ex_rng 8 false (sim_start 0) with Ret _ st => m_tree st = m_s st ∧ 0 < m_s st | Fail _ _ => False end ∧
  match simulate (counter (K:=N) 8 0) N.compare ex_rng 8 true (sim_start 0) with Ret _ _ => False | Fail e _ => e = Panic end.
Proof. by vm_compute. Qed.
