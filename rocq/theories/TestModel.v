(** * Model of the repository's randomised integration test, tests/test.rs

    [simulate] drives a map through the trait NodeAllocatorMap next to a [std::collections::BTreeMap] and asserts that the two agree. Whether
    an assertion can fail is C63. [BTreeMap] is the ordered map of MapSpec.v without a capacity (trusted, it is std's). Console output is not
    modelled. *)
From Verif Require Export FuzzModel MapSpec.

(** [rng.gen::<f64>()] is only compared with 0.33 and 0.66 *)
Inductive third := Low | Mid | High.
(** The random number generator, any: what the [n]-th draw of the run gives, as a key, as a value, as a float in [0, 1), as a number (reduced
    to the range asked for), as a shuffle of a vector. *)
Record rng (K V : Type) := Rng {
  r_key : N → K; r_val : N → V; r_third : N → third; r_num : N → N; r_shuffle : N → list K → list K }.
Global Arguments r_key {K V}.
Global Arguments r_val {K V}.
Global Arguments r_third {K V}.
Global Arguments r_num {K V}.
Global Arguments r_shuffle {K V}.

(** The test's variables: the map under test, the draws made so far, [keys], the BTreeMap [map] and the count [s] *)
Record sim (S K V : Type) := Sim { m_tree : S; m_draws : N; m_keys : list K; m_map : list (K * V); m_s : N }.
Global Arguments Sim {S K V}.
Global Arguments m_tree {S K V}.
Global Arguments m_draws {S K V}.
Global Arguments m_keys {S K V}.
Global Arguments m_map {S K V}.
Global Arguments m_s {S K V}.

(** [for _ in 0..n { body }] *)
Fixpoint times {S} (n : nat) (body : M S ()) : M S () := match n with O => mret () | Datatypes.S n => body;; times n body end.
Definition is_some {A} (o : option A) : bool := match o with Some _ => true | None => false end.

Section simulate.
  Context `{Profile} {S K V : Type} `{EqDecision V} (api : nam S K V) (cmp : K → K → comparison) (R : rng K V).
  Notation Ms := (M (sim S K V)).
  Definition set_tree t (st : sim S K V) : sim S K V := Sim t (m_draws st) (m_keys st) (m_map st) (m_s st).
  Definition set_draws n (st : sim S K V) : sim S K V := Sim (m_tree st) n (m_keys st) (m_map st) (m_s st).
  Definition set_keys ks (st : sim S K V) : sim S K V := Sim (m_tree st) (m_draws st) ks (m_map st) (m_s st).
  Definition set_map m (st : sim S K V) : sim S K V := Sim (m_tree st) (m_draws st) (m_keys st) m (m_s st).
  Definition set_s n (st : sim S K V) : sim S K V := Sim (m_tree st) (m_draws st) (m_keys st) (m_map st) n.
  Definition on {A} (m : M S A) : Ms A := zoom m_tree set_tree m.

  (** One draw *)
  Definition draw {A} (f : N → A) : Ms A := st ← mget; modify (set_draws (m_draws st + 1));; mret (f (m_draws st)).
  (** [rng.gen_range(low, high)] of rand 0.7 panics unless [low < high] *)
  Definition gen_range (low high : N) : Ms N :=
    r ← draw (r_num R);
    if decide (low < high) then mret (low + r mod (high - low)) else mfail Panic.

  (** test.rs:58-66, the body of the loop that fills the map *)
  Definition t_fill : Ms () :=
    k ← draw (r_key R); v ← draw (r_val R);
    o ← on (n_insert api k v); massert (is_some o);;
    modify (λ st, set_s (m_s st + 1) st);;
    st ← mget; massert (bool_decide (m_s st = n_len api (m_tree st)));;
    modify (λ st, set_map (om_insert cmp k v (m_map st)) st);;
    modify (λ st, set_keys (m_keys st ++ [k]) st).
  (** test.rs:75-79, the loop that empties it *)
  Fixpoint t_empty (ks : list K) : Ms () :=
    match ks with
    | [] => mret ()
    | k :: ks =>
        o ← on (n_remove api k); massert (is_some o);;
        st ← mget; s ← lift (u64_sub (m_s st) 1); modify (set_s s);;
        modify (λ st, set_map (om_remove cmp k (m_map st)) st);;
        t_empty ks
    end.
  (** test.rs:94-100 *)
  Definition t_insert : Ms () :=
    st ← mget; massert (bool_decide (n_len api (m_tree st) < n_capacity api (m_tree st)));;
    k ← draw (r_key R); v ← draw (r_val R);
    o ← on (n_insert api k v); massert (is_some o);;
    modify (λ st, set_s (m_s st + 1) st);;
    modify (λ st, set_map (om_insert cmp k v (m_map st)) st);;
    modify (λ st, set_keys (m_keys st ++ [k]) st).
  (** [assert!(!keys.is_empty()); let j = rng.gen_range(0, keys.len()); let key = keys[j];] *)
  Definition t_pick : Ms (nat * K) :=
    st ← mget; massert (bool_decide (m_keys st ≠ []));;
    j ← gen_range 0 (lengthN (m_keys st));
    k ← lift (unwrap (m_keys st !! N.to_nat j));
    mret (N.to_nat j, k).
  (** test.rs:108-115 *)
  Definition t_remove : Ms () :=
    jk ← t_pick;
    modify (λ st, set_keys (swap_remove jk.1 (m_keys st)) st);;
    o ← on (n_remove api jk.2); massert (is_some o);;
    modify (λ st, set_map (om_remove cmp jk.2 (m_map st)) st);;
    st ← mget; s ← lift (u64_sub (m_s st) 1); modify (set_s s).
  (** test.rs:123-128 *)
  Definition t_update : Ms () :=
    jk ← t_pick; v ← draw (r_val R);
    o ← on (n_get_mut api jk.2 (λ _, v)); lift (unwrap o);;
    modify (λ st, set_map (om_insert cmp jk.2 v (m_map st)) st).
  (** test.rs:85-130, one of the hundred rounds *)
  Definition t_round : Ms () :=
    st ← mget; massert (bool_decide (m_s st = n_len api (m_tree st)));;
    sample ← draw (r_third R);
    let len := n_len api (m_tree st) in
    match sample with
    | Low =>
        remaining_slots ← lift (u64_sub (n_capacity api (m_tree st)) len);
        if decide (remaining_slots = 0) then mret ()
        else num_samples ← gen_range 0 remaining_slots; times (N.to_nat num_samples) t_insert
    | Mid => if decide (len < 2) then mret () else num_samples ← gen_range 0 (len / 2); times (N.to_nat num_samples) t_remove
    | High => if decide (len = 0) then mret () else num_samples ← gen_range 0 len; times (N.to_nat num_samples) t_update
    end.

  (** [assert!( *k1 == *k2); assert!( *v1 == *v2)] *)
  Definition same_pair (x y : K * V) : bool := bool_decide (cmp x.1 y.1 = Eq) && bool_decide (x.2 = y.2).
  (** [for ((k1, v1), (k2, v2)) in m.zip(l) { assert.. }]: a [zip] ends where the shorter of the two does *)
  Fixpoint zip_same (m : list (K * V)) (l : list (option (K * V))) : bool :=
    match m, l with x :: m, Some y :: l => same_pair x y && zip_same m l | _, _ => true end.
  (** [itertools::sorted], by key: the keys are different, so the values do not matter *)
  Fixpoint sort_in (x : K * V) (l : list (K * V)) : list (K * V) :=
    match l with [] => [x] | y :: l => match cmp x.1 y.1 with Gt => y :: sort_in x l | _ => x :: y :: l end end.
  Definition sorted (l : list (K * V)) : list (K * V) := foldr sort_in [] l.
  (** test.rs:132-146 and, with [new_map] for [map], 155-163, 252-255, 265-279 *)
  Definition t_same (expect_sorted : bool) (m : list (K * V)) : Ms () :=
    st ← mget;
    if expect_sorted then
      l ← lift (n_iter api (m_tree st) (replicate (length m) Fwd)); massert (zip_same m l);;
      l ← lift (n_iter api (m_tree st) (replicate (length m) Bwd)); massert (zip_same (rev m) l)
    else
      l ← lift (n_iter api (m_tree st) (replicate (fz_calls api (m_tree st)) Fwd)); xs ← lift (until_none l);
      massert (zip_same m (map Some (sorted xs))).

  (** The random values the next [n] calls of an [iter_mut] would write *)
  Definition new_values (d : N) (n : nat) : list (V → V) := map (λ (i : nat) (_ : V), r_val R (d + N.of_nat i)) (seq 0 n).
  (** [for (k, v) in tree.iter_mut() { let w = ..; *v = w; new_map.insert( *k, w) }]: the pairs [new_map] gets *)
  Fixpoint write_map (d : N) (xs : list (N * (K * V))) (m : list (K * V)) : list (K * V) :=
    match xs with [] => m | x :: xs => write_map (d + 1) xs (om_insert cmp x.2.1 (r_val R d) m) end.
  (** test.rs:148-153 and, backwards, 258-263 *)
  Definition t_rewrite (e : fb) : Ms (list (K * V)) :=
    st ← mget;
    l ← on (n_iter_mut api (map (λ f, (e, f)) (new_values (m_draws st) (fz_calls api (m_tree st)))));
    xs ← lift (until_none l);
    modify (λ st, set_draws (m_draws st + lengthN xs) st);;
    mret (write_map (m_draws st) xs []).

  (** [assert!(a.is_some() && b.is_some()); assert_eq!(a, b);] for every [a] and [b] *)
  Fixpoint all_same (l l' : list (option (K * V))) : bool :=
    match l, l' with
    | [], [] => true
    | Some x :: l, Some y :: l' => same_pair x y && all_same l l'
    | _, _ => false
    end.
  Definition all_none {A} (l : list (option A)) : bool := forallb (λ o, negb (is_some o)) l.
  (** [for _ in 0..b { next } for _ in b..n { next_back }] and then both twice *)
  Definition de_script (b n : nat) : list fb := replicate b Fwd ++ replicate (n - b) Bwd ++ [Fwd; Bwd; Fwd; Bwd].
  (** What is asserted about the answers of the map [l] and of the BTreeMap [l']: to the calls of the loops and to the last four *)
  Definition de_same (b n : nat) (l l' : list (option (K * V))) : bool :=
    let c := (b + (n - b))%nat in all_same (take c l) (take c l') && all_none (drop c l) && all_none (drop c l').
  (** test.rs:165-193 *)
  Definition t_double_ended (m : list (K * V)) : Ms () :=
    st ← mget;
    hi ← lift (u64_sub (lengthN m) 1); b ← gen_range 1 hi;
    let script := de_script (N.to_nat b) (length m) in
    l ← lift (n_iter api (m_tree st) script);
    massert (de_same (N.to_nat b) (length m) l (de_spec script m)).
  (** test.rs:194-213 *)
  Definition t_consumed : Ms () :=
    st ← mget;
    let n := N.to_nat (n_len api (m_tree st)) in
    l ← lift (n_iter api (m_tree st) (replicate n Fwd ++ [Fwd; Bwd; Fwd; Bwd]));
    massert (forallb is_some (take n l) && all_none (drop n l));;
    l ← lift (n_iter api (m_tree st) (replicate n Bwd ++ [Bwd; Fwd; Bwd; Fwd]));
    massert (forallb is_some (take n l) && all_none (drop n l)).
  (** test.rs:215-250. The BTreeMap is not used afterwards. *)
  Definition t_double_ended_mut (m : list (K * V)) : Ms () :=
    hi ← lift (u64_sub (lengthN m) 1); b ← gen_range 1 hi;
    st ← mget;
    let script := zip (de_script (N.to_nat b) (length m)) (new_values (m_draws st) (N.to_nat b + (length m - N.to_nat b) + 4)) in
    l ← on (n_iter_mut api script);
    modify (λ st, set_draws (m_draws st + lengthN m) st);;
    massert (de_same (N.to_nat b) (length m) (no_index l) (de_mut_spec (λ f x, (x.1, f x.2)) script m).1).

  (** test.rs:40-282 [simulate], from the fresh map on; [ms] is MAX_SIZE *)
  Definition simulate (ms : nat) (expect_sorted : bool) : Ms () :=
    times ms t_fill;;
    k ← draw (r_key R); v ← draw (r_val R);
    o ← on (n_insert api k v); massert (negb (is_some o));;
    rand_keys ← draw (r_shuffle R); st ← mget;
    t_empty (rand_keys (m_keys st));;
    st ← mget; massert (bool_decide (n_len api (m_tree st) = 0));;
    modify (set_keys []);;
    times 100 t_round;;
    st ← mget; t_same expect_sorted (m_map st);;
    new_map ← t_rewrite Fwd; t_same expect_sorted new_map;;
    (if expect_sorted then t_double_ended new_map;; t_consumed;; t_double_ended_mut new_map else mret ());;
    new_map ← t_rewrite Bwd; t_same expect_sorted new_map.
  (** The start: [let mut keys = vec![]; let mut map = BTreeMap::new(); let mut s = 0;] *)
  Definition sim_start (t0 : S) : sim S K V := Sim t0 0 [] [] 0.
End simulate.

(** The four tests (test.rs:284-308) with their constants as parameters *)
Section tests.
  Context `{Profile} {K V : Type} `{EqDecision V}.
  Definition test_simulate_rb (cmp : K → K → comparison) (R : rng K V) (ms : nat) (d : K * V) : outcome (sim (rbt K V) K V) () :=
    simulate (nam_of_oapi (rb_api cmp)) cmp R ms true (sim_start (rb_new ms d)).
  Definition test_simulate_av (pcmp : K → K → option comparison) (R : rng K V) (ms : nat) (d : K * V) : outcome (sim (avlt K V) K V) () :=
    simulate (nam_of_oapi (av_api pcmp)) (po_cmp pcmp) R ms true (sim_start (av_new ms d)).
  Definition test_simulate_ht keq hash (cmp : K → K → comparison) (R : rng K V) (ms : nat) (h0 : htable K V) : outcome (sim (htable K V) K V) () :=
    simulate (ht_nam keq hash) cmp R ms false (sim_start h0).
  Definition test_simulate_cb (R : rng N V) (ms : nat) (t0 : critbit V) : outcome (sim (critbit V) N V) () :=
    simulate (nam_of_oapi cb_api) N.compare R ms true (sim_start t0).
End tests.
