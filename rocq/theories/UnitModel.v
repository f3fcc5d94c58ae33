(** * Model of the unit tests inside src/: [test_deque] (deque.rs) and the deletion tests of red_black_tree.rs

    The tests are programs over the model's operations; C64 says for which inputs they pass. [VecDeque] and [BTreeMap] are lists (trusted,
    they are std's). [assert!] and [assert_eq!] panic when they fail. *)
From Verif Require Export TestModel DequeApi.

(** ** deque.rs:305-401 [test_deque] *)
Section deque.
  Context `{Profile} {T : Type} `{EqDecision T}.
  (** The random number generator, any: what the [n]-th draw gives as a value and as a number (reduced to the range asked for) *)
  Context (r_t : N → T) (r_n : N → N).
  (** The test's variables: the deque, the draws made so far, the VecDeque *)
  Record dtest := DTest { t_q : deque T; t_draws : N; t_v : list T }.
  Definition set_q q (st : dtest) : dtest := DTest q (t_draws st) (t_v st).
  Definition set_v v (st : dtest) : dtest := DTest (t_q st) (t_draws st) v.
  Definition on_q {A} (m : M (deque T) A) : M dtest A := zoom t_q set_q m.
  Definition u_draw {A} (f : N → A) : M dtest A := st ← mget; modify (λ st, DTest (t_q st) (t_draws st + 1) (t_v st));; mret (f (t_draws st)).
  (** [rng.gen_range(low, high)] of rand 0.7 panics unless [low < high] *)
  Definition u_range (low high : N) : M dtest N :=
    r ← u_draw r_n; if decide (low < high) then mret (low + r mod (high - low)) else mfail Panic.

  (** deque.rs:316-320, 381-385 *)
  Definition u_push_back : M dtest () := t ← u_draw r_t; on_q (dq_push_back t);; modify (λ st, set_v (t_v st ++ [t]) st).
  (** deque.rs:321-325, 386-390 *)
  Definition u_push_front : M dtest () := t ← u_draw r_t; on_q (dq_push_front t);; modify (λ st, set_v (t :: t_v st) st).
  (** [for ((_, i), j) in q_iter.zip(v_iter) { assert_eq!(i, j) }]: the first iterator is asked first, and once more when the second is
      exhausted *)
  Fixpoint u_zip (next : dq_iter → res (option (N * T) * dq_iter)) (it : dq_iter) (v : list T) : res () :=
    match v with
    | [] => next it;; Val ()
    | j :: v =>
        r ← next it;
        match r.1 with
        | None => Val ()
        | Some x => if decide (x.2 = j) then u_zip next r.2 v else Err Panic
        end
    end.
  (** deque.rs:326-331, 391-396 *)
  Definition u_same : M dtest () :=
    st ← mget;
    lift (u_zip (dq_iter_next (t_q st)) (dq_mk_iter (t_q st)) (t_v st));;
    lift (u_zip (dq_iter_next_back (t_q st)) (dq_mk_iter (t_q st)) (rev (t_v st))).
  (** [for _ in 0..b { next } for _ in b..n { next_back }], then both twice, which must give [None] *)
  Definition u_both (b n : nat) (l l' : list (option T)) : bool :=
    let c := (b + (n - b))%nat in bool_decide (take c l = take c l') && all_none (drop c l) && all_none (drop c l').
  (** deque.rs:333-353; [n] is 256 *)
  Definition u_iter (n : nat) : M dtest () :=
    b ← u_range 1 (N.of_nat n - 1); st ← mget;
    let script := de_script (N.to_nat b) n in
    l ← lift (dq_iterate script (t_q st));
    massert (u_both (N.to_nat b) n (map (option_map snd) l) (de_spec script (t_v st))).
  (** deque.rs:355-375. Nothing is written through the references. *)
  Definition u_iter_mut (n : nat) : M dtest () :=
    b ← u_range 1 (N.of_nat n - 1); st ← mget;
    let script := de_script (N.to_nat b) n in
    l ← on_q (dq_iterate_mut (map (λ e, (e, λ x, x)) script));
    massert (u_both (N.to_nat b) n (map (option_map snd) l) (de_spec script (t_v st))).
  (** deque.rs:377-379 *)
  Definition u_pop_back : M dtest () :=
    a ← on_q dq_pop_back; st ← mget;
    massert (bool_decide (a = last (t_v st)));; modify (λ st, set_v (take (length (t_v st) - 1) (t_v st)) st).
  (** deque.rs:397-399 *)
  Definition u_pop_front : M dtest () :=
    a ← on_q dq_pop_front; st ← mget;
    massert (bool_decide (a = head (t_v st)));; modify (λ st, set_v (tail (t_v st)) st).
  (** deque.rs:380, 400 *)
  Definition u_empty : M dtest () := st ← mget; massert (dq_is_empty (t_q st) && bool_decide (t_v st = [])).
  (** deque.rs:305-401; [n] is 128 *)
  Definition test_deque (n : nat) : M dtest () :=
    times n u_push_back;; times n u_push_front;; u_same;; u_iter (n + n);; u_iter_mut (n + n);;
    times (n + n) u_pop_back;; u_empty;;
    times n u_push_back;; times n u_push_front;; u_same;;
    times (n + n) u_pop_front;; u_empty.
  Definition test_deque_start (q : deque T) : dtest := DTest q 0 [].
End deque.
Global Arguments DTest {T}.
Global Arguments t_q {T}.
Global Arguments t_draws {T}.
Global Arguments t_v {T}.

(** ** red_black_tree.rs:1227-1366, the tests [test_delete_multiple_random_*]. The keys, there the hashes of 0, 1, 2, .., are any list. *)
(** The methods they call; as for the structural tests, the tests are programs over any implementation, the one in the source is [rb_drain]. *)
Record draining (S K V : Type) := Draining {
  r_insert : K → V → M S (option N); r_remove : K → M S (option V); r_valid : S → res bool; r_addr : S → K → res N }.
Global Arguments Draining {S K V}.
Global Arguments r_insert {S K V}.
Global Arguments r_remove {S K V}.
Global Arguments r_valid {S K V}.
Global Arguments r_addr {S K V}.
Definition rb_drain `{Profile} {K V} (cmp : K → K → comparison) : draining (rbt K V) K V :=
  {| r_insert := rb_insert cmp; r_remove := rb_remove cmp; r_valid := rb_is_valid; r_addr := rb_get_addr cmp |}.
Section delete.
  Context {S K V : Type} (tree : draining S K V) (z : V).
  (** [assert!(tree.is_valid_red_black_tree())] *)
  Definition u_valid : M S () := b ← gets (r_valid tree); massert b.
  (** The first loop (1238-1245, 1263-1270, 1291-1297, 1331-1338, 1354-1361), giving what [insert] returned. The test for 2048 keys does not
      look at the tree after every insertion. *)
  Fixpoint u_fill (check : bool) (keys : list K) : M S (list N) :=
    match keys with
    | [] => mret []
    | k :: keys =>
        o ← r_insert tree k z; a ← lift (unwrap o);
        (if check then u_valid else mret ());;
        l ← u_fill check keys; mret (a :: l)
    end.
  (** The last loop (1247-1250, 1276-1279, 1316-1319, 1339-1342, 1362-1365) *)
  Fixpoint u_drain (keys : list K) : M S () :=
    match keys with
    | [] => mret ()
    | k :: keys => o ← r_remove tree k; lift (unwrap o);; u_valid;; u_drain keys
    end.
  (** 1228-1251 (1023 keys), 1322-1343 (512), 1345-1366 (4098) *)
  Definition test_delete (keys : list K) : M S () := u_fill true keys;; u_drain keys.
  (** 1272-1274 *)
  Fixpoint u_addrs (l : list (K * N)) : M S () :=
    match l with [] => mret () | (k, a) :: l => b ← gets (λ t, r_addr tree t k); massert (bool_decide (b = a));; u_addrs l end.
  (** 1253-1280 *)
  Definition test_delete_1024 (keys : list K) : M S () := addrs ← u_fill true keys; u_addrs (zip keys addrs);; u_drain keys.
End delete.
Section delete_index.
  Context {S S' K V : Type} (tree : draining S K V) (index_tree : draining S' N V) (cmp : K → K → comparison) (z : V).
  (** 1299-1303 [key_to_index]: the BTreeMap collected from the pairs (key, index), a later pair replaces an earlier one *)
  Fixpoint u_index (i : N) (keys : list K) (m : list (K * N)) : list (K * N) :=
    match keys with [] => m | k :: keys => u_index (i + 1) keys (om_insert cmp k i m) end.
  (** 1309-1313: [key_to_index[k]] panics when the key is not there *)
  Fixpoint u_indices (m : list (K * N)) (keys : list K) : res (list N) :=
    match keys with [] => Val [] | k :: keys => i ← unwrap (om_get cmp k m); l ← u_indices m keys; Val (i :: l) end.
  (** 1282-1320, the two trees side by side *)
  Definition test_delete_2048 (keys : list K) : M (S * S') () :=
    zoom fst (λ t st, (t, st.2)) (u_fill tree z false keys);;
    is ← lift (u_indices (u_index 0 keys []) keys);
    zoom snd (λ t st, (st.1, t)) (u_fill index_tree z false is;; u_valid index_tree;; u_drain index_tree is).
End delete_index.
