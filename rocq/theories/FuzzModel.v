(** * Model of the fuzzing harness fuzz/src/lib.rs and of the four fuzz targets

    The harness drives a map through the trait NodeAllocatorMap and asserts what it expects. Whether an assertion can fail is C55. *)
From Verif Require Export HashApi RBApi AVLApi CritApi.

(** [&mut dyn NodeAllocatorMap<K, V>] (node_allocator.rs:34-49), the methods the harness calls. [n_iter], [n_iter_mut] are whole sessions
    driven by a script, as in the other models. *)
Record nam (S K V : Type) := Nam {
  n_insert : K → V → M S (option N);
  n_remove : K → M S (option V);
  n_get : S → K → res (option V);
  n_get_mut : K → (V → V) → M S (option V);
  n_len : S → N;
  n_capacity : S → N;
  n_iter : S → list fb → res (list (option (K * V)));
  n_iter_mut : list (fb * (V → V)) → M S (list (option (N * (K * V)))) }.
Global Arguments n_insert {S K V}.
Global Arguments n_remove {S K V}.
Global Arguments n_get {S K V}.
Global Arguments n_get_mut {S K V}.
Global Arguments n_len {S K V}.
Global Arguments n_capacity {S K V}.
Global Arguments n_iter {S K V}.
Global Arguments n_iter_mut {S K V}.

(** fuzz/src/lib.rs:7-17 [enum NodeAllocatorMapAction] *)
Inductive fz_action (K V : Type) :=
| FInsert (k : K) (v : V) | FUpsert (v : V) | FRemove | FReplace (v : V) | FIter | FIterRev | FIterMut | FIterMutRev.
Global Arguments FInsert {K V}.
Global Arguments FUpsert {K V}.
Global Arguments FRemove {K V}.
Global Arguments FReplace {K V}.
Global Arguments FIter {K V}.
Global Arguments FIterRev {K V}.
Global Arguments FIterMut {K V}.
Global Arguments FIterMutRev {K V}.

(** What a [for] loop over an iterator sees: the answers before the first [None]. [l] are the answers to a number of calls; if none of
    them is [None] the loop would go on. *)
Fixpoint until_none {A} (l : list (option A)) : res (list A) :=
  match l with
  | [] => Err OutOfFuel
  | None :: _ => Val []
  | Some x :: l => xs ← until_none l; Val (x :: xs)
  end.
(** [Vec::swap_remove] for an index in range: the last element takes the place of the one removed *)
Definition swap_remove {A} (j : nat) (l : list A) : list A :=
  match last l with Some x => take (length l - 1) (<[j := x]> l) | None => l end.

Section harness.
  Context {S K V : Type} `{EqDecision V} (api : nam S K V).

  (** The state: the map and the harness's [keys: Vec<K>] *)
  Notation Ms := (M (S * list K)).
  Definition fz_on {A} (m : M S A) : Ms A := zoom fst (λ s st, (s, st.2)) m.
  (** [o.unwrap()] and [assert_eq!] *)
  Definition unwrap {A} (o : option A) : res A := match o with Some a => Val a | None => Err Panic end.
  Definition assert_eq (v v' : V) : res () := if decide (v = v') then Val () else Err Panic.
  (** [assert_eq!( *tree.get(&key).unwrap(), value)] *)
  Definition fz_assert_get (s : S) (key : K) (value : V) : res () :=
    o ← n_get api s key; v ← unwrap o; assert_eq v value.
  (** [let j = rng.gen_range(0, keys.len()); let key = keys[j]]. [rnd] is the random number drawn, any number. *)
  Definition fz_pick (rnd : N) (keys : list K) : res (nat * K) :=
    let j := N.to_nat (rnd mod lengthN keys) in
    key ← unwrap (keys !! j); Val (j, key).
  (** Enough calls of [next] to see the end of an iteration *)
  Definition fz_calls (s : S) : nat := N.to_nat (n_capacity api s + 1).
  Fixpoint fz_check (s : S) (l : list (K * V)) : res () :=
    match l with [] => Val () | kv :: l => fz_assert_get s kv.1 kv.2;; fz_check s l end.
  (** fuzz/src/lib.rs:63-72: [for (k, v) in tree.iter() { assert_eq!( *tree.get(k).unwrap(), *v) }] (the calls of [next] are made before those
      of [get]; neither modifies the map) *)
  Definition fz_iter (e : fb) : Ms () :=
    st ← mget;
    l ← lift (n_iter api st.1 (replicate (fz_calls st.1) e));
    xs ← lift (until_none l);
    lift (fz_check st.1 xs).
  (** fuzz/src/lib.rs:73-74: [for (_k, _v) in tree.iter_mut() {}] *)
  Definition fz_iter_mut (e : fb) : Ms () :=
    st ← mget;
    l ← fz_on (n_iter_mut api (replicate (fz_calls st.1) (e, λ v, v)));
    lift (until_none l);;
    mret ().

  (** fuzz/src/lib.rs:19-76 [perform_action]; [rnd]: what the random number generator gives *)
  Definition perform_action (action : fz_action K V) (rnd : N) : Ms () :=
    st ← mget;
    let keys := st.2 in
    match action with
    | FInsert key value =>
        o ← gets (λ st, n_get api st.1 key);
        match o with
        | Some _ => mret ()
        | None =>
            o ← fz_on (n_insert api key value);
            match o with
            | Some _ =>
                modify (λ st, (st.1, st.2 ++ [key]));;
                gets (λ st, fz_assert_get st.1 key value)
            | None => mret ()
            end
        end
    | FUpsert value =>
        if decide (lengthN keys = 0) then mret ()
        else
          jk ← lift (fz_pick rnd keys);
          fz_on (n_insert api jk.2 value);;
          gets (λ st, fz_assert_get st.1 jk.2 value)
    | FReplace value =>
        if decide (lengthN keys = 0) then mret ()
        else
          jk ← lift (fz_pick rnd keys);
          o ← fz_on (n_get_mut api jk.2 (λ _, value));
          lift (unwrap o);;
          gets (λ st, fz_assert_get st.1 jk.2 value)
    | FRemove =>
        if decide (lengthN keys = 0) then mret ()
        else
          jk ← lift (fz_pick rnd keys);
          o ← gets (λ st, n_get api st.1 jk.2);
          value ← lift (unwrap o);
          o ← fz_on (n_remove api jk.2);
          v ← lift (unwrap o);
          lift (assert_eq value v);;
          modify (λ st, (st.1, swap_remove jk.1 st.2))
    | FIter => fz_iter Fwd
    | FIterRev => fz_iter Bwd
    | FIterMut => fz_iter_mut Fwd
    | FIterMutRev => fz_iter_mut Bwd
    end.

  (** The loop of a fuzz target (fuzz/fuzz_targets/*.rs:6-14): every action, and after it the target's own assertion [check] *)
  Fixpoint fz_target (check : S → res bool) (actions : list (fz_action K V * N)) : Ms () :=
    match actions with
    | [] => mret ()
    | (a, rnd) :: actions =>
        perform_action a rnd;;
        b ← gets (λ st, check st.1);
        massert b;;
        fz_target check actions
    end.
End harness.

(** ** The targets: [Default::default()] (in the theorems) and the loop *)
Definition nam_of_oapi {S K V} (a : oapi S K V) : nam S K V := {|
  n_insert := a_insert a; n_remove := a_remove a; n_get := a_get a; n_get_mut := a_get_mut a; n_len := a_len a;
  n_capacity := a_capacity a; n_iter := a_iter a; n_iter_mut := a_iter_mut a |}.
Section targets.
  Context `{Profile} {K V : Type} `{EqDecision V}.
  (** fuzz/fuzz_targets/fuzz_avl_tree.rs *)
  Definition fuzz_avl pcmp : list (fz_action K V * N) → M (avlt K V * list K) () :=
    fz_target (nam_of_oapi (av_api pcmp)) (λ _, Val true).
  (** fuzz/fuzz_targets/fuzz_red_black_tree.rs *)
  Definition fuzz_rb cmp : list (fz_action K V * N) → M (rbt K V * list K) () :=
    fz_target (nam_of_oapi (rb_api cmp)) rb_is_valid.
  (** fuzz/fuzz_targets/fuzz_critbit.rs *)
  Definition fuzz_critbit : list (fz_action N V * N) → M (critbit V * list N) () :=
    fz_target (nam_of_oapi cb_api) (λ _, Val true).
  (** fuzz/fuzz_targets/fuzz_hash_table.rs *)
  Definition ht_nam keq hash : nam (htable K V) K V := {|
    n_insert := ht_insert keq hash; n_remove := ht_remove keq hash; n_get := ht_get keq hash; n_get_mut := ht_get_mut keq hash;
    n_len := ht_len; n_capacity := ht_capacity; n_iter := ht_iterate; n_iter_mut := ht_iterate_mut |}.
  Definition fuzz_hash keq hash : list (fz_action K V * N) → M (htable K V * list K) () :=
    fz_target (ht_nam keq hash) (λ _, Val true).
End targets.
