(** * A structure moved to a larger capacity

    [.._grow ex s]: the structure with the same fields and the nodes [ex] behind its own node array, which is a structure of a type with
    a larger MAX_SIZE. *)
From Verif Require Export Spec DequeApi HashApi RBApi AVLApi CritApi.

Definition al_grow {T} (ex : list (node T)) (a : alloc T) : alloc T := set_nodes (nodes a ++ ex) a.
Definition dq_grow {T} (ex : list (node T)) (d : deque T) : deque T := set_dal (al_grow ex (dq_al d)) d.
Definition ht_grow {K V} (ex : list (node (K * V))) (h : htable K V) : htable K V := set_hal (al_grow ex (ht_al h)) h.
Definition rb_grow {K V} (ex : list (node (K * V))) (t : rbt K V) : rbt K V := set_ral (al_grow ex (rb_al t)) t.
Definition av_grow {K V} (ex : list (node (K * V))) (t : avlt K V) : avlt K V := set_aal (al_grow ex (av_al t)) t.
(** Critbit has two arrays: NUM_NODES and MAX_SIZE *)
Definition cb_grow {V} (exn : list (node cnode)) (exl : list (node V)) (t : critbit V) : critbit V :=
  set_cleaves (al_grow exl (cb_leaves t)) (set_cnodes (al_grow exn (cb_nodes t)) t).

(** What a grown allocator must find in the new part: nodes whose registers are all zero. The values may be anything. *)
Definition blank {T} (nr : nat) (n : node T) : Prop := regs n = replicate nr 0.

(** ** Calls and growing, one after the other

    A program is a list of segments: some calls, then a move to a larger capacity. *)
Section grown.
  Context {S O A X : Type} (step : O → M S A) (grow : X → S → S).
  (** all answers, segment by segment, and the structure at the end *)
  Fixpoint grown (segs : list (list O * X)) (s : S) : list (list (res A)) * S :=
    match segs with
    | [] => ([], s)
    | (ops, ex) :: segs =>
        let '(rs, s1) := history step ops s in
        let '(rss, s2) := grown segs (grow ex s1) in
        (rs :: rss, s2)
    end.
End grown.
Section grown_spec.
  Context {O A X C : Type} (more : X → N) (run : N → list O → C → list (res A) → C → Prop).
  (** The specification: [run cap ops c rs c'] says what the calls of one segment do at capacity [cap] to the contents [c]. Growing by [ex]
      adds [more ex] to the capacity and changes nothing else. *)
  Inductive grown_run : N → list (list O * X) → C → list (list (res A)) → C → Prop :=
  | gr_nil cap c : grown_run cap [] c [] c
  | gr_seg cap ops ex segs c rs c1 rss c2 :
      run cap ops c rs c1 → grown_run (cap + more ex) segs c1 rss c2 → grown_run cap ((ops, ex) :: segs) c (rs :: rss) c2.
  (** All that is added *)
  Definition added (segs : list (list O * X)) : N := foldr (λ sg n, more sg.2 + n) 0 segs.
End grown_spec.

(** ** Deque *)
Section deque.
  Context {T : Type}.
  (** the calls of one segment; the contents and the count of the pushes so far *)
  Definition dq_run (cap : N) (ops : list (dq_op T)) (c : list T * N) (rs : list (res (dq_out T))) (c' : list T * N) : Prop :=
    spec_history (dq_spec cap) ops c = (rs, c').
  Definition total_calls {X} (sg : list (list (dq_op T) * X)) : N := foldr (λ s n, lengthN s.1 + n) 0 sg.
End deque.

(** ** Ordered maps *)
(** one segment, as the specification has it *)
Definition om_seg {K V} (cmp : K → K → comparison) (cap : N) (ops : list (om_op K V)) l rs l' : Prop := spec_history (om_spec cmp cap) ops l = (rs, l').
(** [k] is not removed *)
Definition not_removed {K V X} (cmp : K → K → comparison) (k : K) (sg : list (list (om_op K V) * X)) : Prop :=
  ∀ s k', s ∈ sg → MRemove k' ∈ s.1 → cmp k' k ≠ Eq.
(** All that can be read of a map, except its capacity, is the same *)
Definition same_reads {S K V} (api : oapi S K V) (s s' : S) : Prop :=
    (∀ k, a_addr api s' k = a_addr api s k ∧ a_get api s' k = a_get api s k ∧ a_contains api s' k = a_contains api s k ∧
      a_index api s' k = a_index api s k) ∧
    (∀ sc, a_iter api s' sc = a_iter api s sc) ∧ a_min api s' = a_min api s ∧ a_max api s' = a_max api s ∧ a_len api s' = a_len api s.

(** ** Critbit *)
Section crit.
  Context `{Profile} {V : Type}.
  Notation growth := (list (node cnode) * list (node V))%type.
  Notation segs := (list (list (om_op N V) * growth)).
  (** MAX_SIZE and NUM_NODES added *)
  Definition more_leaves (x : growth) : N := lengthN x.2.
  Definition more_nodes (x : growth) : N := lengthN x.1.
  Definition cb_grow' (x : growth) : critbit V → critbit V := cb_grow x.1 x.2.
  (** blank nodes and leaves *)
  Definition cb_growth (x : growth) : Prop := Forall (blank 4) x.1 ∧ Forall (blank 4) x.2.
  (** what [new] asserts (critbit.rs:67) holds after every growing, from NUM_NODES [nn] and MAX_SIZE [cap] on *)
  Fixpoint cb_room (nn cap : N) (sg : segs) : Prop :=
    match sg with
    | [] => True
    | (_, x) :: sg => 2 * (cap + more_leaves x) ≤ nn + more_nodes x ∧ cb_room (nn + more_nodes x) (cap + more_leaves x) sg
    end.
  Definition cb_seg (cap : N) (ops : list (om_op N V)) l rs l' : Prop := spec_history (cb_spec cap) ops l = (rs, l').
  Definition cb_reads (t t' : critbit V) : Prop :=
    (∀ k, k < W128 → cb_get t' k = cb_get t k ∧ cb_contains t' k = cb_contains t k ∧ cb_get_addr t' k = cb_get_addr t k) ∧
    (∀ sc, cb_iterate t' sc = cb_iterate t sc) ∧ cb_get_min t' = cb_get_min t ∧ cb_get_max t' = cb_get_max t ∧ cb_len t' = cb_len t.
End crit.
