(** * Which slot holds what: a machine that predicts the use of the node array *)
From Verif Require Export AllocModel Spec.

(** The slots of a map are handed out by a machine that sees nothing of the container but its contents after each call:
    the slot of a key that goes is put on a stack (with the pair it held), a key that comes gets the top of the stack or, if the stack is
    empty, the lowest slot never used. *)
Section machine.
  Context {K V : Type} (same : K → K → bool).

  Record slots := Slots {
    sl_addr : list (K * N);          (* the slot of each key *)
    sl_left : list (N * (K * V));    (* the slots given back, last one first, with the pair left in each *)
    sl_next : N;                     (* the lowest slot never used *)
  }.
  Definition slots0 : slots := Slots [] [] 1.

  Definition has (k : K) (l : list (K * V)) : bool := existsb (λ kv, same kv.1 k) l.
  (** the slot of [k]; 0 if it has none *)
  Definition slot_of (k : K) (m : slots) : N :=
    match List.find (λ p, same p.1 k) (sl_addr m) with Some p => p.2 | None => SENTINEL end.

  (** a key goes *)
  Definition give_back (m : slots) (kv : K * V) : slots :=
    Slots (List.filter (λ p, negb (same p.1 kv.1)) (sl_addr m)) ((slot_of kv.1 m, kv) :: sl_left m) (sl_next m).
  (** a key comes *)
  Definition take_slot (m : slots) (kv : K * V) : slots :=
    match sl_left m with
    | [] => Slots ((kv.1, sl_next m) :: sl_addr m) [] (sl_next m + 1)
    | (i, _) :: l => Slots ((kv.1, i) :: sl_addr m) l (sl_next m)
    end.
  (** one call turns the contents [l] into [l'] *)
  Definition slots_step (m : slots) (l l' : list (K * V)) : slots :=
    foldl take_slot (foldl give_back m (List.filter (λ kv, negb (has kv.1 l')) l)) (List.filter (λ kv, negb (has kv.1 l)) l').
  Fixpoint slots_run (m : slots) (l : list (K * V)) (ls : list (list (K * V))) : slots :=
    match ls with [] => m | l' :: ls => slots_run (slots_step m l l') l' ls end.
  (** [ls]: the contents after the first call, after the second, and so on *)
  Definition slots_after (ls : list (list (K * V))) : slots := slots_run slots0 [] ls.
End machine.
Arguments Slots {K V} _ _ _.
Arguments sl_addr {K V} _.
Arguments sl_left {K V} _.
Arguments sl_next {K V} _.
Arguments slots0 {K V}.

(** Same key, for a map ordered by [cmp] *)
Definition cmp_same {K} (cmp : K → K → comparison) (a b : K) : bool := match cmp a b with Eq => true | _ => false end.

(** The contents after each of the calls [o], if [holds o l] says that they are [l] after all of them *)
Definition trace {O L} (holds : list O → L → Prop) (o : list O) (ls : list L) : Prop :=
  length ls = length o ∧ ∀ n l, ls !! n = Some l → holds (take (S n) o) l.

(** What the slots not in use look like: [lft] have been given back, those from [nxt] on have never been used. A slot given back still
    holds its old value; its first register is the link of the free list, its other registers are 0. The last link is [nxt]. The slots
    never used are as [new] left them. *)
Definition top_of {T} (nxt : N) (lft : list (N * T)) : N := match lft with (i, _) :: _ => i | [] => nxt end.
Definition unused `{Profile} {T} (a : alloc T) (nr : nat) (d : T) (lft : list (N * T)) (nxt : N) : Prop :=
  bump_index a = nxt ∧ free_list_head a = top_of nxt lft ∧
  (∀ pre i v post, lft = pre ++ (i, v) :: post → na_get a i = Val (Node (top_of nxt post :: replicate (nr - 1) 0) v)) ∧
  (∀ i, nxt ≤ i → i ≤ MAX_SIZE a → na_get a i = Val (Node (replicate nr 0) d)).

(** The most entries there have been *)
Definition peak {A} (ls : list (list A)) : N := foldr N.max 0 (map lengthN ls).

(** The same for a deque, where the slots are in the order of the sequence *)
Section deque.
  Context {T : Type} (cap : N).
  Record dslots := DSlots {
    ds_used : list (N * T);    (* slots and values, front first *)
    ds_left : list (N * T);    (* as [sl_left] *)
    ds_next : N;               (* as [sl_next] *)
  }.
  Definition dslots0 : dslots := DSlots [] [] 1.
  (** the slot the next value gets *)
  Definition ds_slot (m : dslots) : N := top_of (ds_next m) (ds_left m).
  Definition ds_take (m : dslots) (used : list (N * T)) : dslots :=
    match ds_left m with [] => DSlots used [] (ds_next m + 1) | _ :: l => DSlots used l (ds_next m) end.
  Definition dslots_step (o : dq_op T) (m : dslots) : dslots :=
    match o with
    | DPushFront v => if decide (lengthN (ds_used m) < cap) then ds_take m ((ds_slot m, v) :: ds_used m) else m
    | DPushBack v => if decide (lengthN (ds_used m) < cap) then ds_take m (ds_used m ++ [(ds_slot m, v)]) else m
    | DPopFront => match ds_used m with [] => m | e :: es => DSlots es (e :: ds_left m) (ds_next m) end
    | DPopBack => match unsnoc (ds_used m) with None => m | Some (es, e) => DSlots es (e :: ds_left m) (ds_next m) end
    | DIterMut sc => DSlots (de_mut_spec (λ f e, (e.1, f e.2)) sc (ds_used m)).2 (ds_left m) (ds_next m)
    | _ => m
    end.
  Definition dslots_after (ops : list (dq_op T)) : dslots := foldl (λ m o, dslots_step o m) dslots0 ops.
End deque.
Arguments DSlots {T} _ _ _.
Arguments ds_used {T} _.
Arguments ds_left {T} _.
Arguments ds_next {T} _.
