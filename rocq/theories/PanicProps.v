(** * C59: a panic in the user's comparison, equality or hash leaves the container as it was

    [rbp_step cmp o] (PanicModel.v) is the call [o] of a RedBlackTree whose keys are compared by [cmp], which may panic. The hypotheses say that where it does not
    panic it answers as the order [ord] does. *)
From Verif Require Import RBMain HashMain AVLMain RBProps HashProps AVLProps PanicProof.

Section rb.
  Context `{Profile} {K V : Type} (ord : K → K → comparison).
  (** In any state whatsoever: the call ends as if the comparison never panicked, or with the panic and the tree unchanged *)
  Theorem C59_rb_call (cmp : K → K → res comparison) (o : option (om_op K V)) t :
    (∀ a b, answers (cmp a b) (ord a b)) →
    rbp_step cmp o t = rb_step ord o t ∨ rbp_step cmp o t = Fail Panic t ∧ ∃ a b, cmp a b = Err Panic.
  Proof.
    intros Ha. apply (rb_step_p (∃ a b, cmp a b = Err Panic)). intros a b. destruct (Ha a b) as [E|E]; [by left|right; eauto].
  Qed.
  (** A history of calls, each with a comparison panicking at its own places, on a new tree. There are calls (those with [true] in [bits]) whose answers and final
      state are those of the history of them alone; the others end with a panic *)
  Theorem C59_rb_history (ms : nat) (d : K * V) (l : list ((K → K → res comparison) * option (om_op K V))) :
    Forall (λ co, ∀ a b, answers (co.1 a b) (ord a b)) l →
    let r := history (λ co, rbp_step co.1 co.2) l (rb_new ms d) in
    ∃ bits, length bits = length l ∧ history (rb_step ord) (kept bits l.*2) (rb_new ms d) = (kept bits r.1, r.2) ∧
      ∀ i, bits !! i = Some false → r.1 !! i = Some (Err Panic) ∧ ∃ co, l !! i = Some co ∧ ∃ a b, co.1 a b = Err Panic.
  Proof.
    apply (same_history rbp_step (rb_step ord) (λ cmp, ∀ a b, answers (cmp a b) (ord a b)) (λ cmp, ∃ a b, cmp a b = Err Panic)).
    intros c o Ha s. by apply C59_rb_call.
  Qed.
End rb.
Print Assumptions C59_rb_call.
Print Assumptions C59_rb_history.

Section av.
  Context `{Profile} {K V : Type} (pcmp : K → K → option comparison).
  (** AVLTree: [lg] is the pair of [<] and [>] *)
  Definition av_answers (lg : (K → K → res bool) * (K → K → res bool)) : Prop :=
    (∀ a b, answers (lg.1 a b) (match pcmp a b with Some Lt => true | _ => false end)) ∧
    (∀ a b, answers (lg.2 a b) (match pcmp a b with Some Gt => true | _ => false end)).
  Definition av_panics (lg : (K → K → res bool) * (K → K → res bool)) : Prop := ∃ a b, lg.1 a b = Err Panic ∨ lg.2 a b = Err Panic.
  Theorem C59_av_call lg (o : om_op K V) t :
    av_answers lg → avp_step lg.1 lg.2 o t = av_step pcmp o t ∨ avp_step lg.1 lg.2 o t = Fail Panic t ∧ av_panics lg.
  Proof.
    intros [Hl Hg]. apply (av_step_p (av_panics lg)).
    - intros a b. destruct (Hl a b) as [E|E]; [by left|right; split; [done|]; exists a, b; by left].
    - intros a b. destruct (Hg a b) as [E|E]; [by left|right; split; [done|]; exists a, b; by right].
  Qed.
  Theorem C59_av_history (ms : nat) (d : K * V) (l : list (((K → K → res bool) * (K → K → res bool)) * om_op K V)) :
    Forall (λ co, av_answers co.1) l →
    let r := history (λ co, avp_step co.1.1 co.1.2 co.2) l (av_new ms d) in
    ∃ bits, length bits = length l ∧ history (av_step pcmp) (kept bits l.*2) (av_new ms d) = (kept bits r.1, r.2) ∧
      ∀ i, bits !! i = Some false → r.1 !! i = Some (Err Panic) ∧ ∃ co, l !! i = Some co ∧ av_panics co.1.
  Proof.
    apply (same_history (λ c, avp_step c.1 c.2) (av_step pcmp) av_answers av_panics). intros c o Ha s. by apply C59_av_call.
  Qed.
End av.
Print Assumptions C59_av_call.
Print Assumptions C59_av_history.

Section ht.
  Context `{Profile} {K V : Type} (keq : K → K → bool) (hash : K → N).
  (** HashTable: [eh] is the pair of [==] and the hash function *)
  Definition ht_answers (eh : (K → K → res bool) * (K → res N)) : Prop :=
    (∀ a b, answers (eh.1 a b) (keq a b)) ∧ (∀ a, answers (eh.2 a) (hash a)).
  Definition ht_panics (eh : (K → K → res bool) * (K → res N)) : Prop := (∃ a b, eh.1 a b = Err Panic) ∨ ∃ a, eh.2 a = Err Panic.
  Theorem C59_ht_call eh (o : hm_op K V) h :
    ht_answers eh → htp_step eh.1 eh.2 o h = ht_step keq hash o h ∨ htp_step eh.1 eh.2 o h = Fail Panic h ∧ ht_panics eh.
  Proof.
    intros [He Hh]. apply (ht_step_p (ht_panics eh)).
    - intros a b. destruct (He a b) as [E|E]; [by left|right; split; [done|]; left; eauto].
    - intros a. destruct (Hh a) as [E|E]; [by left|right; split; [done|]; right; eauto].
  Qed.
  Theorem C59_ht_history (h0 : htable K V) (l : list (((K → K → res bool) * (K → res N)) * hm_op K V)) :
    Forall (λ co, ht_answers co.1) l →
    let r := history (λ co, htp_step co.1.1 co.1.2 co.2) l h0 in
    ∃ bits, length bits = length l ∧ history (ht_step keq hash) (kept bits l.*2) h0 = (kept bits r.1, r.2) ∧
      ∀ i, bits !! i = Some false → r.1 !! i = Some (Err Panic) ∧ ∃ co, l !! i = Some co ∧ ht_panics co.1.
  Proof.
    apply (same_history (λ c, htp_step c.1 c.2) (ht_step keq hash) ht_answers ht_panics). intros c o Ha s. by apply C59_ht_call.
  Qed.
End ht.
Print Assumptions C59_ht_call.
Print Assumptions C59_ht_history.

(** ** Cases *)
Local Instance ex_profile : Profile := {| overflow_checks := true |}.
(** A comparison that panics when asked about 7 *)
Definition ex_pcmp (a b : N) : res comparison := if decide (b = 7) then Err Panic else Val (N.compare a b).
Definition ex_cmp (a b : N) : res comparison := Val (N.compare a b).
(** The third and fourth call meet the key 7 and panic; the fifth, for a key on the other side of the root, does not *)
Example ex_C59_rb :
  let l := [(ex_cmp, Some (MInsert 5 50)); (ex_cmp, Some (MInsert 7 70)); (ex_pcmp, Some (MInsert 9 90)); (ex_pcmp, Some (MRemove 7));
            (ex_pcmp, Some (MInsert 3 30)); (ex_cmp, Some (MIter [Fwd; Fwd; Fwd; Fwd]))] in
  let r := history (λ co, rbp_step co.1 co.2) l (rb_new 4 (0, 0)) in
  (∀ a b, answers (ex_pcmp a b) (N.compare a b)) ∧
  r.1 = [Val (MBool true); Val (MBool true); Err Panic; Err Panic; Val (MBool true); Val (MList [Some (3, 30); Some (5, 50); Some (7, 70); None])] ∧
  history (rb_step N.compare) (kept [true; true; false; false; true; true] l.*2) (rb_new 4 (0, 0)) = (kept [true; true; false; false; true; true] r.1, r.2).
Proof.
  split; [|by vm_compute]. intros a b. unfold ex_pcmp. destruct (decide (b = 7)); [by right|by left].
Qed.
Definition ex_lt (a b : N) : res bool := if decide (b = 7) then Err Panic else Val (a <? b).
Definition ex_gt (a b : N) : res bool := Val (b <? a).
Example ex_C59_av :
  let t := av_after nat_pcmp 4 (0, 0) [MInsert 5 50; MInsert 7 70] in
  av_answers nat_pcmp (ex_lt, ex_gt) ∧ avp_step ex_lt ex_gt (MRemove 7) t = Fail Panic t ∧
  avp_step ex_lt ex_gt (MInsert 3 30) t = av_step nat_pcmp (MInsert 3 30) t.
Proof.
  split; [|by vm_compute]. split; intros a b; cbn [fst snd].
  - unfold ex_lt, nat_pcmp. destruct (decide (b = 7)); [by right|left]. unfold N.ltb. by destruct (a ?= b).
  - unfold ex_gt, nat_pcmp. left. unfold N.ltb. rewrite (N.compare_antisym a b). by destruct (a ?= b).
Qed.
Definition ex_eq (a b : N) : res bool := if decide (a = 7) then Err Panic else Val (N.eqb a b).
Example ex_C59_ht :
  match ht_new 2 4 (0, 0) with
  | Some h0 =>
      let h := ht_after N.eqb id h0 [HInsert 7 70; HInsert 5 50; HInsert 2 20] in
      (* 7 is found behind 5: the move to the front that [get_mut] makes has not begun *)
      htp_step ex_eq (λ k, Val k) (HGetMut 3 id) h = Fail Panic h ∧ htp_step ex_eq (λ _, Err Panic) (HRemove 2) h = Fail Panic h ∧
      htp_step ex_eq (λ k, Val k) (HRemove 2) h = ht_step N.eqb id (HRemove 2) h
  | None => False
  end.
Proof. by vm_compute. Qed.
Example ex_C59_ht_answers : ht_answers N.eqb id (ex_eq, λ k, Val k).
Proof. split; intros a; [intros b|]; cbn [fst snd]; [unfold ex_eq; destruct (decide (a = 7)); [by right|by left]|by left]. Qed.
