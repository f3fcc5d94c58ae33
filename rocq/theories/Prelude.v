(** * Prelude: outcomes, monads and machine arithmetic shared by all models.

    Nothing here models a particular Rust function; it fixes how Rust effects are represented. *)
From stdpp Require Export base list sets numbers sorting.
From Coq Require Export ZArith NArith Lia.

Global Open Scope N_scope.

(** Ways in which a Rust computation can fail to return.
    - [Panic]: assert!/panic!/unwrap on None/array index out of bounds/checked arithmetic overflow;
    - [UB]: a raw pointer dereference outside the node array (only in the [unsafe] blocks);
    - [OutOfFuel]: a loop of the model did not finish within its fuel (stands for non-termination). *)
Inductive err := Panic | UB | OutOfFuel.

(** Result of a [&self] function. *)
Inductive res (A : Type) : Type := Val (a : A) | Err (e : err).
Global Arguments Val {A} a.
Global Arguments Err {A} e.

(** Result of a [&mut self] function; the state reached is kept on failure too. *)
Inductive outcome (S A : Type) : Type := Ret (a : A) (s : S) | Fail (e : err) (s : S).
Global Arguments Ret {S A} a s.
Global Arguments Fail {S A} e s.

Definition M (S A : Type) : Type := S → outcome S A.

Global Instance res_ret : MRet res := λ A a, Val a.
Global Instance res_bind : MBind res := λ A B f m, match m with Val a => f a | Err e => Err e end.
Global Instance M_ret {S} : MRet (M S) := λ A a s, Ret a s.
Global Instance M_bind {S} : MBind (M S) :=
  λ A B f m s, match m s with Ret a s' => f a s' | Fail e s' => Fail e s' end.

Definition mfail {S A} (e : err) : M S A := λ s, Fail e s.
Definition mget {S} : M S S := λ s, Ret s s.
Definition modify {S} (f : S → S) : M S () := λ s, Ret () (f s).
(** Run a [&self] function inside a [&mut self] one. *)
Definition gets {S A} (f : S → res A) : M S A :=
  λ s, match f s with Val a => Ret a s | Err e => Fail e s end.
Definition lift {S A} (r : res A) : M S A := gets (λ _, r).
(** [assert!(b)] *)
Definition massert {S} (b : bool) : M S () := if b then mret () else mfail Panic.
(** Run a computation on a field of the state. *)
Definition zoom {S T A} (g : S → T) (u : T → S → S) (m : M T A) : M S A :=
  λ s, match m (g s) with Ret a t => Ret a (u t s) | Fail e t => Fail e (u t s) end.

(** ** Machine integers *)

(** Build profile: are arithmetic overflow checks on (debug / overflow-checks = true) or off (wrapping)? *)
Class Profile := { overflow_checks : bool }.

Definition W32 : N := 4294967296.
Definition W64 : N := 18446744073709551616.

Section arith.
  Context `{Profile}.
  Definition u_add (w a b : N) : res N :=
    if decide (a + b < w) then Val (a + b)
    else if overflow_checks then Err Panic else Val ((a + b) mod w).
  Definition u_sub (w a b : N) : res N :=
    if decide (b ≤ a) then Val (a - b)
    else if overflow_checks then Err Panic else Val ((a + w - b) mod w).
  Definition u32_add := u_add W32.
  Definition u32_sub := u_sub W32.
  Definition u64_add := u_add W64.
  Definition u64_sub := u_sub W64.
End arith.

(** [x as u32] for an unsigned [x] *)
Definition as_u32 (x : N) : N := x mod W32.

(** Array indexing [l[j]] by a [usize]: panics out of bounds. (The comparison first keeps the model executable: a huge [j]
    is never turned into a [nat].) *)
Definition lookupN {A} (l : list A) (j : N) : option A :=
  if decide (j < N.of_nat (length l)) then l !! N.to_nat j else None.
Definition insertN {A} (l : list A) (j : N) (x : A) : list A := <[N.to_nat j := x]> l.
Definition lengthN {A} (l : list A) : N := N.of_nat (length l).

(** ** Weakest preconditions: total correctness (no failure of any kind) *)

Definition wp {S A} (m : M S A) (s : S) (Q : A → S → Prop) : Prop :=
  match m s with Ret a s' => Q a s' | Fail _ _ => False end.

Section wp.
  Context {S : Type}.
  Implicit Types s : S.

  Lemma wp_bind {A B} (m : M S A) (f : A → M S B) s Q :
    wp m s (λ a s', wp (f a) s' Q) → wp (m ≫= f) s Q.
  Proof. unfold wp, mbind, M_bind. destruct (m s); done. Qed.
  Lemma wp_ret {A} (a : A) s (Q : A → S → Prop) : Q a s → wp (mret a) s Q.
  Proof. done. Qed.
  Lemma wp_mget s (Q : S → S → Prop) : Q s s → wp mget s Q.
  Proof. done. Qed.
  Lemma wp_modify f s (Q : () → S → Prop) : Q () (f s) → wp (modify f) s Q.
  Proof. done. Qed.
  Lemma wp_gets {A} (f : S → res A) s a (Q : A → S → Prop) : f s = Val a → Q a s → wp (gets f) s Q.
  Proof. unfold wp, gets. by intros ->. Qed.
  Lemma wp_lift {A} (r : res A) s a (Q : A → S → Prop) : r = Val a → Q a s → wp (lift r) s Q.
  Proof. unfold wp, lift, gets. by intros ->. Qed.
  Lemma wp_massert b s (Q : () → S → Prop) : b = true → Q () s → wp (massert b) s Q.
  Proof. by intros ->. Qed.
  Lemma wp_mono {A} (m : M S A) s (Q Q' : A → S → Prop) :
    wp m s Q → (∀ a s', Q a s' → Q' a s') → wp m s Q'.
  Proof. unfold wp. destruct (m s); eauto. Qed.
  Lemma wp_elim {A} (m : M S A) s Q : wp m s Q → ∃ a s', m s = Ret a s' ∧ Q a s'.
  Proof. unfold wp. destruct (m s); [|done]. eauto. Qed.
  Lemma wp_intro {A} (m : M S A) s (Q : A → S → Prop) a s' : m s = Ret a s' → Q a s' → wp m s Q.
  Proof. unfold wp. by intros ->. Qed.
  Lemma wp_zoom {T A} (g : S → T) (u : T → S → S) (m : M T A) s Q :
    wp m (g s) (λ a t, Q a (u t s)) → wp (zoom g u m) s Q.
  Proof. unfold wp, zoom. destruct (m (g s)); done. Qed.
End wp.

Lemma res_bind_val {A B} (m : res A) (f : A → res B) a r : m = Val a → f a = r → m ≫= f = r.
Proof. intros ->. done. Qed.

Section arith_lemmas.
  Context `{Profile}.
  Lemma u_add_ok w a b : a + b < w → u_add w a b = Val (a + b).
  Proof. intros. unfold u_add. by rewrite decide_True. Qed.
  Lemma u_sub_ok w a b : b ≤ a → u_sub w a b = Val (a - b).
  Proof. intros. unfold u_sub. by rewrite decide_True. Qed.
End arith_lemmas.

Lemma lookupN_Some {A} (l : list A) j x : lookupN l j = Some x ↔ l !! N.to_nat j = Some x.
Proof.
  unfold lookupN. case_decide; [done|]. split; [done|].
  intros Hl%lookup_lt_Some. lia.
Qed.
Lemma lookupN_insertN {A} (l : list A) j x :
  j < lengthN l → lookupN (insertN l j x) j = Some x.
Proof.
  intros Hj. apply lookupN_Some. unfold insertN. apply list_lookup_insert. unfold lengthN in *. lia.
Qed.
Lemma lookupN_insertN_ne {A} (l : list A) j j' x :
  j ≠ j' → lookupN (insertN l j x) j' = lookupN l j'.
Proof.
  intros Hj. unfold lookupN, insertN. rewrite insert_length.
  case_decide; [|done]. apply list_lookup_insert_ne. lia.
Qed.
Lemma lengthN_insertN {A} (l : list A) j x : lengthN (insertN l j x) = lengthN l.
Proof. unfold lengthN, insertN. by rewrite insert_length. Qed.
Lemma lengthN_cons {A} (x : A) l : lengthN (x :: l) = lengthN l + 1.
Proof. unfold lengthN. simpl length. lia. Qed.
Lemma lengthN_nil {A} : lengthN (@nil A) = 0.
Proof. done. Qed.
Lemma lengthN_app {A} (l k : list A) : lengthN (l ++ k) = lengthN l + lengthN k.
Proof. unfold lengthN. rewrite app_length. lia. Qed.
