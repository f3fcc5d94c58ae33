(** * The provided methods of Rust's Iterator and DoubleEndedIterator

    The iterators of the crate define [next] and [next_back] only (deque.rs:199–235, hash_table.rs:404–439, red_black_tree.rs:801–858, avl_tree.rs:679–736,
    critbit.rs:607–673); all other methods are those the traits provide (core::iter::traits::{iterator,double_ended}), which are loops over these two. They are
    written here as there, over any [next]; the methods of [rev()] and the [r…]/[…_back] methods are the same loops over [next_back]. Loops take fuel; the
    theorems say how much is enough. A predicate or function of the caller is taken to have no effects. [count] and [position] count without bound (usize in
    Rust; a container holds fewer than 2^32 items). *)
From Verif Require Export Prelude Spec.

Section provided.
  Context {IT A : Type} (next : IT → res (option A * IT)).
  (** try_fold: [while let Some(x) = self.next() { accum = f(accum, x)?; }]; [true] is Continue, [false] Break *)
  Fixpoint it_try_fold {B} (fuel : nat) (f : B → A → bool * B) (acc : B) (it : IT) : res (B * IT) :=
    match fuel with
    | O => Err OutOfFuel
    | S fuel =>
        r ← next it;
        match r.1 with
        | None => Val (acc, r.2)
        | Some x => let '(go, acc) := f acc x in if go then it_try_fold fuel f acc r.2 else Val (acc, r.2)
        end
    end.
  (** fold: [while let Some(x) = self.next() { accum = f(accum, x); }] *)
  Fixpoint it_fold {B} (fuel : nat) (f : B → A → B) (acc : B) (it : IT) : res (B * IT) :=
    match fuel with
    | O => Err OutOfFuel
    | S fuel => r ← next it; match r.1 with None => Val (acc, r.2) | Some x => it_fold fuel f (f acc x) r.2 end
    end.
  (** advance_by: [for i in 0..n { if self.next().is_none() { return Err(..) } } Ok(())] *)
  Fixpoint it_advance_by (n : nat) (it : IT) : res (bool * IT) :=
    match n with
    | O => Val (true, it)
    | S n => r ← next it; match r.1 with None => Val (false, r.2) | Some _ => it_advance_by n r.2 end
    end.
  (** nth: [self.advance_by(n).ok()?; self.next()] *)
  Definition it_nth (n : nat) (it : IT) : res (option A * IT) := r ← it_advance_by n it; if r.1 : bool then next r.2 else Val (None, r.2).
  (** count: [self.fold(0, |count, _| count + 1)]; last: [self.fold(None, |_, x| Some(x))]; collect into a Vec pushes one after the other *)
  Definition it_count fuel it : res (N * IT) := it_fold fuel (λ c _, c + 1) 0 it.
  Definition it_last fuel it : res (option A * IT) := it_fold fuel (λ _ x, Some x) None it.
  Definition it_collect fuel it : res (list A * IT) := it_fold fuel (λ l x, l ++ [x]) [] it.
  (** find, position, any, all: try_fold with a closure that breaks at the first hit (for all: at the first miss) *)
  Definition it_find fuel (p : A → bool) it : res (option A * IT) := it_try_fold fuel (λ _ x, if p x then (false, Some x) else (true, None)) None it.
  Definition it_position fuel (p : A → bool) it : res (option N * IT) :=
    r ← it_try_fold fuel (λ c x, if p x then (false, (c.1, true)) else (true, (c.1 + 1, false))) (0, false) it;
    Val (if r.1.2 : bool then Some r.1.1 else None, r.2).
  Definition it_any fuel (p : A → bool) it : res (bool * IT) := it_try_fold fuel (λ _ x, if p x then (false, true) else (true, false)) false it.
  Definition it_all fuel (p : A → bool) it : res (bool * IT) := it_try_fold fuel (λ _ x, if p x then (true, true) else (false, false)) true it.
End provided.

(** [a.eq(b)] of two iterators (iter_compare): both are asked in turn until one ends or two items differ *)
Fixpoint it_eq {I1 I2 A} (next1 : I1 → res (option A * I1)) (next2 : I2 → res (option A * I2)) (same : A → A → bool) (fuel : nat) (i1 : I1) (i2 : I2) : res bool :=
  match fuel with
  | O => Err OutOfFuel
  | S fuel =>
      r1 ← next1 i1; r2 ← next2 i2;
      match r1.1, r2.1 with
      | None, None => Val true
      | Some x, Some y => if same x y then it_eq next1 next2 same fuel r1.2 r2.2 else Val false
      | _, _ => Val false
      end
  end.
