(** * The aliasing rules of Rust references: Stacked Borrows and Tree Borrows

    Rust has no final definition of which uses of overlapping references are undefined behaviour. The two published candidates are Stacked
    Borrows (Jung, Dang, Kang, Dreyer: POPL 2020) and Tree Borrows (Villani, Hostert, Dreyer, Jung: PLDI 2025); Miri implements both. Here are their
    rules for references and raw pointers into one object, as far as the [unsafe] blocks of this repository need them. Left out: protectors of function arguments (in the
    traces below nothing happens between the reborrow for a call and its return but accesses through that very reference), interior mutability ([Pod] types have none), two-phase borrows,
    deallocation. Nothing here depends on the code of the repository. *)
From Verif Require Export Prelude.
Local Open Scope nat_scope.

(** ** Memory of one container
    The places references point to: the header (everything outside the node arrays), and of each slot of each node array ("pool") the registers, the key and the value. *)
Inductive loc := LHdr | LRegs (pool : bool) (slot : N) | LKey (pool : bool) (slot : N) | LVal (pool : bool) (slot : N).
(** The parts of the container a reference can cover *)
Inductive region :=
  | Whole | Hdr | Pool (pool : bool) | Slot (pool : bool) (slot : N) | Entry (pool : bool) (slot : N)
  | RegsOf (pool : bool) (slot : N) | KeyOf (pool : bool) (slot : N) | ValOf (pool : bool) (slot : N).
Definition covers (g : region) (l : loc) : Prop :=
  match g with
  | Whole => True
  | Hdr => l = LHdr
  | Pool b => match l with LHdr => False | LRegs b' _ | LKey b' _ | LVal b' _ => b' = b end
  | Slot b i => l = LRegs b i ∨ l = LKey b i ∨ l = LVal b i
  | Entry b i => l = LKey b i ∨ l = LVal b i
  | RegsOf b i => l = LRegs b i
  | KeyOf b i => l = LKey b i
  | ValOf b i => l = LVal b i
  end.
Global Instance loc_eq_dec : EqDecision loc.
Proof. solve_decision. Defined.
Global Instance covers_dec g l : Decision (covers g l).
Proof. destruct g, l; cbn; apply _. Defined.

(** ** Pointers and traces
    A pointer is what it was made from: the list of reborrows that led to it, newest first, each with its place in the trace. The empty list is the [&mut] reference to the
    whole container everything starts from. *)
Inductive kind := KMut | KShr | KRaw.
Global Instance kind_eq_dec : EqDecision kind.
Proof. solve_decision. Defined.
Definition ptr : Type := list (kind * nat).
(** What a program does to the memory, as far as the rules are concerned. [Reborrow k p g]: from [p] a [&mut] ([KMut]), a [&] ([KShr]) or a [*mut] ([KRaw]) to the part [g] is made; if this
    is number [n] of the trace (from 0), the new pointer is [(k, n) :: p]. *)
Inductive event := Reborrow (k : kind) (p : ptr) (g : region) | Read (p : ptr) (g : region) | Write (p : ptr) (g : region).
Notation trace := (list event).
Definition target (e : event) : region := match e with Reborrow _ _ g | Read _ g | Write _ g => g end.
Definition via (e : event) : ptr := match e with Reborrow _ p _ | Read p _ | Write p _ => p end.

(** ** Stacked Borrows
    Each place has a stack of items, the top first. *)
Inductive sb_perm := Unique | SharedRW | SharedRO | Disabled.
Global Instance sb_perm_eq_dec : EqDecision sb_perm.
Proof. solve_decision. Defined.
Definition stack : Type := list (sb_perm * ptr).
Definition grants_read (p : ptr) (it : sb_perm * ptr) : Prop := it.2 = p ∧ it.1 ≠ Disabled.
Definition grants_write (p : ptr) (it : sb_perm * ptr) : Prop := it.2 = p ∧ (it.1 = Unique ∨ it.1 = SharedRW).
Global Instance grants_read_dec p it : Decision (grants_read p it) := _.
Global Instance grants_write_dec p it : Decision (grants_write p it) := _.
(** A read needs an item of the pointer; every [Unique] above it is disabled. *)
Fixpoint sb_read (p : ptr) (s : stack) : option stack :=
  match s with
  | [] => None
  | it :: s' =>
      if decide (grants_read p it) then Some s
      else s'' ← sb_read p s'; Some ((if decide (it.1 = Unique) then Disabled else it.1, it.2) :: s'')
  end.
(** A write needs a [Unique] or [SharedRW] item of the pointer; everything above it is removed, but for an unbroken run of [SharedRW] directly above a [SharedRW]. *)
Fixpoint sb_write (p : ptr) (s : stack) : option stack :=
  match s with
  | [] => None
  | it :: s' =>
      if decide (grants_write p it) then Some s
      else
        s'' ← sb_write p s';
        Some (if decide (length s'' = length s' ∧ it.1 = SharedRW ∧ fst <$> head s' = Some SharedRW) then it :: s'' else s'')
  end.
(** Making a raw pointer from a [&mut]: no access; the new item goes directly above the item of the [&mut]. *)
Fixpoint sb_raw (p q : ptr) (s : stack) : option stack :=
  match s with
  | [] => None
  | it :: s' => if decide (grants_write p it) then Some ((SharedRW, q) :: s) else s'' ← sb_raw p q s'; Some (it :: s'')
  end.
(** Event number [n] at a place it covers: making a [&mut] is a write, making a [&] is a read *)
Definition sb_event (n : nat) (e : event) (s : stack) : option stack :=
  match e with
  | Reborrow KMut p _ => s' ← sb_write p s; Some ((Unique, (KMut, n) :: p) :: s')
  | Reborrow KShr p _ => s' ← sb_read p s; Some ((SharedRO, (KShr, n) :: p) :: s')
  | Reborrow KRaw p _ => sb_raw p ((KRaw, n) :: p) s
  | Read p _ => sb_read p s
  | Write p _ => sb_write p s
  end.
(** The events of [tr] at the place [l], the first having number [n]. [None]: undefined behaviour *)
Fixpoint sb_run (l : loc) (n : nat) (tr : trace) (s : stack) : option stack :=
  match tr with
  | [] => Some s
  | e :: tr => s' ← (if decide (covers (target e) l) then sb_event n e s else Some s); sb_run l (S n) tr s'
  end.
Definition sb_at (tr : trace) (l : loc) : option stack := sb_run l 0 tr [(Unique, [])].
(** The program has no undefined behaviour according to Stacked Borrows *)
Definition sb_ok (tr : trace) : Prop := ∀ l, is_Some (sb_at tr l).

(** ** Tree Borrows
    Each reference has a permission at each place it covers. A raw pointer is the reference it was made from. *)
Inductive tb_perm := Reserved | Active | Frozen | TDisabled.
Definition same_ref (p : ptr) : ptr := filter (λ x, x.1 ≠ KRaw) p.
(** An access through the reference itself or one made from it *)
Definition tb_local (w : bool) (q : tb_perm) : option tb_perm :=
  match q, w with
  | TDisabled, _ => None
  | Frozen, true => None
  | Reserved, true => Some Active
  | q, _ => Some q
  end.
(** Any other access *)
Definition tb_foreign (w : bool) (q : tb_perm) : tb_perm :=
  match q, w with
  | _, true => TDisabled
  | Active, false => Frozen
  | q, false => q
  end.
(** The access an event makes: making a reference is a read, making a raw pointer is none *)
Definition tb_access (e : event) : option (ptr * bool) :=
  match e with
  | Reborrow KRaw _ _ => None
  | Reborrow _ p _ | Read p _ => Some (same_ref p, false)
  | Write p _ => Some (same_ref p, true)
  end.
(** What event [e] does to the permission of reference [x] at [l] *)
Definition tb_event (l : loc) (x : ptr) (e : event) (q : tb_perm) : option tb_perm :=
  match tb_access e with
  | Some (p, w) => if decide (covers (target e) l) then (if decide (x `suffix_of` p) then tb_local w q else Some (tb_foreign w q)) else Some q
  | None => Some q
  end.
Fixpoint tb_run (l : loc) (x : ptr) (tr : trace) (q : tb_perm) : option tb_perm :=
  match tr with [] => Some q | e :: tr => q' ← tb_event l x e q; tb_run l x tr q' end.
Definition tb_initial (k : kind) : tb_perm := match k with KShr => Frozen | _ => Reserved end.
(** Each access is through a pointer made before, inside the part that pointer covers *)
Definition in_range (tr : trace) : Prop :=
  ∀ n e l, tr !! n = Some e → covers (target e) l →
    match via e with
    | [] => True
    | (k, m) :: p => m < n ∧ ∃ g, tr !! m = Some (Reborrow k p g) ∧ covers g l
    end.
(** The program has no undefined behaviour according to Tree Borrows *)
Definition tb_ok (tr : trace) : Prop :=
  in_range tr ∧
  (∀ l, is_Some (tb_run l [] tr Reserved)) ∧
  (∀ n k p g l, tr !! n = Some (Reborrow k p g) → k ≠ KRaw → covers g l →
    is_Some (tb_run l ((k, n) :: same_ref p) (drop (S n) tr) (tb_initial k))).
