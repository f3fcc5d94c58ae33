(** * Red-black trees on paper

    A painted drawing says which pair sits where and which nodes are red. [hinsert] and [hremove] are recursive insertion and deletion on painted drawings: no
    addresses, no parent registers, no walk back up. [rb_reads t i b]: the painted drawing [b] is what one sees following the left and right registers from node
    [i] (red_black_tree.rs: get_left, get_right, lines 385–392; is_red, lines 352–354; the pair read with get_node, lines 325–327). *)
From Verif Require Export MapSpec RBModel DrawSpec.

Inductive painted (A : Type) := Bare | Knot (red : bool) (l : painted A) (x : A) (r : painted A).
Global Arguments Bare {A}.
Global Arguments Knot {A} red l x r.

Section painted.
  Context {A : Type}.
  (** without the colours *)
  Fixpoint unpainted (b : painted A) : drawing A := match b with Bare => Empty | Knot _ l x r => Fork (unpainted l) x (unpainted r) end.
  Definition is_red (b : painted A) : bool := match b with Knot true _ _ _ => true | _ => false end.
  Definition blackened (b : painted A) : painted A := match b with Bare => Bare | Knot _ l x r => Knot false l x r end.

  (** no red node has a red child, every way down holds [n] black nodes *)
  Fixpoint proper (n : nat) (b : painted A) : Prop :=
    match b, n with
    | Bare, _ => n = O
    | Knot true l _ r, _ => is_red l = false ∧ is_red r = false ∧ proper n l ∧ proper n r
    | Knot false l _ r, S n => proper n l ∧ proper n r
    | Knot false _ _ _, O => False
    end.

  (** ** Insertion: a red node may have come up red below the left (right) child of the black node of [x] *)
  Definition mended_left (l : painted A) (x : A) (r : painted A) : painted A :=
    match l with
    | Knot true (Knot true _ _ _ as n) y c => if is_red r then Knot true (blackened l) x (blackened r) else Knot false n y (Knot true c x r)
    | Knot true a y (Knot true b z c) => if is_red r then Knot true (blackened l) x (blackened r) else Knot false (Knot true a y b) z (Knot true c x r)
    | _ => Knot false l x r
    end.
  Definition mended_right (l : painted A) (x : A) (r : painted A) : painted A :=
    match r with
    | Knot true a y (Knot true _ _ _ as n) => if is_red l then Knot true (blackened l) x (blackened r) else Knot false (Knot true l x a) y n
    | Knot true (Knot true a z b) y c => if is_red l then Knot true (blackened l) x (blackened r) else Knot false (Knot true l x a) z (Knot true b y c)
    | _ => Knot false l x r
    end.

  (** ** Deletion: the ways down the left (right) side of the node of [x], which is red or not, are one black node short;
      the second component says whether the whole tree is still short *)
  Definition short_left_black (red : bool) (l : painted A) (x : A) (r : painted A) : painted A * bool :=
    match r with
    | Knot _ a y (Knot true c z e) => (Knot red (Knot false l x a) y (Knot false c z e), false)
    | Knot _ (Knot true a z b) y c => (Knot red (Knot false l x a) z (Knot false b y c), false)
    | Knot _ a y c => (Knot false l x (Knot true a y c), negb red)
    | Bare => (Knot red l x r, true)
    end.
  Definition short_left (red : bool) (l : painted A) (x : A) (r : painted A) : painted A * bool :=
    match r with
    | Knot true a y c => (Knot false (short_left_black true l x a).1 y c, false)
    | _ => short_left_black red l x r
    end.
  Definition short_right_black (red : bool) (l : painted A) (x : A) (r : painted A) : painted A * bool :=
    match l with
    | Knot _ (Knot true a z b) y c => (Knot red (Knot false a z b) y (Knot false c x r), false)
    | Knot _ a y (Knot true b z c) => (Knot red (Knot false a y b) z (Knot false c x r), false)
    | Knot _ a y c => (Knot false (Knot true a y c) x r, negb red)
    | Bare => (Knot red l x r, true)
    end.
  Definition short_right (red : bool) (l : painted A) (x : A) (r : painted A) : painted A * bool :=
    match l with
    | Knot true a y c => (Knot false a y (short_right_black true c x r).1, false)
    | _ => short_right_black red l x r
    end.
  Definition left_done (red : bool) (l : painted A * bool) (x : A) (r : painted A) : painted A * bool :=
    if l.2 then short_left red l.1 x r else (Knot red l.1 x r, false).
  Definition right_done (red : bool) (l : painted A) (x : A) (r : painted A * bool) : painted A * bool :=
    if r.2 then short_right red l x r.1 else (Knot red l x r.1, false).
  (** the last pair of a tree, and the rest *)
  Fixpoint without_last (red : bool) (l : painted A) (x : A) (r : painted A) : A * (painted A * bool) :=
    match r with
    | Bare => (x, (l, negb red))
    | Knot m a y b => let '(z, rest) := without_last m a y b in (z, right_done red l x rest)
    end.
  (** without the root: its only child, or else the last pair of the left side, takes its place *)
  Definition without_root (red : bool) (l r : painted A) : painted A * bool :=
    match l, r with
    | Bare, _ => (r, negb red)
    | _, Bare => (l, negb red)
    | Knot m a y b, _ => let '(z, rest) := without_last m a y b in left_done red rest z r
    end.

  (** the pairs of [l], from left to right, at the places of [b] *)
  Fixpoint restocked (b : painted A) (l : list A) : painted A :=
    match b with
    | Bare => Bare
    | Knot m x z y =>
        let n := length (inorder (unpainted x)) in Knot m (restocked x l) (default z (l !! n)) (restocked y (drop (S n) l))
    end.
End painted.

Section hue.
  Context {K V : Type} (cmp : K → K → comparison).
  Notation painted := (painted (K * V)).
  Fixpoint hins (k : K) (v : V) (b : painted) : painted :=
    match b with
    | Bare => Knot true Bare (k, v) Bare
    | Knot m l x r =>
        match cmp k x.1 with
        | Lt => if m then Knot true (hins k v l) x r else mended_left (hins k v l) x r
        | Gt => if m then Knot true l x (hins k v r) else mended_right l x (hins k v r)
        | Eq => Knot m l (x.1, v) r
        end
    end.
  Definition hinsert (k : K) (v : V) (b : painted) : painted := blackened (hins k v b).
  Fixpoint hrem (k : K) (b : painted) : painted * bool :=
    match b with
    | Bare => (Bare, false)
    | Knot m l x r =>
        match cmp k x.1 with
        | Lt => left_done m (hrem k l) x r
        | Gt => right_done m l x (hrem k r)
        | Eq => without_root m l r
        end
    end.
  Definition hremove (k : K) (b : painted) : painted := blackened (hrem k b).1.
  (** one call on a tree of capacity [cap]; [None] is remove_root *)
  Definition hstep (cap : N) (o : option (om_op K V)) (b : painted) : painted :=
    let l := inorder (unpainted b) in
    match o with
    | None => match b with Bare => Bare | Knot m l _ r => blackened (without_root m l r).1 end
    | Some (MInsert k v) =>
        match om_find cmp k l with
        | Some _ => hinsert k v b
        | None => if decide (lengthN l < cap) then hinsert k v b else b
        end
    | Some (MRemove k) => hremove k b
    | Some o => restocked b (om_spec cmp cap o l).2
    end.
  Definition inserts (o : option (om_op K V)) : bool := match o with Some (MInsert _ _) => true | _ => false end.
  (** a history of calls from the empty tree *)
  Definition hue_tree (cap : N) (ops : list (option (om_op K V))) : painted := fold_left (λ b o, hstep cap o b) ops Bare.
End hue.

Inductive rb_reads `{Profile} {K V} (t : rbt K V) : N → painted (K * V) → Prop :=
| rb_reads_none : rb_reads t SENTINEL Bare
| rb_reads_node i l r x y c kv :
    i ≠ SENTINEL → rb_get_left t i = Val l → rb_get_right t i = Val r → rb_get_node t i = Val kv → rb_is_red t i = Val c →
    rb_reads t l x → rb_reads t r y → rb_reads t i (Knot c x kv y).
(** the drawing of a whole tree *)
Definition rb_drawn `{Profile} {K V} (t : rbt K V) (b : painted (K * V)) : Prop := rb_reads t (rb_root t) b.
