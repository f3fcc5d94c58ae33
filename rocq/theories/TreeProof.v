(** * Binary trees stored in an allocator: facts shared by the red-black and the AVL tree *)
From Verif Require Export IterProof MapProof AllocApi AllocProof WalkModel.

(** Ghost trees: a mark (colour or height), the slot of the node and its pair *)
Inductive tree (A : Type) := Lf | Nd (m : N) (l : tree A) (a : N) (kv : A) (r : tree A).
Global Arguments Lf {A}.
Global Arguments Nd {A} m l a kv r.
(** One-hole contexts, innermost frame first; [fd] is the side of the hole ([true] = right) *)
Record frame (A : Type) := F { fd : bool; fm : N; fa : N; fkv : A; fo : tree A }.
Global Arguments F {A} fd fm fa fkv fo.
Global Arguments fd {A} _.
Global Arguments fm {A} _.
Global Arguments fa {A} _.
Global Arguments fkv {A} _.
Global Arguments fo {A} _.

Definition dN (d : bool) : N := if d then 1 else 0.

Section pure.
  Context {A : Type}.
  Implicit Types t l r : tree A.
  Implicit Types ctx : list (frame A).

  Definition root t : N := match t with Lf => 0 | Nd _ _ a _ _ => a end.
  Definition mark t : N := match t with Lf => 0 | Nd m _ _ _ _ => m end.
  Fixpoint entries t : list (N * A) :=
    match t with Lf => [] | Nd _ l a kv r => entries l ++ (a, kv) :: entries r end.
  Fixpoint height t : nat := match t with Lf => O | Nd _ l _ _ r => S (Nat.max (height l) (height r)) end.
  Fixpoint tsize t : nat := match t with Lf => O | Nd _ l _ _ r => S (tsize l + tsize r) end.
  (** [x] is the child in direction [d] *)
  Definition mk (d : bool) m x a kv y : tree A := if d then Nd m y a kv x else Nd m x a kv y.
  Fixpoint plug ctx t : tree A :=
    match ctx with [] => t | F d m a kv o :: ctx => plug ctx (mk d m t a kv o) end.
  Fixpoint cbef ctx : list (N * A) :=
    match ctx with [] => [] | F d m a kv o :: ctx => cbef ctx ++ if d then entries o ++ [(a, kv)] else [] end.
  Fixpoint caft ctx : list (N * A) :=
    match ctx with [] => [] | F d m a kv o :: ctx => (if d then [] else (a, kv) :: entries o) ++ caft ctx end.
  Fixpoint csize ctx : nat := match ctx with [] => O | f :: ctx => S (tsize (fo f) + csize ctx) end.

  Lemma plug_app c1 c2 t : plug (c1 ++ c2) t = plug c2 (plug c1 t).
  Proof. revert t. induction c1 as [|[] c1 IH]; intros t; simpl; [done|]. by rewrite IH. Qed.
  Lemma entries_plug ctx t : entries (plug ctx t) = cbef ctx ++ entries t ++ caft ctx.
  Proof.
    revert t. induction ctx as [|[d m a kv o] ctx IH]; intros t; simpl; [by rewrite app_nil_r|].
    rewrite IH. destruct d; simpl; by rewrite <- ?app_assoc, ?app_nil_r.
  Qed.
  Lemma tsize_entries t : tsize t = length (entries t).
  Proof. induction t; simpl; [done|]. rewrite app_length. simpl. lia. Qed.
  Lemma tsize_plug ctx t : tsize (plug ctx t) = (tsize t + csize ctx)%nat.
  Proof.
    revert t. induction ctx as [|[d m a kv o] ctx IH]; intros t; simpl; [lia|].
    rewrite IH. destruct d; simpl; lia.
  Qed.
  Lemma csize_length ctx : (length ctx ≤ csize ctx)%nat.
  Proof. induction ctx; simpl; lia. Qed.
  Lemma height_tsize t : (height t ≤ tsize t)%nat.
  Proof. induction t; simpl; lia. Qed.
  Lemma entries_focus t i kv :
    (i, kv) ∈ entries t → ∃ ctx m l r, t = plug ctx (Nd m l i kv r).
  Proof.
    induction t as [|m l IHl a kv' r IHr]; simpl; [set_solver|].
    intros [Hl|[[= -> ->]|Hr]%elem_of_cons]%elem_of_app.
    - destruct (IHl Hl) as (ctx & m' & l' & r' & ->). exists (ctx ++ [F false m a kv' r]), m', l', r'.
      by rewrite plug_app.
    - by exists [], m, l, r.
    - destruct (IHr Hr) as (ctx & m' & l' & r' & ->). exists (ctx ++ [F true m a kv' l]), m', l', r'.
      by rewrite plug_app.
  Qed.
  Lemma entries_mk d m x a kv y :
    entries (mk d m x a kv y) = if d then entries y ++ (a, kv) :: entries x else entries x ++ (a, kv) :: entries y.
  Proof. by destruct d. Qed.
  Lemma root_mk d m x a kv y : root (mk d m x a kv y) = a.
  Proof. by destruct d. Qed.
  Lemma plug_Lf ctx t : plug ctx t = Lf → ctx = [] ∧ t = Lf.
  Proof.
    revert t. induction ctx as [|[] ctx IH]; intros t; simpl; [done|]. intros [_ Ht]%IH. by destruct fd0.
  Qed.

  (** The same tree up to the pairs stored *)
  Inductive same_shape : tree A → tree A → Prop :=
  | ss_Lf : same_shape Lf Lf
  | ss_Nd m l a kv kv' r l' r' :
      same_shape l l' → same_shape r r' → same_shape (Nd m l a kv r) (Nd m l' a kv' r').
  Lemma same_shape_refl t : same_shape t t.
  Proof. induction t; by constructor. Qed.
  Lemma same_shape_trans t1 t2 t3 : same_shape t1 t2 → same_shape t2 t3 → same_shape t1 t3.
  Proof. intros H. revert t3. induction H; intros t3 H3; inversion H3; subst; constructor; eauto. Qed.
  Lemma same_shape_plug ctx t t' : same_shape t t' → same_shape (plug ctx t) (plug ctx t').
  Proof.
    revert t t'. induction ctx as [|[] ctx IH]; intros t t' Hs; simpl; [done|]. apply IH.
    destruct fd0; constructor; try done; apply same_shape_refl.
  Qed.
  Lemma same_shape_addrs t t' : same_shape t t' → (entries t).*1 = (entries t').*1.
  Proof. induction 1; simpl; [done|]. rewrite !fmap_app, !fmap_cons. simpl. congruence. Qed.
  Lemma same_shape_root t t' : same_shape t t' → root t = root t'.
  Proof. by destruct 1. Qed.
  Lemma same_shape_mark t t' : same_shape t t' → mark t = mark t'.
  Proof. by destruct 1. Qed.
End pure.

(** ** Descent by key *)
Section desc.
  Context {K V : Type} (cmp : K → K → comparison) (HO : OrdLaws cmp).
  Notation tree := (tree (K * V)).
  Notation frame := (frame (K * V)).
  Implicit Types t l r : tree.
  Implicit Types ctx : list frame.

  Fixpoint tdesc (k : K) ctx t : list frame * tree :=
    match t with
    | Lf => (ctx, Lf)
    | Nd m l a kv r => match cmp k kv.1 with
                       | Lt => tdesc k (F false m a kv r :: ctx) l
                       | Gt => tdesc k (F true m a kv l :: ctx) r
                       | Eq => (ctx, t)
                       end
    end.
  (** [ctx] is on the search path of [k] *)
  Definition onpath k ctx : Prop := below cmp k (cbef ctx).*2 ∧ above cmp k (caft ctx).*2.

  Lemma tdesc_plug k ctx t : plug (tdesc k ctx t).1 (tdesc k ctx t).2 = plug ctx t.
  Proof using Type.
    revert ctx. induction t as [|m l IHl a kv r IHr]; intros ctx; simpl; [done|].
    destruct (cmp k kv.1); simpl; [done|rewrite IHl; done|rewrite IHr; done].
  Qed.
  Lemma asc_mid ctx m l a kv r :
    ascending cmp (entries (plug ctx (Nd m l a kv r))).*2 →
    below cmp kv.1 (cbef ctx).*2 ∧ below cmp kv.1 (entries l).*2 ∧
    above cmp kv.1 (entries r).*2 ∧ above cmp kv.1 (caft ctx).*2.
  Proof using HO.
    rewrite entries_plug. simpl. rewrite !fmap_app, !fmap_cons, <- app_assoc. simpl.
    intros Hs. assert (ascending cmp (((cbef ctx).*2 ++ (entries l).*2) ++ kv :: ((entries r).*2 ++ (caft ctx).*2))) as Hs'.
    { by rewrite <- app_assoc. }
    apply ascending_mid in Hs' as (_ & _ & Hb & Ha & _); [|done].
    apply below_app in Hb as [? ?]. apply above_app in Ha as [? ?]. done.
  Qed.
  Lemma onpath_left k ctx m l a kv r :
    ascending cmp (entries (plug ctx (Nd m l a kv r))).*2 →
    onpath k ctx → cmp k kv.1 = Lt → onpath k (F false m a kv r :: ctx).
  Proof using HO.
    intros (H1 & H2 & H3 & H4)%asc_mid [Hb Ha] Hc. split; simpl.
    - by rewrite app_nil_r.
    - constructor; [done|]. rewrite fmap_app. apply above_app. split; [|done]. by eapply above_trans.
  Qed.
  Lemma onpath_right k ctx m l a kv r :
    ascending cmp (entries (plug ctx (Nd m l a kv r))).*2 →
    onpath k ctx → cmp k kv.1 = Gt → onpath k (F true m a kv l :: ctx).
  Proof using HO.
    intros (H1 & H2 & H3 & H4)%asc_mid [Hb Ha] Hc. split; simpl.
    - rewrite !fmap_app. apply below_app. split; [done|]. apply below_app. split; [by eapply below_trans|].
      by constructor.
    - done.
  Qed.
  Lemma onpath_nil k : onpath k [].
  Proof using Type. split; constructor. Qed.
  Lemma onpath_found k ctx m l a kv r :
    ascending cmp (entries (plug ctx (Nd m l a kv r))).*2 → cmp k kv.1 = Eq →
    below cmp k ((cbef ctx).*2 ++ (entries l).*2) ∧ above cmp k ((entries r).*2 ++ (caft ctx).*2).
  Proof using HO.
    intros (H1 & H2 & H3 & H4)%asc_mid Hc. split.
    - apply below_app. split; by eapply below_eq.
    - apply above_app. split; by eapply above_eq.
  Qed.
  Lemma tdesc_ok k ctx t :
    ascending cmp (entries (plug ctx t)).*2 → onpath k ctx →
    onpath k (tdesc k ctx t).1 ∧
    ((tdesc k ctx t).2 = Lf ∨ ∃ m l a kv r, (tdesc k ctx t).2 = Nd m l a kv r ∧ cmp k kv.1 = Eq).
  Proof using HO.
    revert ctx. induction t as [|m l IHl a kv r IHr]; intros ctx Hs Hp; simpl; [eauto|].
    destruct (cmp k kv.1) eqn:E; simpl.
    - split; [done|]. right. eauto 10.
    - apply IHl; [done|]. by eapply onpath_left.
    - apply IHr; [done|]. by eapply onpath_right.
  Qed.

  (** The operations of the specification on a tree *)
  Lemma spec_absent k ctx :
    onpath k ctx → om_find cmp k (entries (plug ctx Lf)).*2 = None ∧
    (∀ v, om_insert cmp k v (entries (plug ctx Lf)).*2 = (cbef ctx).*2 ++ (k, v) :: (caft ctx).*2) ∧
    om_remove cmp k (entries (plug ctx Lf)).*2 = (entries (plug ctx Lf)).*2 ∧
    (∀ f, om_alter cmp k f (entries (plug ctx Lf)).*2 = (entries (plug ctx Lf)).*2).
  Proof using Type.
    intros [Hb Ha]. rewrite entries_plug. simpl. rewrite fmap_app. split_and!; intros.
    - by apply om_find_absent.
    - by apply om_insert_absent.
    - by apply om_remove_absent.
    - by apply om_alter_absent.
  Qed.
  Lemma spec_found k ctx m l a kv r :
    let E := (entries (plug ctx (Nd m l a kv r))).*2 in
    ascending cmp E → cmp k kv.1 = Eq →
    om_find cmp k E = Some kv ∧
    (∀ v, om_insert cmp k v E = (entries (plug ctx (Nd m l a (kv.1, v) r))).*2) ∧
    om_remove cmp k E = ((cbef ctx).*2 ++ (entries l).*2) ++ (entries r).*2 ++ (caft ctx).*2 ∧
    (∀ f, om_alter cmp k f E = (entries (plug ctx (Nd m l a (kv.1, f kv.2) r))).*2).
  Proof using HO.
    intros E Hs Hc. destruct (onpath_found _ _ _ _ _ _ _ Hs Hc) as [Hb Ha].
    assert (∀ kv, (entries (plug ctx (Nd m l a kv r))).*2 =
      ((cbef ctx).*2 ++ (entries l).*2) ++ kv :: ((entries r).*2 ++ (caft ctx).*2)) as He.
    { intros kv'. rewrite entries_plug. simpl. rewrite !fmap_app, fmap_cons, <- !app_assoc. done. }
    unfold E. rewrite He. split_and!; intros; rewrite ?He.
    - by apply om_find_found.
    - by apply om_insert_found.
    - by apply om_remove_found.
    - by apply om_alter_found.
  Qed.
End desc.

(** ** Trees in an allocator, as far as the child registers are concerned *)
Section shape.
  Context `{Profile} {K V : Type}.
  Notation al := (alloc (K * V)).
  Notation tree := (tree (K * V)).
  Implicit Types a : al.
  Implicit Types t l r : tree.

  Fixpoint shp a t : Prop :=
    match t with
    | Lf => True
    | Nd m l i kv r => i ≠ 0 ∧ na_get_register a i Left = Val (root l) ∧ na_get_register a i Right = Val (root r) ∧
                       shp a l ∧ shp a r
    end.
  Lemma shp_plug a ctx t : shp a (plug ctx t) → shp a t.
  Proof.
    revert t. induction ctx as [|[] ctx IH]; intros t; simpl; [done|].
    intros Hs%IH. destruct fd0; simpl in Hs; naive_solver.
  Qed.
  Lemma shp_root a t : shp a t → root t = 0 → t = Lf.
  Proof. destruct t; simpl; [done|]. intros (? & _) ?. done. Qed.
  Lemma shp_regs a a' t :
    (∀ i x, na_get_register a' i x = na_get_register a i x) → shp a t → shp a' t.
  Proof. intros Hr. induction t; simpl; [done|]. rewrite !Hr. naive_solver. Qed.

  (** Leftmost / rightmost *)
  Fixpoint tmin t : N := match t with Lf => 0 | Nd _ l a _ _ => match l with Lf => a | _ => tmin l end end.
  Fixpoint tmax t : N := match t with Lf => 0 | Nd _ _ a _ r => match r with Lf => a | _ => tmax r end end.
  Lemma na_find_min a t fuel :
    shp a t → (height t < fuel)%nat → na_find_dir fuel a Left (root t) = Val (tmin t).
  Proof.
    revert t. induction fuel as [|fuel IH]; [lia|]. intros [|m l i kv r] Hs Hf; simpl in *; [done|].
    destruct Hs as (Hi & -> & _ & Hl & Hr). simpl. destruct l as [|ml ll al_ kvl rl].
    - by rewrite decide_True by done.
    - rewrite decide_False by (simpl in *; naive_solver).
      apply (IH (Nd ml ll al_ kvl rl)); [done|]. simpl in *. lia.
  Qed.
  Lemma na_find_max a t fuel :
    shp a t → (height t < fuel)%nat → na_find_dir fuel a Right (root t) = Val (tmax t).
  Proof.
    revert t. induction fuel as [|fuel IH]; [lia|]. intros [|m l i kv r] Hs Hf; simpl in *; [done|].
    destruct Hs as (Hi & _ & -> & Hl & Hr). simpl. destruct r as [|mr lr ar_ kvr rr].
    - by rewrite decide_True by done.
    - rewrite decide_False by (simpl in *; naive_solver).
      apply (IH (Nd mr lr ar_ kvr rr)); [done|]. simpl in *. lia.
  Qed.
  Lemma tmin_head t : t ≠ Lf → ∃ kv es, entries t = (tmin t, kv) :: es.
  Proof.
    induction t as [|m l IHl i kv r IHr]; [done|]. intros _. simpl.
    destruct l as [|ml ll al_ kvl rl]; [simpl; eauto|].
    destruct IHl as (kv' & es & He); [done|]. rewrite He. simpl. eauto.
  Qed.
  Lemma tmax_last t : t ≠ Lf → ∃ kv es, entries t = es ++ [(tmax t, kv)].
  Proof.
    induction t as [|m l IHl i kv r IHr]; [done|]. intros _. simpl.
    destruct r as [|mr lr ar_ kvr rr]; [simpl; eauto|].
    destruct IHr as (kv' & es & He); [done|]. rewrite He.
    exists kv', (entries l ++ (i, kv) :: es). by rewrite <- app_assoc.
  Qed.

  (** *** Iterators *)
  (** Ghosts: the subtrees behind the pointer and the stack *)
  Notation addrs t := (entries t).*1.
  Definition fpart t : list N := match t with Lf => [] | Nd _ _ a _ r => a :: addrs r end.
  Definition bpart t : list N := match t with Lf => [] | Nd _ l a _ _ => addrs l ++ [a] end.
  Fixpoint rem (gs : list tree) : list N := match gs with [] => [] | g :: gs => fpart g ++ rem gs end.
  Fixpoint pre (gs : list tree) : list N := match gs with [] => [] | g :: gs => pre gs ++ bpart g end.
  Definition gok a (n : nat) t : Prop := shp a t ∧ (tsize t ≤ n)%nat.
  Definition gsok a n (gs : list tree) : Prop := Forall (λ g, gok a n g ∧ g ≠ Lf) gs.

  Lemma gsok_regs a a' n gs :
    (∀ i x, na_get_register a' i x = na_get_register a i x) → gsok a n gs → gsok a' n gs.
  Proof.
    intros Hr Hg. eapply Forall_impl; [exact Hg|]. intros g [[Hs ?] ?]. split; [|done]. split; [|done].
    by eapply shp_regs.
  Qed.

  Lemma ti_fwd_nil a fuel fn rs rp rn :
    ti_fwd (S fuel) a (TIter [] 0 fn rs rp rn false) = Val (None, TIter [] 0 fn rs rp rn false).
  Proof. done. Qed.
  Lemma ti_fwd_ok a n gs ft fuel fn rs rp rn c rest :
    gsok a n gs → gok a n ft → (height ft < fuel)%nat → addrs ft ++ rem gs = c :: rest →
    ∃ gs' ft', gsok a n gs' ∧ gok a n ft' ∧
      if decide (Some c = rn)
      then ∃ it', ti_fwd fuel a (TIter (map root gs) (root ft) fn rs rp rn false) = Val (None, it') ∧ ti_terminated it' = true
      else addrs ft' ++ rem gs' = rest ∧
           ti_fwd fuel a (TIter (map root gs) (root ft) fn rs rp rn false) =
           Val (Some c, TIter (map root gs') (root ft') (Some c) rs rp rn false).
  Proof.
    revert gs ft. induction fuel as [|fuel IH]; [lia|]. intros gs [|m l i kv r] Hgs Hft Hh He.
    - simpl in *. destruct gs as [|g gs]; simpl in *; [done|]. 
      apply Forall_cons in Hgs as [[Hg Hg0] Hgs]. destruct g as [|m l i kv r]; [done|]. simpl in *.
      destruct Hg as [(Hi & _ & Hr & _ & Hsr) Hn]. simplify_eq. rewrite Hr.
      exists gs, r. split; [done|]. split; [split; [done|simpl in *; lia]|].
      case_decide; [eexists; split; [done|]; done|done].
    - destruct Hft as [Hs Hn]. pose proof Hs as (Hi & Hl & _ & Hsl & _). simpl ti_fwd.
      rewrite (decide_False (P := i = SENTINEL)) by done. rewrite Hl. simpl mbind.
      apply (IH (Nd m l i kv r :: gs) l).
      + constructor; [|done]. done.
      + split; [done|]. simpl in *. lia.
      + simpl in *. lia.
      + rewrite <- He. simpl. rewrite fmap_app, <- app_assoc. done.
  Qed.
  Lemma ti_rev_nil a fuel fs fp fn rn :
    ti_rev (S fuel) a (TIter fs fp fn [] 0 rn false) = Val (None, TIter fs fp fn [] 0 rn false).
  Proof. done. Qed.
  Lemma ti_rev_ok a n gs rt fuel fs fp fn rn c rest :
    gsok a n gs → gok a n rt → (height rt < fuel)%nat → pre gs ++ addrs rt = rest ++ [c] →
    ∃ gs' rt', gsok a n gs' ∧ gok a n rt' ∧
      if decide (Some c = fn)
      then ∃ it', ti_rev fuel a (TIter fs fp fn (map root gs) (root rt) rn false) = Val (None, it') ∧ ti_terminated it' = true
      else pre gs' ++ addrs rt' = rest ∧
           ti_rev fuel a (TIter fs fp fn (map root gs) (root rt) rn false) =
           Val (Some c, TIter fs fp fn (map root gs') (root rt') (Some c) false).
  Proof.
    revert gs rt. induction fuel as [|fuel IH]; [lia|]. intros gs [|m l i kv r] Hgs Hrt Hh He.
    - simpl in *. rewrite app_nil_r in He. destruct gs as [|g gs]; simpl in *; [by destruct rest|].
      
      apply Forall_cons in Hgs as [[Hg Hg0] Hgs]. destruct g as [|m l i kv r]; [done|]. simpl in *.
      destruct Hg as [(Hi & Hl & _ & Hsl & _) Hn]. rewrite app_assoc in He. apply app_inj_tail in He as [He ->].
      rewrite Hl. exists gs, l. split; [done|]. split; [split; [done|simpl in *; lia]|].
      case_decide; [eexists; split; [done|]; done|done].
    - destruct Hrt as [Hs Hn]. pose proof Hs as (Hi & _ & Hr & _ & Hsr). simpl ti_rev.
      rewrite (decide_False (P := i = SENTINEL)) by done. rewrite Hr. simpl mbind.
      apply (IH (Nd m l i kv r :: gs) r).
      + constructor; [|done]. done.
      + split; [done|]. simpl in *. lia.
      + simpl in *. lia.
      + rewrite <- He. simpl. rewrite fmap_app, <- !app_assoc. done.
  Qed.

  (** Invariant: [P] was yielded from the front, [B] from the back, [mid] is to come (slot numbers) *)
  Definition tinv a (n : nat) (it : titer) (P mid B : list N) : Prop :=
    NoDup (P ++ mid ++ B) ∧
    (ti_terminated it = true ∧ mid = [] ∨
     ∃ gs ft gr rt,
      it = TIter (map root gs) (root ft) (last P) (map root gr) (root rt) (head B) false ∧
      gsok a n gs ∧ gok a n ft ∧ gsok a n gr ∧ gok a n rt ∧
      addrs ft ++ rem gs = mid ++ B ∧ pre gr ++ addrs rt = P ++ mid).

  Lemma tinv_regs a a' n it P mid B :
    (∀ i x, na_get_register a' i x = na_get_register a i x) → tinv a n it P mid B → tinv a' n it P mid B.
  Proof.
    intros Hr [Hn [H1|(gs & ft & gr & rt & -> & H1 & [H2 H2'] & H3 & [H4 H4'] & H5 & H6)]]; split; [done|by left|done|].
    right. exists gs, ft, gr, rt.
    split_and!; [done|by eapply gsok_regs|split; [by eapply shp_regs|done]|by eapply gsok_regs|split; [by eapply shp_regs|done]|done|done].
  Qed.
  Lemma tinv_new a n t : gok a n t → NoDup (addrs t) → tinv a n (ti_new (root t)) [] (addrs t) [].
  Proof.
    intros Hg Hn. split; [by rewrite app_nil_r|]. right. exists [], t, [], t. simpl.
    rewrite app_nil_r. split_and!; done || constructor.
  Qed.
  Lemma tinv_fwd a n it P mid B fuel :
    tinv a n it P mid B → (n < fuel)%nat →
    ∃ it', ti_fwd fuel a it = Val (head mid, it') ∧
           tinv a n it' (P ++ take 1 mid) (tail mid) B.
  Proof.
    intros [Hn [[Ht ->]|(gs & ft & gr & rt & -> & H1 & H2 & H3 & H4 & H5 & H6)]] Hf.
    { destruct fuel; [lia|]. destruct it as [? ? ? ? ? ? []]; simpl in *; [|done].
      eexists. split; [done|]. rewrite app_nil_r. split; [done|]. by left. }
    pose proof H2 as [_ Hs]. pose proof (height_tsize ft).
    destruct (mid ++ B) as [|c rest] eqn:E.
    - apply app_eq_nil in E as [-> ->]. apply app_eq_nil in H5 as [Hft Hgs].
      destruct ft as [|m l i kv r]; cycle 1.
      { exfalso. simpl in Hft. rewrite fmap_app in Hft. by apply app_eq_nil in Hft as [_ ?]. }
      destruct gs as [|g gs]; cycle 1.
      { exfalso. apply Forall_cons in H1 as [[_ Hg] _]. by destruct g. }
      destruct fuel; [lia|]. simpl map. simpl root. rewrite ti_fwd_nil. eexists. split; [done|].
      rewrite app_nil_r. split; [done|]. right. exists [], Lf, gr, rt. simpl. split_and!; done.
    - destruct (ti_fwd_ok a n gs ft fuel (last P) (map root gr) (root rt) (head B) c rest H1 H2 ltac:(lia) H5)
        as (gs' & ft' & Hgs' & Hft' & Hc).
      destruct mid as [|x mid]; simpl in *.
      + subst B. simpl in *. rewrite decide_True in Hc by done. destruct Hc as (it' & -> & Ht).
        eexists. split; [done|]. rewrite app_nil_r. split; [done|]. by left.
      + simplify_eq. rewrite decide_False in Hc.
        2:{ intros Hx. destruct B as [|b B]; simplify_eq/=. apply NoDup_app in Hn as (_ & _ & Hn).
            apply NoDup_cons in Hn as [Hn _]. apply Hn. apply elem_of_app. right. apply elem_of_list_here. }
        destruct Hc as [Hr ->]. eexists. split; [done|]. rewrite take_0.
        split; [by rewrite <- app_assoc|]. right. exists gs', ft', gr, rt. rewrite last_snoc.
        split_and!; try done. by rewrite <- app_assoc.
  Qed.
  Lemma tinv_rev a n it P mid B fuel :
    tinv a n it P mid B → (n < fuel)%nat →
    match unsnoc mid with
    | None => ∃ it', ti_rev fuel a it = Val (None, it') ∧ tinv a n it' P [] B
    | Some (mid', c) => ∃ it', ti_rev fuel a it = Val (Some c, it') ∧ tinv a n it' P mid' (c :: B)
    end.
  Proof.
    intros [Hn [[Ht ->]|(gs & ft & gr & rt & -> & H1 & H2 & H3 & H4 & H5 & H6)]] Hf.
    { destruct fuel; [lia|]. destruct it as [? ? ? ? ? ? []]; simpl in *; [|done].
      eexists. split; [done|]. split; [done|]. by left. }
    pose proof H4 as [_ Hs]. pose proof (height_tsize rt).
    destruct (unsnoc (P ++ mid)) as [[rest c]|] eqn:E.
    - apply unsnoc_Some in E. rewrite E in H6.
      destruct (ti_rev_ok a n gr rt fuel (map root gs) (root ft) (last P) (head B) c rest H3 H4 ltac:(lia) H6)
        as (gs' & ft' & Hgs' & Hft' & Hc).
      destruct (unsnoc mid) as [[mid' c']|] eqn:E2.
      + apply unsnoc_Some in E2 as ->. rewrite app_assoc in E. apply app_inj_tail in E as [<- ->].
        rewrite decide_False in Hc.
        2:{ intros Hx. rewrite <- app_assoc in Hn. apply NoDup_app in Hn as (_ & Hn & _). symmetry in Hx.
            apply last_Some in Hx as [P' ->]. apply (Hn c).
            - apply elem_of_app. right. apply elem_of_list_here.
            - apply elem_of_app. right. apply elem_of_list_here. }
        destruct Hc as [Hr ->]. eexists. split; [done|].
        split; [by rewrite <- app_assoc in Hn|]. right. exists gs, ft, gs', ft'.
        split_and!; try done. rewrite H5, <- app_assoc. done.
      + apply unsnoc_None in E2 as ->. rewrite app_nil_r in E. subst P.
        rewrite last_snoc, decide_True in Hc by done. rewrite last_snoc. destruct Hc as (it' & -> & Ht).
        eexists. split; [done|]. split; [done|]. by left.
    - apply unsnoc_None in E. rewrite E in H6. apply app_eq_nil in E as [-> ->].
      apply app_eq_nil in H6 as [Hgs Hft]. destruct rt as [|m l i kv r]; cycle 1.
      { exfalso. simpl in Hft. rewrite fmap_app in Hft. by apply app_eq_nil in Hft as [_ ?]. }
      destruct gr as [|g gr]; cycle 1.
      { exfalso. apply Forall_cons in H3 as [[_ Hg] _]. simpl in Hgs. apply app_eq_nil in Hgs as [_ Hgs].
        destruct g; [done|]. simpl in Hgs. by apply app_eq_nil in Hgs as [_ ?]. }
      destruct fuel; [lia|]. simpl map. simpl root. rewrite ti_rev_nil. simpl. eexists. split; [done|].
      split; [done|]. right. exists gs, ft, [], Lf. simpl. split_and!; done.
  Qed.

  Lemma na_raw_update_regs a a' i (f : K * V → K * V) v :
    na_raw_update i f a = Ret v a' → ∀ j x, na_get_register a' j x = na_get_register a j x.
  Proof.
    unfold na_raw_update, mbind, M_bind, lift, gets. destruct (u32_sub i 1) as [j|]; [|done].
    destruct (lookupN (nodes a) j) as [n|] eqn:E; [|done]. intros [= <- <-] j' x.
    unfold na_get_register. case_decide; [done|]. unfold na_get. destruct (u32_sub j' 1) as [j1|]; [|done]. simpl.
    destruct (decide (j = j1)) as [->|Hne].
    - rewrite lookupN_insertN, E; [done|]. apply lookupN_Some, lookup_lt_Some in E. unfold lengthN. lia.
    - by rewrite lookupN_insertN_ne.
  Qed.
End shape.

(** ** The lookup walk *)
Section walk.
  Context `{Profile} {K V : Type} (cmp : K → K → comparison).
  Notation al := (alloc (K * V)).
  Implicit Types a : al.

  (** pairs are where the tree says *)
  Definition vals a (E : list (N * (K * V))) : Prop := ∀ i kv, (i, kv) ∈ E → ∃ n, na_get a i = Val n ∧ val n = kv.
  Lemma vals_sub a E E' : vals a E → (∀ x, x ∈ E' → x ∈ E) → vals a E'.
  Proof. intros Hv Hs i kv Hi. apply Hv. by apply Hs. Qed.

  Lemma bst_walk_ok a k ctx t fuel :
    shp a t → vals a (entries t) → t ≠ Lf → (height t ≤ fuel)%nat →
    bst_walk cmp fuel a k (root t) = Val (root (tdesc cmp k ctx t).2).
  Proof.
    revert ctx t. induction fuel as [|fuel IH]; intros ctx t Hs Hv Ht Hf; (destruct t as [|m l i kv r]; [done|]); simpl in Hf; [lia|].
    destruct Hs as (Hi & Hl & Hr & Hsl & Hsr). simpl.
    destruct (Hv i kv) as (n & -> & Hn); [simpl; apply elem_of_app; right; apply elem_of_list_here|].
    simpl. rewrite Hn. destruct (cmp k kv.1) eqn:E; [done|..].
    - rewrite Hl. simpl. destruct l as [|ml ll il kvl rl]; [done|].
      rewrite decide_False by (simpl in Hsl; naive_solver). apply IH; [done| |done|lia].
      eapply vals_sub; [done|]. intros x Hx. simpl. apply elem_of_app. by left.
    - rewrite Hr. simpl. destruct r as [|mr lr ir kvr rr]; [done|].
      rewrite decide_False by (simpl in Hsr; naive_solver). apply IH; [done| |done|lia].
      eapply vals_sub; [done|]. intros x Hx. simpl. apply elem_of_app. right. by apply elem_of_list_further.
  Qed.
  Lemma bst_get_addr_ok a k t fuel :
    shp a t → vals a (entries t) → (height t ≤ fuel)%nat →
    bst_get_addr cmp fuel a (root t) k = Val (root (tdesc cmp k [] t).2).
  Proof.
    intros Hs Hv Hf. unfold bst_get_addr. destruct t as [|m l i kv r]; [done|].
    rewrite decide_False by (simpl in Hs; naive_solver). by apply bst_walk_ok.
  Qed.
End walk.

(** ** Trees of nodes with four registers: left, right and two more *)
Section layout.
  Local Arguments ti_fwd : simpl never.
  Local Arguments ti_rev : simpl never.
  Context `{Profile} {K V : Type}.
  Notation al := (alloc (K * V)).
  Notation tree := (tree (K * V)).
  Notation frame := (frame (K * V)).
  Implicit Types a : al.
  Implicit Types t l r : tree.
  Implicit Types ctx : list frame.
  (** registers of a node with parent [p] and mark [m] *)
  Context (rg : N → N → N → N → list N) (Hrg : ∀ p m lc rc : N, ∃ x y, rg p m lc rc = [lc; rc; x; y]).

  Fixpoint cells (p : N) t : list (N * node (K * V)) :=
    match t with
    | Lf => []
    | Nd m l a kv r => (a, Node (rg p m (root l) (root r)) kv) :: cells a l ++ cells a r
    end.
  (** [b] is the parent of the whole tree: 0, or a node above when only a part of the tree is looked at *)
  Definition ctopb (b : N) ctx : N := match ctx with [] => b | f :: _ => fa f end.
  Notation ctop := (ctopb 0).
  Fixpoint ccellsb (b : N) ctx (h : N) : list (N * node (K * V)) :=
    match ctx with
    | [] => []
    | F d m a kv o :: ctx =>
        (a, Node (rg (ctopb b ctx) m (if d then root o else h) (if d then h else root o)) kv) :: cells a o ++ ccellsb b ctx a
    end.
  Notation ccells := (ccellsb 0).
  Fixpoint croot ctx (h : N) : N := match ctx with [] => h | f :: ctx => croot ctx (fa f) end.

  Lemma cells_mk p d m x i kv y :
    cells p (mk d m x i kv y) ≡ₚ
    (i, Node (rg p m (if d then root y else root x) (if d then root x else root y)) kv) :: cells i x ++ cells i y.
  Proof using Type. clear Hrg. destruct d; simpl; [|done]. by rewrite (Permutation_app_comm (cells i y)). Qed.
  Lemma cells_plugb b ctx t : cells b (plug ctx t) ≡ₚ cells (ctopb b ctx) t ++ ccellsb b ctx (root t).
  Proof using Type. clear Hrg.
    revert t. induction ctx as [|[d m a kv o] ctx IH]; intros t; simpl; [by rewrite app_nil_r|].
    rewrite IH, cells_mk, root_mk. solve_Permutation.
  Qed.
  Lemma cells_plug ctx t : cells 0 (plug ctx t) ≡ₚ cells (ctop ctx) t ++ ccells ctx (root t).
  Proof using Type. clear Hrg. apply cells_plugb. Qed.
  Lemma root_plug ctx t : root (plug ctx t) = croot ctx (root t).
  Proof using Type. clear Hrg.
    revert t. induction ctx as [|[d m a kv o] ctx IH]; intros t; simpl; [done|]. by rewrite IH, root_mk.
  Qed.
  Lemma ccellsb_app b c1 c2 h :
    ccellsb b (c1 ++ c2) h ≡ₚ ccellsb (ctopb b c2) c1 h ++ ccellsb b c2 (croot c1 h).
  Proof using Type. clear Hrg.
    revert h. induction c1 as [|[d m a kv o] c1 IH]; intros h; simpl; [done|]. rewrite IH.
    assert (ctopb b (c1 ++ c2) = ctopb (ctopb b c2) c1) as -> by by destruct c1. solve_Permutation.
  Qed.
  Lemma ctopb_app b c1 c2 : ctopb b (c1 ++ c2) = ctopb (ctopb b c2) c1.
  Proof using Type. clear Hrg. by destruct c1. Qed.
  Lemma cells_addrs p t : (cells p t).*1 ≡ₚ (entries t).*1.
  Proof using Type. clear Hrg.
    revert p. induction t as [|m l IHl a kv r IHr]; intros p; simpl; [done|].
    rewrite !fmap_app, fmap_cons, IHl, IHr. simpl. solve_Permutation.
  Qed.
  Lemma cells_length p t : lengthN (cells p t) = lengthN (entries t).
  Proof using Type. clear Hrg.
    unfold lengthN. f_equal. rewrite <- (fmap_length fst (cells p t)), cells_addrs. apply fmap_length.
  Qed.
  Lemma cells_entries p t i kv : (i, kv) ∈ entries t → ∃ rs, (i, Node rs kv) ∈ cells p t.
  Proof using Type. clear Hrg.
    revert p. induction t as [|m l IHl a kv' r IHr]; intros p; simpl; [set_solver|].
    intros [Hl|[[= -> ->]|Hr]%elem_of_cons]%elem_of_app.
    - destruct (IHl a) as [rs ?]; [done|]. exists rs. set_solver.
    - eexists. apply elem_of_list_here.
    - destruct (IHr a) as [rs ?]; [done|]. exists rs. set_solver.
  Qed.
  Lemma cells_focus ctx m l i kv r :
    (i, Node (rg (ctop ctx) m (root l) (root r)) kv) ∈ cells 0 (plug ctx (Nd m l i kv r)).
  Proof using Type. clear Hrg. rewrite cells_plug. simpl. apply elem_of_list_here. Qed.

  Section ch.
    Context {G : Ghost (K * V)} `{GA : !GAdd G} (cap : N).
    Notation CH := (CH 4 cap).

    Lemma CH_shp_sub a cs p t : CH a cs → (∀ x, x ∈ cells p t → x ∈ cs) → shp a t.
    Proof using Hrg. clear GA.
      intros Hc. revert p. induction t as [|m l IHl i kv r IHr]; intros p Hs; simpl in *; [done|].
      destruct (Hrg p m (root l) (root r)) as (x & y & E). rewrite E in Hs.
      assert ((i, Node [root l; root r; x; y] kv) ∈ cs) as Hi by set_solver.
      split_and!; [by eapply CH_nz|by eapply CH_get_register|by eapply CH_get_register| |].
      - apply (IHl i). set_solver.
      - apply (IHr i). set_solver.
    Qed.
    Lemma CH_shp a p t : CH a (cells p t) → shp a t.
    Proof using Hrg. clear GA. intros Hc. by eapply CH_shp_sub. Qed.
    Lemma CH_vals a p t : CH a (cells p t) → vals a (entries t).
    Proof using Type. clear Hrg.
      intros Hc i kv [rs Hi]%(cells_entries p). eexists. split; [by eapply CH_get|done].
    Qed.
    Lemma CH_addrs_NoDup a p t : CH a (cells p t) → NoDup (entries t).*1.
    Proof using Type. clear Hrg. intros Hc. rewrite <- (cells_addrs p). by eapply CH_NoDup. Qed.
    Lemma CH_size_entries a p t : CH a (cells p t) → size a = lengthN (entries t).
    Proof using Type. clear Hrg. intros Hc. rewrite <- (cells_length p). by eapply CH_size. Qed.
    Lemma CH_tsize a p t : CH a (cells p t) → (tsize t ≤ length (nodes a))%nat.
    Proof using Type. clear Hrg.
      intros Hc. pose proof (CH_len_le _ _ _ _ Hc) as Hl. pose proof (CH_cap _ _ _ _ Hc) as Hm.
      rewrite cells_length in Hl. rewrite tsize_entries. unfold MAX_SIZE, lengthN in *. lia.
    Qed.
    Lemma CH_gok a p t : CH a (cells p t) → gok a (length (nodes a)) t.
    Proof using Hrg. clear GA. intros Hc. split; [by eapply CH_shp|by eapply CH_tsize]. Qed.

    (** Replacing the pair of a node *)
    Lemma CH_set_pair a ctx m l i kv r kv' (f : node (K * V) → res (node (K * V))) (Q : () → al → Prop) :
      CH a (cells 0 (plug ctx (Nd m l i kv r))) →
      (∀ n, val n = kv → f n = Val (Node (regs n) kv')) →
      (∀ a', CH a' (cells 0 (plug ctx (Nd m l i kv' r))) → Q () a') →
      wp (na_get_mut i f) a Q.
    Proof using Type GA. clear Hrg.
      intros Hc Hf HQ. rewrite cells_plug in Hc. simpl in Hc.
      eapply CH_get_mut; [exact _|exact Hc|by apply Hf|]. simpl. intros a' Hc'. apply HQ. rewrite cells_plug. done.
    Qed.
    Lemma CH_raw_pair a ctx m l i kv r (f : K * V → K * V) (Q : K * V → al → Prop) :
      CH a (cells 0 (plug ctx (Nd m l i kv r))) →
      (∀ a', CH a' (cells 0 (plug ctx (Nd m l i (f kv) r))) → Q kv a') →
      wp (na_raw_update i f) a Q.
    Proof using Type GA. clear Hrg.
      intros Hc HQ. rewrite cells_plug in Hc. simpl in Hc.
      eapply (CH_raw_update _ _ _ _ _ (Node _ kv)); [exact Hc|]. simpl. intros a' Hc'. apply HQ.
      rewrite cells_plug. done.
    Qed.

    (** *** The iterators *)
    Lemma ti_drive a t sc :
      CH a (cells 0 t) → drive (ti_next a) (ti_next_back a) sc (ti_new (root t)) = Val (de_spec sc (entries t).*2).
    Proof using Hrg. clear GA.
      intros Hc. set (n := length (nodes a)). pose proof (CH_vals _ _ _ Hc) as Hv.
      apply (drive_ok _ _ (λ it (L : list (K * V)), ∃ P mid B, L = mid.*2 ∧ entries t = P ++ mid ++ B ∧ tinv a n it P.*1 mid.*1 B.*1)).
      - intros it (P & mid & B & Hl & He & Hi). symmetry in Hl. apply fmap_nil_inv in Hl as ->.
        destruct (tinv_fwd _ _ _ _ _ _ (ti_fuel a) Hi) as (it' & Hf & Hi'); [unfold ti_fuel; lia|].
        unfold ti_next. rewrite Hf. simpl. eexists. split; [done|]. exists P, [], B. simpl in *.
        rewrite app_nil_r in Hi'. done.
      - intros it x l (P & mid & B & Hl & He & Hi). destruct mid as [|[i kv] mid]; simplify_eq/=.
        destruct (tinv_fwd _ _ _ _ _ _ (ti_fuel a) Hi) as (it' & Hf & Hi'); [unfold ti_fuel; lia|].
        unfold ti_next. rewrite Hf. simpl.
        destruct (Hv i kv) as (nd & -> & Hn). { rewrite He. set_solver. }
        simpl. rewrite Hn. eexists. split; [done|]. exists (P ++ [(i, kv)]), mid, B. simpl in *.
        rewrite take_0 in Hi'. rewrite <- app_assoc, fmap_app. done.
      - intros it (P & mid & B & Hl & He & Hi). symmetry in Hl. apply fmap_nil_inv in Hl as ->.
        pose proof (tinv_rev _ _ _ _ _ _ (ti_fuel a) Hi) as Hr. simpl in Hr.
        destruct Hr as (it' & Hf & Hi'); [unfold ti_fuel; lia|].
        unfold ti_next_back. rewrite Hf. simpl. eexists. split; [done|]. exists P, [], B. done.
      - intros it x l (P & mid & B & Hl & He & Hi).
        destruct (unsnoc mid) as [[mid' [i kv]]|] eqn:E.
        2:{ apply unsnoc_None in E as ->. simpl in Hl. by destruct l. }
        apply unsnoc_Some in E as ->. rewrite fmap_app in Hl. apply app_inj_tail in Hl as [-> ->].
        pose proof (tinv_rev _ _ _ _ _ _ (ti_fuel a) Hi) as Hr. rewrite fmap_app in Hr. simpl in Hr.
        rewrite unsnoc_snoc in Hr. destruct Hr as (it' & Hf & Hi'); [unfold ti_fuel; lia|].
        unfold ti_next_back. rewrite Hf. simpl.
        destruct (Hv i kv) as (nd & -> & Hn). { rewrite He. set_solver. }
        simpl. rewrite Hn. eexists. split; [done|]. exists P, mid', ((i, kv) :: B). simpl.
        rewrite He, <- app_assoc. done.
      - exists [], (entries t), []. rewrite app_nil_r. split_and!; [done|done|].
        apply tinv_new; [by eapply CH_gok|by eapply CH_addrs_NoDup].
    Qed.

    (** What the caller does through the reference *)
    Definition upd_ent (f : V → V) (x : N * (K * V)) : N * (K * V) := (x.1, (x.2.1, f x.2.2)).
    Definition Jmut U n (st : al * titer) (P mid B : list (N * (K * V))) : Prop :=
      ∃ U', CH st.1 (cells 0 U') ∧ same_shape U U' ∧ (entries U).*2.*1 = (entries U').*2.*1 ∧
            entries U' = P ++ mid ++ B ∧ tinv st.1 n st.2 P.*1 mid.*1 B.*1 ∧ n = length (nodes st.1).

    Lemma na_raw_update_nodes a a' i (f : K * V → K * V) v :
      na_raw_update i f a = Ret v a' → length (nodes a') = length (nodes a).
    Proof using Type. clear Hrg.
      unfold na_raw_update, mbind, M_bind, lift, gets. destruct (u32_sub i 1) as [j|]; [|done].
      destruct (lookupN (nodes a) j) as [nd|] eqn:E; [|done]. intros [= <- <-]. simpl.
      unfold insertN. apply insert_length.
    Qed.
    Lemma J_update U n (st : al * titer) P i (kv : K * V) R (it' : titer) (f : V → V) (Q : option (N * (K * V)) → al * titer → Prop) (mid1 P1 B1 : list (N * (K * V))) U' :
      CH st.1 (cells 0 U') → same_shape U U' → (entries U).*2.*1 = (entries U').*2.*1 →
      entries U' = P ++ (i, kv) :: R → n = length (nodes st.1) →
      tinv st.1 n it' P1.*1 mid1.*1 B1.*1 →
      P ++ (i, (kv.1, f kv.2)) :: R = P1 ++ mid1 ++ B1 →
      (∀ st', Jmut U n st' P1 mid1 B1 → Q (Some (i, kv)) st') →
      wp (S := al * titer) (n ← zoom fst (λ a st, (a, st.2)) (na_raw_update i (λ n, (n.1, f n.2))); mret (Some (i, n))) (st.1, it') Q.
    Proof using Type GA. clear Hrg.
      intros Hc Hss Hk He Hn Hi HP HQ.
      destruct (entries_focus U' i kv) as (ctx & m & l & r & ->).
      { rewrite He. apply elem_of_app. right. apply elem_of_list_here. }
      assert (cbef ctx ++ entries l = P ∧ entries r ++ caft ctx = R) as [HP' HR'].
      { pose proof (CH_addrs_NoDup _ _ _ Hc) as Hnd. rewrite entries_plug in He. simpl in He.
        rewrite entries_plug in Hnd. simpl in Hnd.
        revert He Hnd. rewrite <- !app_assoc, (app_assoc (cbef ctx)). simpl.
        generalize (cbef ctx ++ entries l), (entries r ++ caft ctx). intros X Y He Hnd.
        clear -He Hnd. revert P He. induction X as [|x X IH]; intros [|y P] He; simplify_eq/=; [done|..].
        - exfalso. rewrite fmap_app in Hnd. simpl in Hnd. apply NoDup_cons in Hnd as [Hnd _]. apply Hnd.
          apply elem_of_app. right. apply elem_of_list_here.
        - exfalso. rewrite fmap_app in Hnd. simpl in Hnd. apply NoDup_cons in Hnd as [Hnd _]. apply Hnd.
          apply elem_of_app. right. apply elem_of_list_here.
        - apply NoDup_cons in Hnd as [_ Hnd]. destruct (IH Hnd P) as [-> ->]; done. }
      apply wp_bind, wp_zoom. simpl.
      assert (wp (na_raw_update i (λ n0 : K * V, (n0.1, f n0.2))) st.1 (λ v a',
        v = kv ∧ CH a' (cells 0 (plug ctx (Nd m l i (kv.1, f kv.2) r))))) as Hwp.
      { eapply CH_raw_pair; [done|]. intros. done. }
      apply wp_elim in Hwp as (v & a' & Hr & -> & Hc'). eapply wp_intro; [exact Hr|].
      apply wp_ret. apply HQ. exists (plug ctx (Nd m l i (kv.1, f kv.2) r)). simpl.
      pose proof (na_raw_update_regs _ _ _ _ _ Hr). pose proof (na_raw_update_nodes _ _ _ _ _ Hr).
      split_and!; [done| | | | |congruence].
      - eapply same_shape_trans; [exact Hss|]. apply same_shape_plug. constructor; apply same_shape_refl.
      - rewrite Hk, !entries_plug. simpl. rewrite !fmap_app, !fmap_cons. done.
      - rewrite <- HP, entries_plug, <- HP', <- HR'. simpl. by rewrite <- !app_assoc.
      - by eapply tinv_regs.
    Qed.
    Lemma ti_drive_mut a t sc (Q : list (option (N * (K * V))) → al * titer → Prop) :
      CH a (cells 0 t) →
      (∀ a' it' t', CH a' (cells 0 t') → same_shape t t' → (entries t).*2.*1 = (entries t').*2.*1 →
         entries t' = (de_mut_spec upd_ent sc (entries t)).2 →
         Q (de_mut_spec upd_ent sc (entries t)).1 (a', it')) →
      wp (drive_mut ti_mut_next ti_mut_next_back sc) (a, ti_new (root t)) Q.
    Proof using GA Hrg.
      intros Hc HQ. set (n := length (nodes a)).
      eapply wp_mono.
      - apply (drive_mut_ok _ _ upd_ent (Jmut t n)) with (P := []) (l := entries t) (B := []).
        + intros [a1 it] P B f (U' & Hc1 & Hss & Hk & He & Hi & Hn). simpl in *. unfold ti_mut_next.
          apply wp_bind, wp_mget, wp_bind.
          destruct (tinv_fwd _ _ _ _ _ _ (ti_fuel a1) Hi) as (it' & Hf & Hi'); [unfold ti_fuel; lia|].
          eapply wp_lift; [exact Hf|]. apply wp_bind, wp_modify. simpl. apply wp_ret. split; [done|].
          exists U'. simpl in *. rewrite app_nil_r in Hi'. split_and!; done.
        + intros [a1 it] P [i kv] l B f (U' & Hc1 & Hss & Hk & He & Hi & Hn). simpl in *. unfold ti_mut_next.
          apply wp_bind, wp_mget, wp_bind.
          destruct (tinv_fwd _ _ _ _ _ _ (ti_fuel a1) Hi) as (it' & Hf & Hi'); [unfold ti_fuel; lia|].
          eapply wp_lift; [exact Hf|]. apply wp_bind, wp_modify. simpl. simpl in Hi'. rewrite take_0 in Hi'.
          eapply (J_update t n (a1, it) P i kv (l ++ B) it' f _ l (P ++ [upd_ent f (i, kv)]) B); try done.
          * rewrite fmap_app. done.
          * by rewrite <- app_assoc.
        + intros [a1 it] P B f (U' & Hc1 & Hss & Hk & He & Hi & Hn). simpl in *. unfold ti_mut_next_back.
          apply wp_bind, wp_mget, wp_bind.
          pose proof (tinv_rev _ _ _ _ _ _ (ti_fuel a1) Hi) as Hr. simpl in Hr.
          destruct Hr as (it' & Hf & Hi'); [unfold ti_fuel; lia|].
          eapply wp_lift; [exact Hf|]. apply wp_bind, wp_modify. simpl. apply wp_ret. split; [done|].
          exists U'. simpl in *. split_and!; done.
        + intros [a1 it] P [i kv] l B f (U' & Hc1 & Hss & Hk & He & Hi & Hn). simpl in *. unfold ti_mut_next_back.
          apply wp_bind, wp_mget, wp_bind.
          pose proof (tinv_rev _ _ _ _ _ _ (ti_fuel a1) Hi) as Hr. rewrite fmap_app in Hr. simpl in Hr.
          rewrite unsnoc_snoc in Hr. destruct Hr as (it' & Hf & Hi'); [unfold ti_fuel; lia|].
          eapply wp_lift; [exact Hf|]. apply wp_bind, wp_modify. simpl.
          eapply (J_update t n (a1, it) (P ++ l) i kv B it' f _ l P (upd_ent f (i, kv) :: B)); try done.
          * rewrite He, <- !app_assoc. done.
          * by rewrite <- app_assoc.
        + exists t. simpl. rewrite app_nil_r. split_and!; try done; [apply same_shape_refl|].
          apply tinv_new; [by eapply CH_gok|by eapply CH_addrs_NoDup].
      - simpl. intros o [a' it'] [-> (P' & l' & B' & (U' & Hc' & Hss & Hk & He & _) & Hp)].
        rewrite Hp, app_nil_r in He. by eapply HQ.
    Qed.
  End ch.
End layout.

Notation ctop := (ctopb 0).
Notation ccells rg := (ccellsb rg 0).
