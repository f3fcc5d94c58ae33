(** * Proofs about the red-black tree model *)
From Verif Require Export TreeProof RBModel.

(** Registers of a node: left, right, parent, colour *)
Definition rgrb (p m l r : N) : list N := [l; r; p; m].
Lemma rgrb_ok p m l r : ∃ x y, rgrb p m l r = [l; r; x; y].
Proof. by exists p, m. Qed.

(** membership in explicit lists *)
Ltac inl := rewrite ?elem_of_app, ?elem_of_cons, ?elem_of_app, ?elem_of_cons, ?elem_of_app, ?elem_of_cons; solve [eauto 20].
(** equations between ghost trees that hold for either direction *)
Ltac dirs := repeat match goal with d : bool |- _ => destruct d end; try reflexivity; try done.

(** permutations of explicit lists of cells, after register updates *)
Ltac permr := unfold setr, insertN, rgrb; simpl; solve_Permutation.

Section rb.
  Context `{Profile} {K V : Type} {G : Ghost (K * V)} (cap : N).
  Notation tree := (tree (K * V)).
  Notation frame := (frame (K * V)).
  Notation cells := (cells rgrb).
  Notation ccellsb := (ccellsb rgrb).
  Notation ccells := (ccellsb 0).
  Notation rbt := (rbt K V).
  Implicit Types t : rbt.
  Implicit Types s x y z o U : tree.
  Implicit Types ctx : list frame.
  Implicit Types cs : list (N * node (K * V)).

  (** The live cells of the allocator and the root *)
  Definition R t cs (rt : N) : Prop := CH 4 cap (rb_al t) cs ∧ rb_root t = rt.
  Definition rep t U : Prop := R t (cells 0 U) (root U).

  Lemma R_perm t cs cs' rt : R t cs rt → cs ≡ₚ cs' → R t cs' rt.
  Proof. intros [Hc ?] Hp. split; [by eapply CH_perm|done]. Qed.
  Lemma rep_focus t ctx s :
    rep t (plug ctx s) ↔ R t (cells (ctop ctx) s ++ ccells ctx (root s)) (croot ctx (root s)).
  Proof. unfold rep, R. by rewrite root_plug, cells_plug. Qed.

  Lemma R_fuel t cs rt : R t cs rt → rb_fuel t = S (N.to_nat cap).
  Proof. intros [Hc _]. apply CH_cap in Hc. unfold rb_fuel, MAX_SIZE, lengthN in *. lia. Qed.
  Lemma rep_tsize t U : rep t U → (tsize U ≤ N.to_nat cap)%nat.
  Proof.
    intros [Hc _]. pose proof (CH_tsize _ _ _ _ _ Hc). apply CH_cap in Hc. unfold MAX_SIZE, lengthN in *. lia.
  Qed.

  (** *** Reads *)
  Section reads.
    Context t cs rt (HR : R t cs rt) i l r p m (kv : K * V) (Hi : (i, Node [l; r; p; m] kv) ∈ cs).
    Lemma R_left : rb_get_left t i = Val l.
    Proof using HR Hi. destruct HR. by eapply CH_get_register. Qed.
    Lemma R_right : rb_get_right t i = Val r.
    Proof using HR Hi. destruct HR. by eapply CH_get_register. Qed.
    Lemma R_parent : rb_get_parent t i = Val p.
    Proof using HR Hi. destruct HR. by eapply CH_get_register. Qed.
    Lemma R_color : rb_get_color t i = Val m.
    Proof using HR Hi. destruct HR. by eapply CH_get_register. Qed.
    Lemma R_node : rb_get_node t i = Val kv.
    Proof using HR Hi. destruct HR as [Hc _]. unfold rb_get_node. erewrite CH_get by done. done. Qed.
    Lemma R_nz : i ≠ 0.
    Proof using HR Hi. destruct HR. by eapply CH_nz. Qed.
    Lemma R_child d : rb_get_child t i (dN d) = Val (if d then r else l).
    Proof using HR Hi. destruct HR. destruct d; by eapply CH_get_register. Qed.
  End reads.
  Lemma R_ne t cs rt i j n n' : R t ((i, n) :: cs) rt → (j, n') ∈ cs → i ≠ j.
  Proof.
    intros [Hc _] Hj ->. apply CH_NoDup in Hc. simpl in Hc. apply NoDup_cons in Hc as [Hc _].
    apply Hc. apply elem_of_list_fmap. by exists (j, n').
  Qed.
  Lemma cells_root p s : s ≠ Lf → ∃ n, (root s, n) ∈ cells p s.
  Proof. destruct s; [done|]. intros _. eexists. apply elem_of_list_here. Qed.
  (** colour of a possibly empty subtree *)
  Lemma R_mark t cs rt p s : R t cs rt → (∀ e, e ∈ cells p s → e ∈ cs) → rb_get_color t (root s) = Val (mark s).
  Proof.
    intros HR Hs. destruct s as [|m l i kv r]; [done|]. simpl.
    eapply (R_color _ _ _ HR). apply Hs. simpl. apply elem_of_list_here.
  Qed.
  Lemma rep_color t U ctx s : rep t U → U = plug ctx s → rb_get_color t (root s) = Val (mark s).
  Proof.
    intros HR ->. apply rep_focus in HR. eapply (R_mark _ _ _ (ctop ctx)); [done|]. intros. inl.
  Qed.
  Lemma rep_red t U ctx s : rep t U → U = plug ctx s → rb_is_red t (root s) = Val (bool_decide (mark s = 1)).
  Proof. intros HR HU. unfold rb_is_red. pose proof (rep_color _ _ _ _ HR HU) as Hc. unfold rb_get_color in Hc. by rewrite Hc. Qed.
  Lemma rep_black t U ctx s : rep t U → U = plug ctx s → rb_is_black t (root s) = Val (bool_decide (mark s = 0)).
  Proof. intros HR HU. unfold rb_is_black. pose proof (rep_color _ _ _ _ HR HU) as Hc. unfold rb_get_color in Hc. by rewrite Hc. Qed.
  Lemma rep_mem t ctx m l i kv r :
    rep t (plug ctx (Nd m l i kv r)) → (i, Node [root l; root r; ctop ctx; m] kv) ∈ cells 0 (plug ctx (Nd m l i kv r)).
  Proof. intros _. apply (cells_focus rgrb). Qed.
  Lemma rep_parent t U ctx s : rep t U → U = plug ctx s → s ≠ Lf → rb_get_parent t (root s) = Val (ctop ctx).
  Proof. intros HR -> Hs. destruct s as [|m l i kv r]; [done|]. eapply (R_parent _ _ _ HR). by eapply rep_mem. Qed.
  Lemma rep_left t U ctx m l i kv r : rep t U → U = plug ctx (Nd m l i kv r) → rb_get_left t i = Val (root l).
  Proof. intros HR ->. eapply (R_left _ _ _ HR). by eapply rep_mem. Qed.
  Lemma rep_right t U ctx m l i kv r : rep t U → U = plug ctx (Nd m l i kv r) → rb_get_right t i = Val (root r).
  Proof. intros HR ->. eapply (R_right _ _ _ HR). by eapply rep_mem. Qed.
  Lemma rep_node t U ctx m l i kv r : rep t U → U = plug ctx (Nd m l i kv r) → rb_get_node t i = Val kv.
  Proof. intros HR ->. eapply (R_node _ _ _ HR). by eapply rep_mem. Qed.
  Lemma rep_child t U ctx d m x i kv y :
    rep t U → U = plug ctx (mk d m x i kv y) → rb_get_child t i (dN d) = Val (root x).
  Proof. intros HR HU. destruct d; [by eapply rep_right|by eapply rep_left]. Qed.
  Lemma rep_child_opp t U ctx d m x i kv y :
    rep t U → U = plug ctx (mk d m x i kv y) → rb_get_child t i (opposite (dN d)) = Val (root y).
  Proof. intros HR HU. destruct d; [by eapply rep_left|by eapply rep_right]. Qed.
  Lemma rb_get_dir_child t i d : rb_get_dir t i (dN d) = rb_get_child t i (dN d).
  Proof. by destruct d. Qed.
  Lemma opposite_dN d : opposite (dN d) = dN (negb d).
  Proof. by destruct d. Qed.
  Lemma rep_nz t U ctx m l i kv r : rep t U → U = plug ctx (Nd m l i kv r) → i ≠ 0.
  Proof. intros HR ->. eapply (R_nz _ _ _ HR). by eapply rep_mem. Qed.
  Lemma rep_nz' t U ctx s : rep t U → U = plug ctx s → s ≠ Lf → root s ≠ 0.
  Proof. intros HR HU Hs. destruct s as [|m l i kv r]; [done|]. by eapply rep_nz. Qed.

  (** the direction of a child *)
  Lemma R_child_dir t cs rt (d : bool) g oo h p m (kv : K * V) :
    R t cs rt → (g, Node [if d then oo else h; if d then h else oo; p; m] kv) ∈ cs → h ≠ oo →
    rb_child_dir t g h = Val (dN d).
  Proof.
    intros HR Hi Hne. unfold rb_child_dir. erewrite R_left, R_right by done. simpl.
    destruct d; simpl.
    - rewrite decide_False by done. by rewrite decide_True.
    - by rewrite decide_True.
  Qed.
  Lemma R_ne_root t cs rt i n p o : R t ((i, n) :: cs) rt → (∀ e, e ∈ cells p o → e ∈ cs) → i ≠ root o.
  Proof.
    intros HR Hs. assert (o = Lf ∨ o ≠ Lf) as [->|Ho] by (destruct o; [by left|by right]).
    - destruct HR as [Hc _]. eapply CH_nz; [done|]. apply elem_of_list_here.
    - destruct (cells_root p o Ho) as [n' Hn']. eapply (R_ne _ _ _ _ _ _ n'); [done|]. by apply Hs.
  Qed.
  Lemma rep_frame t d m a kv o ctx s :
    rep t (plug (F d m a kv o :: ctx) s) →
    (a, Node [if d then root o else root s; if d then root s else root o; ctop ctx; m] kv) ∈
      cells 0 (plug (F d m a kv o :: ctx) s).
  Proof. intros _. rewrite cells_plug. simpl. inl. Qed.
  Lemma rep_child_dir t U d m a kv o ctx s :
    rep t U → U = plug (F d m a kv o :: ctx) s → s ≠ Lf → rb_child_dir t a (root s) = Val (dN d).
  Proof.
    intros HR -> Hs. eapply R_child_dir; [done|by eapply rep_frame|].
    apply rep_focus in HR. destruct s as [|m' l i kv' r]; [done|]. simpl in *.
    eapply (R_ne_root _ _ _ _ _ a o); [done|]. intros. inl.
  Qed.
  (** the root is not inside *)
  Lemma rep_root_inner t f ctx s :
    rep t (plug (f :: ctx) s) → s ≠ Lf → rb_root t ≠ root s.
  Proof.
    intros HR Hs. apply rep_focus in HR. pose proof HR as [_ Hrt].
    assert (∃ n, (croot (f :: ctx) (root s), n) ∈ ccells (f :: ctx) (root s)) as [n Hn].
    { clear. generalize (root s). revert f. induction ctx as [|f' ctx IH]; intros f h.
      - destruct f. simpl. eexists. apply elem_of_list_here.
      - destruct (IH f' (fa f)) as [n Hn]. exists n. destruct f as [d m a kv o].
        change (croot (F d m a kv o :: f' :: ctx) h) with (croot (f' :: ctx) a).
        simpl fa in Hn. change (ccells (F d m a kv o :: f' :: ctx) h) with
         ((a, Node (rgrb (ctop (f' :: ctx)) m (if d then root o else h) (if d then h else root o)) kv) :: cells a o ++ ccells (f' :: ctx) a).
        inl. }
    rewrite Hrt. intros He. destruct s as [|m' l i kv' r]; [done|]. simpl root in *.
    rewrite He in Hn. change (cells (ctop (f :: ctx)) (Nd m' l i kv' r)) with
      ((i, Node (rgrb (ctop (f :: ctx)) m' (root l) (root r)) kv') :: cells i l ++ cells i r) in HR.
    eapply (R_ne _ _ _ i i); [exact HR| |done]. inl.
  Qed.
  Lemma rep_is_root t U ctx s :
    rep t U → U = plug ctx s → s ≠ Lf → rb_is_root t (root s) = match ctx with [] => true | _ => false end.
  Proof.
    intros HR -> Hs. unfold rb_is_root. destruct ctx as [|f ctx].
    - apply bool_decide_eq_true. by destruct HR.
    - apply bool_decide_eq_false. by eapply rep_root_inner.
  Qed.
  Lemma rep_root t U : rep t U → rb_root t = root U.
  Proof. by intros []. Qed.

  (** *** Writes *)
  Lemma R_on {A} (m : M (alloc (K * V)) A) t (Q : A → rbt → Prop) :
    wp m (rb_al t) (λ a al', Q a (set_ral al' t)) → wp (rb_on m) t Q.
  Proof. apply wp_zoom. Qed.
  Lemma R_set t cs rt i n r v (Q : () → rbt → Prop) :
    R t ((i, n) :: cs) rt → r < lengthN (regs n) →
    (∀ t', R t' ((i, setr r v n) :: cs) rt → Q () t') → wp (rb_on (na_set_register i v r)) t Q.
  Proof.
    intros [Hc Hr] Hlen HQ. apply R_on. eapply CH_set_register; [done..|]. intros a' Hc'. by apply HQ.
  Qed.
  Lemma R_set0 t v r (Q : () → rbt → Prop) : Q () t → wp (rb_on (na_set_register 0 v r)) t Q.
  Proof. by destruct t. Qed.
  Lemma R_reparent t cs rt s p q (Q : () → rbt → Prop) :
    R t (cells p s ++ cs) rt → (∀ t', R t' (cells q s ++ cs) rt → Q () t') →
    wp (rb_on (na_set_register (root s) q Parent)) t Q.
  Proof.
    intros HR HQ. destruct s as [|m l i kv r]; simpl in *.
    - apply R_set0. by apply HQ.
    - eapply R_set; [exact HR|done|]. done.
  Qed.
  Lemma R_rehole t cs rt b d m g kv o ctx h h' (Q : () → rbt → Prop) :
    R t (ccellsb b (F d m g kv o :: ctx) h ++ cs) rt →
    (∀ t', R t' (ccellsb b (F d m g kv o :: ctx) h' ++ cs) rt → Q () t') →
    wp (rb_on (na_set_register g h' (dN d))) t Q.
  Proof.
    intros HR HQ. simpl in HR. eapply R_set; [exact HR|by destruct d|].
    intros t' HR'. apply HQ. simpl. by destruct d.
  Qed.
  Lemma na_connect_set (i j r_i r_j : N) :
    na_connect (T := K * V) i j r_i r_j = (na_set_register i j r_i;; na_set_register j i r_j).
  Proof. done. Qed.
  Lemma rb_connect_set p c d t (Q : () → rbt → Prop) :
    wp (rb_on (na_set_register p c d);; rb_on (na_set_register c p Parent)) t Q → wp (rb_connect p c d) t Q.
  Proof.
    unfold rb_connect. rewrite na_connect_set. unfold rb_on, zoom, wp, mbind, M_bind. simpl.
    destruct (na_set_register p c d (rb_al t)) as [u a|e a]; [|done]. simpl.
    by destruct (na_set_register c p Parent a).
  Qed.

  Definition setm (c : N) s : tree := match s with Lf => Lf | Nd _ l i kv r => Nd c l i kv r end.
  Lemma setm_entries c s : entries (setm c s) = entries s.
  Proof. by destruct s. Qed.
  Lemma setm_root c s : root (setm c s) = root s.
  Proof. by destruct s. Qed.
  Lemma setm_mk c d m x i kv y : setm c (mk d m x i kv y) = mk d c x i kv y.
  Proof. by destruct d. Qed.
  Lemma rep_set_color t U ctx s c (Q : () → rbt → Prop) :
    rep t U → U = plug ctx s → (∀ t', rep t' (plug ctx (setm c s)) → Q () t') →
    wp (rb_on (na_set_register (root s) c COLOR)) t Q.
  Proof.
    intros HR -> HQ. destruct s as [|m l i kv r].
    - apply R_set0. by apply HQ.
    - apply rep_focus in HR. simpl in HR. eapply R_set; [exact HR|done|]. intros t' HR'. apply HQ.
      apply rep_focus. exact HR'.
  Qed.
  Lemma rep_black_set t U ctx s (Q : () → rbt → Prop) :
    rep t U → U = plug ctx s → (∀ t', rep t' (plug ctx (setm 0 s)) → Q () t') → wp (rb_color_black (root s)) t Q.
  Proof. apply rep_set_color. Qed.
  Lemma rep_node_set t U ctx s c (Q : () → rbt → Prop) :
    rep t U → U = plug ctx s → (∀ t', rep t' (plug ctx (setm c s)) → Q () t') → wp (rb_color_node (root s) c) t Q.
  Proof. apply rep_set_color. Qed.
  Lemma rep_red_set t U ctx s (Q : () → rbt → Prop) :
    rep t U → U = plug ctx s → (∀ t', rep t' (plug ctx (setm 1 s)) → Q () t') → wp (rb_color_red (root s)) t Q.
  Proof.
    intros HR HU HQ. unfold rb_color_red. case_decide as Hd; [|by eapply rep_set_color].
    apply wp_ret. destruct s as [|m l i kv r]; [by apply HQ; subst|].
    exfalso. eapply (rep_nz' _ _ _ (Nd m l i kv r)); try done.
  Qed.

  (** *** Rotation *)
  Lemma rep_rotate t U ctx d c1 x p kvp c2 y (s : N) kvs z (Q : option N → rbt → Prop) :
    rep t U → U = plug ctx (mk d c1 x p kvp (mk d c2 y s kvs z)) →
    (∀ t', rep t' (plug ctx (mk d c2 (mk d c1 x p kvp y) s kvs z)) → Q (Some s) t') →
    wp (rb_rotate_dir p (dN d)) t Q.
  Proof.
    intros HR -> HQ. unfold rb_rotate_dir.
    apply wp_bind. eapply wp_gets.
    { pose proof (rep_parent _ _ ctx (mk d c1 x p kvp (mk d c2 y s kvs z)) HR eq_refl) as Hp.
      rewrite root_mk in Hp. apply Hp. by destruct d. }
    rewrite decide_False by (destruct d; by intros []).
    apply wp_bind. eapply wp_gets; [by eapply rep_child_opp|]. rewrite root_mk.
    assert (s ≠ 0) as Hs0.
    { pose proof (rep_nz' _ _ (F (negb d) c1 p kvp x :: ctx) (mk d c2 y s kvs z) HR) as Hp. rewrite root_mk in Hp.
      apply Hp; dirs. }
    rewrite decide_False by done.
    apply wp_bind. eapply wp_gets.
    { eapply (rep_child t _ (F (negb d) c1 p kvp x :: ctx) d c2 y s kvs z); [done|]. dirs. }
    set (Ps := λ l r q c kv, Node (T := K * V) (rgrb q c l r) kv).
    assert (R t ((s, Ps (if d then root z else root y) (if d then root y else root z) p c2 kvs) ::
                 (p, Ps (if d then s else root x) (if d then root x else s) (ctop ctx) c1 kvp) ::
                 cells p x ++ cells s y ++ cells s z ++ ccells ctx p) (croot ctx p)) as HR1.
    { apply rep_focus in HR. rewrite root_mk in HR. eapply R_perm; [exact HR|]. rewrite !cells_mk, !root_mk.
      unfold Ps; destruct d; permr. }
    clear HR. apply wp_bind, rb_connect_set, wp_bind. eapply R_set; [exact HR1|by destruct d|]. clear t HR1. intros t HR.
    eapply (R_set _ _ _ p); [eapply R_perm; [exact HR|apply perm_swap]|done|]. clear t HR. intros t HR.
    apply wp_bind, rb_connect_set, wp_bind. eapply R_set; [exact HR|by destruct d|]. clear t HR. intros t HR.
    eapply (R_reparent _ _ _ y s); [eapply R_perm; [exact HR|]|].
    { apply (Permutation_app_swap_app (_ :: _ :: cells p x) (cells s y)). }
    clear t HR. intros t HR.
    assert (R t ((s, Ps (if d then root z else p) (if d then p else root z) p c2 kvs) ::
                 (p, Ps (if d then root y else root x) (if d then root x else root y) s c1 kvp) ::
                 cells p x ++ cells p y ++ cells s z ++ ccells ctx p) (croot ctx p)) as HR1.
    { eapply R_perm; [exact HR|]. unfold Ps; destruct d; permr. }
    clear HR. apply wp_bind.
    set (fin := plug ctx (mk d c2 (mk d c1 x p kvp y) s kvs z)).
    destruct ctx as [|[d' m' g kvg o] ctx]; simpl ctopb.
    - rewrite decide_False by (intros Hn; by apply Hn). apply wp_bind.
      eapply (R_set _ _ _ s); [exact HR1|done|]. clear t HR1. intros t HR1. apply wp_modify, wp_ret, HQ.
      destruct HR1 as [HR1 _]. split; [|simpl; by rewrite root_mk]. simpl. eapply CH_perm; [exact HR1|].
      unfold fin. simpl. rewrite !cells_mk, !root_mk. unfold Ps; destruct d; permr.
    - assert (g ≠ 0). { eapply R_nz; [exact HR1|]. simpl. unfold rgrb. inl. }
      rewrite decide_True by done. apply wp_bind. eapply wp_gets.
      { eapply (R_child_dir _ _ _ d' g (root o) p); [exact HR1|simpl; unfold rgrb; inl|].
        eapply (R_ne_root _ _ _ _ _ g o); [eapply R_perm; [exact HR1|apply perm_swap]|]. intros. simpl. inl. }
      apply rb_connect_set, wp_bind.
      eapply (R_rehole _ ((s, Ps (if d then root z else p) (if d then p else root z) p c2 kvs) ::
                 (p, Ps (if d then root y else root x) (if d then root x else root y) s c1 kvp) ::
                 cells p x ++ cells p y ++ cells s z) _ 0 d' m' g kvg o ctx p s).
      { eapply R_perm; [exact HR1|]. generalize (ccells (F d' m' g kvg o :: ctx) p). intros. solve_Permutation. }
      clear t HR1. intros t HR1. eapply (R_set _ _ _ s); [eapply R_perm; [exact HR1|symmetry; apply Permutation_middle]|done|].
      clear t HR1. intros t HR1. apply wp_ret, HQ. apply rep_focus. rewrite root_mk.
      eapply R_perm; [exact HR1|]. rewrite !cells_mk, !root_mk. unfold Ps; destruct d; permr.
  Qed.
End rb.
