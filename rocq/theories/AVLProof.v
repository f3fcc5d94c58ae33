(** * Proofs about the AVL tree model: heights, rotations, rebalancing *)
From Verif Require Export TreeProof AVLModel.

(** Registers of a node: left, right, height, unused *)
Definition rgav (p m l r : N) : list N := [l; r; m; 0].
Lemma rgav_ok p m l r : ∃ x y, rgav p m l r = [l; r; x; y].
Proof. by exists m, 0. Qed.

(** membership in explicit lists *)
Ltac inl := rewrite ?elem_of_app, ?elem_of_cons, ?elem_of_app, ?elem_of_cons, ?elem_of_app, ?elem_of_cons; solve [eauto 20].

(** ** Pure facts about AVL trees *)
Section pure.
  Context {A : Type}.
  Notation tree := (tree A).
  Implicit Types x y z s U : tree.
  Implicit Types ctx : list (frame A).

  (** Clean trees: balanced, and every mark is the height (a single node has height 0) *)
  Inductive avl : tree → Prop :=
  | avl_Lf : avl Lf
  | avl_Nd x a kv y :
      avl x → avl y → (height x ≤ S (height y))%nat → (height y ≤ S (height x))%nat →
      avl (Nd (N.of_nat (Nat.max (height x) (height y))) x a kv y).
  (** The height that [update_height] computes from the children *)
  Definition nm x y : N := match x, y with Lf, Lf => 0 | _, _ => N.max (mark x) (mark y) + 1 end.

  Lemma avl_mark x : avl x → N.of_nat (height x) = match x with Lf => 0 | _ => mark x + 1 end.
  Proof. destruct 1; simpl; lia. Qed.
  Lemma nm_clean x y : avl x → avl y → nm x y = N.of_nat (Nat.max (height x) (height y)).
  Proof.
    intros Hx Hy. pose proof (avl_mark x Hx). pose proof (avl_mark y Hy). unfold nm.
    destruct x, y; simpl in *; lia.
  Qed.
  Lemma nm_comm x y : nm x y = nm y x.
  Proof. unfold nm. destruct x, y; simpl; lia. Qed.
  Lemma avl_intro d x a kv y :
    avl x → avl y → (height x ≤ S (height y))%nat → (height y ≤ S (height x))%nat → avl (mk d (nm x y) x a kv y).
  Proof.
    intros Hx Hy H1 H2. destruct d; simpl.
    - rewrite nm_comm, nm_clean by done. by constructor.
    - rewrite nm_clean by done. by constructor.
  Qed.
  Lemma height_mk d m x a kv y : height (mk d m x a kv y) = S (Nat.max (height x) (height y)).
  Proof. destruct d; simpl; lia. Qed.
  Lemma avl_mk d m x a kv y :
    avl (mk d m x a kv y) →
    avl x ∧ avl y ∧ (height x ≤ S (height y))%nat ∧ (height y ≤ S (height x))%nat ∧ m = nm x y.
  Proof.
    intros Ha. destruct d; simpl in Ha; inversion Ha; subst; split_and!; try done.
    - by rewrite nm_comm, nm_clean.
    - by rewrite nm_clean.
  Qed.

  (** Depth *)
  Lemma avl_size x : avl x → (2 ^ height x ≤ (tsize x + 1) ^ 2)%nat.
  Proof.
    assert (∀ n x, (height x ≤ n)%nat → avl x → (2 ^ height x ≤ (tsize x + 1) ^ 2)%nat) as Hn; [|by eauto].
    clear x. induction n as [|n IH]; intros s Hh Hs.
    { destruct s; simpl in *; lia. }
    destruct Hs as [|x a kv y Hx Hy H1 H2]; [simpl; lia|]. simpl in Hh.
    assert (∀ u w, avl u → avl w → (height u ≤ n)%nat → (height w ≤ height u)%nat → (height u ≤ S (height w))%nat →
      (2 * 2 ^ (height u) ≤ (tsize u + tsize w + 2) ^ 2)%nat) as Hb.
    { intros u w Hu Hw Hun Hle1 Hle2. destruct Hu as [|x' a' kv' y' Hx' Hy' H1' H2'].
      - simpl. lia.
      - pose proof (IH x' ltac:(simpl in Hun; lia) Hx') as I1. pose proof (IH y' ltac:(simpl in Hun; lia) Hy') as I2.
        pose proof (IH w ltac:(lia) Hw) as I3.
        simpl height in *. simpl tsize.
        set (m := Nat.max (height x') (height y')) in *.
        (* height u = S m; w at least m; one child at least m, hence u itself *)
        assert (2 ^ m ≤ (tsize w + 1) ^ 2)%nat as J1.
        { etrans; [|exact I3]. apply Nat.pow_le_mono_r; lia. }
        assert (2 ^ m ≤ (tsize x' + tsize y' + 1) ^ 2)%nat as J2.
        { destruct (Nat.max_spec (height x') (height y')) as [[_ E]|[_ E]]; unfold m; rewrite E.
          - etrans; [exact I2|]. apply Nat.pow_le_mono_l. lia.
          - etrans; [exact I1|]. apply Nat.pow_le_mono_l. lia. }
        clearbody m. change (2 ^ S m)%nat with (2 * 2 ^ m)%nat.
        revert J1 J2. generalize (2 ^ m)%nat. intros P J1 J2. simpl in J1, J2 |- *. nia. }
    simpl height. simpl tsize. change (2 ^ S (Nat.max (height x) (height y)))%nat with (2 * 2 ^ (Nat.max (height x) (height y)))%nat.
    destruct (Nat.max_spec (height x) (height y)) as [[? E]|[? E]]; rewrite E.
    - pose proof (Hb y x Hy Hx ltac:(lia) ltac:(lia) ltac:(lia)). replace (S (tsize x + tsize y) + 1)%nat with (tsize y + tsize x + 2)%nat by lia. done.
    - pose proof (Hb x y Hx Hy ltac:(lia) ltac:(lia) ltac:(lia)). replace (S (tsize x + tsize y) + 1)%nat with (tsize x + tsize y + 2)%nat by lia. done.
  Qed.

  (** Contexts around a subtree of (old) height [h] *)
  Inductive actx : list (frame A) → nat → Prop :=
  | actx_nil h : actx [] h
  | actx_cons d m a kv o ctx h :
      avl o → (height o ≤ S h)%nat → (h ≤ S (height o))%nat → actx ctx (S (Nat.max h (height o))) →
      actx (F d m a kv o :: ctx) h.
  Lemma avl_unplug ctx s : avl (plug ctx s) → avl s ∧ actx ctx (height s).
  Proof.
    revert s. induction ctx as [|[d m a kv o] ctx IH]; intros s Ha; simpl in *; [split; [done|constructor]|].
    apply IH in Ha as [Ha Hc]. apply avl_mk in Ha as (Hs & Ho & H1 & H2 & _). split; [done|].
    rewrite height_mk in Hc. by constructor.
  Qed.
  Lemma actx_fo ctx ctx' h : Forall2 (λ f g, fo f = fo g) ctx ctx' → actx ctx h → actx ctx' h.
  Proof.
    intros Hf. revert h. induction Hf as [|[d m a kv o] [d' m' a' kv' o'] ctx ctx' Ho _ IH]; intros h Hc; [constructor|].
    simpl in Ho. subst o'. inversion Hc; subst. constructor; auto.
  Qed.
  (** What the heights of the children of the focus may be, [h0] being the old height *)
  Definition near (hl hr h0 : nat) : Prop :=
    (hl ≤ hr + 2 ∧ hr ≤ hl + 2 ∧ Nat.max hl hr ≤ h0 ∧ h0 ≤ S (S (Nat.max hl hr)) ∧
    (hl = hr + 2 ∨ hr = hl + 2 → h0 ≤ S (Nat.max hl hr)))%nat.
  (** the two subtrees differ in height *)
  Definition skewed x : Prop := match x with Lf => False | Nd _ l _ _ r => height l ≠ height r end.
  Lemma skewed_mk d m x a kv y : skewed (mk d m x a kv y) → height x ≠ height y.
  Proof. destruct d; simpl; lia. Qed.
  (** the tree [s] after one round of [rebalance] at a node with the subtrees [l] and [r] *)
  Definition stepped x a kv y s : Prop :=
    (height x = height y + 2 → height x ≤ height s ≤ S (height x) ∧ (skewed x → height s = height x))%nat ∧
    (height y = height x + 2 → height y ≤ height s ≤ S (height y) ∧ (skewed y → height s = height y))%nat ∧
    ((height x < height y + 2)%nat → (height y < height x + 2)%nat → s = Nd (nm x y) x a kv y).
End pure.

Section av.
  Context `{Profile} {K V : Type} {G : Ghost (K * V)} (cap : N).
  Notation tree := (tree (K * V)).
  Notation frame := (frame (K * V)).
  Notation avlt := (avlt K V).
  Implicit Types t : avlt.
  Implicit Types s x y z o U : tree.
  Implicit Types ctx : list frame.
  Implicit Types cs : list (N * node (K * V)).

  Definition cl s : list (N * node (K * V)) := cells rgav 0 s.
  Definition cc ctx h : list (N * node (K * V)) := ccells rgav ctx h.
  (** [c] is the child in direction [d] *)
  Definition nd (d : bool) (c c' m : N) (kv : K * V) : node (K * V) := Node [if d then c' else c; if d then c else c'; m; 0] kv.
  Lemma cells_p p s : cells rgav p s = cl s.
  Proof. by destruct s. Qed.
  Lemma cl_mk d m x i kv y : cl (mk d m x i kv y) ≡ₚ (i, nd d (root x) (root y) m kv) :: cl x ++ cl y.
  Proof. unfold cl at 1. rewrite cells_mk, !cells_p. by destruct d. Qed.
  Lemma cl_Nd m x i kv y : cl (Nd m x i kv y) = (i, nd false (root x) (root y) m kv) :: cl x ++ cl y.
  Proof. unfold cl at 1. simpl. by rewrite !cells_p. Qed.
  Lemma cl_plug ctx s : cl (plug ctx s) ≡ₚ cl s ++ cc ctx (root s).
  Proof. unfold cl at 1. rewrite cells_plug. by rewrite cells_p. Qed.
  Lemma cc_cons d m a kv o ctx h : cc (F d m a kv o :: ctx) h = (a, nd d h (root o) m kv) :: cl o ++ cc ctx a.
  Proof. unfold cc. simpl. rewrite cells_p. by destruct d. Qed.
  Local Arguments cl : simpl never.
  Local Arguments cc : simpl never.
  Lemma cc_app c1 c2 h : cc (c1 ++ c2) h ≡ₚ cc c1 h ++ cc c2 (croot c1 h).
  Proof.
    revert h. induction c1 as [|[d m a kv o] c1 IH]; intros h; [done|].
    cbn [app croot fa]. rewrite !cc_cons, IH. by rewrite <- !app_comm_cons, <- app_assoc.
  Qed.
  Lemma cl_length s : lengthN (cl s) = N.of_nat (tsize s).
  Proof. unfold cl. rewrite cells_length. by rewrite tsize_entries. Qed.
  Lemma nd_neg d c c' m kv : nd (negb d) c' c m kv = nd d c c' m kv.
  Proof. by destruct d. Qed.
  Lemma mk_neg d m x (a : N) (kv : K * V) y : mk (negb d) m y a kv x = mk d m x a kv y.
  Proof. by destruct d. Qed.

  Definition R t cs (rt : N) : Prop := CH 4 cap (av_al t) cs ∧ av_root t = rt.
  Definition rep t U : Prop := R t (cl U) (root U).

  Lemma R_perm t cs cs' rt : R t cs rt → cs ≡ₚ cs' → R t cs' rt.
  Proof. intros [Hc ?] Hp. split; [by eapply CH_perm|done]. Qed.
  Lemma rep_focus t ctx s : rep t (plug ctx s) ↔ R t (cl s ++ cc ctx (root s)) (croot ctx (root s)).
  Proof. unfold rep, R. by rewrite root_plug, cl_plug. Qed.
  Lemma R_fuel t cs rt : R t cs rt → av_fuel t = S (N.to_nat cap).
  Proof. intros [Hc _]. apply CH_cap in Hc. unfold av_fuel, MAX_SIZE, lengthN in *. lia. Qed.
  Lemma R_w t cs rt : R t cs rt → cap + 1 < W32.
  Proof. intros [Hc _]. by eapply CH_w. Qed.
  Lemma R_len t cs rt : R t cs rt → lengthN cs ≤ cap.
  Proof. intros [Hc _]. by eapply CH_len_le. Qed.
  Lemma rep_tsize t U : rep t U → (tsize U ≤ N.to_nat cap)%nat.
  Proof. intros HR. apply R_len in HR. rewrite cl_length in HR. lia. Qed.
  Lemma R_nz t cs rt i n : R t cs rt → (i, n) ∈ cs → i ≠ 0.
  Proof. intros [Hc _]. by eapply CH_nz. Qed.
  Lemma R_root_nz t cs rt s : R t cs rt → (∀ e, e ∈ cl s → e ∈ cs) → s ≠ Lf → root s ≠ 0.
  Proof.
    intros HR Hs Hne. destruct s as [|m l i kv r]; [done|]. eapply R_nz; [exact HR|]. apply Hs. rewrite cl_Nd. apply elem_of_list_here.
  Qed.
  Lemma rep_root t U : rep t U → as_u32 (av_root t) = root U.
  Proof.
    intros HR. pose proof (R_w _ _ _ HR) as Hw. pose proof HR as [Hc Hrt]. rewrite Hrt. unfold as_u32.
    apply N.mod_small. destruct U as [|m l i kv r]; simpl; [unfold W32; lia|].
    assert (i ≤ cap); [|lia]. eapply CH_le; [exact Hc|]. rewrite cl_Nd. apply elem_of_list_here.
  Qed.

  (** *** Reads *)
  Lemma R_field t cs rt i n r v : R t cs rt → (i, n) ∈ cs → lookupN (regs n) r = Some v → av_get_field t i r = Val v.
  Proof. intros [Hc _]. by eapply CH_get_register. Qed.
  Lemma R_child t cs rt i d c c' m kv : R t cs rt → (i, nd d c c' m kv) ∈ cs → av_get_field t i (dN d) = Val c.
  Proof. intros HR Hi. eapply R_field; [done|done|]. by destruct d. Qed.
  Lemma R_opp t cs rt i d c c' m kv : R t cs rt → (i, nd d c c' m kv) ∈ cs → av_get_field t i (dN (negb d)) = Val c'.
  Proof. intros HR Hi. eapply R_field; [done|done|]. by destruct d. Qed.
  Lemma R_node t cs rt i n : R t cs rt → (i, n) ∈ cs → av_get_node t i = Val (val n).
  Proof. intros [Hc _] Hi. unfold av_get_node. by erewrite CH_get by done. Qed.
  (** the root cell of [x] is there *)
  Definition sub cs x : Prop :=
    match x with Lf => True | Nd m _ a _ _ => ∃ n, (a, n) ∈ cs ∧ lookupN (regs n) Height = Some m end.
  Lemma sub_incl cs x : (∀ e, e ∈ cl x → e ∈ cs) → sub cs x.
  Proof.
    destruct x as [|m l a kv r]; [done|]. intros Hs. eexists. split; [apply Hs; rewrite cl_Nd; apply elem_of_list_here|done].
  Qed.
  Lemma sub_height t cs rt x :
    R t cs rt → sub cs x → x ≠ Lf → root x ≠ 0 ∧ av_get_field t (root x) Height = Val (mark x).
  Proof.
    destruct x as [|m l a kv r]; [done|]. intros HR (n & Hn & Hr) _. split; [by eapply R_nz|]. by eapply R_field.
  Qed.
  Lemma R_ne t cs rt i j n n' : R t ((i, n) :: cs) rt → (j, n') ∈ cs → i ≠ j.
  Proof.
    intros [Hc _] Hj ->. apply CH_NoDup in Hc. simpl in Hc. apply NoDup_cons in Hc as [Hc _].
    apply Hc. apply elem_of_list_fmap. by exists (j, n').
  Qed.

  (** *** Writes *)
  Lemma R_on {A} (m : M (alloc (K * V)) A) t (Q : A → avlt → Prop) :
    wp m (av_al t) (λ a al', Q a (set_aal al' t)) → wp (av_on m) t Q.
  Proof. apply wp_zoom. Qed.
  Lemma R_set t cs rt i n r v (Q : () → avlt → Prop) :
    R t ((i, n) :: cs) rt → r < lengthN (regs n) →
    (∀ t', R t' ((i, setr r v n) :: cs) rt → Q () t') → wp (av_on (na_set_register i v r)) t Q.
  Proof. intros [Hc Hr] Hlen HQ. apply R_on. eapply CH_set_register; [done..|]. intros a' Hc'. by apply HQ. Qed.

  Lemma wp_update t cs rt i d x y m kv (Q : () → avlt → Prop) :
    R t ((i, nd d (root x) (root y) m kv) :: cs) rt → sub cs x → sub cs y → nm x y < W32 →
    (∀ t', R t' ((i, nd d (root x) (root y) (nm x y) kv) :: cs) rt → Q () t') → wp (av_update_height i) t Q.
  Proof.
    assert (∀ (x y : tree) m, R t ((i, nd false (root x) (root y) m kv) :: cs) rt → sub cs x → sub cs y → nm x y < W32 →
    (∀ t', R t' ((i, nd false (root x) (root y) (nm x y) kv) :: cs) rt → Q () t') → wp (av_update_height i) t Q) as Hg; cycle 1.
    { destruct d; intros HR Hx Hy Hn HQ.
      - rewrite nm_comm in Hn. eapply (Hg y x m); try done. rewrite nm_comm. done.
      - by eapply (Hg x y m). }
    clear x y d m. intros x y m HR Hx Hy Hn HQ.
    assert (i ≠ 0) as Hi by (eapply R_nz; [exact HR|apply elem_of_list_here]).
    unfold av_update_height.
    apply wp_bind. eapply wp_gets; [eapply (R_child _ _ _ _ false); [exact HR|apply elem_of_list_here]|].
    apply wp_bind. eapply wp_gets; [eapply (R_opp _ _ _ _ false); [exact HR|apply elem_of_list_here]|].
    assert (∀ z, sub cs z → (z = Lf ∧ root z = 0 ∧ mark z = 0) ∨ (z ≠ Lf ∧ root z ≠ 0 ∧ av_get_field t (root z) Height = Val (mark z))) as Hz.
    { intros z Hs. destruct z as [|mz lz iz kvz rz]; [by left|]. right.
      split; [done|]. eapply (sub_height _ _ _ (Nd mz lz iz kvz rz)); [exact HR| |done].
      destruct Hs as (n & ? & ?). exists n. split; [by apply elem_of_list_further|done]. }
    assert (wp (if decide (root x = SENTINEL ∧ root y = SENTINEL) then mret 0
              else
                lh ← (if decide (root x ≠ SENTINEL) then gets (λ t, av_get_field t (root x) Height) else mret 0);
                rh ← (if decide (root y ≠ SENTINEL) then gets (λ t, av_get_field t (root y) Height) else mret 0);
                lift (u32_add (N.max lh rh) 1)) t (λ h t', h = nm x y ∧ t' = t)) as Hw.
    { assert (∀ z, sub cs z → wp (if decide (root z ≠ SENTINEL) then gets (λ t, av_get_field t (root z) Height) else mret 0) t
         (λ h t', h = mark z ∧ t' = t)) as Hr.
      { intros z Hs. destruct (Hz z Hs) as [(-> & Hr & ->)|(_ & Hr & Hf)].
        - by apply wp_ret.
        - rewrite decide_True by done. eapply wp_gets; [exact Hf|]. done. }
      destruct (decide (root x = SENTINEL ∧ root y = SENTINEL)) as [[E1 E2]|Hne].
      - apply wp_ret. split; [|done]. destruct (Hz x Hx) as [(-> & _ & _)|(_ & ? & _)]; [|done].
        destruct (Hz y Hy) as [(-> & _ & _)|(_ & ? & _)]; [|done]. done.
      - assert (nm x y = N.max (mark x) (mark y) + 1) as Hnm.
        { destruct x, y; try done. by destruct Hne. }
        apply wp_bind. eapply wp_mono; [by apply Hr|]. intros ? ? [-> ->].
        apply wp_bind. eapply wp_mono; [by apply Hr|]. intros ? ? [-> ->].
        eapply (wp_lift _ _ (nm x y)); [|done]. rewrite Hnm in Hn |- *. by apply u_add_ok. }
    apply wp_bind. eapply wp_mono; [exact Hw|]. intros ? ? [-> ->]. rewrite decide_True by done.
    eapply R_set; [exact HR|done|]. exact HQ.
  Qed.
  Lemma wp_set t cs rt i d h x y m kv (Q : () → avlt → Prop) :
    R t ((i, nd d h (root y) m kv) :: cs) rt → sub cs x → sub cs y → nm x y < W32 →
    (∀ t', R t' ((i, nd d (root x) (root y) (nm x y) kv) :: cs) rt → Q () t') → wp (av_set_field i (dN d) (root x)) t Q.
  Proof.
    intros HR Hx Hy Hn HQ. assert (i ≠ 0) as Hi by (eapply R_nz; [exact HR|apply elem_of_list_here]).
    unfold av_set_field. rewrite decide_True by done. apply wp_bind.
    eapply R_set; [exact HR|by destruct d|]. intros t' HR'. rewrite decide_True by (destruct d; auto).
    eapply (wp_update _ _ _ _ d x y m); [|done|done|done|done]. by destruct d.
  Qed.

  (** *** Rotations *)
  Definition av_rot (d : bool) (index : N) : M avlt N :=
    child ← gets (λ t, av_get_field t index (dN d));
    inner ← gets (λ t, av_get_field t child (dN (negb d)));
    av_set_field index (dN d) inner;;
    av_set_field child (dN (negb d)) index;;
    mret child.

  Lemma wp_rot t cs rt d m m2 x i kv y j kvj z (Q : N → avlt → Prop) :
    R t (cl (mk d m (mk d m2 z j kvj y) i kv x) ++ cs) rt →
    let I := mk d (nm y x) y i kv x in
    nm y x < W32 → nm z I < W32 →
    (∀ t', R t' (cl (mk d (nm z I) z j kvj I) ++ cs) rt → Q j t') →
    wp (av_rot d i) t Q.
  Proof.
    intros HR I Hn1 Hn2 HQ.
    assert (R t ((i, nd d j (root x) m kv) :: (j, nd d (root z) (root y) m2 kvj) :: cl x ++ cl y ++ cl z ++ cs) rt) as HR1.
    { eapply R_perm; [exact HR|]. rewrite !cl_mk, root_mk. generalize (cl x), (cl y), (cl z). intros X Y Z. simpl. solve_Permutation. }
    clear HR. unfold av_rot.
    apply wp_bind. eapply wp_gets; [eapply R_child; [exact HR1|apply elem_of_list_here]|].
    apply wp_bind. eapply wp_gets; [eapply R_opp; [exact HR1|apply elem_of_list_further, elem_of_list_here]|].
    apply wp_bind. eapply (wp_set _ _ _ _ _ _ y x); [exact HR1|apply sub_incl; intros; inl|apply sub_incl; intros; inl|done|].
    clear t HR1. intros t HR1.
    apply wp_bind.
    replace i with (root I) at 1 by apply root_mk.
    eapply (wp_set _ ((i, nd d (root y) (root x) (nm y x) kv) :: cl x ++ cl y ++ cl z ++ cs) rt j (negb d) _ I z m2 kvj).
    - eapply R_perm; [exact HR1|]. rewrite nd_neg. apply perm_swap.
    - destruct d; simpl; (eexists; split; [apply elem_of_list_here|done]).
    - apply sub_incl. intros; inl.
    - by rewrite nm_comm.
    - clear t HR1. intros t HR1. apply wp_ret, HQ. eapply R_perm; [exact HR1|].
      rewrite (nm_comm I z), nd_neg. generalize (nm z I). unfold I. intros q. rewrite !cl_mk, root_mk.
      generalize (cl x), (cl y), (cl z). intros X Y Z. simpl. solve_Permutation.
  Qed.

  (** *** Rebalancing *)
  Definition av_heavy (d : bool) (child heavy : N) (double : bool) : M avlt (option N) :=
    (if double then index ← av_rot (negb d) heavy; av_set_field child (dN d) index else mret ());;
    i ← av_rot d child;
    mret (Some i).

  Lemma clean_bound t cs rt x y : R t cs rt → avl x → avl y → N.of_nat (tsize x + tsize y) < lengthN cs → nm x y < W32.
  Proof.
    intros HR Hx Hy Hl. rewrite nm_clean by done. pose proof (R_w _ _ _ HR). pose proof (R_len _ _ _ HR).
    pose proof (height_tsize x). pose proof (height_tsize y). lia.
  Qed.

  Lemma wp_heavy t cs rt d m x i kv y (Q : option N → avlt → Prop) :
    R t (cl (mk d m x i kv y) ++ cs) rt → avl x → avl y → height x = (height y + 2)%nat →
    (∀ t' s', R t' (cl s' ++ cs) rt → avl s' → entries s' = entries (mk d m x i kv y) → tsize s' = tsize (mk d m x i kv y) →
       (height x ≤ height s' ≤ S (height x))%nat → (skewed x → height s' = height x) → Q (Some (root s')) t') →
    ∃ m2 xo a kva xi, x = mk d m2 xo a kva xi ∧
      wp (av_heavy d i (root x) (bool_decide (height xo < height xi)%nat)) t Q.
  Proof.
    intros HR Hx Hy Hh HQ.
    assert (∃ m2 xo a kva xi, x = mk d m2 xo a kva xi) as (m2 & xo & a & kva & xi & ->).
    { destruct x as [|m2 l a kva r]; [simpl in Hh; lia|]. destruct d; [by exists m2, r, a, kva, l|by exists m2, l, a, kva, r]. }
    exists m2, xo, a, kva, xi. split; [done|].
    pose proof Hx as (Hxo & Hxi & Hb1 & Hb2 & Hm2)%avl_mk. rewrite height_mk in *.
    assert (N.of_nat (tsize xo + tsize xi + tsize y + 2) ≤ lengthN (cl (mk d m (mk d m2 xo a kva xi) i kv y) ++ cs)) as Hsz.
    { unfold lengthN. rewrite app_length. pose proof (cl_length (mk d m (mk d m2 xo a kva xi) i kv y)) as Hl. unfold lengthN in Hl.
      destruct d; simpl in Hl; simpl; lia. }
    pose proof (R_w _ _ _ HR) as Hw. pose proof (R_len _ _ _ HR) as Hlen.
    pose proof (height_tsize xo). pose proof (height_tsize xi). pose proof (height_tsize y).
    rewrite root_mk. unfold av_heavy. apply wp_bind. case_bool_decide as Hdbl.
    - (* double rotation *)
      assert (∃ m3 u b kvb w, xi = mk (negb d) m3 w b kvb u) as (m3 & u & b & kvb & w & ->).
      { destruct xi as [|m3 l b kvb r]; [simpl in Hdbl; lia|]. destruct d; [by exists m3, r, b, kvb, l|by exists m3, l, b, kvb, r]. }
      pose proof Hxi as (Hw' & Hu & Hb3 & Hb4 & Hm3)%avl_mk. rewrite height_mk in *.
      pose proof (height_tsize u). pose proof (height_tsize w).
      assert (tsize (mk (negb d) m3 w b kvb u) = S (tsize u + tsize w)) as Hts by (destruct d; simpl; lia). rewrite Hts in *.
      apply wp_bind.
      eapply (wp_rot t ((i, nd d a (root y) m kv) :: cl y ++ cs) rt (negb d) m2 m3 xo a kva u b kvb w).
      { eapply R_perm; [exact HR|]. rewrite (mk_neg d m2). rewrite (cl_mk d m), root_mk.
        generalize (cl (mk d m2 xo a kva (mk (negb d) m3 w b kvb u))), (cl y). intros X Y. simpl. solve_Permutation. }
      { rewrite nm_clean by done. lia. }
      { rewrite nm_clean; [rewrite height_mk; lia|done|]. apply avl_intro; [done|done|lia|lia]. }
      clear t HR Hw Hlen Hsz. intros t HR.
      set (A1 := mk (negb d) (nm u xo) u a kva xo) in *. assert (avl A1) as HA1 by (apply avl_intro; [done|done|lia|lia]).
      assert (height A1 = S (Nat.max (height u) (height xo))) as HhA1 by apply height_mk.
      set (B1 := mk (negb d) (nm w A1) w b kvb A1) in *.
      pose proof (R_w _ _ _ HR) as Hw. pose proof (R_len _ _ _ HR) as Hlen.
      assert (root B1 = b) as HrB by apply root_mk. rewrite <- HrB.
      assert (tsize A1 = S (tsize u + tsize xo)) as HtA by (unfold A1; destruct d; simpl; lia).
      assert (tsize B1 = S (tsize w + tsize A1)) as HtB by (unfold B1; destruct d; simpl; lia).
      assert (N.of_nat (tsize B1 + tsize y) < lengthN (cl B1 ++ (i, nd d a (root y) m kv) :: cl y ++ cs)) as Hsz.
      { pose proof (cl_length B1). pose proof (cl_length y). unfold lengthN in *. rewrite !app_length. simpl. rewrite !app_length. lia. }
      assert (height B1 = S (Nat.max (height w) (height A1))) as HhB1 by apply height_mk.
      eapply (wp_set _ (cl B1 ++ cl y ++ cs) rt i d a B1 y m kv).
      { eapply R_perm; [exact HR|]. symmetry. apply Permutation_middle. }
      { apply sub_incl. intros; inl. }
      { apply sub_incl. intros; inl. }
      { assert (mark B1 = N.of_nat (Nat.max (height w) (height A1))) as HmB.
        { rewrite <- nm_clean by done. unfold B1. by destruct d. }
        assert (mark y ≤ N.of_nat (height y)) as Hmy by (pose proof (avl_mark y Hy); destruct y; simpl in *; lia).
        assert (nm B1 y = N.max (mark B1) (mark y) + 1) as -> by (unfold B1; by destruct d).
        lia. }
      clear t HR Hw Hlen. intros t HR. apply wp_bind.
      assert (B1 = mk d (nm w A1) A1 b kvb w) as EB by (unfold B1; by rewrite mk_neg).
      eapply (wp_rot t cs rt d (nm B1 y) (nm w A1) y i kv w b kvb A1).
      { eapply R_perm; [exact HR|]. rewrite <- EB, cl_mk. simpl. by rewrite <- app_assoc. }
      { eapply clean_bound; [exact HR|done|done|]. pose proof (cl_length B1). pose proof (cl_length y). unfold lengthN in *.
        simpl. rewrite !app_length. lia. }
      { assert (avl (mk d (nm w y) w i kv y)) as Hav by (apply avl_intro; [done|done|lia|lia]).
        eapply clean_bound; [exact HR|done|done|]. pose proof (cl_length B1). pose proof (cl_length y). unfold lengthN in *.
        simpl. rewrite !app_length.
        assert (tsize (mk d (nm w y) w i kv y) = S (tsize w + tsize y)) as -> by (destruct d; simpl; lia). lia. }
      intros t' HR'. apply wp_ret.
      set (C1 := mk d (nm w y) w i kv y) in *.
      assert (avl C1) as HC1 by (apply avl_intro; [done|done|lia|lia]).
      assert (height C1 = S (Nat.max (height w) (height y))) as HhC by apply height_mk.
      replace b with (root (mk d (nm A1 C1) A1 b kvb C1)) by apply root_mk.
      apply HQ; [done|apply avl_intro; [done|done|lia|lia]| | |rewrite height_mk; lia|intros Hsk%skewed_mk; rewrite ?height_mk in *; lia].
      + unfold A1, C1. rewrite !entries_mk. destruct d; simpl; by rewrite <- ?app_assoc; simpl; rewrite <- ?app_assoc.
      + unfold A1, C1. destruct d; simpl; lia.
    - (* single rotation *)
      apply wp_ret, wp_bind.
      eapply (wp_rot t cs rt d m m2 y i kv xi a kva xo); [exact HR| | |].
      { rewrite nm_clean by done. lia. }
      { rewrite nm_clean; [rewrite height_mk; lia|done|apply avl_intro; [done|done|lia|lia]]. }
      intros t' HR'. apply wp_ret. set (C1 := mk d (nm xi y) xi i kv y) in *.
      assert (avl C1) as HC1 by (apply avl_intro; [done|done|lia|lia]).
      assert (height C1 = S (Nat.max (height xi) (height y))) as HhC by apply height_mk.
      replace a with (root (mk d (nm xo C1) xo a kva C1)) by apply root_mk.
      apply HQ; [done|apply avl_intro; [done|done|lia|lia]| | |rewrite height_mk; lia|intros Hsk%skewed_mk; rewrite ?height_mk in *; lia].
      + unfold C1. rewrite !entries_mk. destruct d; simpl; by rewrite <- ?app_assoc; simpl; rewrite <- ?app_assoc.
      + unfold C1. destruct d; simpl; lia.
  Qed.

  Lemma avl_h64 t cs rt x : R t cs rt → avl x → N.of_nat (tsize x) ≤ lengthN cs → (height x < 64)%nat.
  Proof.
    intros HR Hx Hl. pose proof (R_w _ _ _ HR). pose proof (R_len _ _ _ HR).
    pose proof (avl_size x Hx) as Hs. assert (N.of_nat (tsize x) + 1 < W32) as Ht by lia.
    destruct (decide (64 ≤ height x)%nat) as [Hge|]; [|lia]. exfalso.
    assert (N.of_nat (2 ^ height x) ≤ N.of_nat ((tsize x + 1) ^ 2)) as Hs' by lia.
    rewrite !Nat2N.inj_pow in Hs'.
    assert (2 ^ 64 ≤ N.of_nat 2 ^ N.of_nat (height x)) as Hp1 by (apply N.pow_le_mono_r; lia).
    assert (N.of_nat (tsize x + 1) ^ N.of_nat 2 < W32 * W32) as Hp2.
    { change (N.of_nat 2) with 2. rewrite N.pow_2_r. apply N.mul_lt_mono; lia. }
    change (W32 * W32) with (2 ^ 64) in Hp2. lia.
  Qed.
  Lemma i32_ok (q : Z) : (-2147483648 ≤ q < 2147483648)%Z → i32_chk q = Val q.
  Proof. intros Hz. unfold i32_chk. by rewrite decide_True. Qed.
  Lemma R_bf t cs rt x y :
    R t cs rt → sub cs x → sub cs y → avl x → avl y → (height x < 64)%nat → (height y < 64)%nat →
    av_balance_factor t (root x) (root y) = Val (Z.of_nat (height x) - Z.of_nat (height y))%Z.
  Proof.
    intros HR Hx Hy Ax Ay Hhx Hhy.
    assert (∀ z, sub cs z → avl z → (height z < 64)%nat →
      (if decide (root z ≠ SENTINEL) then h ← av_get_field t (root z) Height; i32_chk (as_i32 h + 1)%Z else Val 0%Z)
      = Val (Z.of_nat (height z))) as Hz.
    { intros z Hs Az Hh. pose proof (avl_mark z Az) as Hm. destruct z as [|m l i kv r]; [done|].
      destruct (sub_height _ _ _ _ HR Hs ltac:(done)) as [Hnz Hf].
      rewrite decide_True by done. rewrite Hf. cbn -[as_i32 i32_chk]. unfold as_i32.
      cbn [mark height] in Hm, Hh. rewrite decide_True by lia. rewrite i32_ok by lia. f_equal. lia. }
    unfold av_balance_factor. rewrite (Hz x) by done. cbn [mbind]. simpl. rewrite (Hz y) by done. simpl.
    apply i32_ok. lia.
  Qed.

  Definition av_attach (pb : option (N * N)) (index : N) : M avlt () :=
    match pb with
    | Some (parent, branch) => av_set_field parent branch index
    | None => modify (set_aroot index);; av_update_height index
    end.
  Lemma wp_step t cs rt m l c kv r pb h0 (Q : () → avlt → Prop) :
    R t (cl (Nd m l c kv r) ++ cs) rt → avl l → avl r → near (height l) (height r) h0 →
    (∀ t' s', R t' (cl s' ++ cs) rt → avl s' → entries s' = entries (Nd m l c kv r) → tsize s' = tsize (Nd m l c kv r) →
       s' ≠ Lf → (height s' ≤ S h0)%nat → (h0 ≤ S (height s'))%nat → stepped l c kv r s' →
       wp (av_attach pb (root s')) t' Q ∧ (root s' = c → Q () t')) →
    wp (av_rebalance_step (pb, c)) t Q.
  Proof.
    intros HR Hl Hr (Hn1 & Hn2 & Hn3 & Hn4 & Hn5) HQ.
    pose proof HR as HR1. rewrite cl_Nd in HR1. simpl in HR1. rewrite <- app_assoc in HR1.
    assert (lengthN (cl (Nd m l c kv r) ++ cs) = N.of_nat (tsize l + tsize r + 1) + lengthN cs) as Hlen.
    { unfold lengthN. rewrite app_length. pose proof (cl_length (Nd m l c kv r)) as E. unfold lengthN in E. cbn [tsize] in E. lia. }
    assert (height l < 64)%nat as H64l by (eapply avl_h64; [exact HR|done|lia]).
    assert (height r < 64)%nat as H64r by (eapply avl_h64; [exact HR|done|lia]).
    unfold av_rebalance_step.
    apply wp_bind. eapply wp_gets; [eapply (R_child _ _ _ _ false); [exact HR1|apply elem_of_list_here]|].
    apply wp_bind. eapply wp_gets; [eapply (R_opp _ _ _ _ false); [exact HR1|apply elem_of_list_here]|].
    apply wp_bind. eapply wp_gets.
    { eapply R_bf; [exact HR1|apply sub_incl; intros; inl|apply sub_incl; intros; inl|done..]. }
    assert (∀ t' s', R t' (cl s' ++ cs) rt → avl s' → entries s' = entries (Nd m l c kv r) → tsize s' = tsize (Nd m l c kv r) →
       s' ≠ Lf → (height s' ≤ S h0)%nat → (h0 ≤ S (height s'))%nat → stepped l c kv r s' →
       wp (match Some (root s') with Some index => av_attach pb index | None => mret () end) t' Q) as HQ1.
    { intros. by eapply HQ. }
    assert (∀ d m x i kv y, Nd m l c kv r = mk d m x i kv y → (∀ e, e ∈ cl x → e ∈ cl l ++ cl r ++ cs) → avl x →
       ∀ m2 xo a kva xi, x = mk d m2 xo a kva xi → (height x < 64)%nat →
       av_get_field t (root x) (dN d) = Val (root xo) ∧ av_get_field t (root x) (dN (negb d)) = Val (root xi) ∧
       av_balance_factor t (root xo) (root xi) = Val (Z.of_nat (height xo) - Z.of_nat (height xi))%Z ∧
       av_balance_factor t (root xi) (root xo) = Val (Z.of_nat (height xi) - Z.of_nat (height xo))%Z) as Hin.
    { intros d m' x i kv' y _ Hx Ax m2 xo a kva xi -> Hh. apply avl_mk in Ax as (Axo & Axi & _ & _ & _). rewrite height_mk in Hh.
      rewrite root_mk.
      assert (∀ e, e ∈ (a, nd d (root xo) (root xi) m2 kva) :: cl xo ++ cl xi → e ∈ (c, nd false (root l) (root r) m kv) :: cl l ++ cl r ++ cs) as Hx'.
      { intros e He. apply elem_of_list_further, Hx. by rewrite cl_mk. }
      split_and!.
      - eapply R_child; [exact HR1|]. apply Hx', elem_of_list_here.
      - eapply R_opp; [exact HR1|]. apply Hx', elem_of_list_here.
      - eapply R_bf; [exact HR1|apply sub_incl; intros; apply Hx'; inl|apply sub_incl; intros; apply Hx'; inl|done|done|lia|lia].
      - eapply R_bf; [exact HR1|apply sub_incl; intros; apply Hx'; inl|apply sub_incl; intros; apply Hx'; inl|done|done|lia|lia]. }
    destruct (decide (1 < Z.of_nat (height l) - Z.of_nat (height r))%Z) as [Hhl|Hhl];
      [|destruct (decide (Z.of_nat (height l) - Z.of_nat (height r) < -1)%Z) as [Hhr|Hhr]].
    - edestruct (wp_heavy t cs rt false m l c kv r) as (m2 & xo & a & kva & xi & El & Hwp); [exact HR|done|done|lia| |].
      { intros t' s' HR' As' Es Ts Hb Hsk. instantiate (1 := λ oi t', wp (match oi with Some index => av_attach pb index | None => mret () end) t' Q).
        cbn beta. apply HQ1; try done; try lia; [intros ->; simpl in Ts; lia|].
        unfold stepped. split_and!; intros; (lia || done). }
      destruct (Hin false m l c kv r eq_refl ltac:(intros; inl) Hl _ _ _ _ _ El H64l) as (Hg1 & Hg2 & Hg3 & _).
      apply wp_bind. apply wp_bind. eapply wp_gets; [exact Hg1|].
      apply wp_bind. eapply wp_gets; [exact Hg2|].
      apply wp_bind. eapply wp_gets; [exact Hg3|].
      unfold av_heavy in Hwp. case_bool_decide; case_decide; first [lia|exact Hwp].
    - edestruct (wp_heavy t cs rt true m r c kv l) as (m2 & xo & a & kva & xi & El & Hwp); [exact HR|done|done|lia| |].
      { intros t' s' HR' As' Es Ts Hb Hsk. instantiate (1 := λ oi t', wp (match oi with Some index => av_attach pb index | None => mret () end) t' Q).
        cbn beta. apply HQ1; try done; try lia; [intros ->; simpl in Ts; lia|].
        unfold stepped. split_and!; intros; (lia || done). }
      destruct (Hin true m r c kv l eq_refl ltac:(intros; inl) Hr _ _ _ _ _ El H64r) as (Hg1 & Hg2 & _ & Hg3).
      apply wp_bind. apply wp_bind. eapply wp_gets; [exact Hg2|].
      apply wp_bind. eapply wp_gets; [exact Hg1|].
      apply wp_bind. eapply wp_gets; [exact Hg3|].
      unfold av_heavy in Hwp. case_bool_decide; case_decide; first [lia|exact Hwp].
    - apply wp_bind. apply wp_bind. eapply (wp_update _ _ _ _ false l r); [exact HR1|apply sub_incl; intros; inl|apply sub_incl; intros; inl| |].
      { eapply clean_bound; [exact HR|done|done|lia]. }
      intros t' HR'. apply wp_ret. apply wp_ret.
      eapply (HQ t' (Nd (nm l r) l c kv r)); try done.
      + rewrite cl_Nd. simpl. by rewrite <- app_assoc.
      + apply (avl_intro false); [done|done|lia|lia].
      + simpl. lia.
      + unfold stepped. split_and!; intros; (lia || done).
  Qed.

  (** The path of the focus [c], nearest node first *)
  Fixpoint apath ctx (c : N) : list (option (N * N) * N) :=
    match ctx with
    | [] => [(None, c)]
    | F d m a kv o :: ctx => (Some (a, dN d), c) :: apath ctx a
    end.

  Lemma wp_rebalance ctx : ∀ t m l c kv r h0 (Q : () → avlt → Prop),
    rep t (plug ctx (Nd m l c kv r)) → avl l → avl r → near (height l) (height r) h0 → actx ctx h0 →
    (∀ t' U', rep t' U' → avl U' → entries U' = entries (plug ctx (Nd m l c kv r)) → Q () t') →
    wp (av_rebalance (apath ctx c)) t Q.
  Proof.
    induction ctx as [|[d mf a kvf o] ctx IH]; intros t m l c kv r h0 Q HR Hl Hr Hn Hc HQ; cbn [apath av_rebalance].
    - apply wp_bind. eapply (wp_step t [] _ m l c kv r None h0); [rewrite app_nil_r; exact HR|done|done|done|].
      clear t HR. intros t s HR As Es Ts Hne _ _ _. rewrite app_nil_r in HR. split.
      + destruct s as [|m' l' c' kv' r']; [done|]. unfold av_attach. apply wp_bind, wp_modify.
        destruct HR as [HC _]. pose proof (avl_mk false _ _ _ _ _ As) as (Hl' & Hr' & _ & _ & Hm').
        assert (R (set_aroot c' t) ((c', nd false (root l') (root r') m' kv') :: cl l' ++ cl r') c') as HR by (by rewrite cl_Nd in HC).
        eapply (wp_update _ _ _ _ false l' r'); [exact HR|apply sub_incl; intros; inl|apply sub_incl; intros; inl| |].
        { eapply clean_bound; [exact HR|done|done|]. pose proof (cl_length l'). pose proof (cl_length r').
          unfold lengthN in *. simpl. rewrite app_length. lia. }
        intros t' HR'. apply wp_ret. apply (HQ t' (Nd m' l' c' kv' r')); [|done|done].
        unfold rep. rewrite cl_Nd, Hm'. done.
      + intros Ec. apply wp_ret. apply (HQ t s); [|done|done]. unfold rep. rewrite Ec. done.
    - inversion Hc as [|? ? ? ? ? ? ? Ao Hc1 Hc2 Hc3]; subst.
      apply wp_bind. rewrite rep_focus in HR. cbn [croot root fa] in HR. rewrite cc_cons in HR.
      eapply (wp_step t _ _ m l c kv r _ h0); [exact HR|done|done|done|].

      clear t HR. intros t s HR As Es Ts Hne Hb1 Hb2 _.
      assert (near (height s) (height o) (S (Nat.max h0 (height o)))) as Hnear by (unfold near; lia).
      assert (∀ mf' t', R t' ((a, nd d (root s) (root o) mf' kvf) :: cl s ++ cl o ++ cc ctx a) (croot ctx a) →
                wp (av_rebalance (apath ctx a)) t' Q) as Hgo.
      { intros mf' t' HR'.
        assert (rep t' (plug ctx (mk d mf' s a kvf o))) as HR2.
        { rewrite rep_focus, root_mk. eapply R_perm; [exact HR'|]. rewrite cl_mk. simpl. by rewrite <- app_assoc. }
        assert (entries (plug ctx (mk d mf' s a kvf o)) = entries (plug (F d mf a kvf o :: ctx) (Nd m l c kv r))) as Ee.
        { cbn [plug]. rewrite !entries_plug, !entries_mk, Es. done. }
        destruct d; simpl mk in *.
        - eapply IH; [exact HR2|done|done| |exact Hc3|].
          + unfold near in *. lia.
          + intros t'' U' ? ? E. eapply HQ; [done|done|]. by rewrite E, Ee.
        - eapply IH; [exact HR2|done|done|exact Hnear|exact Hc3|].
          intros t'' U' ? ? E. eapply HQ; [done|done|]. by rewrite E, Ee. }
      split.
      + unfold av_attach. eapply (wp_set t (cl s ++ cl o ++ cc ctx a) (croot ctx a) a d c s o mf kvf).
        * eapply R_perm; [exact HR|]. symmetry. apply Permutation_middle.
        * apply sub_incl; intros; inl.
        * apply sub_incl; intros; inl.
        * eapply clean_bound; [exact HR|done|done|]. pose proof (cl_length s). pose proof (cl_length o).
          unfold lengthN in *. rewrite app_length. simpl. rewrite app_length. lia.
        * intros t' HR'. by eapply Hgo.
      + intros Ec. apply (Hgo mf). rewrite Ec. eapply R_perm; [exact HR|]. symmetry. apply Permutation_middle.
  Qed.
End av.
