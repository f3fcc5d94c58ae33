(** * The rotations of the AVL tree model are those of the textbook *)
From Verif Require Import IterProof AVLMain DrawSpec DrawAv BookSpec.

(** [rebalanced] with the sides given by a direction *)
Definition rebal {A} (d : bool) (b : drawing A) (x : A) (c : drawing A) : drawing A := if d then rebalanced c x b else rebalanced b x c.
Lemma rebal_single {A} d m m' m2 (xo xi y : tree A) a i kva kv : height (mk d m2 xo a kva xi) = (height y + 2)%nat → ¬ (height xo < height xi)%nat →
  draw (mk d m xo a kva (mk d m' xi i kv y)) = rebal d (draw (mk d m2 xo a kva xi)) kv (draw y).
Proof.
  intros Hh Hs. unfold rebal, rebalanced. destruct d; cbn [mk draw]; rewrite height_mk in Hh.
  - rewrite decide_False by (cbn [tall]; rewrite !draw_tall; lia). rewrite decide_True by (cbn [tall]; rewrite !draw_tall; lia).
    rewrite decide_False by (rewrite !draw_tall; lia). done.
  - rewrite decide_True by (cbn [tall]; rewrite !draw_tall; lia). rewrite decide_False by (rewrite !draw_tall; lia). done.
Qed.
Lemma rebal_double {A} d m m1 m2 m3 m4 (xo u w y : tree A) a b i kva kvb kv :
  height (mk d m2 xo a kva (mk (negb d) m3 w b kvb u)) = (height y + 2)%nat → (height xo < height (mk (negb d) m3 w b kvb u))%nat →
  draw (mk d m (mk (negb d) m1 u a kva xo) b kvb (mk d m4 w i kv y)) = rebal d (draw (mk d m2 xo a kva (mk (negb d) m3 w b kvb u))) kv (draw y).
Proof.
  intros Hh Hs. unfold rebal, rebalanced. rewrite height_mk in Hh. destruct d; cbn [mk draw negb] in *.
  - rewrite decide_False by (cbn [tall]; rewrite !draw_tall; cbn [height] in *; lia).
    rewrite decide_True by (cbn [tall]; rewrite !draw_tall; cbn [height] in *; lia).
    rewrite decide_True by (cbn [tall]; rewrite !draw_tall; cbn [height] in *; lia). done.
  - rewrite decide_True by (cbn [tall]; rewrite !draw_tall; cbn [height] in *; lia).
    rewrite decide_True by (cbn [tall]; rewrite !draw_tall; cbn [height] in *; lia). done.
Qed.
Lemma rebal_quiet {A} (l r : tree A) kv : (height l < height r + 2)%nat → (height r < height l + 2)%nat →
  rebalanced (draw l) kv (draw r) = Fork (draw l) kv (draw r).
Proof. intros H1 H2. unfold rebalanced. rewrite !draw_tall. rewrite decide_False by lia. by rewrite decide_False by lia. Qed.
Lemma rebal_avl {A} m (l r : tree A) a kv : avl (Nd m l a kv r) → rebalanced (draw l) kv (draw r) = draw (Nd m l a kv r).
Proof. intros Ha. apply (avl_mk false) in Ha as (_ & _ & ? & ? & _). apply rebal_quiet; lia. Qed.

(** what [rebalance] makes of the tree around the place [ctx] with [b] in it *)
Fixpoint climb {A} (ctx : list (frame A)) (b : drawing A) : drawing A :=
  match ctx with [] => b | F d m a kv o :: ctx => climb ctx (rebal d b kv (draw o)) end.
Lemma climb_app {A} (C C' : list (frame A)) b : climb (C ++ C') b = climb C' (climb C b).
Proof. revert b. induction C as [|[] C IH]; intros b'; [done|]. cbn. apply IH. Qed.
Lemma climb_quiet {A} (ctx : list (frame A)) : ∀ s, avl (plug ctx s) → climb ctx (draw s) = draw (plug ctx s).
Proof.
  induction ctx as [|[d m a kv o] ctx IH]; intros s Ha; [done|]. cbn [climb plug] in *. rewrite <- IH by done.
  destruct (avl_unplug _ _ Ha) as [Hm _]. f_equal. destruct d; cbn [mk] in *; by rewrite <- (rebal_avl _ _ _ _ _ Hm).
Qed.

Section exact.
  Context `{Profile} {K V : Type} {G : Ghost (K * V)} (cap : N).
  Notation tree := (tree (K * V)).
  Notation frame := (frame (K * V)).
  Notation avlt := (avlt K V).
  Notation rep := (rep (K := K) (V := V) cap).
  Notation R := (R (K := K) (V := V) cap).
  Local Notation wp_rot := (AVLProof.wp_rot cap).
  Local Notation wp_set := (AVLProof.wp_set cap).
  Local Notation wp_update := (AVLProof.wp_update cap).
  Local Notation R_w := (AVLProof.R_w cap).
  Local Notation R_len := (AVLProof.R_len cap).
  Local Notation R_child := (AVLProof.R_child cap).
  Local Notation R_opp := (AVLProof.R_opp cap).
  Implicit Types t : avlt.
  Implicit Types s x y z o U : tree.
  Implicit Types ctx : list frame.
  Implicit Types cs : list (N * node (K * V)).
  Local Arguments cl : simpl never.
  Local Arguments cc : simpl never.

  (** AVLProof.wp_heavy with the drawing as well *)
  Lemma wp_heavy_exact t cs rt d m x i kv y (Q : option N → avlt → Prop) :
    R t (cl (mk d m x i kv y) ++ cs) rt → avl x → avl y → height x = (height y + 2)%nat →
    (∀ t' s', R t' (cl s' ++ cs) rt → avl s' → entries s' = entries (mk d m x i kv y) → tsize s' = tsize (mk d m x i kv y) →
       (height x ≤ height s' ≤ S (height x))%nat → (skewed x → height s' = height x) →
       draw s' = rebal d (draw x) kv (draw y) → Q (Some (root s')) t') →
    ∃ m2 xo a kva xi, x = mk d m2 xo a kva xi ∧
      wp (av_heavy d i (root x) (bool_decide (height xo < height xi)%nat)) t Q.
  Proof using Type.
    intros HR Hx Hy Hh HQ.
    assert (∃ m2 xo a kva xi, x = mk d m2 xo a kva xi) as (m2 & xo & a & kva & xi & ->).
    { destruct x as [|m2 l a kva r]; [simpl in Hh; lia|]. destruct d; [by exists m2, r, a, kva, l|by exists m2, l, a, kva, r]. }
    exists m2, xo, a, kva, xi. split; [done|].
    pose proof Hx as (Hxo & Hxi & Hb1 & Hb2 & Hm2)%avl_mk. rewrite height_mk in *.
    assert (N.of_nat (tsize xo + tsize xi + tsize y + 2) ≤ lengthN (cl (mk d m (mk d m2 xo a kva xi) i kv y) ++ cs)) as Hsz.
    { unfold lengthN. rewrite app_length. pose proof (cl_length (mk d m (mk d m2 xo a kva xi) i kv y)) as Hl. unfold lengthN in Hl.
      destruct d; simpl in Hl; simpl; lia. }
    pose proof (R_w _ _ _ HR) as Hw. pose proof (R_len _ _ _ HR) as Hlen.
    pose proof (height_tsize xo). pose proof (height_tsize xi). pose proof (height_tsize y).
    rewrite root_mk. unfold av_heavy. apply wp_bind. case_bool_decide as Hdbl.
    - (* double rotation *)
      assert (∃ m3 u b kvb w, xi = mk (negb d) m3 w b kvb u) as (m3 & u & b & kvb & w & ->).
      { destruct xi as [|m3 l b kvb r]; [simpl in Hdbl; lia|]. destruct d; [by exists m3, r, b, kvb, l|by exists m3, l, b, kvb, r]. }
      pose proof Hxi as (Hw' & Hu & Hb3 & Hb4 & Hm3)%avl_mk. rewrite height_mk in *.
      pose proof (height_tsize u). pose proof (height_tsize w).
      assert (tsize (mk (negb d) m3 w b kvb u) = S (tsize u + tsize w)) as Hts by (destruct d; simpl; lia). rewrite Hts in *.
      apply wp_bind.
      eapply (wp_rot t ((i, nd d a (root y) m kv) :: cl y ++ cs) rt (negb d) m2 m3 xo a kva u b kvb w).
      { eapply R_perm; [exact HR|]. rewrite (mk_neg d m2). rewrite (cl_mk d m), root_mk.
        generalize (cl (mk d m2 xo a kva (mk (negb d) m3 w b kvb u))), (cl y). intros X Y. simpl. solve_Permutation. }
      { rewrite nm_clean by done. lia. }
      { rewrite nm_clean; [rewrite height_mk; lia|done|]. apply avl_intro; [done|done|lia|lia]. }
      clear t HR Hw Hlen Hsz. intros t HR.
      set (A1 := mk (negb d) (nm u xo) u a kva xo) in *. assert (avl A1) as HA1 by (apply avl_intro; [done|done|lia|lia]).
      assert (height A1 = S (Nat.max (height u) (height xo))) as HhA1 by apply height_mk.
      set (B1 := mk (negb d) (nm w A1) w b kvb A1) in *.
      pose proof (R_w _ _ _ HR) as Hw. pose proof (R_len _ _ _ HR) as Hlen.
      assert (root B1 = b) as HrB by apply root_mk. rewrite <- HrB.
      assert (tsize A1 = S (tsize u + tsize xo)) as HtA by (unfold A1; destruct d; simpl; lia).
      assert (tsize B1 = S (tsize w + tsize A1)) as HtB by (unfold B1; destruct d; simpl; lia).
      assert (N.of_nat (tsize B1 + tsize y) < lengthN (cl B1 ++ (i, nd d a (root y) m kv) :: cl y ++ cs)) as Hsz.
      { pose proof (cl_length B1). pose proof (cl_length y). unfold lengthN in *. rewrite !app_length. simpl. rewrite !app_length. lia. }
      assert (height B1 = S (Nat.max (height w) (height A1))) as HhB1 by apply height_mk.
      eapply (wp_set _ (cl B1 ++ cl y ++ cs) rt i d a B1 y m kv).
      { eapply R_perm; [exact HR|]. symmetry. apply Permutation_middle. }
      { apply sub_incl. intros; inl. }
      { apply sub_incl. intros; inl. }
      { assert (mark B1 = N.of_nat (Nat.max (height w) (height A1))) as HmB.
        { rewrite <- nm_clean by done. unfold B1. by destruct d. }
        assert (mark y ≤ N.of_nat (height y)) as Hmy by (pose proof (avl_mark y Hy); destruct y; simpl in *; lia).
        assert (nm B1 y = N.max (mark B1) (mark y) + 1) as -> by (unfold B1; by destruct d).
        lia. }
      clear t HR Hw Hlen. intros t HR. apply wp_bind.
      assert (B1 = mk d (nm w A1) A1 b kvb w) as EB by (unfold B1; by rewrite mk_neg).
      eapply (wp_rot t cs rt d (nm B1 y) (nm w A1) y i kv w b kvb A1).
      { eapply R_perm; [exact HR|]. rewrite <- EB, cl_mk. simpl. by rewrite <- app_assoc. }
      { eapply clean_bound; [exact HR|done|done|]. pose proof (cl_length B1). pose proof (cl_length y). unfold lengthN in *.
        simpl. rewrite !app_length. lia. }
      { assert (avl (mk d (nm w y) w i kv y)) as Hav by (apply avl_intro; [done|done|lia|lia]).
        eapply clean_bound; [exact HR|done|done|]. pose proof (cl_length B1). pose proof (cl_length y). unfold lengthN in *.
        simpl. rewrite !app_length.
        assert (tsize (mk d (nm w y) w i kv y) = S (tsize w + tsize y)) as -> by (destruct d; simpl; lia). lia. }
      intros t' HR'. apply wp_ret.
      set (C1 := mk d (nm w y) w i kv y) in *.
      assert (avl C1) as HC1 by (apply avl_intro; [done|done|lia|lia]).
      assert (height C1 = S (Nat.max (height w) (height y))) as HhC by apply height_mk.
      replace b with (root (mk d (nm A1 C1) A1 b kvb C1)) by apply root_mk.
      apply HQ; [done|apply avl_intro; [done|done|lia|lia]| | |rewrite height_mk; lia|intros Hsk%skewed_mk; rewrite ?height_mk in *; lia |unfold A1, C1; apply rebal_double; rewrite ?height_mk; lia].
      + unfold A1, C1. rewrite !entries_mk. destruct d; simpl; by rewrite <- ?app_assoc; simpl; rewrite <- ?app_assoc.
      + unfold A1, C1. destruct d; simpl; lia.
    - (* single rotation *)
      apply wp_ret, wp_bind.
      eapply (wp_rot t cs rt d m m2 y i kv xi a kva xo); [exact HR| | |].
      { rewrite nm_clean by done. lia. }
      { rewrite nm_clean; [rewrite height_mk; lia|done|apply avl_intro; [done|done|lia|lia]]. }
      intros t' HR'. apply wp_ret. set (C1 := mk d (nm xi y) xi i kv y) in *.
      assert (avl C1) as HC1 by (apply avl_intro; [done|done|lia|lia]).
      assert (height C1 = S (Nat.max (height xi) (height y))) as HhC by apply height_mk.
      replace a with (root (mk d (nm xo C1) xo a kva C1)) by apply root_mk.
      apply HQ; [done|apply avl_intro; [done|done|lia|lia]| | |rewrite height_mk; lia|intros Hsk%skewed_mk; rewrite ?height_mk in *; lia |unfold C1; apply rebal_single; rewrite ?height_mk; lia].
      + unfold C1. rewrite !entries_mk. destruct d; simpl; by rewrite <- ?app_assoc; simpl; rewrite <- ?app_assoc.
      + unfold C1. destruct d; simpl; lia.
  Qed.
  Lemma wp_step_exact t cs rt m l c kv r pb h0 (Q : () → avlt → Prop) :
    R t (cl (Nd m l c kv r) ++ cs) rt → avl l → avl r → near (height l) (height r) h0 →
    (∀ t' s', R t' (cl s' ++ cs) rt → avl s' → entries s' = entries (Nd m l c kv r) → tsize s' = tsize (Nd m l c kv r) →
       s' ≠ Lf → (height s' ≤ S h0)%nat → (h0 ≤ S (height s'))%nat → draw s' = rebalanced (draw l) kv (draw r) →
       wp (av_attach pb (root s')) t' Q ∧ (root s' = c → Q () t')) →
    wp (av_rebalance_step (pb, c)) t Q.
  Proof using Type.
    intros HR Hl Hr (Hn1 & Hn2 & Hn3 & Hn4 & Hn5) HQ.
    pose proof HR as HR1. rewrite cl_Nd in HR1. simpl in HR1. rewrite <- app_assoc in HR1.
    assert (lengthN (cl (Nd m l c kv r) ++ cs) = N.of_nat (tsize l + tsize r + 1) + lengthN cs) as Hlen.
    { unfold lengthN. rewrite app_length. pose proof (cl_length (Nd m l c kv r)) as E. unfold lengthN in E. cbn [tsize] in E. lia. }
    assert (height l < 64)%nat as H64l by (eapply avl_h64; [exact HR|done|lia]).
    assert (height r < 64)%nat as H64r by (eapply avl_h64; [exact HR|done|lia]).
    unfold av_rebalance_step.
    apply wp_bind. eapply wp_gets; [eapply (R_child _ _ _ _ false); [exact HR1|apply elem_of_list_here]|].
    apply wp_bind. eapply wp_gets; [eapply (R_opp _ _ _ _ false); [exact HR1|apply elem_of_list_here]|].
    apply wp_bind. eapply wp_gets.
    { eapply R_bf; [exact HR1|apply sub_incl; intros; inl|apply sub_incl; intros; inl|done..]. }
    assert (∀ t' s', R t' (cl s' ++ cs) rt → avl s' → entries s' = entries (Nd m l c kv r) → tsize s' = tsize (Nd m l c kv r) →
       s' ≠ Lf → (height s' ≤ S h0)%nat → (h0 ≤ S (height s'))%nat → draw s' = rebalanced (draw l) kv (draw r) →
       wp (match Some (root s') with Some index => av_attach pb index | None => mret () end) t' Q) as HQ1.
    { intros. by eapply HQ. }
    assert (∀ d m x i kv y, Nd m l c kv r = mk d m x i kv y → (∀ e, e ∈ cl x → e ∈ cl l ++ cl r ++ cs) → avl x →
       ∀ m2 xo a kva xi, x = mk d m2 xo a kva xi → (height x < 64)%nat →
       av_get_field t (root x) (dN d) = Val (root xo) ∧ av_get_field t (root x) (dN (negb d)) = Val (root xi) ∧
       av_balance_factor t (root xo) (root xi) = Val (Z.of_nat (height xo) - Z.of_nat (height xi))%Z ∧
       av_balance_factor t (root xi) (root xo) = Val (Z.of_nat (height xi) - Z.of_nat (height xo))%Z) as Hin.
    { intros d m' x i kv' y _ Hx Ax m2 xo a kva xi -> Hh. apply avl_mk in Ax as (Axo & Axi & _ & _ & _). rewrite height_mk in Hh.
      rewrite root_mk.
      assert (∀ e, e ∈ (a, nd d (root xo) (root xi) m2 kva) :: cl xo ++ cl xi → e ∈ (c, nd false (root l) (root r) m kv) :: cl l ++ cl r ++ cs) as Hx'.
      { intros e He. apply elem_of_list_further, Hx. by rewrite cl_mk. }
      split_and!.
      - eapply R_child; [exact HR1|]. apply Hx', elem_of_list_here.
      - eapply R_opp; [exact HR1|]. apply Hx', elem_of_list_here.
      - eapply R_bf; [exact HR1|apply sub_incl; intros; apply Hx'; inl|apply sub_incl; intros; apply Hx'; inl|done|done|lia|lia].
      - eapply R_bf; [exact HR1|apply sub_incl; intros; apply Hx'; inl|apply sub_incl; intros; apply Hx'; inl|done|done|lia|lia]. }
    destruct (decide (1 < Z.of_nat (height l) - Z.of_nat (height r))%Z) as [Hhl|Hhl];
      [|destruct (decide (Z.of_nat (height l) - Z.of_nat (height r) < -1)%Z) as [Hhr|Hhr]].
    - edestruct (wp_heavy_exact t cs rt false m l c kv r) as (m2 & xo & a & kva & xi & El & Hwp); [exact HR|done|done|lia| |].
      { intros t' s' HR' As' Es Ts Hb Hsk Hdr. instantiate (1 := λ oi t', wp (match oi with Some index => av_attach pb index | None => mret () end) t' Q).
        cbn beta. apply HQ1; try done; try lia. intros ->; simpl in Ts; lia. }
      destruct (Hin false m l c kv r eq_refl ltac:(intros; inl) Hl _ _ _ _ _ El H64l) as (Hg1 & Hg2 & Hg3 & _).
      apply wp_bind. apply wp_bind. eapply wp_gets; [exact Hg1|].
      apply wp_bind. eapply wp_gets; [exact Hg2|].
      apply wp_bind. eapply wp_gets; [exact Hg3|].
      unfold av_heavy in Hwp. case_bool_decide; case_decide; first [lia|exact Hwp].
    - edestruct (wp_heavy_exact t cs rt true m r c kv l) as (m2 & xo & a & kva & xi & El & Hwp); [exact HR|done|done|lia| |].
      { intros t' s' HR' As' Es Ts Hb Hsk Hdr. instantiate (1 := λ oi t', wp (match oi with Some index => av_attach pb index | None => mret () end) t' Q).
        cbn beta. apply HQ1; try done; try lia. intros ->; simpl in Ts; lia. }
      destruct (Hin true m r c kv l eq_refl ltac:(intros; inl) Hr _ _ _ _ _ El H64r) as (Hg1 & Hg2 & _ & Hg3).
      apply wp_bind. apply wp_bind. eapply wp_gets; [exact Hg2|].
      apply wp_bind. eapply wp_gets; [exact Hg1|].
      apply wp_bind. eapply wp_gets; [exact Hg3|].
      unfold av_heavy in Hwp. case_bool_decide; case_decide; first [lia|exact Hwp].
    - apply wp_bind. apply wp_bind. eapply (wp_update _ _ _ _ false l r); [exact HR1|apply sub_incl; intros; inl|apply sub_incl; intros; inl| |].
      { eapply clean_bound; [exact HR|done|done|lia]. }
      intros t' HR'. apply wp_ret. apply wp_ret.
      eapply (HQ t' (Nd (nm l r) l c kv r)); try done.
      + rewrite cl_Nd. simpl. by rewrite <- app_assoc.
      + apply (avl_intro false); [done|done|lia|lia].
      + simpl. lia.
      + cbn [draw]. symmetry. apply rebal_quiet; lia.
  Qed.

  (** AVLProof.wp_rebalance with the drawing as well *)
  Lemma wp_rebalance_exact ctx : ∀ t m l c kv r h0 (Q : () → avlt → Prop),
    rep t (plug ctx (Nd m l c kv r)) → avl l → avl r → near (height l) (height r) h0 → actx ctx h0 →
    (∀ t' U', rep t' U' → avl U' → entries U' = entries (plug ctx (Nd m l c kv r)) →
       draw U' = climb ctx (rebalanced (draw l) kv (draw r)) → Q () t') →
    wp (av_rebalance (apath ctx c)) t Q.
  Proof using Type.
    induction ctx as [|[d mf a kvf o] ctx IH]; intros t m l c kv r h0 Q HR Hl Hr Hn Hc HQ; cbn [apath av_rebalance].
    - apply wp_bind. eapply (wp_step_exact t [] _ m l c kv r None h0); [rewrite app_nil_r; exact HR|done|done|done|].
      clear t HR. intros t s HR As Es Ts Hne _ _ Hdr. rewrite app_nil_r in HR. split.
      + destruct s as [|m' l' c' kv' r']; [done|]. unfold av_attach. apply wp_bind, wp_modify.
        destruct HR as [HC _]. pose proof (avl_mk false _ _ _ _ _ As) as (Hl' & Hr' & _ & _ & Hm').
        assert (R (set_aroot c' t) ((c', nd false (root l') (root r') m' kv') :: cl l' ++ cl r') c') as HR by (by rewrite cl_Nd in HC).
        eapply (wp_update _ _ _ _ false l' r'); [exact HR|apply sub_incl; intros; inl|apply sub_incl; intros; inl| |].
        { eapply clean_bound; [exact HR|done|done|]. pose proof (cl_length l'). pose proof (cl_length r').
          unfold lengthN in *. simpl. rewrite app_length. lia. }
        intros t' HR'. apply wp_ret. apply (HQ t' (Nd m' l' c' kv' r')); [|done|done|done].
        unfold AVLProof.rep. rewrite cl_Nd, Hm'. done.
      + intros Ec. apply wp_ret. apply (HQ t s); [|done|done|done]. unfold AVLProof.rep. rewrite Ec. done.
    - inversion Hc as [|? ? ? ? ? ? ? Ao Hc1 Hc2 Hc3]; subst.
      apply wp_bind. rewrite rep_focus in HR. cbn [croot root fa] in HR. rewrite cc_cons in HR.
      eapply (wp_step_exact t _ _ m l c kv r _ h0); [exact HR|done|done|done|].
      clear t HR. intros t s HR As Es Ts Hne Hb1 Hb2 Hdr.
      assert (near (height s) (height o) (S (Nat.max h0 (height o)))) as Hnear by (unfold near; lia).
      assert (∀ mf' t', R t' ((a, nd d (root s) (root o) mf' kvf) :: cl s ++ cl o ++ cc ctx a) (croot ctx a) →
                wp (av_rebalance (apath ctx a)) t' Q) as Hgo.
      { intros mf' t' HR'.
        assert (rep t' (plug ctx (mk d mf' s a kvf o))) as HR2.
        { rewrite rep_focus, root_mk. eapply R_perm; [exact HR'|]. rewrite cl_mk. simpl. by rewrite <- app_assoc. }
        assert (entries (plug ctx (mk d mf' s a kvf o)) = entries (plug (F d mf a kvf o :: ctx) (Nd m l c kv r))) as Ee.
        { cbn [plug]. rewrite !entries_plug, !entries_mk, Es. done. }
        destruct d; simpl mk in *.
        - eapply IH; [exact HR2|done|done| |exact Hc3|].
          + unfold near in *. lia.
          + intros t'' U' ? ? E E2. eapply HQ; [done|done|by rewrite E, Ee|]. cbn [climb rebal]. by rewrite <- Hdr.
        - eapply IH; [exact HR2|done|done|exact Hnear|exact Hc3|].
          intros t'' U' ? ? E E2. eapply HQ; [done|done|by rewrite E, Ee|]. cbn [climb rebal]. by rewrite <- Hdr. }
      split.
      + unfold av_attach. eapply (wp_set t (cl s ++ cl o ++ cc ctx a) (croot ctx a) a d c s o mf kvf).
        * eapply R_perm; [exact HR|]. symmetry. apply Permutation_middle.
        * apply sub_incl; intros; inl.
        * apply sub_incl; intros; inl.
        * eapply clean_bound; [exact HR|done|done|]. pose proof (cl_length s). pose proof (cl_length o).
          unfold lengthN in *. rewrite app_length. simpl. rewrite app_length. lia.
        * intros t' HR'. by eapply Hgo.
      + intros Ec. apply (Hgo mf). rewrite Ec. eapply R_perm; [exact HR|]. symmetry. apply Permutation_middle.
  Qed.
End exact.
