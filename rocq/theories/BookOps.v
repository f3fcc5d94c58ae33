(** * Insertion and removal of the AVL tree model are those of the textbook *)
From Verif Require Import IterProof AVLMain DrawSpec DrawAv BookSpec BookRot.

Section ops.
  Context `{Profile} {K V : Type} (pcmp : K → K → option comparison) (HO : OrdLaws (av_cmp pcmp)) {G : Ghost (K * V)} `{GA : !GAdd G} `{GR : !GRem G} (cap : N).
  Notation cmp := (av_cmp pcmp).
  Notation tree := (tree (K * V)).
  Notation frame := (frame (K * V)).
  Notation avlt := (avlt K V).
  Notation rep := (rep (K := K) (V := V) cap).
  Notation R := (R (K := K) (V := V) cap).
  Notation avok := (avok pcmp cap).
  Local Notation rep_cell := (AVLOps.rep_cell cap).
  Local Notation rep_Lf := (AVLOps.rep_Lf cap).
  Local Notation leftmost_ok := (AVLOps.leftmost_ok cap).
  Implicit Types t : avlt.
  Implicit Types s x y z U : tree.
  Implicit Types ctx C : list frame.
  Local Arguments cl : simpl never.
  Local Arguments cc : simpl never.

  (** AVLOps.wp_insert_loop with the drawing as well *)
  Lemma wp_insert_loop_exact fuel t ctx m l i kv r k v b (Q : option N → avlt → Prop) :
    avok t (plug ctx (Nd m l i kv r)) → onpath cmp k ctx → (height (Nd m l i kv r) ≤ fuel)%nat →
    climb ctx (book_insert cmp k v (draw (Nd m l i kv r))) = b →
    (∀ o t' U', avok t' U' → ins_rel cmp cap k v (entries (plug ctx (Nd m l i kv r))) o (entries U') →
       (o = None → t' = t) → (o ≠ None → draw U' = b) → Q o t') →
    wp (av_insert_loop pcmp fuel k v (apath ctx i) i) t Q.
  Proof using GA HO.
    revert ctx m l i kv r. induction fuel as [|fuel IH]; intros ctx m l i kv r Hok Hp Hh Hhang HQ; [simpl in Hh; lia|].
    pose proof Hok as [HR Hbal Hasc]. simpl av_insert_loop. apply wp_bind. eapply wp_gets; [by eapply rep_node|].
    set (U := plug ctx (Nd m l i kv r)) in *.
    (* the new leaf *)
    assert (∀ d (o : tree), U = plug (F d m i kv o :: ctx) Lf → onpath cmp k (F d m i kv o :: ctx) →
      climb ctx (rebal d (Fork Empty (k, v) Empty) kv (draw o)) = b →
      wp (t ← mget;
            if decide (av_capacity t ≤ av_len t) then mret None
            else
              reference_node ← av_on (na_add_node (k, v));
              av_set_field i (dN d) reference_node;;
              av_rebalance (apath ctx i);;
              mret (Some reference_node)) t Q) as Hnew.
    { clear IH Hhang. intros d o HU Hp' Hhang. rewrite HU in *. clear U HU. apply wp_bind, wp_mget.
      rewrite (rep_cap _ _ _ HR), (rep_len _ _ _ HR). pose proof (rep_len_le _ _ _ HR) as Hle.
      set (f := F d m i kv o) in *.
      assert (entries (plug (f :: ctx) Lf) = cbef (f :: ctx) ++ caft (f :: ctx)) as HE by exact (entries_plug (f :: ctx) Lf).
      destruct Hp' as [Hb Ha].
      case_decide as Hfull.
      - apply wp_ret. eapply (HQ None t); [exact Hok| |done|done]. eapply ins_full; [exact HE|lia|done|done].
      - apply wp_bind, R_on. pose proof HR as [Hc Hr]. eapply CH_add_node; [exact _|exact Hc|unfold cl; rewrite cells_length; lia|].
        intros i' a' Hc'.
        assert (R (set_aal a' t) ((i', Node (replicate 4 0) (k, v)) :: cl (plug (f :: ctx) Lf)) (root (plug (f :: ctx) Lf)))
          as HR' by done.
        assert (i' ∉ (entries (plug (f :: ctx) Lf)).*1) as Hfresh.
        { apply CH_NoDup in Hc'. simpl in Hc'. apply NoDup_cons in Hc' as [Hc' _]. by rewrite <- (cells_addrs rgav 0). }
        assert (i' ≠ 0) as Hnz by (eapply CH_nz; [exact Hc'|apply elem_of_list_here]).
        assert (i' ≤ cap) as Hicap by (eapply CH_le; [exact Hc'|apply elem_of_list_here]).
        clear Hc Hr. revert HR'. generalize (set_aal a' t). clear a' Hc'. intros t1 HR1.
        destruct (avl_unplug _ _ Hbal) as [_ Hcx]. inversion Hcx as [|? ? ? ? ? ? ? Ao Hc1 Hc2 Hc3]; subst. simpl in Hc1, Hc2, Hc3.
        apply wp_bind.
        eapply (wp_setp cap t1 [(i', Node (replicate 4 0) (k, v))] (root (plug (f :: ctx) Lf)) d m i kv o ctx 0 (Nd 0 Lf i' (k, v) Lf)).
        { eapply R_perm; [exact HR1|]. rewrite cl_plug. done. }
        { eexists. split; [apply elem_of_list_here|done]. }
        { done. }
        { done. }
        intros m' t2 HR2.
        assert (rep t2 (plug ctx (mk d m' (Nd 0 Lf i' (k, v) Lf) i kv o))) as HR3.
        { change (rep t2 (plug (F d m' i kv o :: ctx) (Nd 0 Lf i' (k, v) Lf))). rewrite rep_focus, root_plug in *. exact HR2. }
        assert (∀ t' U', rep t' U' → avl U' → entries U' = entries (plug ctx (mk d m' (Nd 0 Lf i' (k, v) Lf) i kv o)) →
          draw U' = climb ctx (rebal d (Fork Empty (k, v) Empty) kv (draw o)) → wp (mret (Some i')) t' Q) as Hfin.
        { intros t' U' HR' Hb' He' Hd'. apply wp_ret.
          change (entries U' = entries (plug (F d m' i kv o :: ctx) (Nd 0 Lf i' (k, v) Lf))) in He'.
          rewrite entries_plug in He'. simpl in He'.
          change (entries U' = cbef (f :: ctx) ++ (i', (k, v)) :: caft (f :: ctx)) in He'.
          eapply (HQ _ _ U'); [split; [done|done|]| |done|].
          - rewrite He', fmap_app, fmap_cons. apply ascending_insert; [done| |done|done].
            by rewrite HE, fmap_app in Hasc.
          - rewrite He'. eapply ins_new; [exact HE|lia|done|done|done|done|done].
          - intros _. by rewrite Hd'. }
        apply wp_bind.
        assert (avl (Nd 0 Lf i' (k, v) Lf)) as Anew by (apply (avl_Nd Lf i' (k, v) Lf); [constructor|constructor|simpl; lia|simpl; lia]).
        destruct d; simpl mk in *.
        + eapply wp_rebalance_exact; [exact HR3|done|done| |exact Hc3|exact Hfin]. unfold near. simpl. lia.
        + eapply wp_rebalance_exact; [exact HR3|done|done| |exact Hc3|exact Hfin]. unfold near. simpl. lia. }
    cbn [draw book_insert] in Hhang.
    destruct (cmp k kv.1) eqn:Ek.
    - apply wp_bind. eapply rep_set_value; [exact HR|]. intros t' HR'. apply wp_ret.
      eapply HQ; [by eapply avok_set_value| |done|].
      + destruct (onpath_found cmp HO _ _ _ _ _ _ _ Hasc Ek) as [Hb Ha].
        unfold U. rewrite !entries_plug. simpl. rewrite <- !app_assoc. simpl.
        rewrite !(app_assoc (cbef ctx)). eapply ins_present; [done|done|by rewrite fmap_app|by rewrite fmap_app].
      + intros _. rewrite <- Hhang. symmetry. apply (climb_quiet ctx (Nd m l i (kv.1, v) r)).
        eapply avl_same; [|exact Hbal]. apply same_plug.
    - apply wp_bind. eapply wp_gets; [by eapply rep_left|]. destruct l as [|ml ll il kvl rl].
      + rewrite decide_True by done. apply (Hnew false r); [done|by eapply onpath_left|exact Hhang].
      + rewrite decide_False by (eapply (rep_nz cap t (F false m i kv r :: ctx)); [exact HR|done]).
        eapply (IH (F false m i kv r :: ctx)); [exact Hok|by eapply onpath_left|simpl in *; lia|exact Hhang|exact HQ].
    - apply wp_bind. eapply wp_gets; [by eapply rep_right|]. destruct r as [|mr lr ir kvr rr].
      + rewrite decide_True by done. apply (Hnew true l); [done|by eapply onpath_right|exact Hhang].
      + rewrite decide_False by (eapply (rep_nz cap t (F true m i kv l :: ctx)); [exact HR|done]).
        eapply (IH (F true m i kv l :: ctx)); [exact Hok|by eapply onpath_right|simpl in *; lia|exact Hhang|exact HQ].
  Qed.

  Lemma wp_insert_exact t U k v (Q : option N → avlt → Prop) :
    avok t U → 0 < cap →
    (∀ o t' U', avok t' U' → ins_rel cmp cap k v (entries U) o (entries U') → (o = None → t' = t) →
       (o ≠ None → draw U' = book_insert cmp k v (draw U)) → Q o t') →
    wp (av_insert pcmp k v) t Q.
  Proof using GA HO. clear GR.
    intros Hok Hcap HQ. pose proof Hok as [HR Hbal Hasc]. unfold av_insert. apply wp_bind, wp_mget.
    rewrite (rep_root _ _ _ HR). destruct U as [|m l i kv r].
    - rewrite decide_True by done. apply wp_bind, R_on. destruct HR as [Hc Hr].
      eapply CH_add_node; [exact _|exact Hc|done|]. intros i a' Hc'. apply wp_bind, wp_modify, wp_ret.
      eapply (HQ _ _ (Nd 0 Lf i (k, v) Lf)); [| |done|done].
      + split.
        * split; [|done]. exact Hc'.
        * apply (avl_Nd Lf i (k, v) Lf); [constructor|constructor|simpl; lia|simpl; lia].
        * repeat constructor.
      + simpl. eapply (ins_new cmp cap k v [] [] []); [done|done|constructor|constructor|set_solver| |].
        * eapply CH_nz; [exact Hc'|apply elem_of_list_here].
        * eapply CH_le; [exact Hc'|apply elem_of_list_here].
    - rewrite decide_False by (eapply (rep_nz cap t []); [exact HR|done]).
      eapply (wp_insert_loop_exact _ t [] m l i kv r); [exact Hok|apply onpath_nil| |done|exact HQ].
      pose proof (rep_tsize _ _ _ HR). pose proof (height_tsize (Nd m l i kv r)).
      erewrite R_fuel by exact HR. lia.
  Qed.

  (** *** Removal *)
  Lemma climb_remove k s : ∀ ctx, climb ctx (book_remove cmp k (draw s)) =
    climb (tdesc cmp k ctx s).1 (match (tdesc cmp k ctx s).2 with Lf => Empty | Nd _ l _ _ r => joined (draw l) (draw r) end).
  Proof using Type.
    clear HO. induction s as [|m l IHl i kv r IHr]; intros ctx; [done|]. cbn [draw book_remove tdesc]. destruct (cmp k kv.1); [done| |].
    - by rewrite <- IHl.
    - by rewrite <- IHr.
  Qed.
  Lemma joined_first l kvm x : l ≠ Lf → rebalanced (draw l) kvm (draw x) = joined (draw l) (Fork Empty kvm (draw x)).
  Proof using Type. clear HO. by destruct l. Qed.
  Lemma first_climb C m1 lm kvm x : Forall (λ f, fd f = false) C → ∀ l kv r, draw (plug C (Nd m1 Lf lm kvm x)) = Fork l kv r →
    without_first l kv r = (kvm, climb C (draw x)).
  Proof using Type.
    clear HO. induction C as [|[d m a kv o] C IH] using rev_ind; intros HC l' kv' r' E.
    - cbn in E. by injection E as <- <- <-.
    - apply Forall_app in HC as [HC Hd]. apply Forall_cons in Hd as [Hd _]. cbn in Hd. subst d.
      rewrite plug_app in E. cbn [plug mk draw] in E. injection E as <- <- <-. rewrite climb_app. cbn [climb rebal].
      destruct (plug C (Nd m1 Lf lm kvm x)) as [|m2 l2 a2 kv2 r2] eqn:Ep; [by apply plug_Lf in Ep as [_ ?]|].
      cbn [draw without_first]. by rewrite (IH HC (draw l2) kv2 (draw r2) eq_refl).
  Qed.
  Lemma joined_further C m1 lm kvm x l : Forall (λ f, fd f = false) C → l ≠ Lf →
    joined (draw l) (draw (plug C (Nd m1 Lf lm kvm x))) = rebalanced (draw l) kvm (climb C (draw x)).
  Proof using Type.
    clear HO. intros HC Hl. destruct (draw (plug C (Nd m1 Lf lm kvm x))) as [|l' kv' r'] eqn:E.
    { destruct (plug C (Nd m1 Lf lm kvm x)) eqn:Ep; [by apply plug_Lf in Ep as [_ ?]|done]. }
    destruct l; [done|]. cbn [joined draw]. by rewrite (first_climb _ _ _ _ _ HC _ _ _ E).
  Qed.

  Lemma wp_remove_found_exact t ctx m l i kv r {A} (a : A) (Q : A → avlt → Prop) :
    rep t (plug ctx (Nd m l i kv r)) → avl (plug ctx (Nd m l i kv r)) →
    (∀ t' U', rep t' U' → avl U' → entries U' = cbef ctx ++ entries l ++ entries r ++ caft ctx →
       draw U' = climb ctx (joined (draw l) (draw r)) → Q a t') →
    wp (rr ←
          (if decide (root l ≠ SENTINEL ∧ root r ≠ SENTINEL) then
             w ← gets (λ t, av_leftmost_walk (av_fuel t) t (root r) SENTINEL []);
             let '(leftmost, leftmost_parent, inner) := w in
             (if decide (leftmost_parent ≠ SENTINEL) then
                r ← gets (λ t, av_get_field t leftmost Right);
                av_set_field leftmost_parent Left r
              else mret ());;
             av_set_field leftmost Left (root l);;
             (if decide (root r ≠ leftmost) then av_set_field leftmost Right (root r) else mret ());;
             match apath ctx i with
             | [] => mfail Panic
             | (pb, _) :: rpath =>
                 (match pb with
                  | Some (parent, branch) => av_set_field parent branch leftmost
                  | None => mret ()
                  end);;
                 let rpath := (pb, leftmost) :: rpath in
                 let rpath := if decide (root r ≠ leftmost)
                              then (Some (leftmost, Right), root r) :: rpath else rpath in
                 mret (leftmost, tail inner ++ rpath)
             end
           else
             let child := if decide (root l = SENTINEL ∧ root r = SENTINEL) then SENTINEL
                          else if decide (root l ≠ SENTINEL) then root l else root r in
             match apath ctx i with
             | [] => mfail Panic
             | (pb, _) :: rpath =>
                 match pb with
                 | Some (parent, branch) =>
                     av_set_field parent branch child;;
                     mret (child, if decide (child ≠ SENTINEL)
                                  then (Some (parent, branch), child) :: rpath else rpath)
                 | None => mret (child, rpath)
                 end
             end);
        let '(replacement, rpath) := rr in
        t ← mget;
        (if decide (i = as_u32 (av_root t)) then modify (set_aroot replacement) else mret ());;
        av_delete i;;
        av_rebalance rpath;;
        mret a) t Q.
  Proof using Type GR.
    clear HO. intros HR Hav HQ.
    destruct (avl_unplug _ _ Hav) as [Hnd Hcx]. destruct (avl_mk false _ _ _ _ _ Hnd) as (Hl & Hr & Hb1 & Hb2 & Hm).
    cbn [height] in Hcx.
    pose proof (rep_cell _ _ _ _ _ _ _ HR) as HR1.
    apply wp_bind. rewrite apath_eq. destruct (decide (root l ≠ SENTINEL ∧ root r ≠ SENTINEL)) as [[Hlz Hrz]|Hz].
    - assert (r ≠ Lf) as Hrne by (by intros ->).
      destruct (leftmost_ok (av_fuel t) t (F true m i kv l :: ctx) r) as (C & m1 & lm & kvm & x & Er & HC & Hw); [exact HR|done| |].
      { pose proof (rep_tsize _ _ _ HR) as Ht. rewrite tsize_plug in Ht. simpl in Ht. pose proof (height_tsize r).
        erewrite R_fuel by exact HR. lia. }
      apply wp_bind. eapply wp_gets; [apply Hw|]. clear Hw. rewrite app_nil_r.
      assert (avl (plug C (Nd m1 Lf lm kvm x))) as HrA by (by rewrite <- Er).
      destruct (avl_unplug _ _ HrA) as [Hlm HcxC]. destruct (avl_mk false _ _ _ _ _ Hlm) as (_ & Hx & _ & Hbx & Hm1).
      assert (mark l ≤ N.of_nat (height l) ∧ (height l < 64)%nat) as [Hml Hhl].
      { eapply avl_mark_small; [exact HR1|done|]. pose proof (cl_length l). unfold lengthN in *. simpl. rewrite app_length. lia. }
      assert (mark r ≤ N.of_nat (height r) ∧ (height r < 64)%nat) as [Hmr Hhr].
      { eapply avl_mark_small; [exact HR1|done|]. pose proof (cl_length r). unfold lengthN in *. simpl. rewrite !app_length. lia. }
      assert (height x ≤ height r)%nat as Hxr.
      { rewrite Er. 
        etrans; [|apply height_plug]. simpl. lia. }
      assert (mark x ≤ N.of_nat (height x)) as Hmx by (pose proof (avl_mark x Hx); destruct x; simpl in *; lia).
      (* once the new subtree [s] stands in the place of [i] *)
      assert (∀ t1 M R1 C1 s1 h0 ms ls c kvs rs,
        M < 1000 → s1 = Nd M l lm kvm R1 →
        R t1 ((i, nd false (root l) (root r) m kv) :: cl s1 ++ cc ctx i) (croot ctx i) →
        (∀ ctx', s1 = plug C1 (Nd ms ls c kvs rs) ∧ (Forall2 (λ f g, fo f = fo g) ctx ctx' → actx (C1 ++ ctx') h0)) →
        avl ls → avl rs → near (height ls) (height rs) h0 → entries s1 = entries l ++ entries r →
        climb C1 (rebalanced (draw ls) kvs (draw rs)) = joined (draw l) (draw r) →
        wp ((match pbof ctx with
              | Some (parent, branch) => av_set_field parent branch lm
              | None => mret ()
              end);;
             mret (lm, apath (C1 ++ ctx) c)) t1
          (λ rr t', wp (let '(replacement, rpath) := rr in
            t ← mget;
            (if decide (i = as_u32 (av_root t)) then modify (set_aroot replacement) else mret ());;
            av_delete i;;
            av_rebalance rpath;;
            mret a) t' Q)) as Hlast.
      { intros t1 M R1 C1 s1 h0 ms ls c kvs rs HM Es1 HRt Hs1 Als Ars Hnear He Hcl. apply wp_bind.
        assert (∀ ctx' t2, Forall2 (λ f g, fo f = fo g) ctx ctx' → (∀ q, apath (C1 ++ ctx) q = apath (C1 ++ ctx') q) →
           cbef ctx' = cbef ctx → caft ctx' = caft ctx → (∀ b, climb ctx' b = climb ctx b) →
           R t2 ((i, nd false (root l) (root r) m kv) :: cl (plug ctx' s1)) (croot ctx i) →
           (croot ctx i = i ∧ lm = root (plug ctx' s1) ∨ croot ctx i = root (plug ctx' s1) ∧ plug ctx' s1 ≠ Lf) →
           wp (mret (lm, apath (C1 ++ ctx) c)) t2 (λ rr t', wp (let '(replacement, rpath) := rr in
            t ← mget;
            (if decide (i = as_u32 (av_root t)) then modify (set_aroot replacement) else mret ());;
            av_delete i;;
            av_rebalance rpath;;
            mret a) t' Q)) as Hfin.
        { intros ctx' t2 Hfo Hap Hcb Hca Hcb' HR2 Hrt. apply wp_ret. cbn beta iota.
          eapply wp_finish; [exact HR2|exact Hrt|]. intros t3 HR3. apply wp_bind. rewrite Hap.
          destruct (Hs1 ctx') as [Es Hac].
          eapply (wp_rebalance_exact cap (C1 ++ ctx') t3 ms ls c kvs rs h0); [|done|done|done|by apply Hac|].
          { rewrite plug_app, <- Es. exact HR3. }
          intros t4 U' HR4 A4 E4 D4. apply wp_ret. eapply HQ; [exact HR4|done| |].
          - rewrite E4, plug_app, <- Es, entries_plug, He, Hcb, Hca. by rewrite <- app_assoc.
          - by rewrite D4, climb_app, Hcl, Hcb'. }
        destruct ctx as [|[d mf p kvf o] ctx].
        - apply wp_ret. apply (Hfin []); [constructor|done|done|done|done| |].
          + cbn [plug]. eapply R_perm; [exact HRt|]. unfold cc. cbn [ccellsb]. by rewrite app_nil_r.
          + left. split; [done|]. by rewrite Es1.
        - cbn [pbof]. replace lm with (root s1) by (by rewrite Es1).
          assert (avl o) as Ao by (by inversion Hcx). subst s1.
          eapply (wp_setp cap t1 ((i, nd false (root l) (root r) m kv) :: cl (Nd M l lm kvm R1)) _ d mf p kvf o ctx i (Nd M l lm kvm R1)); [exact HRt| |done|done|].
          { eexists. split; [apply elem_of_list_further; rewrite cl_Nd; apply elem_of_list_here|done]. }
          intros mf' t2 HR2. apply (Hfin (F d mf' p kvf o :: ctx)).
          + constructor; [done|]. clear. induction ctx; by constructor.
          + intros q. clear. revert q. induction C1 as [|[] C1 IH]; intros q; simpl; [done|]. by rewrite IH.
          + done.
          + done.
          + done.
          + eapply R_perm; [exact HR2|]. rewrite cl_plug. done.
          + right. rewrite root_plug. split; [done|]. intros [_ ?]%plug_Lf. done. }
      apply wp_bind. destruct C as [|[d1 m1' a1 kv1 o1] C'].
      + (* the right child is the leftmost node *)
        cbn [plug] in Er. rewrite decide_False by (intros Hn; by apply Hn). apply wp_ret. apply wp_bind.
        rewrite Er in HR1 |- *. cbn [root] in HR1 |- *. rewrite cl_Nd in HR1.
        assert (R t ((lm, nd false 0 (root x) m1 kvm) :: (i, nd false (root l) lm m kv) :: cl l ++ cl x ++ cc ctx i) (croot ctx i)) as HR2.
        { eapply R_perm; [exact HR1|]. generalize (cl l), (cl x), (cc ctx i). intros X Y Z. simpl. unfold cl. simpl. solve_Permutation. }
        eapply (wp_set cap t _ _ lm false 0 l x m1 kvm); [exact HR2|apply sub_incl; intros; inl|apply sub_incl; intros; inl| |].
        { apply nm_small; lia. }
        clear t HR HR1 HR2. intros t HR. apply wp_bind. rewrite decide_False by (intros Hn; by apply Hn). apply wp_ret.
        rewrite decide_False by (intros Hn; by apply Hn).
        replace (tail (lpath [] lm) ++ (pbof ctx, lm) :: arest ctx) with (apath ([] ++ ctx) lm) by (by rewrite apath_eq).
        eapply (Hlast t (nm l x) x [] _ (S (Nat.max (height l) (height r))) (nm l x) l lm kvm x).
        * pose proof (nm_clean l x Hl Hx). lia.
        * done.
        * rewrite Er. cbn [root]. rewrite cl_Nd. eapply R_perm; [exact HR|].
          generalize (cl l), (cl x), (cc ctx i). intros X Y Z. simpl. solve_Permutation.
        * intros ctx'. split; [done|]. intros Hfo. cbn [app]. by eapply actx_fo.
        * done.
        * done.
        * rewrite Er in Hb1, Hb2 |- *. simpl in *. unfold near. lia.
        * rewrite Er. done.
        * rewrite Er. cbn [climb draw]. apply joined_first. by intros ->.
      + (* it is further down *)
        apply Forall_cons in HC as [Hd1 HC]. simpl in Hd1. subst d1. cbn [fa].
        inversion HcxC as [|? ? ? ? ? ? ? Ao1 Hb3 Hb4 Hcx2]; subst.
        set (r := plug (F false m1' a1 kv1 o1 :: C') (Nd (nm Lf x) Lf lm kvm x)) in *.
        set (m1 := nm Lf x) in *.
        (* all cells apart *)
        set (rest := cl x ++ cl o1 ++ cc C' a1 ++ cl l ++ cc ctx i).
        assert (root r = croot C' a1) as Erc by (unfold r; by rewrite root_plug).
        assert (R t ((a1, nd false lm (root o1) m1' kv1) :: (lm, nd false 0 (root x) m1 kvm) ::
                     (i, nd false (root l) (root r) (nm l r) kv) :: rest) (croot ctx i)) as HR2.
        { assert (cl r ≡ₚ ((lm, nd false 0 (root x) m1 kvm) :: cl x) ++ (a1, nd false lm (root o1) m1' kv1) :: cl o1 ++ cc C' a1) as Hclr.
          { unfold r. rewrite cl_plug. cbn [root]. by rewrite cc_cons, cl_Nd. }
          eapply R_perm; [exact HR1|]. rewrite Hclr. clear Hclr. unfold rest.
          generalize (cl l), (cl x), (cl o1), (cc C' a1), (cc ctx i). intros. unfold cl. simpl. solve_Permutation. }
        assert (a1 ≠ 0) as Ha1 by (eapply R_nz; [exact HR2|apply elem_of_list_here]).
        assert (height o1 ≤ height r)%nat as Hor.
        { unfold r. 
          cbn [plug]. etrans; [|apply height_plug]. rewrite height_mk. lia. }
        assert (mark o1 ≤ N.of_nat (height o1)) as Hmo by (pose proof (avl_mark o1 Ao1); destruct o1; simpl in *; lia).
        rewrite decide_True by done.
        apply wp_bind. eapply wp_gets; [eapply (R_opp cap t _ _ _ false); [exact HR2|apply elem_of_list_further, elem_of_list_here]|].
        eapply (wp_set cap t _ _ a1 false lm x o1 m1' kv1); [exact HR2|apply sub_incl; unfold rest; intros; inl|apply sub_incl; unfold rest; intros; inl| |].
        { apply nm_small; lia. }
        clear t HR HR1 HR2. intros t HR2. apply wp_bind.
        eapply (wp_set cap t ((a1, nd false (root x) (root o1) (nm x o1) kv1) :: (i, nd false (root l) (root r) (nm l r) kv) :: rest) _ lm false 0 l x m1 kvm).
        { eapply R_perm; [exact HR2|apply perm_swap]. }
        { apply sub_incl; unfold rest; intros; inl. }
        { apply sub_incl; unfold rest; intros; inl. }
        { apply nm_small; lia. }
        clear t HR2. intros t HR2.
        set (r' := plug C' (Nd (nm x o1) x a1 kv1 o1)).
        assert (root r' = root r) as Er' by (rewrite Erc; unfold r'; by rewrite root_plug).
        assert (R t ((lm, nd false (root l) (root x) (nm l x) kvm) :: (i, nd false (root l) (root r) (nm l r) kv) :: cl l ++ cl r' ++ cc ctx i) (croot ctx i)) as HR3.
        { eapply R_perm; [exact HR2|]. unfold r'. rewrite cl_plug, cl_Nd. cbn [root]. unfold rest.
          generalize (cl l), (cl x), (cl o1), (cc C' a1), (cc ctx i). intros. simpl. solve_Permutation. }
        clear HR2. apply wp_bind.
        assert (root r ≠ lm) as Hne.
        { rewrite <- Er'. unfold r'. rewrite root_plug. intros Heq.
          assert (∃ n, (croot C' a1, n) ∈ cl r') as [n Hn].
          { rewrite <- Erc, <- Er'. destruct r' as [|? ? ? ? ?] eqn:Er2; [by apply plug_Lf in Er2 as [_ ?]|].
            eexists. rewrite cl_Nd. apply elem_of_list_here. }
          eapply (R_ne cap t); [exact HR3| |symmetry; exact Heq]. rewrite elem_of_cons, !elem_of_app. right. right. left. exact Hn. }
        rewrite decide_True by done.
        assert (mark r' ≤ N.of_nat (height r)) as Hmr'.
        { unfold r'. apply mark_plug_small.
          - simpl. rewrite nm_clean by done. assert (height (Nd m1' (Nd m1 Lf lm kvm x) a1 kv1 o1) ≤ height r)%nat as Hh1; [|simpl in Hh1; lia].
            unfold r. 
            cbn [plug]. apply (height_plug C' (mk false _ _ _ _ _)).
          - intros f Hf. unfold r. apply avl_frames; [exact Hr|]. by apply elem_of_list_further. }
        rewrite <- Er'.
        eapply (wp_set cap t _ _ lm true (root x) r' l (nm l x) kvm); [exact HR3|apply sub_incl; intros; inl|apply sub_incl; intros; inl| |].
        { apply nm_small; lia. }
        clear t HR3. intros t HR2.
        cbn [lpath tail].
        rewrite decide_True by (by rewrite Er').
        replace (lpath C' a1 ++ (Some (lm, Right), root r') :: (pbof ctx, lm) :: arest ctx)
          with (apath ((C' ++ [F true (nm l r') lm kvm l]) ++ ctx) a1); cycle 1.
        { rewrite <- app_assoc. simpl. rewrite <- lpath_apath by done. rewrite Er', Erc. simpl. by rewrite apath_eq. }
        eapply (Hlast t (nm l r') r' (C' ++ [F true (nm l r') lm kvm l]) _ (S (Nat.max (S (height x)) (height o1))) (nm x o1) x a1 kv1 o1).
        * unfold nm. destruct l, r'; simpl in *; lia.
        * done.
        * rewrite cl_Nd. eapply R_perm; [exact HR2|]. rewrite (nm_comm r' l).
          generalize (cl l), (cl r'), (cc ctx i). intros X Y Z. simpl. solve_Permutation.
        * intros ctx'. split; [by rewrite plug_app|]. intros Hfo. rewrite <- app_assoc. cbn [app].
          assert (actx (F false m1' a1 kv1 o1 :: C' ++ F true (nm l r) i kv l :: ctx) (height (Nd m1 Lf lm kvm x))) as Hfull.
          { apply (avl_unplug (F false m1' a1 kv1 o1 :: C' ++ F true (nm l r) i kv l :: ctx)). cbn [plug]. rewrite plug_app. exact Hav. }
          inversion Hfull; subst. cbn [height] in *. eapply actx_fo; [|eassumption].
          apply Forall2_app; [|by constructor]. clear. induction C'; by constructor.
        * done.
        * done.
        * simpl in *. unfold near. lia.
        * simpl. unfold r', r. rewrite !entries_plug. simpl. rewrite (cbef_left C') by done. simpl. rewrite <- !app_assoc. done.
        * rewrite climb_app. cbn [climb rebal]. unfold r. symmetry. apply (joined_further (F false m1' a1 kv1 o1 :: C')); [by constructor|by intros ->].
    - (* at most one child *) clear Hm.
      assert (∃ d x, Nd m l i kv r = mk d m x i kv Lf ∧ (entries x = entries l ++ entries r ∧ joined (draw l) (draw r) = draw x) ∧ avl x ∧
        (if decide (root l = SENTINEL ∧ root r = SENTINEL) then SENTINEL else if decide (root l ≠ SENTINEL) then root l else root r) = root x ∧
        (root x = 0 → x = Lf)) as (d & x & Ex & [Ent Hjo] & Hx & -> & Hx0).
      { destruct (decide (root r = SENTINEL)) as [Er|Er].
        - apply (rep_Lf t (F true m i kv l :: ctx)) in Er; [|exact HR]. subst r.
          exists false, l. split_and!; [done|by rewrite app_nil_r|by destruct l|done| |].
          + destruct (decide (root l = SENTINEL ∧ root Lf = SENTINEL)) as [[-> _]|Hn]; [done|]. case_decide as Hl0; [done|].
            exfalso. apply Hn. split; [|done]. destruct (decide (root l = SENTINEL)); [done|]. by destruct Hl0.
          + apply (rep_Lf t (F false m i kv Lf :: ctx)). exact HR.
        - assert (root l = SENTINEL) as El.
          { destruct (decide (root l = SENTINEL)); [done|]. by destruct Hz. }
          apply (rep_Lf t (F false m i kv r :: ctx)) in El; [|exact HR]. subst l.
          exists true, r. split_and!; [done|done|done|done| |].
          + rewrite decide_False by naive_solver. by rewrite decide_False by naive_solver.
          + by intros ?%Er. }
      rewrite Ex in *. apply avl_mk in Hnd as (_ & _ & _ & Hbx & _). clear Hb1 Hb2. cbn [height] in *.
      assert (S (Nat.max (height l) (height r)) = S (height x)) as Eh.
      { change (S (Nat.max (height l) (height r))) with (height (Nd m l i kv r)). rewrite Ex, height_mk. simpl. lia. }
      rewrite Eh in Hcx.
      assert (R t ((i, nd d (root x) 0 m kv) :: cl x ++ cc ctx i) (croot ctx i)) as HR2.
      { apply rep_focus in HR. rewrite root_mk in HR. eapply R_perm; [exact HR|]. rewrite cl_mk. unfold cl at 2. simpl. by rewrite app_nil_r. }
      clear HR HR1.
      destruct ctx as [|[d' mf p kvf o] ctx].
      + cbn [pbof arest]. apply wp_ret. eapply (wp_finish cap t d i _ _ m kv x i); [|by left|].
        * eapply R_perm; [exact HR2|]. unfold cc. simpl. by rewrite app_nil_r.
        * intros t' HR'. apply wp_bind. simpl av_rebalance. apply wp_ret, wp_ret. eapply HQ; [exact HR'|done| |].
          -- simpl. by rewrite app_nil_r.
          -- by rewrite Hjo.
      + cbn [pbof arest]. inversion Hcx as [|? ? ? ? ? ? ? Ao Hb3 Hb4 Hcx2]; subst. apply wp_bind.
        assert (mark x ≤ N.of_nat (height x) ∧ (height x < 64)%nat) as [Hmx Hx64].
        { eapply avl_mark_small; [exact HR2|done|]. pose proof (cl_length x). unfold lengthN in *. simpl. rewrite app_length. lia. }
        simpl in Hbx.
        eapply (wp_setp cap t ((i, nd d (root x) 0 m kv) :: cl x) _ d' mf p kvf o ctx i x); [exact HR2| |done|lia|].
        { apply sub_incl. intros; inl. }
        clear t HR2. intros mf' t HR2. apply wp_ret.
        eapply (wp_finish cap t d i _ _ m kv (plug (F d' mf' p kvf o :: ctx) x) (croot (F d' mf p kvf o :: ctx) i)).
        { eapply R_perm; [exact HR2|]. rewrite cl_plug. simpl. done. }
        { right. rewrite root_plug. split; [done|]. by intros [? _]%plug_Lf. }
        clear t HR2. intros t HR.
        assert (∀ t' U', rep t' U' → avl U' → entries U' = entries (plug (F d' mf' p kvf o :: ctx) x) →
          draw U' = climb ctx (rebal d' (draw x) kvf (draw o)) → wp (mret a) t' Q) as Hfin.
        { intros t' U' HR' A' E' D'. apply wp_ret. eapply HQ; [exact HR'|done| |].
          - rewrite E', entries_plug, Ent. by rewrite <- app_assoc.
          - by rewrite D', Hjo. }
        apply wp_bind. case_decide as Hxz.
        * destruct x as [|mx lx ix kvx rx]; [done|]. destruct (avl_mk false _ _ _ _ _ Hx) as (Hlx & Hrx & Hb5 & Hb6 & _).
          eapply (wp_rebalance_exact cap (F d' mf' p kvf o :: ctx) t mx lx ix kvx rx (S (S (Nat.max (height lx) (height rx))))).
          -- exact HR.
          -- done.
          -- done.
          -- unfold near. lia.
          -- cbn [height] in *. by constructor.
          -- rewrite (rebal_avl _ _ _ _ _ Hx). exact Hfin.
        * assert (x = Lf) as ->. { by apply Hx0. }
          cbn [height] in *. destruct d'; cbn [plug mk] in HR, Hfin.
          -- eapply wp_rebalance_exact; [exact HR|done|done| |exact Hcx2|exact Hfin]. unfold near. simpl. lia.
          -- eapply wp_rebalance_exact; [exact HR|done|done| |exact Hcx2|exact Hfin]. unfold near. simpl. lia.
  Qed.
  Lemma wp_remove_exact t U k (Q : option V → avlt → Prop) :
    avok t U →
    (∀ o t' U', avok t' U' → rem_rel cmp k (entries U) o (entries U') → (o = None → t' = t) → draw U' = book_remove cmp k (draw U) → Q o t') →
    wp (av_remove pcmp k) t Q.
  Proof using GR HO.
    intros Hok HQ. pose proof Hok as [HR Hbal Hasc]. unfold av_remove. apply wp_bind, wp_mget.
    rewrite (rep_root _ _ _ HR). destruct (decide (root U = SENTINEL)) as [E0|Hnz].
    - apply (rep_Lf t []) in E0; [|exact HR]. subst U. apply wp_ret. eapply HQ; [exact Hok| |done|done].
      eapply (rem_absent cmp k [] [] []); [done|constructor|constructor].
    - apply wp_bind. eapply wp_gets.
      { apply (remove_walk_ok pcmp cap _ t k [] U); [exact HR|]. pose proof (rep_tsize _ _ _ HR). pose proof (height_tsize U).
        erewrite R_fuel by exact HR. lia. }
      destruct (tdesc_ok cmp HO k [] U Hasc (onpath_nil cmp k)) as [[Hbe Hab] Hd]. pose proof (tdesc_plug cmp k [] U) as Hp.
      pose proof (climb_remove k U []) as Hcr. cbn [climb] in Hcr.
      destruct (tdesc cmp k [] U) as [ctx s]. simpl in Hp, Hd, Hbe, Hab. cbn [fst snd] in *. subst U.
      destruct Hd as [->|(m & l & i & kv & r & -> & Hk)].
      + rewrite decide_True by done. apply wp_ret. eapply HQ; [exact Hok| |done|].
        * eapply rem_absent; [exact (entries_plug ctx Lf)|done|done].
        * rewrite Hcr. symmetry. by apply (climb_quiet ctx Lf).
      + rewrite decide_False by (apply (rep_nz _ _ _ _ HR); done). cbn [root].
        apply wp_bind. eapply wp_gets; [by eapply rep_node|].
        apply wp_bind. eapply wp_gets; [by eapply rep_left|].
        apply wp_bind. eapply wp_gets; [by eapply rep_right|].
        eapply (wp_remove_found_exact t ctx m l i kv r (Some kv.2)); [exact HR|exact Hbal|].
        intros t' U' HR' Hb' He' Hd'. destruct (onpath_found cmp HO _ _ _ _ _ _ _ Hasc Hk) as [Hb Ha].
        rewrite app_assoc in He'. rewrite entries_del in Hasc. rewrite fmap_app, fmap_cons in Hasc.
        assert (ascending cmp (entries U').*2) as Ha'.
        { rewrite He', fmap_app. by eapply ascending_delete. }
        eapply HQ; [by split| |done|by rewrite Hd', Hcr]. rewrite He', entries_del.
        eapply rem_present; [done|done|by rewrite fmap_app|by rewrite fmap_app].
  Qed.
End ops.
