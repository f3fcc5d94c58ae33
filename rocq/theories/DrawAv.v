(** * The AVL tree model and drawings *)
From Verif Require Import IterProof AVLMain DrawSpec DrawPure.

(** the drawing of a ghost tree *)
Fixpoint draw {A} (s : tree A) : drawing A := match s with Lf => Empty | Nd _ l _ kv r => Fork (draw l) kv (draw r) end.
Lemma draw_tall {A} (s : tree A) : tall (draw s) = height s.
Proof. induction s as [|m l IHl a kv r IHr]; [done|]. cbn. by rewrite IHl, IHr. Qed.
Lemma draw_inorder {A} (s : tree A) : inorder (draw s) = (entries s).*2.
Proof. induction s as [|m l IHl a kv r IHr]; [done|]. cbn. by rewrite IHl, IHr, fmap_app. Qed.
Lemma draw_balanced {A} (s : tree A) : avl s → balanced (draw s).
Proof. induction 1; cbn; [done|]. rewrite !draw_tall. split_and!; [done|done|lia|lia]. Qed.
Lemma draw_plug_cong {A} ctx : ∀ s s' : tree A, draw s = draw s' → draw (plug ctx s) = draw (plug ctx s').
Proof.
  induction ctx as [|[d m a kv o] ctx IH]; intros s s' E; [done|]. cbn [plug]. apply IH. destruct d; cbn; by rewrite E.
Qed.
Lemma draw_mk_mark {A} d m m' (s o : tree A) a kv : draw (mk d m s a kv o) = draw (mk d m' s a kv o).
Proof. by destruct d. Qed.
Lemma balanced_plug {A} ctx : ∀ s : tree A, balanced (draw (plug ctx s)) → balanced (draw s).
Proof.
  induction ctx as [|[d m a kv o] ctx IH]; intros s Hb; [done|]. cbn [plug] in Hb. apply IH in Hb. destruct d; cbn in Hb; tauto.
Qed.

Section quiet.
  Context `{Profile} {K V : Type} {G : Ghost (K * V)} (cap : N).
  Notation tree := (tree (K * V)).
  Notation avlt := (avlt K V).
  Notation rep := (rep (K := K) (V := V) cap).
  Notation R := (R (K := K) (V := V) cap).
  Implicit Types t : avlt.
  Local Arguments cl : simpl never.
  Local Arguments cc : simpl never.

  (** [rebalance] on a balanced tree moves nothing (AVLProof.wp_rebalance with the drawing as well) *)
  Lemma wp_rebalance_quiet ctx : ∀ t m l c kv r h0 (Q : () → avlt → Prop),
    rep t (plug ctx (Nd m l c kv r)) → avl l → avl r → near (height l) (height r) h0 → actx ctx h0 →
    balanced (draw (plug ctx (Nd m l c kv r))) →
    (∀ t' U', rep t' U' → avl U' → entries U' = entries (plug ctx (Nd m l c kv r)) → draw U' = draw (plug ctx (Nd m l c kv r)) → Q () t') →
    wp (av_rebalance (apath ctx c)) t Q.
  Proof using Type.
    induction ctx as [|[d mf a kvf o] ctx IH]; intros t m l c kv r h0 Q HR Hl Hr Hn Hc HB HQ; cbn [apath av_rebalance];
      pose proof (balanced_plug _ _ HB) as HB0; cbn in HB0; rewrite !draw_tall in HB0; destruct HB0 as (_ & _ & HB1 & HB2).
    - apply wp_bind. eapply (wp_step cap t [] _ m l c kv r None h0); [rewrite app_nil_r; exact HR|done|done|done|].
      clear t HR. intros t s HR As Es Ts Hne _ _ (_ & _ & Hst). rewrite Hst in * by lia. clear s Hst. rewrite app_nil_r in HR. split.
      + unfold av_attach. apply wp_bind, wp_modify.
        destruct HR as [HC _]. pose proof (avl_mk false _ _ _ _ _ As) as (_ & _ & _ & _ & Hm').
        assert (R (set_aroot c t) ((c, nd false (root l) (root r) (nm l r) kv) :: cl l ++ cl r) c) as HR by (by rewrite cl_Nd in HC).
        eapply (wp_update cap _ _ _ _ false l r); [exact HR|apply sub_incl; intros; inl|apply sub_incl; intros; inl| |].
        { eapply clean_bound; [exact HR|done|done|]. pose proof (cl_length l). pose proof (cl_length r).
          unfold lengthN in *. simpl. rewrite app_length. lia. }
        intros t' HR'. apply wp_ret. apply (HQ t' (Nd (nm l r) l c kv r)); [|done|done|done].
        unfold AVLProof.rep. rewrite cl_Nd. done.
      + intros Ec. apply wp_ret. apply (HQ t (Nd (nm l r) l c kv r)); [|done|done|done]. exact HR.
    - inversion Hc as [|? ? ? ? ? ? ? Ao Hc1 Hc2 Hc3]; subst.
      apply wp_bind. rewrite rep_focus in HR. cbn [croot root fa] in HR. rewrite cc_cons in HR.
      eapply (wp_step cap t _ _ m l c kv r _ h0); [exact HR|done|done|done|].
      clear t HR. intros t s HR As Es Ts Hne Hb1 Hb2 (_ & _ & Hst).
      assert (draw s = draw (Nd m l c kv r)) as Hdr by (rewrite Hst by lia; done). clear Hst.
      assert (near (height s) (height o) (S (Nat.max h0 (height o)))) as Hnear by (unfold near; lia).
      assert (∀ mf' t', R t' ((a, nd d (root s) (root o) mf' kvf) :: cl s ++ cl o ++ cc ctx a) (croot ctx a) →
                wp (av_rebalance (apath ctx a)) t' Q) as Hgo.
      { intros mf' t' HR'.
        assert (rep t' (plug ctx (mk d mf' s a kvf o))) as HR2.
        { rewrite rep_focus, root_mk. eapply R_perm; [exact HR'|]. rewrite cl_mk. simpl. by rewrite <- app_assoc. }
        assert (entries (plug ctx (mk d mf' s a kvf o)) = entries (plug (F d mf a kvf o :: ctx) (Nd m l c kv r))) as Ee.
        { cbn [plug]. rewrite !entries_plug, !entries_mk, Es. done. }
        assert (draw (plug ctx (mk d mf' s a kvf o)) = draw (plug (F d mf a kvf o :: ctx) (Nd m l c kv r))) as Ed.
        { cbn [plug]. apply draw_plug_cong. destruct d; cbn [mk draw]; by rewrite Hdr. }
        destruct d; simpl mk in *.
        - eapply IH; [exact HR2|done|done| |exact Hc3|by rewrite Ed|].
          + unfold near in *. lia.
          + intros t'' U' ? ? E E2. eapply HQ; [done|done|by rewrite E, Ee|by rewrite E2, Ed].
        - eapply IH; [exact HR2|done|done|exact Hnear|exact Hc3|by rewrite Ed|].
          intros t'' U' ? ? E E2. eapply HQ; [done|done|by rewrite E, Ee|by rewrite E2, Ed]. }
      split.
      + unfold av_attach. eapply (wp_set cap t (cl s ++ cl o ++ cc ctx a) (croot ctx a) a d c s o mf kvf).
        * eapply R_perm; [exact HR|]. symmetry. apply Permutation_middle.
        * apply sub_incl; intros; inl.
        * apply sub_incl; intros; inl.
        * eapply clean_bound; [exact HR|done|done|]. pose proof (cl_length s). pose proof (cl_length o).
          unfold lengthN in *. rewrite app_length. simpl. rewrite app_length. lia.
        * intros t' HR'. by eapply Hgo.
      + intros Ec. apply (Hgo mf). rewrite Ec. eapply R_perm; [exact HR|]. symmetry. apply Permutation_middle.
  Qed.
End quiet.

Section ops.
  Context `{Profile} {K V : Type} (pcmp : K → K → option comparison) (HO : OrdLaws (av_cmp pcmp)) {G : Ghost (K * V)} `{GA : !GAdd G} `{GR : !GRem G} (cap : N).
  Notation cmp := (av_cmp pcmp).
  Notation tree := (tree (K * V)).
  Notation avlt := (avlt K V).
  Notation rep := (rep (K := K) (V := V) cap).
  Notation R := (R (K := K) (V := V) cap).
  Notation avok := (avok pcmp cap).
  Implicit Types t : avlt.
  Implicit Types s x y z U : tree.
  Local Arguments cl : simpl never.
  Local Arguments cc : simpl never.

  (** [insert] hangs up a leaf if that leaves the tree balanced (AVLOps.wp_insert_loop with the drawing as well) *)
  Lemma wp_insert_loop_quiet fuel t ctx m l i kv r k v b (Q : option N → avlt → Prop) :
    avok t (plug ctx (Nd m l i kv r)) → onpath cmp k ctx → (height (Nd m l i kv r) ≤ fuel)%nat →
    balanced b → (∀ s, draw s = hang cmp k v (draw (Nd m l i kv r)) → draw (plug ctx s) = b) →
    (∀ o t' U', avok t' U' → ins_rel cmp cap k v (entries (plug ctx (Nd m l i kv r))) o (entries U') →
       (o = None → t' = t) → (o ≠ None → draw U' = b) → Q o t') →
    wp (av_insert_loop pcmp fuel k v (apath ctx i) i) t Q.
  Proof using GA HO.
    revert ctx m l i kv r. induction fuel as [|fuel IH]; intros ctx m l i kv r Hok Hp Hh Hbb Hhang HQ; [simpl in Hh; lia|].
    pose proof Hok as [HR Hbal Hasc]. simpl av_insert_loop. apply wp_bind. eapply wp_gets; [by eapply rep_node|].
    set (U := plug ctx (Nd m l i kv r)) in *.
    (* the new leaf *)
    assert (∀ d (o : tree), U = plug (F d m i kv o :: ctx) Lf → onpath cmp k (F d m i kv o :: ctx) →
      (∀ m' i', draw (plug (F d m i kv o :: ctx) (Nd m' Lf i' (k, v) Lf)) = b) →
      wp (t ← mget;
            if decide (av_capacity t ≤ av_len t) then mret None
            else
              reference_node ← av_on (na_add_node (k, v));
              av_set_field i (dN d) reference_node;;
              av_rebalance (apath ctx i);;
              mret (Some reference_node)) t Q) as Hnew.
    { clear IH Hhang. intros d o HU Hp' Hhang. rewrite HU in *. clear U HU. apply wp_bind, wp_mget.
      rewrite (rep_cap _ _ _ HR), (rep_len _ _ _ HR). pose proof (rep_len_le _ _ _ HR) as Hle.
      set (f := F d m i kv o) in *.
      assert (entries (plug (f :: ctx) Lf) = cbef (f :: ctx) ++ caft (f :: ctx)) as HE by exact (entries_plug (f :: ctx) Lf).
      destruct Hp' as [Hb Ha].
      case_decide as Hfull.
      - apply wp_ret. eapply (HQ None t); [exact Hok| |done|done]. eapply ins_full; [exact HE|lia|done|done].
      - apply wp_bind, R_on. pose proof HR as [Hc Hr]. eapply CH_add_node; [exact _|exact Hc|unfold cl; rewrite cells_length; lia|].
        intros i' a' Hc'.
        assert (R (set_aal a' t) ((i', Node (replicate 4 0) (k, v)) :: cl (plug (f :: ctx) Lf)) (root (plug (f :: ctx) Lf)))
          as HR' by done.
        assert (i' ∉ (entries (plug (f :: ctx) Lf)).*1) as Hfresh.
        { apply CH_NoDup in Hc'. simpl in Hc'. apply NoDup_cons in Hc' as [Hc' _]. by rewrite <- (cells_addrs rgav 0). }
        assert (i' ≠ 0) as Hnz by (eapply CH_nz; [exact Hc'|apply elem_of_list_here]).
        assert (i' ≤ cap) as Hicap by (eapply CH_le; [exact Hc'|apply elem_of_list_here]).
        clear Hc Hr. revert HR'. generalize (set_aal a' t). clear a' Hc'. intros t1 HR1.
        destruct (avl_unplug _ _ Hbal) as [_ Hcx]. inversion Hcx as [|? ? ? ? ? ? ? Ao Hc1 Hc2 Hc3]; subst. simpl in Hc1, Hc2, Hc3.
        apply wp_bind.
        eapply (wp_setp cap t1 [(i', Node (replicate 4 0) (k, v))] (root (plug (f :: ctx) Lf)) d m i kv o ctx 0 (Nd 0 Lf i' (k, v) Lf)).
        { eapply R_perm; [exact HR1|]. rewrite cl_plug. done. }
        { eexists. split; [apply elem_of_list_here|done]. }
        { done. }
        { done. }
        intros m' t2 HR2.
        assert (rep t2 (plug ctx (mk d m' (Nd 0 Lf i' (k, v) Lf) i kv o))) as HR3.
        { change (rep t2 (plug (F d m' i kv o :: ctx) (Nd 0 Lf i' (k, v) Lf))). rewrite rep_focus, root_plug in *. exact HR2. }
        assert (draw (plug ctx (mk d m' (Nd 0 Lf i' (k, v) Lf) i kv o)) = b) as Hdr.
        { rewrite <- (Hhang 0 i'). cbn [plug f]. apply draw_plug_cong, draw_mk_mark. }
        assert (∀ t' U', rep t' U' → avl U' → entries U' = entries (plug ctx (mk d m' (Nd 0 Lf i' (k, v) Lf) i kv o)) →
          draw U' = draw (plug ctx (mk d m' (Nd 0 Lf i' (k, v) Lf) i kv o)) → wp (mret (Some i')) t' Q) as Hfin.
        { intros t' U' HR' Hb' He' Hd'. apply wp_ret.
          change (entries U' = entries (plug (F d m' i kv o :: ctx) (Nd 0 Lf i' (k, v) Lf))) in He'.
          rewrite entries_plug in He'. simpl in He'.
          change (entries U' = cbef (f :: ctx) ++ (i', (k, v)) :: caft (f :: ctx)) in He'.
          eapply (HQ _ _ U'); [split; [done|done|]| |done|].
          - rewrite He', fmap_app, fmap_cons. apply ascending_insert; [done| |done|done].
            by rewrite HE, fmap_app in Hasc.
          - rewrite He'. eapply ins_new; [exact HE|lia|done|done|done|done|done].
          - intros _. by rewrite Hd'. }
        apply wp_bind.
        assert (avl (Nd 0 Lf i' (k, v) Lf)) as Anew by (apply (avl_Nd Lf i' (k, v) Lf); [constructor|constructor|simpl; lia|simpl; lia]).
        destruct d; simpl mk in *.
        + eapply wp_rebalance_quiet; [exact HR3|done|done| |exact Hc3|by rewrite Hdr|exact Hfin]. unfold near. simpl. lia.
        + eapply wp_rebalance_quiet; [exact HR3|done|done| |exact Hc3|by rewrite Hdr|exact Hfin]. unfold near. simpl. lia. }
    cbn [draw hang] in Hhang.
    destruct (cmp k kv.1) eqn:Ek.
    - apply wp_bind. eapply rep_set_value; [exact HR|]. intros t' HR'. apply wp_ret.
      eapply HQ; [by eapply avok_set_value| |done|].
      + destruct (onpath_found cmp HO _ _ _ _ _ _ _ Hasc Ek) as [Hb Ha].
        unfold U. rewrite !entries_plug. simpl. rewrite <- !app_assoc. simpl.
        rewrite !(app_assoc (cbef ctx)). eapply ins_present; [done|done|by rewrite fmap_app|by rewrite fmap_app].
      + intros _. by apply Hhang.
    - apply wp_bind. eapply wp_gets; [by eapply rep_left|]. destruct l as [|ml ll il kvl rl].
      + rewrite decide_True by done. apply (Hnew false r); [done|by eapply onpath_left|]. intros m' i'. by apply Hhang.
      + rewrite decide_False by (eapply (rep_nz cap t (F false m i kv r :: ctx)); [exact HR|done]).
        eapply (IH (F false m i kv r :: ctx)); [exact Hok|by eapply onpath_left|simpl in *; lia|done| |exact HQ].
        intros s Hs. cbn [plug mk]. apply Hhang. cbn [draw]. by rewrite Hs.
    - apply wp_bind. eapply wp_gets; [by eapply rep_right|]. destruct r as [|mr lr ir kvr rr].
      + rewrite decide_True by done. apply (Hnew true l); [done|by eapply onpath_right|]. intros m' i'. by apply Hhang.
      + rewrite decide_False by (eapply (rep_nz cap t (F true m i kv l :: ctx)); [exact HR|done]).
        eapply (IH (F true m i kv l :: ctx)); [exact Hok|by eapply onpath_right|simpl in *; lia|done| |exact HQ].
        intros s Hs. cbn [plug mk]. apply Hhang. cbn [draw]. by rewrite Hs.
  Qed.

  Lemma wp_insert_quiet t U k v (Q : option N → avlt → Prop) :
    avok t U → 0 < cap → balanced (hang cmp k v (draw U)) →
    (∀ o t' U', avok t' U' → ins_rel cmp cap k v (entries U) o (entries U') → (o = None → t' = t) →
       (o ≠ None → draw U' = hang cmp k v (draw U)) → Q o t') →
    wp (av_insert pcmp k v) t Q.
  Proof using GA HO. clear GR.
    intros Hok Hcap Hb HQ. pose proof Hok as [HR Hbal Hasc]. unfold av_insert. apply wp_bind, wp_mget.
    rewrite (rep_root _ _ _ HR). destruct U as [|m l i kv r].
    - rewrite decide_True by done. apply wp_bind, R_on. destruct HR as [Hc Hr].
      eapply CH_add_node; [exact _|exact Hc|done|]. intros i a' Hc'. apply wp_bind, wp_modify, wp_ret.
      eapply (HQ _ _ (Nd 0 Lf i (k, v) Lf)); [| |done|done].
      + split.
        * split; [|done]. exact Hc'.
        * apply (avl_Nd Lf i (k, v) Lf); [constructor|constructor|simpl; lia|simpl; lia].
        * repeat constructor.
      + simpl. eapply (ins_new cmp cap k v [] [] []); [done|done|constructor|constructor|set_solver| |].
        * eapply CH_nz; [exact Hc'|apply elem_of_list_here].
        * eapply CH_le; [exact Hc'|apply elem_of_list_here].
    - rewrite decide_False by (eapply (rep_nz cap t []); [exact HR|done]).
      eapply (wp_insert_loop_quiet _ t [] m l i kv r); [exact Hok|apply onpath_nil| |exact Hb|done|exact HQ].
      pose proof (rep_tsize _ _ _ HR). pose proof (height_tsize (Nd m l i kv r)).
      erewrite R_fuel by exact HR. lia.
  Qed.

  (** *** Reading *)
  Lemma rep_reads t ctx s : rep t (plug ctx s) → av_reads t (root s) (draw s).
  Proof using Type.
    clear HO. revert ctx. induction s as [|m l IHl i kv r IHr]; intros ctx HR; [constructor|]. cbn [draw root].
    eapply av_reads_node.
    - exact (rep_nz cap t ctx _ HR ltac:(done)).
    - exact (rep_left cap t ctx _ _ _ _ _ HR).
    - exact (rep_right cap t ctx _ _ _ _ _ HR).
    - exact (rep_node cap t ctx _ _ _ _ _ HR).
    - exact (IHl (F false m i kv r :: ctx) HR).
    - exact (IHr (F true m i kv l :: ctx) HR).
  Qed.
End ops.
Lemma reads_fun `{Profile} {K V} (t : avlt K V) i b b' : av_reads t i b → av_reads t i b' → b = b'.
Proof.
  intros Hb. revert b'. induction Hb as [|i l r x y kv Hi Hl Hr Hn Hx IHx Hy IHy]; intros b' Hb'; inversion Hb'; subst; [done..|].
  f_equal; [apply IHx|congruence|apply IHy]; congruence.
Qed.
