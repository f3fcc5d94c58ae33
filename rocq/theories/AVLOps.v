(** * The operations of the AVL tree model on ghost trees *)
From Verif Require Export SearchProof MapSim AVLApi AVLProof.

Section ops.
  Context `{Profile} {K V : Type} (pcmp : K → K → option comparison) (HO : OrdLaws (av_cmp pcmp)) {G : Ghost (K * V)} `{GA : !GAdd G} `{GR : !GRem G} (cap : N).
  Notation cmp := (av_cmp pcmp).
  Notation tree := (tree (K * V)).
  Notation frame := (frame (K * V)).
  Notation avlt := (avlt K V).
  Notation rep := (rep (K := K) (V := V) cap).
  Notation R := (R (K := K) (V := V) cap).
  Implicit Types t : avlt.
  Implicit Types s x y z U : tree.
  Implicit Types ctx C : list frame.
  Local Arguments cl : simpl never.
  Local Arguments cc : simpl never.

  Record avok t U : Prop := {
    avok_rep : rep t U;
    avok_avl : avl U;
    avok_asc : ascending cmp (entries U).*2 }.

  Lemma rep_len t U : rep t U → av_len t = lengthN (entries U).
  Proof using Type. clear HO. intros [Hc _]. by eapply CH_size_entries. Qed.
  Lemma rep_cap t U : rep t U → av_capacity t = cap.
  Proof using Type. clear HO. intros [Hc _]. by eapply CH_cap. Qed.
  Lemma rep_len_le t U : rep t U → lengthN (entries U) ≤ cap.
  Proof using Type. clear HO. intros [Hc _]. rewrite <- (cells_length rgav 0). by eapply CH_len_le. Qed.
  Lemma rep_NoDup t U : rep t U → NoDup (entries U).*1.
  Proof using Type. clear HO. intros [Hc _]. by eapply CH_addrs_NoDup. Qed.

  (** *** Reads at a focus *)
  Lemma rep_cell t ctx m l i kv r :
    rep t (plug ctx (Nd m l i kv r)) → R t ((i, nd false (root l) (root r) m kv) :: cl l ++ cl r ++ cc ctx i) (croot ctx i).
  Proof using Type. clear HO. rewrite rep_focus, cl_Nd. simpl. by rewrite <- app_assoc. Qed.
  Lemma rep_node t ctx m l i kv r : rep t (plug ctx (Nd m l i kv r)) → av_get_node t i = Val kv.
  Proof using Type. clear HO. intros HR%rep_cell. erewrite R_node; [|exact HR|apply elem_of_list_here]. done. Qed.
  Lemma rep_left t ctx m l i kv r : rep t (plug ctx (Nd m l i kv r)) → av_get_field t i Left = Val (root l).
  Proof using Type. clear HO. intros HR%rep_cell. eapply (R_child cap t _ _ _ false); [exact HR|apply elem_of_list_here]. Qed.
  Lemma rep_right t ctx m l i kv r : rep t (plug ctx (Nd m l i kv r)) → av_get_field t i Right = Val (root r).
  Proof using Type. clear HO. intros HR%rep_cell. eapply (R_opp cap t _ _ _ false); [exact HR|apply elem_of_list_here]. Qed.
  Lemma rep_hgt t ctx m l i kv r : rep t (plug ctx (Nd m l i kv r)) → av_get_field t i Height = Val m.
  Proof using Type. clear HO. intros HR%rep_cell. eapply (R_field cap t); [exact HR|apply elem_of_list_here|done]. Qed.
  Lemma rep_nz t ctx s : rep t (plug ctx s) → s ≠ Lf → root s ≠ 0.
  Proof using Type.
    clear HO. intros HR Hs. destruct s as [|m l i kv r]; [done|]. apply rep_cell in HR. eapply R_nz; [exact HR|apply elem_of_list_here].
  Qed.
  Lemma rep_Lf t ctx s : rep t (plug ctx s) → root s = 0 → s = Lf.
  Proof using Type. clear HO. intros HR Hs. destruct s as [|m l i kv r]; [done|]. by apply (rep_nz _ _ _ HR) in Hs. Qed.

  Lemma rep_set_value t ctx m l i kv r v (Q : () → avlt → Prop) :
    rep t (plug ctx (Nd m l i kv r)) → (∀ t', rep t' (plug ctx (Nd m l i (kv.1, v) r)) → Q () t') →
    wp (av_set_node_value i v) t Q.
  Proof using Type GA.
    clear HO. intros [Hc Hr] HQ. unfold av_set_node_value. apply R_on.
    eapply (CH_set_pair rgav cap _ ctx m l i kv r (kv.1, v)); [exact Hc|by intros n <-|]. intros a' Hc'. apply HQ.
    split; [done|]. simpl. rewrite Hr, !root_plug. done.
  Qed.
  Lemma same_plug ctx m l i (kv kv' : K * V) r : same_shape (plug ctx (Nd m l i kv r)) (plug ctx (Nd m l i kv' r)).
  Proof using Type. apply same_shape_plug. constructor; apply same_shape_refl. Qed.
  Lemma avl_same U U' : same_shape U U' → avl U → avl U' ∧ height U = height U'.
  Proof using Type.
    clear HO. induction 1 as [|m l a kv kv' r l' r' H1 IH1 H2 IH2]; intros Ha; [done|].
    inversion Ha; subst. destruct IH1 as [? E1]; [done|]. destruct IH2 as [? E2]; [done|].
    simpl. rewrite E1, E2 in *. split; [|done]. by constructor.
  Qed.
  Lemma keys_plug ctx m l i (k : K) (v v' : V) r :
    (entries (plug ctx (Nd m l i (k, v) r))).*2.*1 = (entries (plug ctx (Nd m l i (k, v') r))).*2.*1.
  Proof using Type. rewrite !entries_plug. simpl. by rewrite !fmap_app, !fmap_cons. Qed.
  Lemma avok_set_value t t' ctx m l i kv r v :
    avok t (plug ctx (Nd m l i kv r)) → rep t' (plug ctx (Nd m l i (kv.1, v) r)) →
    avok t' (plug ctx (Nd m l i (kv.1, v) r)).
  Proof using Type.
    clear HO. intros [Hr Hb Ha] Hr'. split; [done|eapply avl_same; [apply same_plug|done]|].
    eapply ascending_keys; [|exact Ha]. destruct kv. apply keys_plug.
  Qed.

  (** Redirecting the child register of the first frame *)
  Lemma nm_small x y : mark x < 1000 → mark y < 1000 → nm x y < W32.
  Proof using Type. clear HO. intros H1 H2. unfold nm, W32. destruct x, y; simpl in *; lia. Qed.
  Lemma avl_mark_small t cs rt x : R t cs rt → avl x → N.of_nat (tsize x) ≤ lengthN cs → mark x ≤ N.of_nat (height x) ∧ (height x < 64)%nat.
  Proof using Type.
    clear HO. intros HR Ha Hl. split; [|by eapply avl_h64]. pose proof (avl_mark x Ha). destruct x; simpl in *; lia.
  Qed.
  Lemma wp_setp t cs rt d m a kv o ctx h s (Q : () → avlt → Prop) :
    R t (cs ++ cc (F d m a kv o :: ctx) h) rt → sub cs s → avl o → mark s < 1000 →
    (∀ m' t', R t' (cs ++ cc (F d m' a kv o :: ctx) (root s)) rt → Q () t') →
    wp (av_set_field a (dN d) (root s)) t Q.
  Proof using Type.
    clear HO. intros HR Hs Ao Hm HQ. rewrite cc_cons in HR.
    assert (mark o ≤ N.of_nat (height o) ∧ (height o < 64)%nat) as [Hmo Hho].
    { eapply avl_mark_small; [exact HR|done|]. pose proof (cl_length o). unfold lengthN in *. rewrite app_length. simpl. rewrite app_length. lia. }
    eapply (wp_set cap t (cs ++ cl o ++ cc ctx a) rt a d h s o m kv).
    - eapply R_perm; [exact HR|]. symmetry. apply Permutation_middle.
    - destruct s as [|ms ls is kvs rs]; [done|]. destruct Hs as (n & Hn & Hh). exists n. split; [inl|done].
    - apply sub_incl. intros; inl.
    - apply nm_small; lia.
    - intros t' HR'. apply (HQ (nm s o)). rewrite cc_cons. eapply R_perm; [exact HR'|]. apply Permutation_middle.
  Qed.

  (** *** Insertion *)
  Lemma wp_insert_loop fuel t ctx m l i kv r k v (Q : option N → avlt → Prop) :
    avok t (plug ctx (Nd m l i kv r)) → onpath cmp k ctx → (height (Nd m l i kv r) ≤ fuel)%nat →
    (∀ o t' U', avok t' U' → ins_rel cmp cap k v (entries (plug ctx (Nd m l i kv r))) o (entries U') →
       (o = None → t' = t) → Q o t') →
    wp (av_insert_loop pcmp fuel k v (apath ctx i) i) t Q.
  Proof using GA HO.
    revert ctx m l i kv r. induction fuel as [|fuel IH]; intros ctx m l i kv r Hok Hp Hh HQ; [simpl in Hh; lia|].
    pose proof Hok as [HR Hbal Hasc]. simpl av_insert_loop. apply wp_bind. eapply wp_gets; [by eapply rep_node|].
    set (U := plug ctx (Nd m l i kv r)) in *.
    (* the new leaf *)
    assert (∀ d (o : tree), U = plug (F d m i kv o :: ctx) Lf → onpath cmp k (F d m i kv o :: ctx) →
      wp (t ← mget;
            if decide (av_capacity t ≤ av_len t) then mret None
            else
              reference_node ← av_on (na_add_node (k, v));
              av_set_field i (dN d) reference_node;;
              av_rebalance (apath ctx i);;
              mret (Some reference_node)) t Q) as Hnew.
    { clear IH. intros d o HU Hp'. rewrite HU in *. clear U HU. apply wp_bind, wp_mget.
      rewrite (rep_cap _ _ HR), (rep_len _ _ HR). pose proof (rep_len_le _ _ HR) as Hle.
      set (f := F d m i kv o) in *.
      assert (entries (plug (f :: ctx) Lf) = cbef (f :: ctx) ++ caft (f :: ctx)) as HE by exact (entries_plug (f :: ctx) Lf).
      destruct Hp' as [Hb Ha].
      case_decide as Hfull.
      - apply wp_ret. eapply (HQ None t); [exact Hok| |done]. eapply ins_full; [exact HE|lia|done|done].
      - apply wp_bind, R_on. pose proof HR as [Hc Hr]. eapply CH_add_node; [exact _|exact Hc|unfold cl; rewrite cells_length; lia|].
        intros i' a' Hc'.
        assert (R (set_aal a' t) ((i', Node (replicate 4 0) (k, v)) :: cl (plug (f :: ctx) Lf)) (root (plug (f :: ctx) Lf)))
          as HR' by done.
        assert (i' ∉ (entries (plug (f :: ctx) Lf)).*1) as Hfresh.
        { apply CH_NoDup in Hc'. simpl in Hc'. apply NoDup_cons in Hc' as [Hc' _]. by rewrite <- (cells_addrs rgav 0). }
        assert (i' ≠ 0) as Hnz by (eapply CH_nz; [exact Hc'|apply elem_of_list_here]).
        assert (i' ≤ cap) as Hicap by (eapply CH_le; [exact Hc'|apply elem_of_list_here]).
        clear Hc Hr. revert HR'. generalize (set_aal a' t). clear a' Hc'. intros t1 HR1.
        destruct (avl_unplug _ _ Hbal) as [_ Hcx]. inversion Hcx as [|? ? ? ? ? ? ? Ao Hc1 Hc2 Hc3]; subst. simpl in Hc1, Hc2, Hc3.
        apply wp_bind.
        eapply (wp_setp t1 [(i', Node (replicate 4 0) (k, v))] (root (plug (f :: ctx) Lf)) d m i kv o ctx 0 (Nd 0 Lf i' (k, v) Lf)).
        { eapply R_perm; [exact HR1|]. rewrite cl_plug. done. }
        { eexists. split; [apply elem_of_list_here|done]. }
        { done. }
        { done. }
        intros m' t2 HR2.
        assert (rep t2 (plug ctx (mk d m' (Nd 0 Lf i' (k, v) Lf) i kv o))) as HR3.
        { change (rep t2 (plug (F d m' i kv o :: ctx) (Nd 0 Lf i' (k, v) Lf))). rewrite rep_focus, root_plug in *. exact HR2. }
        assert (∀ t' U', rep t' U' → avl U' → entries U' = entries (plug ctx (mk d m' (Nd 0 Lf i' (k, v) Lf) i kv o)) →
          wp (mret (Some i')) t' Q) as Hfin.
        { intros t' U' HR' Hb' He'. apply wp_ret.
          change (entries U' = entries (plug (F d m' i kv o :: ctx) (Nd 0 Lf i' (k, v) Lf))) in He'.
          rewrite entries_plug in He'. simpl in He'.
          change (entries U' = cbef (f :: ctx) ++ (i', (k, v)) :: caft (f :: ctx)) in He'.
          eapply (HQ _ _ U'); [split; [done|done|]| |done].
          - rewrite He', fmap_app, fmap_cons. apply ascending_insert; [done| |done|done].
            by rewrite HE, fmap_app in Hasc.
          - rewrite He'. eapply ins_new; [exact HE|lia|done|done|done|done|done]. }
        apply wp_bind.
        assert (avl (Nd 0 Lf i' (k, v) Lf)) as Anew by (apply (avl_Nd Lf i' (k, v) Lf); [constructor|constructor|simpl; lia|simpl; lia]).
        destruct d; simpl mk in *.
        + eapply wp_rebalance; [exact HR3|done|done| |exact Hc3|exact Hfin]. unfold near. simpl. lia.
        + eapply wp_rebalance; [exact HR3|done|done| |exact Hc3|exact Hfin]. unfold near. simpl. lia. }
    destruct (cmp k kv.1) eqn:Ek.
    - apply wp_bind. eapply rep_set_value; [exact HR|]. intros t' HR'. apply wp_ret.
      eapply HQ; [by eapply avok_set_value| |done].
      destruct (onpath_found cmp HO _ _ _ _ _ _ _ Hasc Ek) as [Hb Ha].
      unfold U. rewrite !entries_plug. simpl. rewrite <- !app_assoc. simpl.
      rewrite !(app_assoc (cbef ctx)). eapply ins_present; [done|done|by rewrite fmap_app|by rewrite fmap_app].
    - apply wp_bind. eapply wp_gets; [by eapply rep_left|]. destruct l as [|ml ll il kvl rl].
      + rewrite decide_True by done. apply (Hnew false r); [done|]. by eapply onpath_left.
      + rewrite decide_False by (eapply (rep_nz t (F false m i kv r :: ctx)); [exact HR|done]).
        eapply (IH (F false m i kv r :: ctx)); [exact Hok|by eapply onpath_left|simpl in *; lia|exact HQ].
    - apply wp_bind. eapply wp_gets; [by eapply rep_right|]. destruct r as [|mr lr ir kvr rr].
      + rewrite decide_True by done. apply (Hnew true l); [done|]. by eapply onpath_right.
      + rewrite decide_False by (eapply (rep_nz t (F true m i kv l :: ctx)); [exact HR|done]).
        eapply (IH (F true m i kv l :: ctx)); [exact Hok|by eapply onpath_right|simpl in *; lia|exact HQ].
  Qed.

  Lemma wp_insert t U k v (Q : option N → avlt → Prop) :
    avok t U → 0 < cap →
    (∀ o t' U', avok t' U' → ins_rel cmp cap k v (entries U) o (entries U') → (o = None → t' = t) → Q o t') →
    wp (av_insert pcmp k v) t Q.
  Proof using GA HO. clear GR.
    intros Hok Hcap HQ. pose proof Hok as [HR Hbal Hasc]. unfold av_insert. apply wp_bind, wp_mget.
    rewrite (rep_root _ _ _ HR). destruct U as [|m l i kv r].
    - rewrite decide_True by done. apply wp_bind, R_on. destruct HR as [Hc Hr].
      eapply CH_add_node; [exact _|exact Hc|done|]. intros i a' Hc'. apply wp_bind, wp_modify, wp_ret.
      eapply (HQ _ _ (Nd 0 Lf i (k, v) Lf)); [| |done].
      + split.
        * split; [|done]. exact Hc'.
        * apply (avl_Nd Lf i (k, v) Lf); [constructor|constructor|simpl; lia|simpl; lia].
        * repeat constructor.
      + simpl. eapply (ins_new cmp cap k v [] [] []); [done|done|constructor|constructor|set_solver| |].
        * eapply CH_nz; [exact Hc'|apply elem_of_list_here].
        * eapply CH_le; [exact Hc'|apply elem_of_list_here].
    - rewrite decide_False by (eapply (rep_nz t []); [exact HR|done]).
      eapply (wp_insert_loop _ t [] m l i kv r); [exact Hok|apply onpath_nil| |exact HQ].
      pose proof (rep_tsize _ _ _ HR). pose proof (height_tsize (Nd m l i kv r)).
      erewrite R_fuel by exact HR. lia.
  Qed.

  (** *** Removal *)
  Definition pbof ctx : option (N * N) := match ctx with [] => None | F d _ a _ _ :: _ => Some (a, dN d) end.
  Definition arest ctx : list (option (N * N) * N) := match ctx with [] => [] | F _ _ a _ _ :: ctx => apath ctx a end.
  Lemma apath_eq ctx c : apath ctx c = (pbof ctx, c) :: arest ctx.
  Proof using Type. clear HO. by destruct ctx as [|[] ?]. Qed.

  Lemma remove_walk_ok fuel t k ctx s :
    rep t (plug ctx s) → (height s < fuel)%nat →
    av_remove_walk pcmp fuel t k (apath ctx (root s)) (root s) =
    Val (root (tdesc cmp k ctx s).2, apath (tdesc cmp k ctx s).1 (root (tdesc cmp k ctx s).2)).
  Proof using Type.
    clear HO. revert ctx s. induction fuel as [|fuel IH]; intros ctx s HR Hf; [lia|]. simpl.
    destruct s as [|m l i kv r]; [done|].
    rewrite decide_False by (apply (rep_nz _ _ _ HR); done). simpl.
    rewrite (rep_node _ _ _ _ _ _ _ HR). simpl. destruct (cmp k kv.1); [done| |].
    - rewrite (rep_left _ _ _ _ _ _ _ HR). simpl. apply (IH (F false m i kv r :: ctx)); [done|simpl in Hf; lia].
    - rewrite (rep_right _ _ _ _ _ _ _ HR). simpl. apply (IH (F true m i kv l :: ctx)); [done|simpl in Hf; lia].
  Qed.

  Fixpoint lpath C (h : N) : list (option (N * N) * N) :=
    match C with [] => [] | F _ _ a _ _ :: C => (Some (a, Left), h) :: lpath C a end.
  Lemma lpath_app C C' h : lpath (C ++ C') h = lpath C h ++ lpath C' (croot C h).
  Proof using Type. clear HO. revert h. induction C as [|[] C IH]; intros h; simpl; [done|]. by rewrite IH. Qed.
  Lemma lpath_apath C ctx h : Forall (λ f, fd f = false) C → lpath C h ++ apath ctx (croot C h) = apath (C ++ ctx) h.
  Proof using Type.
    clear HO. intros HC. revert h. induction HC as [|[d m a kv o] C Hd _ IH]; intros h; simpl in *; [done|]. subst d. by rewrite IH.
  Qed.
  Lemma leftmost_ok fuel t ctx s :
    rep t (plug ctx s) → s ≠ Lf → (height s ≤ fuel)%nat →
    ∃ C m1 lm kvm x, s = plug C (Nd m1 Lf lm kvm x) ∧ Forall (λ f, fd f = false) C ∧
      ∀ lp inner, av_leftmost_walk fuel t (root s) lp inner =
        Val (lm, match C with [] => lp | f :: _ => fa f end, lpath C lm ++ inner).
  Proof using Type.
    clear HO. revert ctx s. induction fuel as [|fuel IH]; intros ctx s HR Hs Hf; [destruct s; simpl in Hf; [done|lia]|].
    destruct s as [|m l i kv r]; [done|]. destruct l as [|ml ll il kvl rl].
    - exists [], m, i, kv, r. split_and!; [done|constructor|]. intros lp inner. simpl.
      rewrite (rep_left _ _ _ _ _ _ _ HR). simpl. done.
    - set (l := Nd ml ll il kvl rl) in *.
      destruct (IH (F false m i kv r :: ctx) l) as (C & m1 & lm & kvm & x & El & HC & Hw); [exact HR|done|simpl in *; lia|].
      exists (C ++ [F false m i kv r]), m1, lm, kvm, x. split_and!.
      + rewrite plug_app, <- El. done.
      + apply Forall_app. split; [done|]. by repeat constructor.
      + intros lp inner. cbn [av_leftmost_walk root]. rewrite (rep_left _ _ _ _ _ _ _ HR). cbn [mbind].
        unfold res_bind at 1. cbn beta iota. rewrite decide_False by (apply (rep_nz _ (F false m i kv r :: ctx) l HR); done).
        rewrite Hw. f_equal. rewrite lpath_app, <- app_assoc. cbn [lpath app]. f_equal; [|].
        * f_equal. by destruct C.
        * do 2 f_equal. rewrite <- root_plug in * || idtac. rewrite El. by rewrite root_plug.
  Qed.

  Lemma wp_delete t cs rt d i a b m kv (Q : () → avlt → Prop) :
    R t ((i, nd d a b m kv) :: cs) rt → (∀ t', R t' cs rt → Q () t') → wp (av_delete i) t Q.
  Proof using Type GR.
    clear HO. intros HR HQ. unfold av_delete.
    apply wp_bind. eapply R_set; [exact HR|by destruct d|]. clear t HR. intros t HR.
    apply wp_bind. eapply R_set; [exact HR|by destruct d|]. clear t HR. intros t HR.
    apply wp_bind. eapply R_set; [exact HR|by destruct d|]. clear t HR. intros t HR.
    apply wp_bind, R_on. destruct HR as [Hc Hr]. eapply (CH_remove_node 4 cap _ _ i 0 kv); [exact Hc|]. intros a' Hc'. apply wp_ret. apply HQ. done.
  Qed.
  Lemma wp_finish {A} t d i a b m kv U rt repl rpath (o : A) (Q : A → avlt → Prop) :
    R t ((i, nd d a b m kv) :: cl U) rt → (rt = i ∧ repl = root U ∨ rt = root U ∧ U ≠ Lf) →
    (∀ t', rep t' U → wp (av_rebalance rpath;; mret o) t' Q) →
    wp (t ← mget;
        (if decide (i = as_u32 (av_root t)) then modify (set_aroot repl) else mret ());;
        av_delete i;;
        av_rebalance rpath;;
        mret o) t Q.
  Proof using Type GR.
    clear HO. intros HR Hrt HQ. apply wp_bind, wp_mget, wp_bind.
    pose proof (R_w _ _ _ _ HR) as Hw. pose proof HR as [Hc Er].
    assert (∀ j n, (j, n) ∈ (i, nd d a b m kv) :: cl U → as_u32 j = j) as Hu.
    { intros j n Hj. unfold as_u32. apply N.mod_small. assert (j ≤ cap); [eapply CH_le; [exact Hc|apply elem_of_list_fmap; by exists (j, n)]|lia]. }
    assert (wp (if decide (i = as_u32 (av_root t)) then modify (set_aroot repl) else mret ()) t
      (λ _ t', R t' ((i, nd d a b m kv) :: cl U) (root U))) as Hr.
    { rewrite Er. destruct Hrt as [[-> ->]|[-> Hne]].
      - rewrite decide_True by (symmetry; eapply Hu, elem_of_list_here). apply wp_modify. split; [exact Hc|done].
      - destruct U as [|mu lu iu kvu ru]; [done|].
        assert ((iu, nd false (root lu) (root ru) mu kvu) ∈ cl (Nd mu lu iu kvu ru)) as Hin by (rewrite cl_Nd; apply elem_of_list_here).
        cbn [root] in *. erewrite Hu by (apply elem_of_list_further; exact Hin).
        rewrite decide_False by (eapply R_ne; [exact HR|exact Hin]). apply wp_ret. exact HR. }
    eapply wp_mono; [exact Hr|]. clear t HR Hc Er Hr. intros [] t HR. apply wp_bind.
    eapply wp_delete; [exact HR|]. exact HQ.
  Qed.

  Lemma height_plug C s : (height s ≤ height (plug C s))%nat.
  Proof using Type.
    clear HO. revert s. induction C as [|[d m a kv o] C IH]; intros s; simpl; [done|]. etrans; [|apply IH]. rewrite height_mk. lia.
  Qed.
  Lemma cbef_left C : Forall (λ f, fd f = false) C → cbef C = [].
  Proof using Type. clear HO. induction 1 as [|[d m a kv o] C Hd _ IH]; [done|]. simpl in *. subst d. by rewrite IH. Qed.
  Lemma mark_plug_small C s h : mark s ≤ h → (∀ f, f ∈ C → fm f ≤ h) → mark (plug C s) ≤ h.
  Proof using Type.
    clear HO. revert s. induction C as [|[d m a kv o] C IH]; intros s Hs HC; simpl; [done|].
    apply IH; [|intros; apply HC; by apply elem_of_list_further].
    pose proof (HC (F d m a kv o) ltac:(apply elem_of_list_here)). destruct d; done.
  Qed.
  Lemma avl_frames C s f : avl (plug C s) → f ∈ C → fm f ≤ N.of_nat (height (plug C s)).
  Proof using Type.
    clear HO. revert s. induction C as [|[d m a kv o] C IH]; intros s Ha Hf; [by apply elem_of_nil in Hf|].
    apply elem_of_cons in Hf as [->|Hf]; [|by apply IH].
    simpl. cbn [plug] in Ha. destruct (avl_unplug _ _ Ha) as [Hs _].
    pose proof (height_plug C (mk d m s a kv o)). pose proof (avl_mark _ Hs) as Hm.
    destruct d; simpl in *; lia.
  Qed.

  Lemma wp_remove_found t ctx m l i kv r {A} (a : A) (Q : A → avlt → Prop) :
    rep t (plug ctx (Nd m l i kv r)) → avl (plug ctx (Nd m l i kv r)) →
    (∀ t' U', rep t' U' → avl U' → entries U' = cbef ctx ++ entries l ++ entries r ++ caft ctx → Q a t') →
    wp (rr ←
          (if decide (root l ≠ SENTINEL ∧ root r ≠ SENTINEL) then
             w ← gets (λ t, av_leftmost_walk (av_fuel t) t (root r) SENTINEL []);
             let '(leftmost, leftmost_parent, inner) := w in
             (if decide (leftmost_parent ≠ SENTINEL) then
                r ← gets (λ t, av_get_field t leftmost Right);
                av_set_field leftmost_parent Left r
              else mret ());;
             av_set_field leftmost Left (root l);;
             (if decide (root r ≠ leftmost) then av_set_field leftmost Right (root r) else mret ());;
             match apath ctx i with
             | [] => mfail Panic
             | (pb, _) :: rpath =>
                 (match pb with
                  | Some (parent, branch) => av_set_field parent branch leftmost
                  | None => mret ()
                  end);;
                 let rpath := (pb, leftmost) :: rpath in
                 let rpath := if decide (root r ≠ leftmost)
                              then (Some (leftmost, Right), root r) :: rpath else rpath in
                 mret (leftmost, tail inner ++ rpath)
             end
           else
             let child := if decide (root l = SENTINEL ∧ root r = SENTINEL) then SENTINEL
                          else if decide (root l ≠ SENTINEL) then root l else root r in
             match apath ctx i with
             | [] => mfail Panic
             | (pb, _) :: rpath =>
                 match pb with
                 | Some (parent, branch) =>
                     av_set_field parent branch child;;
                     mret (child, if decide (child ≠ SENTINEL)
                                  then (Some (parent, branch), child) :: rpath else rpath)
                 | None => mret (child, rpath)
                 end
             end);
        let '(replacement, rpath) := rr in
        t ← mget;
        (if decide (i = as_u32 (av_root t)) then modify (set_aroot replacement) else mret ());;
        av_delete i;;
        av_rebalance rpath;;
        mret a) t Q.
  Proof using Type GR.
    clear HO. intros HR Hav HQ.
    destruct (avl_unplug _ _ Hav) as [Hnd Hcx]. destruct (avl_mk false _ _ _ _ _ Hnd) as (Hl & Hr & Hb1 & Hb2 & Hm).
    cbn [height] in Hcx.
    pose proof (rep_cell _ _ _ _ _ _ _ HR) as HR1.
    apply wp_bind. rewrite apath_eq. destruct (decide (root l ≠ SENTINEL ∧ root r ≠ SENTINEL)) as [[Hlz Hrz]|Hz].
    - assert (r ≠ Lf) as Hrne by (by intros ->).
      destruct (leftmost_ok (av_fuel t) t (F true m i kv l :: ctx) r) as (C & m1 & lm & kvm & x & Er & HC & Hw); [exact HR|done| |].
      { pose proof (rep_tsize _ _ _ HR) as Ht. rewrite tsize_plug in Ht. simpl in Ht. pose proof (height_tsize r).
        erewrite R_fuel by exact HR. lia. }
      apply wp_bind. eapply wp_gets; [apply Hw|]. clear Hw. rewrite app_nil_r.
      assert (avl (plug C (Nd m1 Lf lm kvm x))) as HrA by (by rewrite <- Er).
      destruct (avl_unplug _ _ HrA) as [Hlm HcxC]. destruct (avl_mk false _ _ _ _ _ Hlm) as (_ & Hx & _ & Hbx & Hm1).
      assert (mark l ≤ N.of_nat (height l) ∧ (height l < 64)%nat) as [Hml Hhl].
      { eapply avl_mark_small; [exact HR1|done|]. pose proof (cl_length l). unfold lengthN in *. simpl. rewrite app_length. lia. }
      assert (mark r ≤ N.of_nat (height r) ∧ (height r < 64)%nat) as [Hmr Hhr].
      { eapply avl_mark_small; [exact HR1|done|]. pose proof (cl_length r). unfold lengthN in *. simpl. rewrite !app_length. lia. }
      assert (height x ≤ height r)%nat as Hxr.
      { rewrite Er. 
        etrans; [|apply height_plug]. simpl. lia. }
      assert (mark x ≤ N.of_nat (height x)) as Hmx by (pose proof (avl_mark x Hx); destruct x; simpl in *; lia).
      (* once the new subtree [s] stands in the place of [i] *)
      assert (∀ t1 M R1 C1 s1 h0 ms ls c kvs rs,
        M < 1000 → s1 = Nd M l lm kvm R1 →
        R t1 ((i, nd false (root l) (root r) m kv) :: cl s1 ++ cc ctx i) (croot ctx i) →
        (∀ ctx', s1 = plug C1 (Nd ms ls c kvs rs) ∧ (Forall2 (λ f g, fo f = fo g) ctx ctx' → actx (C1 ++ ctx') h0)) →
        avl ls → avl rs → near (height ls) (height rs) h0 → entries s1 = entries l ++ entries r →
        wp ((match pbof ctx with
              | Some (parent, branch) => av_set_field parent branch lm
              | None => mret ()
              end);;
             mret (lm, apath (C1 ++ ctx) c)) t1
          (λ rr t', wp (let '(replacement, rpath) := rr in
            t ← mget;
            (if decide (i = as_u32 (av_root t)) then modify (set_aroot replacement) else mret ());;
            av_delete i;;
            av_rebalance rpath;;
            mret a) t' Q)) as Hlast.
      { intros t1 M R1 C1 s1 h0 ms ls c kvs rs HM Es1 HRt Hs1 Als Ars Hnear He. apply wp_bind.
        assert (∀ ctx' t2, Forall2 (λ f g, fo f = fo g) ctx ctx' → (∀ q, apath (C1 ++ ctx) q = apath (C1 ++ ctx') q) →
           cbef ctx' = cbef ctx → caft ctx' = caft ctx →
           R t2 ((i, nd false (root l) (root r) m kv) :: cl (plug ctx' s1)) (croot ctx i) →
           (croot ctx i = i ∧ lm = root (plug ctx' s1) ∨ croot ctx i = root (plug ctx' s1) ∧ plug ctx' s1 ≠ Lf) →
           wp (mret (lm, apath (C1 ++ ctx) c)) t2 (λ rr t', wp (let '(replacement, rpath) := rr in
            t ← mget;
            (if decide (i = as_u32 (av_root t)) then modify (set_aroot replacement) else mret ());;
            av_delete i;;
            av_rebalance rpath;;
            mret a) t' Q)) as Hfin.
        { intros ctx' t2 Hfo Hap Hcb Hca HR2 Hrt. apply wp_ret. cbn beta iota.
          eapply wp_finish; [exact HR2|exact Hrt|]. intros t3 HR3. apply wp_bind. rewrite Hap.
          destruct (Hs1 ctx') as [Es Hac].
          eapply (wp_rebalance cap (C1 ++ ctx') t3 ms ls c kvs rs h0); [|done|done|done|by apply Hac|].
          { rewrite plug_app, <- Es. exact HR3. }
          intros t4 U' HR4 A4 E4. apply wp_ret. eapply HQ; [exact HR4|done|].
          rewrite E4, plug_app, <- Es, entries_plug, He, Hcb, Hca. by rewrite <- app_assoc. }
        destruct ctx as [|[d mf p kvf o] ctx].
        - apply wp_ret. apply (Hfin []); [constructor|done|done|done| |].
          + cbn [plug]. eapply R_perm; [exact HRt|]. unfold cc. cbn [ccellsb]. by rewrite app_nil_r.
          + left. split; [done|]. by rewrite Es1.
        - cbn [pbof]. replace lm with (root s1) by (by rewrite Es1).
          assert (avl o) as Ao by (by inversion Hcx). subst s1.
          eapply (wp_setp t1 ((i, nd false (root l) (root r) m kv) :: cl (Nd M l lm kvm R1)) _ d mf p kvf o ctx i (Nd M l lm kvm R1)); [exact HRt| |done|done|].
          { eexists. split; [apply elem_of_list_further; rewrite cl_Nd; apply elem_of_list_here|done]. }
          intros mf' t2 HR2. apply (Hfin (F d mf' p kvf o :: ctx)).
          + constructor; [done|]. clear. induction ctx; by constructor.
          + intros q. clear. revert q. induction C1 as [|[] C1 IH]; intros q; simpl; [done|]. by rewrite IH.
          + done.
          + done.
          + eapply R_perm; [exact HR2|]. rewrite cl_plug. done.
          + right. rewrite root_plug. split; [done|]. intros [_ ?]%plug_Lf. done. }
      apply wp_bind. destruct C as [|[d1 m1' a1 kv1 o1] C'].
      + (* the right child is the leftmost node *)
        cbn [plug] in Er. rewrite decide_False by (intros Hn; by apply Hn). apply wp_ret. apply wp_bind.
        rewrite Er in HR1 |- *. cbn [root] in HR1 |- *. rewrite cl_Nd in HR1.
        assert (R t ((lm, nd false 0 (root x) m1 kvm) :: (i, nd false (root l) lm m kv) :: cl l ++ cl x ++ cc ctx i) (croot ctx i)) as HR2.
        { eapply R_perm; [exact HR1|]. generalize (cl l), (cl x), (cc ctx i). intros X Y Z. simpl. unfold cl. simpl. solve_Permutation. }
        eapply (wp_set cap t _ _ lm false 0 l x m1 kvm); [exact HR2|apply sub_incl; intros; inl|apply sub_incl; intros; inl| |].
        { apply nm_small; lia. }
        clear t HR HR1 HR2. intros t HR. apply wp_bind. rewrite decide_False by (intros Hn; by apply Hn). apply wp_ret.
        rewrite decide_False by (intros Hn; by apply Hn).
        replace (tail (lpath [] lm) ++ (pbof ctx, lm) :: arest ctx) with (apath ([] ++ ctx) lm) by (by rewrite apath_eq).
        eapply (Hlast t (nm l x) x [] _ (S (Nat.max (height l) (height r))) (nm l x) l lm kvm x).
        * pose proof (nm_clean l x Hl Hx). lia.
        * done.
        * rewrite Er. cbn [root]. rewrite cl_Nd. eapply R_perm; [exact HR|].
          generalize (cl l), (cl x), (cc ctx i). intros X Y Z. simpl. solve_Permutation.
        * intros ctx'. split; [done|]. intros Hfo. cbn [app]. by eapply actx_fo.
        * done.
        * done.
        * rewrite Er in Hb1, Hb2 |- *. simpl in *. unfold near. lia.
        * rewrite Er. done.
      + (* it is further down *)
        apply Forall_cons in HC as [Hd1 HC]. simpl in Hd1. subst d1. cbn [fa].
        inversion HcxC as [|? ? ? ? ? ? ? Ao1 Hb3 Hb4 Hcx2]; subst.
        set (r := plug (F false m1' a1 kv1 o1 :: C') (Nd (nm Lf x) Lf lm kvm x)) in *.
        set (m1 := nm Lf x) in *.
        (* all cells apart *)
        set (rest := cl x ++ cl o1 ++ cc C' a1 ++ cl l ++ cc ctx i).
        assert (root r = croot C' a1) as Erc by (unfold r; by rewrite root_plug).
        assert (R t ((a1, nd false lm (root o1) m1' kv1) :: (lm, nd false 0 (root x) m1 kvm) ::
                     (i, nd false (root l) (root r) (nm l r) kv) :: rest) (croot ctx i)) as HR2.
        { assert (cl r ≡ₚ ((lm, nd false 0 (root x) m1 kvm) :: cl x) ++ (a1, nd false lm (root o1) m1' kv1) :: cl o1 ++ cc C' a1) as Hclr.
          { unfold r. rewrite cl_plug. cbn [root]. by rewrite cc_cons, cl_Nd. }
          eapply R_perm; [exact HR1|]. rewrite Hclr. clear Hclr. unfold rest.
          generalize (cl l), (cl x), (cl o1), (cc C' a1), (cc ctx i). intros. unfold cl. simpl. solve_Permutation. }
        assert (a1 ≠ 0) as Ha1 by (eapply R_nz; [exact HR2|apply elem_of_list_here]).
        assert (height o1 ≤ height r)%nat as Hor.
        { unfold r. 
          cbn [plug]. etrans; [|apply height_plug]. rewrite height_mk. lia. }
        assert (mark o1 ≤ N.of_nat (height o1)) as Hmo by (pose proof (avl_mark o1 Ao1); destruct o1; simpl in *; lia).
        rewrite decide_True by done.
        apply wp_bind. eapply wp_gets; [eapply (R_opp cap t _ _ _ false); [exact HR2|apply elem_of_list_further, elem_of_list_here]|].
        eapply (wp_set cap t _ _ a1 false lm x o1 m1' kv1); [exact HR2|apply sub_incl; unfold rest; intros; inl|apply sub_incl; unfold rest; intros; inl| |].
        { apply nm_small; lia. }
        clear t HR HR1 HR2. intros t HR2. apply wp_bind.
        eapply (wp_set cap t ((a1, nd false (root x) (root o1) (nm x o1) kv1) :: (i, nd false (root l) (root r) (nm l r) kv) :: rest) _ lm false 0 l x m1 kvm).
        { eapply R_perm; [exact HR2|apply perm_swap]. }
        { apply sub_incl; unfold rest; intros; inl. }
        { apply sub_incl; unfold rest; intros; inl. }
        { apply nm_small; lia. }
        clear t HR2. intros t HR2.
        set (r' := plug C' (Nd (nm x o1) x a1 kv1 o1)).
        assert (root r' = root r) as Er' by (rewrite Erc; unfold r'; by rewrite root_plug).
        assert (R t ((lm, nd false (root l) (root x) (nm l x) kvm) :: (i, nd false (root l) (root r) (nm l r) kv) :: cl l ++ cl r' ++ cc ctx i) (croot ctx i)) as HR3.
        { eapply R_perm; [exact HR2|]. unfold r'. rewrite cl_plug, cl_Nd. cbn [root]. unfold rest.
          generalize (cl l), (cl x), (cl o1), (cc C' a1), (cc ctx i). intros. simpl. solve_Permutation. }
        clear HR2. apply wp_bind.
        assert (root r ≠ lm) as Hne.
        { rewrite <- Er'. unfold r'. rewrite root_plug. intros Heq.
          assert (∃ n, (croot C' a1, n) ∈ cl r') as [n Hn].
          { rewrite <- Erc, <- Er'. destruct r' as [|? ? ? ? ?] eqn:Er2; [by apply plug_Lf in Er2 as [_ ?]|].
            eexists. rewrite cl_Nd. apply elem_of_list_here. }
          eapply (R_ne cap t); [exact HR3| |symmetry; exact Heq]. rewrite elem_of_cons, !elem_of_app. right. right. left. exact Hn. }
        rewrite decide_True by done.
        assert (mark r' ≤ N.of_nat (height r)) as Hmr'.
        { unfold r'. apply mark_plug_small.
          - simpl. rewrite nm_clean by done. assert (height (Nd m1' (Nd m1 Lf lm kvm x) a1 kv1 o1) ≤ height r)%nat as Hh1; [|simpl in Hh1; lia].
            unfold r. 
            cbn [plug]. apply (height_plug C' (mk false _ _ _ _ _)).
          - intros f Hf. unfold r. apply avl_frames; [exact Hr|]. by apply elem_of_list_further. }
        rewrite <- Er'.
        eapply (wp_set cap t _ _ lm true (root x) r' l (nm l x) kvm); [exact HR3|apply sub_incl; intros; inl|apply sub_incl; intros; inl| |].
        { apply nm_small; lia. }
        clear t HR3. intros t HR2.
        cbn [lpath tail].
        rewrite decide_True by (by rewrite Er').
        replace (lpath C' a1 ++ (Some (lm, Right), root r') :: (pbof ctx, lm) :: arest ctx)
          with (apath ((C' ++ [F true (nm l r') lm kvm l]) ++ ctx) a1); cycle 1.
        { rewrite <- app_assoc. simpl. rewrite <- lpath_apath by done. rewrite Er', Erc. simpl. by rewrite apath_eq. }
        eapply (Hlast t (nm l r') r' (C' ++ [F true (nm l r') lm kvm l]) _ (S (Nat.max (S (height x)) (height o1))) (nm x o1) x a1 kv1 o1).
        * unfold nm. destruct l, r'; simpl in *; lia.
        * done.
        * rewrite cl_Nd. eapply R_perm; [exact HR2|]. rewrite (nm_comm r' l).
          generalize (cl l), (cl r'), (cc ctx i). intros X Y Z. simpl. solve_Permutation.
        * intros ctx'. split; [by rewrite plug_app|]. intros Hfo. rewrite <- app_assoc. cbn [app].
          assert (actx (F false m1' a1 kv1 o1 :: C' ++ F true (nm l r) i kv l :: ctx) (height (Nd m1 Lf lm kvm x))) as Hfull.
          { apply (avl_unplug (F false m1' a1 kv1 o1 :: C' ++ F true (nm l r) i kv l :: ctx)). cbn [plug]. rewrite plug_app. exact Hav. }
          inversion Hfull; subst. cbn [height] in *. eapply actx_fo; [|eassumption].
          apply Forall2_app; [|by constructor]. clear. induction C'; by constructor.
        * done.
        * done.
        * simpl in *. unfold near. lia.
        * simpl. unfold r', r. rewrite !entries_plug. simpl. rewrite (cbef_left C') by done. simpl. rewrite <- !app_assoc. done.
    - (* at most one child *) clear Hm.
      assert (∃ d x, Nd m l i kv r = mk d m x i kv Lf ∧ entries x = entries l ++ entries r ∧ avl x ∧
        (if decide (root l = SENTINEL ∧ root r = SENTINEL) then SENTINEL else if decide (root l ≠ SENTINEL) then root l else root r) = root x ∧
        (root x = 0 → x = Lf)) as (d & x & Ex & Ent & Hx & -> & Hx0).
      { destruct (decide (root r = SENTINEL)) as [Er|Er].
        - apply (rep_Lf t (F true m i kv l :: ctx)) in Er; [|exact HR]. subst r.
          exists false, l. split_and!; [done|by rewrite app_nil_r|done| |].
          + destruct (decide (root l = SENTINEL ∧ root Lf = SENTINEL)) as [[-> _]|Hn]; [done|]. case_decide as Hl0; [done|].
            exfalso. apply Hn. split; [|done]. destruct (decide (root l = SENTINEL)); [done|]. by destruct Hl0.
          + apply (rep_Lf t (F false m i kv Lf :: ctx)). exact HR.
        - assert (root l = SENTINEL) as El.
          { destruct (decide (root l = SENTINEL)); [done|]. by destruct Hz. }
          apply (rep_Lf t (F false m i kv r :: ctx)) in El; [|exact HR]. subst l.
          exists true, r. split_and!; [done|done|done| |].
          + rewrite decide_False by naive_solver. by rewrite decide_False by naive_solver.
          + by intros ?%Er. }
      rewrite Ex in *. apply avl_mk in Hnd as (_ & _ & _ & Hbx & _). clear Hb1 Hb2. cbn [height] in *.
      assert (S (Nat.max (height l) (height r)) = S (height x)) as Eh.
      { change (S (Nat.max (height l) (height r))) with (height (Nd m l i kv r)). rewrite Ex, height_mk. simpl. lia. }
      rewrite Eh in Hcx.
      assert (R t ((i, nd d (root x) 0 m kv) :: cl x ++ cc ctx i) (croot ctx i)) as HR2.
      { apply rep_focus in HR. rewrite root_mk in HR. eapply R_perm; [exact HR|]. rewrite cl_mk. unfold cl at 2. simpl. by rewrite app_nil_r. }
      clear HR HR1.
      destruct ctx as [|[d' mf p kvf o] ctx].
      + cbn [pbof arest]. apply wp_ret. eapply (wp_finish t d i _ _ m kv x i); [|by left|].
        * eapply R_perm; [exact HR2|]. unfold cc. simpl. by rewrite app_nil_r.
        * intros t' HR'. apply wp_bind. simpl av_rebalance. apply wp_ret, wp_ret. eapply HQ; [exact HR'|done|].
          simpl. by rewrite app_nil_r.
      + cbn [pbof arest]. inversion Hcx as [|? ? ? ? ? ? ? Ao Hb3 Hb4 Hcx2]; subst. apply wp_bind.
        assert (mark x ≤ N.of_nat (height x) ∧ (height x < 64)%nat) as [Hmx Hx64].
        { eapply avl_mark_small; [exact HR2|done|]. pose proof (cl_length x). unfold lengthN in *. simpl. rewrite app_length. lia. }
        simpl in Hbx.
        eapply (wp_setp t ((i, nd d (root x) 0 m kv) :: cl x) _ d' mf p kvf o ctx i x); [exact HR2| |done|lia|].
        { apply sub_incl. intros; inl. }
        clear t HR2. intros mf' t HR2. apply wp_ret.
        eapply (wp_finish t d i _ _ m kv (plug (F d' mf' p kvf o :: ctx) x) (croot (F d' mf p kvf o :: ctx) i)).
        { eapply R_perm; [exact HR2|]. rewrite cl_plug. simpl. done. }
        { right. rewrite root_plug. split; [done|]. by intros [? _]%plug_Lf. }
        clear t HR2. intros t HR.
        assert (∀ t' U', rep t' U' → avl U' → entries U' = entries (plug (F d' mf' p kvf o :: ctx) x) → wp (mret a) t' Q) as Hfin.
        { intros t' U' HR' A' E'. apply wp_ret. eapply HQ; [exact HR'|done|]. rewrite E', entries_plug, Ent. by rewrite <- app_assoc. }
        apply wp_bind. case_decide as Hxz.
        * destruct x as [|mx lx ix kvx rx]; [done|]. destruct (avl_mk false _ _ _ _ _ Hx) as (Hlx & Hrx & Hb5 & Hb6 & _).
          eapply (wp_rebalance cap (F d' mf' p kvf o :: ctx) t mx lx ix kvx rx (S (S (Nat.max (height lx) (height rx))))).
          -- exact HR.
          -- done.
          -- done.
          -- unfold near. lia.
          -- cbn [height] in *. by constructor.
          -- exact Hfin.
        * assert (x = Lf) as ->. { by apply Hx0. }
          cbn [height] in *. destruct d'; cbn [plug mk] in HR, Hfin.
          -- eapply wp_rebalance; [exact HR|done|done| |exact Hcx2|exact Hfin]. unfold near. simpl. lia.
          -- eapply wp_rebalance; [exact HR|done|done| |exact Hcx2|exact Hfin]. unfold near. simpl. lia.
  Qed.
  Lemma entries_del ctx m (l : tree) i (kv : K * V) r :
    entries (plug ctx (Nd m l i kv r)) = (cbef ctx ++ entries l) ++ (i, kv) :: entries r ++ caft ctx.
  Proof using Type. clear HO. rewrite entries_plug. simpl. by rewrite <- !app_assoc. Qed.


  Lemma wp_remove t U k (Q : option V → avlt → Prop) :
    avok t U →
    (∀ o t' U', avok t' U' → rem_rel cmp k (entries U) o (entries U') → (o = None → t' = t) → Q o t') →
    wp (av_remove pcmp k) t Q.
  Proof using GR HO.
    intros Hok HQ. pose proof Hok as [HR Hbal Hasc]. unfold av_remove. apply wp_bind, wp_mget.
    rewrite (rep_root _ _ _ HR). destruct (decide (root U = SENTINEL)) as [E0|Hnz].
    - apply (rep_Lf t []) in E0; [|exact HR]. subst U. apply wp_ret. eapply HQ; [exact Hok| |done].
      eapply (rem_absent cmp k [] [] []); [done|constructor|constructor].
    - apply wp_bind. eapply wp_gets.
      { apply (remove_walk_ok _ t k [] U); [exact HR|]. pose proof (rep_tsize _ _ _ HR). pose proof (height_tsize U).
        erewrite R_fuel by exact HR. lia. }
      destruct (tdesc_ok cmp HO k [] U Hasc (onpath_nil cmp k)) as [[Hbe Hab] Hd]. pose proof (tdesc_plug cmp k [] U) as Hp.
      destruct (tdesc cmp k [] U) as [ctx s]. simpl in Hp, Hd, Hbe, Hab. cbn [fst snd]. subst U.
      destruct Hd as [->|(m & l & i & kv & r & -> & Hk)].
      + rewrite decide_True by done. apply wp_ret. eapply HQ; [exact Hok| |done].
        eapply rem_absent; [exact (entries_plug ctx Lf)|done|done].
      + rewrite decide_False by (apply (rep_nz _ _ _ HR); done). cbn [root].
        apply wp_bind. eapply wp_gets; [by eapply rep_node|].
        apply wp_bind. eapply wp_gets; [by eapply rep_left|].
        apply wp_bind. eapply wp_gets; [by eapply rep_right|].
        eapply (wp_remove_found t ctx m l i kv r (Some kv.2)); [exact HR|exact Hbal|].
        intros t' U' HR' Hb' He'. destruct (onpath_found cmp HO _ _ _ _ _ _ _ Hasc Hk) as [Hb Ha].
        rewrite app_assoc in He'. rewrite entries_del in Hasc. rewrite fmap_app, fmap_cons in Hasc.
        assert (ascending cmp (entries U').*2) as Ha'.
        { rewrite He', fmap_app. by eapply ascending_delete. }
        eapply HQ; [by split| |done]. rewrite He', entries_del.
        eapply rem_present; [done|done|by rewrite fmap_app|by rewrite fmap_app].
  Qed.

  (** *** Reads *)
  Lemma rep_shp t U : rep t U → shp (av_al t) U.
  Proof using Type. clear HO. intros [Hc _]. by eapply (CH_shp rgav rgav_ok). Qed.
  Lemma av_addr_ok t U k :
    avok t U → ∃ i kvo, get_rel cmp k (entries U) i kvo ∧ av_get_addr pcmp t k = Val i ∧ av_get pcmp t k = Val (snd <$> kvo).
  Proof using HO.
    intros [HR Hb Ha].
    assert (av_get_addr pcmp t k = Val (root (tdesc cmp k [] U).2)) as Haddr.
    { unfold av_get_addr. rewrite (rep_root _ _ _ HR). apply bst_get_addr_ok.
      - by apply rep_shp.
      - destruct HR as [Hc _]. by eapply CH_vals.
      - pose proof (rep_tsize _ _ _ HR). pose proof (height_tsize U). erewrite R_fuel by exact HR. lia. }
    destruct (tdesc_ok cmp HO k [] U Ha (onpath_nil cmp k)) as [[Hbe Hab] Hd]. pose proof (tdesc_plug cmp k [] U) as Hp.
    rewrite av_get_s_ok. unfold av_get_s. rewrite Haddr. simpl in Hp. destruct (tdesc cmp k [] U) as [ctx s]. simpl in *.
    destruct Hd as [->|(m & l & i & kv & r & -> & Hk)].
    - exists 0, None. simpl. split_and!; [|done|done]. eapply get_absent; [rewrite <- Hp; exact (entries_plug ctx Lf)|done|done].
    - rewrite <- Hp in HR, Ha |- *. assert (i ≠ 0) as Hnz by (apply (rep_nz t ctx (Nd m l i kv r) HR); done).
      exists i, (Some kv). simpl. split_and!; [|done|].
      + destruct (onpath_found cmp HO _ _ _ _ _ _ _ Ha Hk). rewrite entries_del.
        eapply get_present; [done|done|done|by rewrite fmap_app|by rewrite fmap_app].
      + rewrite decide_False by done. rewrite (rep_node t ctx _ _ _ _ _ HR). done.
  Qed.
  Lemma av_node_ok t U i kv : rep t U → (i, kv) ∈ entries U → av_get_node t i = Val kv.
  Proof using Type.
    clear HO. intros HR (ctx & m & l & r & ->)%entries_focus. exact (rep_node t ctx _ _ _ _ _ HR).
  Qed.
  Lemma wp_get_mut' t U k f (Q : option V → avlt → Prop) :
    avok t U →
    (∀ o t' U', avok t' U' → upd_rel cmp k f (entries U) o (entries U') → (o = None → t' = t) → same_shape U U' → Q o t') →
    wp (av_get_mut pcmp k f) t Q.
  Proof using GA HO.
    intros Hok HQ. destruct (av_addr_ok t U k Hok) as (i & kvo & Hr & Haddr & _).
    eapply wp_ext; [apply av_get_mut_s_ok|]. unfold av_get_mut_s.
    apply wp_bind. eapply wp_gets; [exact Haddr|].
    inversion Hr as [A B i' kv HE Hnz Hk Hb Ha|A B HE Hb Ha]; subst.
    - rewrite decide_False by done. pose proof Hok as [HR Hbal Hasc].
      destruct (entries_focus U i kv) as (ctx & m & l & r & ->).
      { rewrite HE. apply elem_of_app. right. apply elem_of_list_here. }
      apply wp_bind. eapply wp_gets; [exact (rep_node t ctx _ _ _ _ _ HR)|].
      apply wp_bind. eapply rep_set_value; [exact HR|]. intros t' HR'. apply wp_ret.
      eapply HQ; [by eapply avok_set_value| |done|apply same_plug].
      destruct (onpath_found cmp HO _ _ _ _ _ _ _ Hasc Hk). rewrite !entries_del.
      eapply upd_present; [done|done|by rewrite fmap_app|by rewrite fmap_app].
    - rewrite decide_True by done. apply wp_ret. eapply HQ; [exact Hok| |done|apply same_shape_refl]. by eapply upd_absent.
  Qed.
  Lemma av_min_index t U : rep t U → av_find_min_index t = Val (tmin U).
  Proof using Type.
    clear HO. intros HR. unfold av_find_min_index. rewrite (rep_root _ _ _ HR). case_decide as E0.
    { apply (rep_Lf t []) in E0; [|exact HR]. by subst U. }
    apply na_find_min; [by apply rep_shp|].
    pose proof (rep_tsize _ _ _ HR). pose proof (height_tsize U). erewrite R_fuel by exact HR. lia.
  Qed.
  Lemma av_max_index t U : rep t U → av_find_max_index t = Val (tmax U).
  Proof using Type.
    clear HO. intros HR. unfold av_find_max_index. rewrite (rep_root _ _ _ HR). case_decide as E0.
    { apply (rep_Lf t []) in E0; [|exact HR]. by subst U. }
    apply na_find_max; [by apply rep_shp|].
    pose proof (rep_tsize _ _ _ HR). pose proof (height_tsize U). erewrite R_fuel by exact HR. lia.
  Qed.
  Lemma av_min_ok t U : rep t U → av_get_min t = Val (head (entries U).*2).
  Proof using Type.
    clear HO. intros HR. unfold av_get_min. rewrite (av_min_index t U HR). simpl.
    destruct U as [|m l i kv r]; [done|]. destruct (tmin_head (Nd m l i kv r)) as (kv' & es & He); [done|].
    assert ((tmin (Nd m l i kv r), kv') ∈ entries (Nd m l i kv r)) as Hin by (rewrite He; apply elem_of_list_here).
    rewrite decide_False.
    - rewrite (av_node_ok _ _ _ _ HR Hin). rewrite He. done.
    - intros H0. destruct HR as [Hc _]. destruct (cells_entries rgav 0 _ _ _ Hin) as [rs Hrs]. by apply (CH_nz _ _ _ _ _ _ Hc Hrs).
  Qed.
  Lemma av_max_ok t U : rep t U → av_get_max t = Val (last (entries U).*2).
  Proof using Type.
    clear HO. intros HR. unfold av_get_max. rewrite (av_max_index t U HR). simpl.
    destruct U as [|m l i kv r]; [done|]. destruct (tmax_last (Nd m l i kv r)) as (kv' & es & He); [done|].
    assert ((tmax (Nd m l i kv r), kv') ∈ entries (Nd m l i kv r)) as Hin.
    { rewrite He. apply elem_of_app. right. apply elem_of_list_here. }
    rewrite decide_False.
    - rewrite (av_node_ok _ _ _ _ HR Hin). rewrite He, fmap_app. simpl. by rewrite last_snoc.
    - intros H0. destruct HR as [Hc _]. destruct (cells_entries rgav 0 _ _ _ Hin) as [rs Hrs]. by apply (CH_nz _ _ _ _ _ _ Hc Hrs).
  Qed.
  Lemma av_iterate_ok t U sc : rep t U → av_iterate t sc = Val (de_spec sc (entries U).*2).
  Proof using Type.
    clear HO. intros HR. unfold av_iterate, av_iter. rewrite (rep_root _ _ _ HR). destruct HR as [Hc _].
    exact (ti_drive rgav rgav_ok cap _ _ sc Hc).
  Qed.
  Lemma av_iterate_mut_ok t U sc (Q : list (option (N * (K * V))) → avlt → Prop) :
    avok t U →
    (∀ t' U', avok t' U' → same_shape U U' → entries U' = (de_mut_spec upd_ent sc (entries U)).2 →
      Q (de_mut_spec upd_ent sc (entries U)).1 t') →
    wp (av_iterate_mut sc) t Q.
  Proof using Type GA.
    clear HO. intros [HR Hb Ha] HQ. unfold av_iterate_mut.
    assert (wp (drive_mut av_iter_mut_next av_iter_mut_next_back sc) (t, av_iter t) (λ o st, Q o st.1)) as Hw.
    { unfold av_iter_mut_next, av_iter_mut_next_back, av_on_iter.
      apply (drive_mut_zoom (λ st : avlt * titer, (av_al st.1, st.2)) (λ at_ st, (set_aal at_.1 st.1, at_.2))).
      - by intros [[] ?].
      - by intros [] [[] ?].
      - by intros [] [] [[] ?].
      - simpl. unfold av_iter. rewrite (rep_root _ _ _ HR). destruct HR as [Hc Hr].
        eapply (ti_drive_mut rgav rgav_ok cap); [exact Hc|]. intros a' it' U' Hc' Hss Hk He. simpl.
        eapply HQ; [|exact Hss|exact He]. split.
        + split; [exact Hc'|]. simpl. rewrite Hr. by apply same_shape_root.
        + by eapply avl_same.
        + by eapply ascending_keys. }
    unfold wp in *. destruct (drive_mut _ _ sc (t, av_iter t)) as [a [t' it]|e [t' it]]; done.
  Qed.

  Definition AVI t (E : list (N * (K * V))) : Prop := ∃ U, avok t U ∧ entries U = E.
  Lemma av_om_ok : 0 < cap → om_ok (av_api pcmp) cmp cap AVI.
  Proof using GR GA HO.
    intros Hcap. split; unfold av_api; simpl.
    - intros t E (U & [] & <-). done.
    - intros t E (U & [] & <-). by eapply rep_NoDup.
    - intros t E k v (U & Hok & <-). eapply wp_insert; [exact Hok|done|]. intros o t' U' Hok' Hr Hn.
      exists (entries U'). split_and!; [by exists U'|done|done].
    - intros t E k (U & Hok & <-). eapply wp_remove; [exact Hok|]. intros o t' U' Hok' Hr Hn.
      exists (entries U'). split_and!; [by exists U'|done|done].
    - intros t E k (U & Hok & <-). by apply av_addr_ok.
    - intros t E i kv (U & [] & <-) Hin. by eapply av_node_ok.
    - intros t E k f (U & Hok & <-). eapply wp_get_mut'; [exact Hok|]. intros o t' U' Hok' Hr Hn _.
      exists (entries U'). split_and!; [by exists U'|done|done].
    - intros t k o Hg. unfold av_contains. by rewrite Hg.
    - intros t E (U & [] & <-). by apply rep_len.
    - intros t E (U & [] & <-). by eapply rep_cap.
    - intros t E (U & [] & <-). by apply av_min_ok.
    - intros t E (U & [] & <-). by apply av_max_ok.
    - intros t k o Hg. unfold av_index. rewrite Hg. by destruct o.
    - intros t k f o t' Hg. unfold av_index_mut, mbind, M_bind. rewrite Hg. by destruct o.
    - intros t E sc (U & [] & <-). by apply av_iterate_ok.
    - intros t E sc (U & Hok & <-). eapply av_iterate_mut_ok; [exact Hok|]. intros t' U' Hok' _ He.
      split; [done|]. by exists U'.
  Qed.
End ops.
Lemma avok_new {K V} (pcmp : K → K → option comparison) ms (d : K * V) :
  N.of_nat ms + 1 < W32 → avok pcmp (N.of_nat ms) (av_new ms d) Lf.
Proof.
  intros Hw. split.
  - split; [|done]. apply CH_new; [done|done|lia].
  - constructor.
  - constructor.
Qed.
