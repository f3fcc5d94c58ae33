(** * The operations of the red-black tree model on ghost trees *)
From Verif Require Export MapSim RBApi RBFix.

Section ops.
  Context `{Profile} {K V : Type} (cmp : K → K → comparison) (HO : OrdLaws cmp) {G : Ghost (K * V)} `{GA : !GAdd G} `{GR : !GRem G} (cap : N).
  Notation tree := (tree (K * V)).
  Notation frame := (frame (K * V)).
  Notation rbt := (rbt K V).
  Notation rep := (rep (K := K) (V := V) cap).
  Notation R := (R (K := K) (V := V) cap).
  Notation cells := (cells rgrb).
  Notation ccellsb := (ccellsb rgrb).
  Notation ccells := (ccellsb 0).
  Implicit Types t : rbt.
  Implicit Types s x y z U : tree.
  Implicit Types ctx : list frame.

  Definition balanced U : Prop := mark U = 0 ∧ ∃ n, rbi U n.
  Record rbok t U : Prop := {
    rbok_rep : rep t U;
    rbok_bal : balanced U;
    rbok_asc : ascending cmp (entries U).*2 }.

  Lemma rep_len t U : rep t U → rb_len t = lengthN (entries U).
  Proof using Type. clear HO. intros [Hc _]. by eapply CH_size_entries. Qed.
  Lemma rep_cap t U : rep t U → rb_capacity t = cap.
  Proof using Type. clear HO. intros [Hc _]. by eapply CH_cap. Qed.
  Lemma rep_len_le t U : rep t U → lengthN (entries U) ≤ cap.
  Proof using Type. clear HO. intros [Hc _]. rewrite <- (cells_length rgrb 0). by eapply CH_len_le. Qed.
  Lemma rep_NoDup t U : rep t U → NoDup (entries U).*1.
  Proof using Type. clear HO. intros [Hc _]. by eapply CH_addrs_NoDup. Qed.

  Lemma rep_set_value t ctx m l i kv r v (Q : () → rbt → Prop) :
    rep t (plug ctx (Nd m l i kv r)) → (∀ t', rep t' (plug ctx (Nd m l i (kv.1, v) r)) → Q () t') →
    wp (rb_set_node_value i v) t Q.
  Proof using Type GA.
    clear HO. intros [Hc Hr] HQ. unfold rb_set_node_value. apply R_on.
    eapply (CH_set_pair rgrb cap _ ctx m l i kv r (kv.1, v)); [exact Hc|by intros n <-|]. intros a' Hc'. apply HQ.
    split; [done|]. simpl. rewrite Hr, !root_plug. done.
  Qed.
  Lemma same_plug ctx m l i (kv kv' : K * V) r : same_shape (plug ctx (Nd m l i kv r)) (plug ctx (Nd m l i kv' r)).
  Proof using Type. apply same_shape_plug. constructor; apply same_shape_refl. Qed.
  Lemma balanced_same U U' : same_shape U U' → balanced U → balanced U'.
  Proof using Type.
    intros Hs [Hm [n Hn]]. split; [by rewrite <- (same_shape_mark _ _ Hs)|]. exists n. by eapply rbi_same.
  Qed.
  Lemma keys_plug ctx m l i (k : K) (v v' : V) r :
    (entries (plug ctx (Nd m l i (k, v) r))).*2.*1 = (entries (plug ctx (Nd m l i (k, v') r))).*2.*1.
  Proof using Type. rewrite !entries_plug. simpl. by rewrite !fmap_app, !fmap_cons. Qed.
  Lemma rbok_set_value t t' ctx m l i kv r v :
    rbok t (plug ctx (Nd m l i kv r)) → rep t' (plug ctx (Nd m l i (kv.1, v) r)) →
    rbok t' (plug ctx (Nd m l i (kv.1, v) r)).
  Proof using Type.
    clear HO. intros [Hr Hb Ha] Hr'. split; [done|eapply balanced_same; [apply same_plug|done]|].
    eapply ascending_keys; [|exact Ha]. destruct kv. apply keys_plug.
  Qed.

  (** Attaching a new red leaf *)
  Lemma wp_attach t d m p kvp o ctx i (kv : K * V) (Q : () → rbt → Prop) :
    R t ((i, Node (replicate 4 0) kv) :: cells 0 (plug (F d m p kvp o :: ctx) Lf)) (root (plug (F d m p kvp o :: ctx) Lf)) →
    (∀ t', rep t' (plug (F d m p kvp o :: ctx) (Nd 1 Lf i kv Lf)) → Q () t') →
    wp (rb_color_red i;; rb_connect p i (dN d)) t Q.
  Proof using Type.
    clear HO. intros HR HQ. apply wp_bind. unfold rb_color_red.
    assert (i ≠ 0) as Hi. { destruct HR as [HR _]. eapply CH_nz; [exact HR|apply elem_of_list_here]. }
    rewrite decide_False by done.
    eapply R_set; [exact HR|done|]. clear t HR. intros t HR.
    apply rb_connect_set, wp_bind.
    eapply (R_rehole cap t [(i, setr COLOR Red (Node (replicate 4 0) kv))] _ 0 d m p kvp o ctx 0 i).
    { eapply R_perm; [exact HR|]. rewrite (cells_plug rgrb (F d m p kvp o :: ctx) Lf).
      apply (Permutation_app_comm [_] (ccells (F d m p kvp o :: ctx) 0)). }
    clear t HR. intros t HR.
    eapply (R_set _ _ _ _ i); [eapply R_perm; [exact HR|apply (Permutation_app_comm _ [_])]|done|].
    intros t' HR'. apply HQ. apply rep_focus. rewrite root_plug in HR'. exact HR'.
  Qed.

  Lemma wp_insert_loop fuel t ctx m l i kv r k v (Q : option N → rbt → Prop) :
    rbok t (plug ctx (Nd m l i kv r)) → onpath cmp k ctx → (height (Nd m l i kv r) ≤ fuel)%nat →
    (∀ o t' U', rbok t' U' → ins_rel cmp cap k v (entries (plug ctx (Nd m l i kv r))) o (entries U') →
       (o = None → t' = t) → Q o t') →
    wp (rb_insert_loop cmp fuel k v i) t Q.
  Proof using GA HO.
    revert ctx m l i kv r. induction fuel as [|fuel IH]; intros ctx m l i kv r Hok Hp Hh HQ; [simpl in Hh; lia|].
    pose proof Hok as [HR Hbal Hasc]. simpl rb_insert_loop. apply wp_bind. eapply wp_gets; [by eapply rep_node|].
    set (U := plug ctx (Nd m l i kv r)) in *.
    (* the new leaf *)
    assert (∀ d (o : tree), U = plug (F d m i kv o :: ctx) Lf → onpath cmp k (F d m i kv o :: ctx) →
      wp (t ← mget;
            if decide (rb_capacity t ≤ rb_len t) then mret None
            else
              node_index ← rb_on (na_add_node (k, v));
              rb_color_red node_index;;
              rb_connect i node_index (dN d);;
              grandparent ← gets (λ t, rb_get_parent t i);
              (if decide (grandparent ≠ SENTINEL) then rb_fix_insert node_index else mret ());;
              mret (Some node_index)) t Q) as Hnew.
    { clear IH. intros d o HU Hp'. rewrite HU in *. clear U HU. apply wp_bind, wp_mget.
      rewrite (rep_cap _ _ HR), (rep_len _ _ HR). pose proof (rep_len_le _ _ HR) as Hle.
      set (f := F d m i kv o) in *.
      assert (entries (plug (f :: ctx) Lf) = cbef (f :: ctx) ++ caft (f :: ctx)) as HE by exact (entries_plug (f :: ctx) Lf).
      destruct Hp' as [Hb Ha].
      case_decide as Hfull.
      - apply wp_ret. eapply (HQ None t); [exact Hok| |done]. eapply ins_full; [exact HE|lia|done|done].
      - apply wp_bind, R_on. destruct HR as [Hc Hr]. eapply CH_add_node; [exact _|exact Hc|rewrite cells_length; lia|].
        intros i' a' Hc'.
        assert (R (set_ral a' t) ((i', Node (replicate 4 0) (k, v)) :: cells 0 (plug (f :: ctx) Lf)) (root (plug (f :: ctx) Lf)))
          as HR' by done.
        assert (i' ∉ (entries (plug (f :: ctx) Lf)).*1) as Hfresh.
        { apply CH_NoDup in Hc'. simpl in Hc'. apply NoDup_cons in Hc' as [Hc' _]. by rewrite <- (cells_addrs rgrb 0). }
        assert (i' ≠ 0) as Hnz by (eapply CH_nz; [exact Hc'|apply elem_of_list_here]).
        assert (i' ≤ cap) as Hicap by (eapply CH_le; [exact Hc'|apply elem_of_list_here]).
        clear Hc Hr. revert HR'. generalize (set_ral a' t). clear a' Hc'. intros t1 HR1.
        assert (∀ t' U', rep t' U' → balanced U' → entries U' = entries (plug (f :: ctx) (Nd 1 Lf i' (k, v) Lf)) →
          Q (Some i') t') as Hfin.
        { intros t' U' HR' Hb' He'. rewrite entries_plug in He'. simpl in He'. eapply (HQ _ _ U'); [split; [done|done|]| |done].
          - rewrite He', fmap_app, fmap_cons. apply ascending_insert; [done| |done|done].
            by rewrite HE, fmap_app in Hasc.
          - rewrite He'. eapply ins_new; [exact HE|lia|done|done|done|done|done]. }
        assert (wp (rb_color_red i' ;; rb_connect i i' (dN d)) t1 (λ _ t', rep t' (plug (f :: ctx) (Nd 1 Lf i' (k, v) Lf)))) as Hat.
        { eapply wp_attach; [exact HR1|]. done. }
        apply wp_elim in Hat as ([] & t2 & He2 & HR2). unfold mbind, M_bind in He2.
        apply wp_bind. unfold wp. destruct (rb_color_red i' t1) as [u1 t1'|e t1'] eqn:E1; [|done].
        apply wp_bind. unfold wp. rewrite He2.
        apply wp_bind. eapply wp_gets; [by eapply (rep_frame_parent cap t2 _ d m i kv o ctx)|].
        destruct Hbal as [Hm [n Hn]]. destruct (cx_unplug _ _ _ Hn Hm) as (n' & HLf & Hcx & Hcp).
        inversion HLf; subst n'.
        assert (rbi (Nd 1 Lf i' (k, v) Lf) 0) as Hrbi by (constructor; constructor || done).
        apply wp_bind. case_decide as Hg.
        + eapply wp_fix_insert; [exact HR2|exact Hrbi|exact Hcx|].
          intros t' U' n' HR' Hr' Hm' He'. apply wp_ret. apply (Hfin t' U' HR'); [split; eauto|done].
        + apply wp_ret, wp_ret. apply (Hfin t2 _ HR2); [|done].
          destruct ctx as [|f' ctx].
          * split; [by eapply cx_root|]. eapply cx_plug; [exact Hrbi|exact Hcx|].
            intros _ Hfm. exfalso. unfold f in *. simpl in Hfm. subst m. inversion Hcx.
          * exfalso. revert Hg. simpl. destruct f' as [d' m' g kvg o'].
            exact (rep_frame_nz cap t2 _ d' m' g kvg o' ctx (mk d m (Nd 1 Lf i' (k, v) Lf) i kv o) HR2 eq_refl). }
    destruct (cmp k kv.1) eqn:Ek.
    - apply wp_bind. eapply rep_set_value; [exact HR|]. intros t' HR'. apply wp_ret.
      eapply HQ; [by eapply rbok_set_value| |done].
      destruct (onpath_found cmp HO _ _ _ _ _ _ _ Hasc Ek) as [Hb Ha].
      unfold U. rewrite !entries_plug. simpl. rewrite <- !app_assoc. simpl.
      rewrite !(app_assoc (cbef ctx)). eapply ins_present; [done|done|by rewrite fmap_app|by rewrite fmap_app].
    - apply wp_bind. eapply wp_gets; [by eapply rep_left|]. destruct l as [|ml ll il kvl rl].
      + rewrite decide_True by done. apply (Hnew false r); [done|]. by eapply onpath_left.
      + rewrite decide_False by (eapply (rep_nz cap t _ (F false m i kv r :: ctx)); [exact HR|done]).
        eapply (IH (F false m i kv r :: ctx)); [exact Hok|by eapply onpath_left|simpl in *; lia|exact HQ].
    - apply wp_bind. eapply wp_gets; [by eapply rep_right|]. destruct r as [|mr lr ir kvr rr].
      + rewrite decide_True by done. apply (Hnew true l); [done|]. by eapply onpath_right.
      + rewrite decide_False by (eapply (rep_nz cap t _ (F true m i kv l :: ctx)); [exact HR|done]).
        eapply (IH (F true m i kv l :: ctx)); [exact Hok|by eapply onpath_right|simpl in *; lia|exact HQ].
  Qed.

  Lemma wp_insert t U k v (Q : option N → rbt → Prop) :
    rbok t U → 0 < cap →
    (∀ o t' U', rbok t' U' → ins_rel cmp cap k v (entries U) o (entries U') → (o = None → t' = t) → Q o t') →
    wp (rb_insert cmp k v) t Q.
  Proof using GA HO. clear GR.
    intros Hok Hcap HQ. pose proof Hok as [HR Hbal Hasc]. unfold rb_insert. apply wp_bind, wp_mget.
    rewrite (rep_root _ _ _ HR). destruct U as [|m l i kv r].
    - rewrite decide_True by done. apply wp_bind, R_on. destruct HR as [Hc Hr].
      eapply CH_add_node; [exact _|exact Hc|done|]. intros i a' Hc'. apply wp_bind, wp_modify, wp_ret.
      eapply (HQ _ _ (Nd 0 Lf i (k, v) Lf)); [| |done].
      + split.
        * split; [|done]. exact Hc'.
        * split; [done|]. exists 1%nat. by repeat constructor.
        * repeat constructor.
      + simpl. eapply (ins_new cmp cap k v [] [] []); [done|done|constructor|constructor|set_solver| |].
        * eapply CH_nz; [exact Hc'|apply elem_of_list_here].
        * eapply CH_le; [exact Hc'|apply elem_of_list_here].
    - rewrite decide_False by (eapply (rep_nz cap t _ []); [exact HR|done]).
      eapply (wp_insert_loop _ t [] m l i kv r); [exact Hok|apply onpath_nil| |exact HQ].
      pose proof (rep_tsize _ _ _ HR). pose proof (height_tsize (Nd m l i kv r)).
      erewrite R_fuel by exact HR. lia.
  Qed.

  (** *** Removal *)
  Lemma cx_readdr cm d c i kv j kv' (o : tree) ctx n :
    cx (cm ++ F d c i kv o :: ctx) n → cx (cm ++ F d c j kv' o :: ctx) n.
  Proof using Type.
    clear HO. revert n. induction cm as [|f cm IH]; intros n Hc; simpl in *.
    - inversion Hc; subst; by constructor.
    - destruct cm as [|f' cm]; simpl in *; inversion Hc; subst; constructor; try done; by apply IH.
  Qed.

  Lemma wp_transplant t ctx cs (target source a b m : N) kv (Q : () → rbt → Prop) :
    R t (ccells ctx target ++ cs) (croot ctx target) →
    (target, Node [a; b; ctop ctx; m] kv) ∈ cs →
    (∀ t', R t' (ccells ctx source ++ cs) (croot ctx source) → wp (rb_on (na_set_register source (ctop ctx) Parent)) t' Q) →
    wp (rb_transplant target source) t Q.
  Proof using Type.
    clear HO. intros HR Hin HQ. unfold rb_transplant. apply wp_bind.
    eapply wp_gets; [eapply R_parent; [exact HR|inl]|].
    destruct ctx as [|[d c g kvg o] ctx].
    - rewrite decide_True by done. apply wp_bind, wp_modify. apply HQ. split; [apply HR|done].
    - simpl ctop. rewrite decide_False.
      2:{ eapply R_nz; [exact HR|]. simpl. apply elem_of_list_here. }
      apply wp_bind. eapply wp_gets.
      { eapply (R_child_dir cap t _ _ d g (root o)); [exact HR| |].
        - simpl. unfold rgrb. apply elem_of_list_here.
        - apply elem_of_list_split in Hin as (cs1 & cs2 & ->).
          eapply (R_ne_root cap t (ccells (F d c g kvg o :: ctx) target ++ cs1 ++ cs2)).
          + eapply R_perm; [exact HR|]. rewrite <- (Permutation_middle cs1). symmetry. apply Permutation_middle.
          + intros e He. simpl. rewrite elem_of_cons, !elem_of_app. right. left. left. exact He. }
      apply rb_connect_set, wp_bind. eapply R_rehole; [exact HR|]. intros t' HR'. by apply HQ.
  Qed.

  Lemma wp_remove_allocator_node t cs rt i a b p m (kv : K * V) (Q : () → rbt → Prop) :
    R t ((i, Node [a; b; p; m] kv) :: cs) rt → (∀ t', R t' cs rt → Q () t') → wp (rb_remove_allocator_node i) t Q.
  Proof using Type GR.
    clear HO. intros HR HQ. unfold rb_remove_allocator_node.
    apply wp_bind. eapply R_set; [exact HR|done|]. clear t HR. intros t HR.
    apply wp_bind. eapply R_set; [exact HR|done|]. clear t HR. intros t HR.
    apply wp_bind. eapply R_set; [exact HR|done|]. clear t HR. intros t HR.
    apply wp_bind. eapply R_set; [exact HR|done|]. clear t HR. intros t [Hc Hr].
    apply wp_bind, R_on. eapply CH_remove_node; [exact _|exact Hc|]. intros a' Hc'. apply wp_ret. apply HQ. done.
  Qed.

  Definition pd_ok (full : list frame) x (pd : option (N * N)) : Prop :=
    match full with
    | [] => True
    | F d _ p _ _ :: _ => pd = Some (p, dN d) ∨ pd = None ∧ x ≠ Lf
    end.
  Definition hole_ok (full : list frame) x n (mc : N) : Prop :=
    mc = 0 ∧ cx full (S n) ∨ mc = 1 ∧ cx full n ∧ full ≠ [] ∧ mark x = 0.
  Lemma wp_fix_phase t full x n mc pd (Q : () → rbt → Prop) :
    rep t (plug full x) → rbi x n → hole_ok full x n mc → pd_ok full x pd →
    (∀ t' U', rep t' U' → balanced U' → entries U' = entries (plug full x) → Q () t') →
    wp (if bool_decide (mc = 0) then
          t ← mget; if rb_is_root t (root x) then rb_color_black (root x) else rb_fix_remove (root x) pd
        else mret ()) t Q.
  Proof using Type.
    clear HO. intros HR Hx Hh Hpd HQ. destruct Hh as [[-> Hcx]|(-> & Hcx & Hne & Hm)].
    - rewrite bool_decide_true by done. apply wp_bind, wp_mget. destruct full as [|[d c p kvp o] full].
      + replace (rb_is_root t (root x)) with true.
        2:{ symmetry. apply bool_decide_eq_true. apply (rep_root _ _ _ HR). }
        eapply (rep_black_set cap t _ []); [exact HR|done|]. intros t' HR'. simpl in HR'.
        eapply HQ; [exact HR'|split; [apply setm_mark|by eapply rbi_setm_black]|apply setm_entries].
      + replace (rb_is_root t (root x)) with false.
        2:{ symmetry. apply bool_decide_eq_false. destruct x as [|mx xl xi xkv xr].
            - rewrite (rep_root _ _ _ HR). eapply (rep_nz' cap t _ []); [exact HR|done|].
              intros [? _]%plug_Lf. done.
            - by eapply (rep_root_inner cap t _ _ _ HR). }
        eapply wp_fix_remove; [exact HR|exact Hx|exact Hcx|exact Hpd|].
        intros t' U' n' HR' Hb' Hm' He'. eapply HQ; [exact HR'|split; eauto|done].
    - rewrite bool_decide_false by done. apply wp_ret. eapply HQ; [exact HR| |done].
      split; [by eapply cx_root|]. eapply cx_plug; [exact Hx|exact Hcx|]. intros _. destruct full; naive_solver.
  Qed.

  (** moving the maximum [j] of the left subtree (already cut out) to the place of [i] *)
  Lemma wp_replace t ctx c (l' r : tree) i kv j kvj (li pj mj : N) {A} (a : A) (Q : A → rbt → Prop) :
    R t ((j, Node [root l'; 0; pj; mj] kvj) :: (i, Node [li; root r; ctop ctx; c] kv) ::
         cells j l' ++ cells i r ++ ccells ctx i) (croot ctx i) →
    (∀ t', R t' ((i, Node [li; root r; ctop ctx; c] kv) :: cells 0 (plug ctx (Nd c l' j kvj r)))
             (root (plug ctx (Nd c l' j kvj r))) → Q a t') →
    wp (rb_transplant i j;;
        r ← gets (λ t, rb_get_right t i);
        rb_connect j r Right;;
        c ← gets (λ t, rb_get_color t i);
        rb_color_node j c;;
        mret a) t Q.
  Proof using Type.
    clear HO. intros HR HQ. apply wp_bind.
    set (nI := Node [li; root r; ctop ctx; c] kv) in *.
    eapply (wp_transplant t ctx ((j, Node [root l'; 0; pj; mj] kvj) :: (i, nI) :: cells j l' ++ cells i r) i j).
    { eapply R_perm; [exact HR|]. generalize (ccells ctx i), (cells j l'), (cells i r). intros X Y Z. solve_Permutation. }
    { apply elem_of_list_further, elem_of_list_here. }
    clear t HR. intros t HR.
    eapply (R_set _ _ ((i, nI) :: cells j l' ++ cells i r ++ ccells ctx j) _ j (Node [root l'; 0; pj; mj] kvj));
      [eapply R_perm; [exact HR|]|done|].
    { generalize (ccells ctx j), (cells j l'), (cells i r). intros X Y Z. solve_Permutation. }
    clear t HR. intros t HR. change (setr Parent (ctop ctx) _) with (Node [root l'; 0; ctop ctx; mj] kvj) in HR.
    apply wp_bind. eapply wp_gets; [eapply (R_right cap t); [exact HR|apply elem_of_list_further, elem_of_list_here]|].
    apply wp_bind, rb_connect_set, wp_bind. eapply R_set; [exact HR|done|]. clear t HR. intros t HR.
    change (setr Right (root r) _) with (Node [root l'; root r; ctop ctx; mj] kvj) in HR.
    eapply (R_reparent cap t ((j, Node [root l'; root r; ctop ctx; mj] kvj) :: (i, nI) :: cells j l' ++ ccells ctx j) _ r i j).
    { eapply R_perm; [exact HR|]. generalize (ccells ctx j), (cells j l'), (cells i r). intros X Y Z. solve_Permutation. }
    clear t HR. intros t HR.
    apply wp_bind. eapply wp_gets; [eapply (R_color cap t); [exact HR|inl]|].
    apply wp_bind. unfold rb_color_node.
    eapply (R_set _ _ ((i, nI) :: cells j l' ++ cells j r ++ ccells ctx j) _ j (Node [root l'; root r; ctop ctx; mj] kvj));
      [eapply R_perm; [exact HR|]|done|].
    { generalize (ccells ctx j), (cells j l'), (cells j r). intros X Y Z. solve_Permutation. }
    clear t HR. intros t HR. apply wp_ret, HQ. rewrite root_plug. simpl. eapply R_perm; [exact HR|].
    rewrite cells_plug. simpl. unfold rgrb. rewrite <- app_assoc. apply perm_swap.
  Qed.

  Lemma max_split (l : tree) :
    l ≠ Lf → ∃ cm mc ml j kvj, l = plug cm (Nd mc ml j kvj Lf) ∧ j = tmax l ∧
      Forall (λ f, fd f = true) cm.
  Proof using Type.
    clear HO. induction l as [|m l _ i kv r IH]; [done|]. intros _. destruct r as [|mr rl ir kvr rr].
    - exists [], m, l, i, kv. done.
    - destruct IH as (cm & mc & ml & j & kvj & Hr & Hj & Hcm); [done|].
      exists (cm ++ [F true m i kv l]), mc, ml, j, kvj. rewrite plug_app, <- Hr.
      split_and!; [done|done|]. by apply Forall_app, conj, Forall_singleton.
  Qed.

  Lemma caft_right (cm : list frame) : Forall (λ f, fd f = true) cm → caft cm = [].
  Proof using Type. clear HO. induction 1 as [|[d m a kv o] cm Hd _ IH]; [done|]. simpl in *. by subst d. Qed.

  Lemma addr_l_ne ctx m (l : tree) i (kv : K * V) r j :
    NoDup (entries (plug ctx (Nd m l i kv r))).*1 → j ∈ (entries l).*1 → j ≠ i.
  Proof using Type.
    clear HO. rewrite entries_plug. simpl. rewrite !fmap_app. simpl. intros Hnd Hj ->.
    apply NoDup_app in Hnd as (_ & _ & Hnd). apply NoDup_app in Hnd as (Hnd & _).
    apply NoDup_app in Hnd as (_ & Hnd & _). apply (Hnd i Hj). apply elem_of_list_here.
  Qed.

  Lemma rep_find_max t ctx s :
    rep t (plug ctx s) → rb_find_max t (root s) = Val (tmax s).
  Proof using Type.
    clear HO. intros HR. unfold rb_find_max. apply na_find_max.
    - eapply (shp_plug _ ctx). destruct HR as [Hc _]. by eapply (CH_shp rgrb rgrb_ok).
    - pose proof (rep_tsize _ _ _ HR) as Hts. rewrite tsize_plug in Hts. pose proof (height_tsize s).
      erewrite R_fuel by exact HR. lia.
  Qed.
  Lemma rep_is_leaf t ctx m l i kv r :
    rep t (plug ctx (Nd m l i kv r)) → rb_is_leaf t i = Val (match l, r with Lf, Lf => true | _, _ => false end).
  Proof using Type.
    clear HO. intros HR. unfold rb_is_leaf. rewrite (rep_left cap t _ ctx _ _ _ _ _ HR eq_refl). simpl.
    destruct l as [|ml ll il kvl rl].
    - rewrite decide_True by done. rewrite (rep_right cap t _ ctx _ _ _ _ _ HR eq_refl). simpl. destruct r as [|mr lr ir kvr rr]; [done|].
      rewrite bool_decide_false; [done|]. exact (rep_nz cap t _ (F true m i kv Lf :: ctx) _ _ _ _ _ HR eq_refl).
    - rewrite decide_False; [done|]. exact (rep_nz cap t _ (F false m i kv r :: ctx) _ _ _ _ _ HR eq_refl).
  Qed.

  Lemma wp_one t ctx d m x i kv (Q : () → rbt → Prop) :
    rep t (plug ctx (mk d m x i kv Lf)) → x ≠ Lf →
    (∀ t', R t' ((i, Node [if d then 0 else root x; if d then root x else 0; ctop ctx; m] kv) :: cells 0 (plug ctx x))
       (root (plug ctx x)) → Q () t') →
    wp (rb_transplant i (root x)) t Q.
  Proof using Type.
    clear HO. intros HR Hx HQ. apply rep_focus in HR.
    set (nI := Node [if d then 0 else root x; if d then root x else 0; ctop ctx; m] kv) in *.
    eapply (wp_transplant t ctx ((i, nI) :: cells i x)).
    { rewrite root_mk in HR. eapply R_perm; [exact HR|]. rewrite cells_mk.
      generalize (ccells ctx i), (cells i x). unfold rgrb, nI. intros X Y. destruct d; simpl; solve_Permutation. }
    { apply elem_of_list_here. }
    clear t HR. intros t HR. eapply (R_reparent cap t ((i, nI) :: ccells ctx (root x)) _ x i).
    { eapply R_perm; [exact HR|]. generalize (ccells ctx (root x)), (cells i x). intros X Y. solve_Permutation. }
    intros t' HR'. apply HQ. rewrite root_plug. eapply R_perm; [exact HR'|]. rewrite cells_plug. symmetry.
    apply Permutation_middle.
  Qed.

  Lemma wp_remove_tree_node t ctx m (l : tree) i kv (r : tree) (Q : () → rbt → Prop) :
    rep t (plug ctx (Nd m l i kv r)) → balanced (plug ctx (Nd m l i kv r)) →
    (∀ t' U', rep t' U' → balanced U' → entries U' = cbef ctx ++ entries l ++ entries r ++ caft ctx → Q () t') →
    wp (rb_remove_tree_node i) t Q.
  Proof using Type GR.
    clear HO. intros HR [Hm0 [n0 Hn0]] HQ. destruct (cx_unplug _ _ _ Hn0 Hm0) as (n & Hnd & Hcx & Hcp). clear n0 Hn0.
    assert (i ≠ 0) as Hi by (eapply (rep_nz cap t _ ctx); [exact HR|done]).
    unfold rb_remove_tree_node.
    apply wp_bind. eapply wp_gets; [exact (rep_black cap t _ ctx (Nd m l i kv r) HR eq_refl)|].
    apply wp_bind. eapply wp_gets; [exact (rep_left cap t _ ctx _ _ _ _ _ HR eq_refl)|].
    apply wp_bind. eapply wp_gets; [exact (rep_right cap t _ ctx _ _ _ _ _ HR eq_refl)|].
    apply wp_bind. eapply wp_gets; [by apply (rep_is_leaf t ctx _ _ _ _ _ HR)|].
    simpl mark.
    (* the rest, after the structural change *)
    assert (∀ t1 full x n1 mc pd a b p c, R t1 ((i, Node [a; b; p; c] kv) :: cells 0 (plug full x)) (root (plug full x)) →
      rbi x n1 → hole_ok full x n1 mc → pd_ok full x pd →
      entries (plug full x) = cbef ctx ++ entries l ++ entries r ++ caft ctx →
      wp (let '(pivot, parent_and_dir, is_black) := (root x, pd, bool_decide (mc = 0)) in
          rb_remove_allocator_node i;;
          if (is_black : bool) then
            t ← mget;
            if rb_is_root t pivot then rb_color_black pivot
            else rb_fix_remove pivot parent_and_dir
          else mret ()) t1 Q) as Hrest.
    { intros t1 full x n1 mc pd a b p c HR1 Hx Hh Hpd He. apply wp_bind.
      eapply wp_remove_allocator_node; [exact HR1|]. intros t2 HR2.
      eapply wp_fix_phase; [exact HR2|exact Hx|exact Hh|exact Hpd|].
      intros t' U' HR' Hb' He'. eapply HQ; [exact HR'|exact Hb'|]. by rewrite He', He. }
    apply wp_bind. destruct l as [|ml ll il kvl rl], r as [|mr lr ir kvr rr].
    - (* a leaf *)
      apply wp_bind, wp_mget. pose proof (rep_is_root cap t _ ctx (Nd m Lf i kv Lf) HR eq_refl) as Hroot. simpl in Hroot.
      rewrite Hroot by done. clear Hroot. destruct ctx as [|[d c p kvp o] ctx].
      + simpl. apply wp_bind, wp_modify, wp_ret. simpl in HR. destruct HR as [Hc Hr]. simpl in Hcp. subst m.
        eapply (Hrest (set_rroot SENTINEL t) [] Lf 0%nat 0); [split; [exact Hc|done]|constructor|left; split; [done|constructor]|done|done].
      + simpl negb. cbv iota. apply wp_bind. eapply wp_gets; [by apply (rep_parent cap t _ (F d c p kvp o :: ctx) (Nd m Lf i kv Lf) HR eq_refl)|].
        apply wp_bind. eapply wp_gets; [by apply (rep_child_dir cap t _ d c p kvp o ctx (Nd m Lf i kv Lf) HR eq_refl)|].
        apply wp_bind, rb_connect_set, wp_bind. apply rep_focus in HR.
        eapply (R_rehole cap t (cells p (Nd m Lf i kv Lf)) _ 0 d c p kvp o ctx i 0); [eapply R_perm; [exact HR|apply Permutation_app_comm]|].
        clear t HR. intros t HR. apply R_set0, wp_ret.
        inversion Hnd; subst.
        * eapply (Hrest t (F d c p kvp o :: ctx) Lf _ 1); [|done|right; split_and!; done|by left|by rewrite entries_plug].
          eapply R_perm; [rewrite root_plug; exact HR|]. rewrite cells_plug. apply (Permutation_app_comm _ [_]).
        * eapply (Hrest t (F d c p kvp o :: ctx) Lf _ 0); [|done|left; split_and!; done|by left|by rewrite entries_plug].
          eapply R_perm; [rewrite root_plug; exact HR|]. rewrite cells_plug. apply (Permutation_app_comm _ [_]).
    - (* only a right child *)
      rewrite decide_True by done. apply wp_bind.
      eapply (wp_one t ctx true m (Nd mr lr ir kvr rr) i kv); [exact HR|done|]. clear t HR. intros t HR. apply wp_ret.
      destruct (rbi_mk_inv true _ _ _ _ _ _ Hnd) as [(-> & Hx & _ & Hmx & _)|(-> & n' & -> & Hx & _)].
      + eapply (Hrest t ctx (Nd mr lr ir kvr rr) _ 1); [exact HR|exact Hx|right; split_and!; [done|done|by intros ->|done]| |by rewrite entries_plug; simpl].
        destruct ctx as [|[]]; [done|by right].
      + eapply (Hrest t ctx (Nd mr lr ir kvr rr) _ 0); [exact HR|exact Hx|left; split_and!; done| |by rewrite entries_plug; simpl].
        destruct ctx as [|[]]; [done|by right].
    - (* only a left child *)
      assert (root (Nd ml ll il kvl rl) ≠ 0) as Hl0 by (eapply (rep_nz' cap t _ (F false m i kv Lf :: ctx)); [exact HR|done|done]).
      rewrite decide_False by exact Hl0. rewrite decide_True by done. apply wp_bind.
      eapply (wp_one t ctx false m (Nd ml ll il kvl rl) i kv); [exact HR|done|]. clear t HR. intros t HR. apply wp_ret.
      destruct (rbi_mk_inv false _ _ _ _ _ _ Hnd) as [(-> & Hx & _ & Hmx & _)|(-> & n' & -> & Hx & _)].
      + eapply (Hrest t ctx (Nd ml ll il kvl rl) _ 1); [exact HR|exact Hx|right; split_and!; [done|done|by intros ->|done]| |by rewrite entries_plug; simpl].
        destruct ctx as [|[]]; [done|by right].
      + eapply (Hrest t ctx (Nd ml ll il kvl rl) _ 0); [exact HR|exact Hx|left; split_and!; done| |by rewrite entries_plug; simpl].
        destruct ctx as [|[]]; [done|by right].
    - (* two children *)
      assert (root (Nd ml ll il kvl rl) ≠ 0) as Hl0 by (eapply (rep_nz' cap t _ (F false m i kv (Nd mr lr ir kvr rr) :: ctx)); [exact HR|done|done]).
      assert (root (Nd mr lr ir kvr rr) ≠ 0) as Hr0 by (eapply (rep_nz' cap t _ (F true m i kv (Nd ml ll il kvl rl) :: ctx)); [exact HR|done|done]).
      rewrite decide_False by exact Hl0. rewrite decide_False by exact Hr0. clear Hl0 Hr0.
      revert HR Hm0 Hnd Hcp HQ Hrest.
      assert (Nd ml ll il kvl rl ≠ Lf) as Hlne by done. revert Hlne.
      generalize (Nd ml ll il kvl rl), (Nd mr lr ir kvr rr). clear ml ll il kvl rl mr lr ir kvr rr.
      intros l r Hlne HR Hm0 Hnd Hcp _ Hrest.
      destruct (max_split l Hlne) as (cm & mc & ml & j & kvj & Hl & Hj & Hcm).
      apply wp_bind. eapply wp_gets; [by apply (rep_find_max t (F false m i kv r :: ctx) l HR)|]. rewrite <- Hj. clear Hj.
      set (full := cm ++ F false m i kv r :: ctx).
      assert (plug ctx (Nd m l i kv r) = plug full (Nd mc ml j kvj Lf)) as HU.
      { unfold full. rewrite plug_app. simpl. by rewrite <- Hl. }
      pose proof HR as HRf. rewrite HU in HRf.
      apply wp_bind. eapply wp_gets; [by apply (rep_parent cap t _ full (Nd mc ml j kvj Lf) HRf eq_refl)|].
      apply wp_bind. eapply wp_gets; [exact (rep_left cap t _ full _ _ _ _ _ HRf eq_refl)|].
      apply wp_bind. eapply wp_gets; [exact (rep_black cap t _ full (Nd mc ml j kvj Lf) HRf eq_refl)|].
      apply wp_bind. eapply wp_gets; [by apply (rep_parent cap t _ full (Nd mc ml j kvj Lf) HRf eq_refl)|].
      simpl mark.
      (* balance of the remaining tree *)
      set (full' := cm ++ F false m j kvj r :: ctx).
      assert (∃ n1, rbi ml n1 ∧ hole_ok full' ml n1 mc) as (n1 & Hml & Hh).
      { rewrite HU in Hm0. assert (∃ n2, rbi (plug full (Nd mc ml j kvj Lf)) n2) as [n2 Hn2].
        { rewrite <- HU. eapply cx_plug; [exact Hnd|exact Hcx|done]. }
        destruct (cx_unplug _ _ _ Hn2 Hm0) as (n3 & Hn3 & Hcx3 & Hcp3). apply (cx_readdr _ _ _ _ _ j kvj) in Hcx3.
        destruct (rbi_mk_inv false _ _ _ _ _ _ Hn3) as [(-> & Hx & _ & Hmx & _)|(-> & n' & -> & Hx & _)].
        - exists n3. split; [done|]. right. split_and!; [done|done| |done]. unfold full'. by destruct cm.
        - exists n'. split; [done|]. by left. }
      assert (plug full' ml = plug ctx (Nd m (plug cm ml) j kvj r)) as HU'.
      { unfold full'. rewrite plug_app. done. }
      assert (entries (plug full' ml) = cbef ctx ++ entries l ++ entries r ++ caft ctx) as He.
      { rewrite HU', entries_plug, Hl. simpl. rewrite !entries_plug. simpl. rewrite <- !app_assoc. simpl.
        by rewrite (caft_right cm Hcm). }
      (* the last steps *)
      assert (∀ t1 pd li pj, R t1 ((j, Node [root (plug cm ml); 0; pj; mc] kvj) :: (i, Node [li; root r; ctop ctx; m] kv) ::
         cells j (plug cm ml) ++ cells i r ++ ccells ctx i) (croot ctx i) → pd_ok full' ml pd →
         wp (rb_transplant i j;;
             r ← gets (λ t, rb_get_right t i);
             rb_connect j r Right;;
             c ← gets (λ t, rb_get_color t i);
             rb_color_node j c;;
             mret (root ml, pd, bool_decide (mc = 0))) t1
          (λ a t', wp (let '(pivot, parent_and_dir, is_black) := a in
            rb_remove_allocator_node i;;
            if (is_black : bool) then
              t ← mget;
              if rb_is_root t pivot then rb_color_black pivot
              else rb_fix_remove pivot parent_and_dir
            else mret ()) t' Q)) as Hlast.
      { intros t1 pd li pj HR1 Hpd. eapply wp_replace; [exact HR1|]. intros t2 HR2.
        eapply Hrest; [rewrite HU'; exact HR2|exact Hml|exact Hh|exact Hpd|exact He]. }
      apply wp_bind. destruct cm as [|[fd0 fm0 fa0 fkv0 fo0] cm].
      + (* the maximum is the left child itself *)
        rewrite decide_False by (simpl; naive_solver). simpl in Hl, HU'.
        assert (pd_ok full' ml (if decide (root ml = SENTINEL) then Some (j, Left) else None)) as Hpd.
        { unfold full'. simpl. destruct (decide (root ml = SENTINEL)); [by left|right]. split; [done|]. by intros ->. }
        subst l. assert (R t ((j, Node [root ml; 0; i; mc] kvj) :: (i, Node [j; root r; ctop ctx; m] kv) ::
           cells j ml ++ cells i r ++ ccells ctx i) (croot ctx i)) as HR1.
        { apply rep_focus in HR. eapply R_perm; [exact HR|]. simpl. unfold rgrb.
          generalize (cells j ml), (cells i r), (ccells ctx i). intros. solve_Permutation. }
        case_decide as Hml0.
        * apply wp_bind. eapply wp_gets; [by apply (rep_is_leaf t full _ _ _ _ _ HRf)|].
          replace (match ml with Lf => true | _ => false end) with true.
          2:{ destruct ml; [done|]. exfalso. eapply (rep_nz cap t _ (F false mc j kvj Lf :: full)); [exact HRf|done|done]. }
          apply wp_bind, wp_massert; [done|]. apply wp_ret. by eapply Hlast; [exact HR1|].
        * apply wp_ret. by eapply Hlast; [exact HR1|].
      + (* it is further down *)
        apply Forall_cons in Hcm as [Hcm _]. simpl in Hcm. subst fd0. rewrite decide_True; cycle 1.
        { simpl. eapply addr_l_ne; [exact (rep_NoDup _ _ HR)|]. rewrite Hl, entries_plug. simpl.
          rewrite !fmap_app, !elem_of_app. simpl. rewrite elem_of_list_singleton. auto. }
        apply wp_bind. apply rep_focus in HRf. eapply (wp_transplant t full (cells (ctop full) (Nd mc ml j kvj Lf)) j).
        { eapply R_perm; [exact HRf|]. apply Permutation_app_comm. }
        { simpl. unfold rgrb. apply elem_of_list_here. }
        clear t HR HRf. intros t HR.
        eapply (R_reparent cap t ((j, Node [root ml; 0; ctop full; mc] kvj) :: ccells full (root ml)) _ ml j).
        { eapply R_perm; [exact HR|]. generalize (ccells full (root ml)). intros X. simpl. unfold rgrb. rewrite app_nil_r.
          generalize (cells j ml). intros. solve_Permutation. }
        clear t HR. intros t HR. set (l' := plug (F true fm0 fa0 fkv0 fo0 :: cm) ml) in *.
        assert (R t ((j, Node [root ml; 0; ctop full; mc] kvj) :: (i, Node [root l'; root r; ctop ctx; m] kv) ::
          cells i l' ++ cells i r ++ ccells ctx i) (croot ctx i)) as HR1.
        { assert (plug full ml = plug ctx (Nd m l' i kv r)) as HU2 by (unfold full; by rewrite plug_app).
          assert (croot full (root ml) = croot ctx i) as Hcr by (by rewrite <- root_plug, HU2, root_plug).
          rewrite Hcr in HR. eapply R_perm; [exact HR|]. rewrite <- Permutation_middle, <- cells_plug, HU2, cells_plug.
          simpl. unfold rgrb. by rewrite <- app_assoc. }
        clear HR. rename HR1 into HR.
        apply wp_bind. eapply wp_gets; [eapply (R_left cap t); [exact HR|apply elem_of_list_further, elem_of_list_here]|].
        apply wp_bind, rb_connect_set, wp_bind. eapply R_set; [exact HR|done|]. clear t HR. intros t HR.
        change (setr Left (root l') _) with (Node [root l'; 0; ctop full; mc] kvj) in HR.
        eapply (R_reparent cap t ((j, Node [root l'; 0; ctop full; mc] kvj) :: (i, Node [root l'; root r; ctop ctx; m] kv) :: cells i r ++ ccells ctx i) _ l' i j).
        { eapply R_perm; [exact HR|]. generalize (ccells ctx i), (cells i l'), (cells i r). intros X Y Z. solve_Permutation. }
        clear t HR. intros t HR. apply wp_ret. eapply Hlast.
        { eapply R_perm; [exact HR|]. generalize (ccells ctx i), (cells j l'), (cells i r). intros X Y Z. solve_Permutation. }
        unfold full'. simpl. destruct (decide (root ml = SENTINEL)); [by left|right]. split; [done|]. by intros ->.
  Qed.

  Lemma entries_del ctx m (l : tree) i (kv : K * V) r :
    entries (plug ctx (Nd m l i kv r)) = (cbef ctx ++ entries l) ++ (i, kv) :: entries r ++ caft ctx.
  Proof using Type. clear HO. rewrite entries_plug. simpl. by rewrite <- !app_assoc. Qed.

  Lemma wp_remove_found t ctx m (l : tree) i kv (r : tree) k (Q : () → rbt → Prop) :
    rbok t (plug ctx (Nd m l i kv r)) → cmp k kv.1 = Eq →
    (∀ t' U', rbok t' U' → rem_rel cmp k (entries (plug ctx (Nd m l i kv r))) (Some kv.2) (entries U') →
       entries U' = (cbef ctx ++ entries l) ++ entries r ++ caft ctx → Q () t') →
    wp (rb_remove_tree_node i) t Q.
  Proof using GR HO.
    intros [HR Hb Ha] Hk HQ. destruct (onpath_found cmp HO _ _ _ _ _ _ _ Ha Hk) as [Hbe Hab].
    eapply wp_remove_tree_node; [exact HR|exact Hb|]. intros t' U' HR' Hb' He'.
    rewrite app_assoc in He'. rewrite entries_del in Ha. rewrite fmap_app, fmap_cons in Ha.
    assert (ascending cmp (entries U').*2) as Ha'.
    { rewrite He', fmap_app. by eapply ascending_delete. }
    eapply HQ; [by split| |done]. rewrite He', entries_del.
    eapply rem_present; [done|done|by rewrite fmap_app|by rewrite fmap_app].
  Qed.

  Lemma wp_remove_loop fuel t ctx m l i kv r k (Q : option V → rbt → Prop) :
    rbok t (plug ctx (Nd m l i kv r)) → onpath cmp k ctx → (height (Nd m l i kv r) ≤ fuel)%nat →
    (∀ o t' U', rbok t' U' → rem_rel cmp k (entries (plug ctx (Nd m l i kv r))) o (entries U') →
       (o = None → t' = t) → Q o t') →
    wp (rb_remove_loop cmp fuel k i) t Q.
  Proof using GR HO.
    revert ctx m l i kv r. induction fuel as [|fuel IH]; intros ctx m l i kv r Hok Hp Hh HQ; [simpl in Hh; lia|].
    pose proof Hok as [HR Hbal Hasc]. simpl rb_remove_loop. apply wp_bind. eapply wp_gets; [by eapply rep_node|].
    destruct (cmp k kv.1) eqn:Ek.
    - apply wp_bind. eapply wp_remove_found; [exact Hok|exact Ek|]. intros t' U' Hok' Hr' _. apply wp_ret. by eapply HQ.
    - apply wp_bind. eapply wp_gets; [by eapply rep_left|]. destruct l as [|ml ll il kvl rl].
      + rewrite decide_True by done. apply wp_ret. eapply HQ; [exact Hok| |done].
        destruct (onpath_left cmp HO _ _ _ _ _ _ _ Hasc Hp Ek) as [Hb Ha].
        eapply rem_absent; [exact (entries_plug (F false m i kv r :: ctx) Lf)|done|done].
      + rewrite decide_False by (eapply (rep_nz cap t _ (F false m i kv r :: ctx)); [exact HR|done]).
        eapply (IH (F false m i kv r :: ctx)); [exact Hok|by eapply onpath_left|simpl in *; lia|exact HQ].
    - apply wp_bind. eapply wp_gets; [by eapply rep_right|]. destruct r as [|mr lr ir kvr rr].
      + rewrite decide_True by done. apply wp_ret. eapply HQ; [exact Hok| |done].
        destruct (onpath_right cmp HO _ _ _ _ _ _ _ Hasc Hp Ek) as [Hb Ha].
        eapply rem_absent; [exact (entries_plug (F true m i kv l :: ctx) Lf)|done|done].
      + rewrite decide_False by (eapply (rep_nz cap t _ (F true m i kv l :: ctx)); [exact HR|done]).
        eapply (IH (F true m i kv l :: ctx)); [exact Hok|by eapply onpath_right|simpl in *; lia|exact HQ].
  Qed.
  Lemma wp_remove t U k (Q : option V → rbt → Prop) :
    rbok t U →
    (∀ o t' U', rbok t' U' → rem_rel cmp k (entries U) o (entries U') → (o = None → t' = t) → Q o t') →
    wp (rb_remove cmp k) t Q.
  Proof using GR HO.
    intros Hok HQ. pose proof Hok as [HR Hbal Hasc]. unfold rb_remove. apply wp_bind, wp_mget.
    rewrite (rep_root _ _ _ HR). destruct U as [|m l i kv r].
    - rewrite decide_True by done. apply wp_ret. eapply HQ; [exact Hok| |done].
      eapply (rem_absent cmp k [] [] []); [done|constructor|constructor].
    - rewrite decide_False by (eapply (rep_nz cap t _ []); [exact HR|done]).
      eapply (wp_remove_loop _ t [] m l i kv r); [exact Hok|apply onpath_nil| |exact HQ].
      pose proof (rep_tsize _ _ _ HR). pose proof (height_tsize (Nd m l i kv r)).
      erewrite R_fuel by exact HR. lia.
  Qed.
  (** the pair removed is the root's *)
  Lemma wp_remove_root t U (Q : option (K * V) → rbt → Prop) :
    rbok t U →
    (U = Lf → Q None t) →
    (∀ m l i kv r t' U', U = Nd m l i kv r → rbok t' U' → entries U' = entries l ++ entries r →
       rem_rel cmp kv.1 (entries U) (Some kv.2) (entries U') → Q (Some kv) t') →
    wp rb_remove_root t Q.
  Proof using GR HO.
    intros Hok HQ0 HQ. pose proof Hok as [HR Hbal Hasc]. unfold rb_remove_root. apply wp_bind, wp_mget.
    rewrite (rep_root _ _ _ HR). destruct U as [|m l i kv r].
    - rewrite decide_True by done. apply wp_ret. by apply HQ0.
    - rewrite decide_False by (eapply (rep_nz cap t _ []); [exact HR|done]).
      apply wp_bind. eapply wp_gets; [rewrite (rep_root _ _ _ HR); exact (rep_node cap t _ [] _ _ _ _ _ HR eq_refl)|].
      apply wp_bind. eapply (wp_remove_found t [] m l i kv r kv.1); [exact Hok|by apply cmp_refl|].
      intros t' U' Hok' Hr He. apply wp_ret. simpl in He. rewrite app_nil_r in He. by eapply HQ.
  Qed.

  (** *** Reads *)
  Lemma rep_shp t U : rep t U → shp (rb_al t) U.
  Proof using Type. clear HO. intros [Hc _]. by eapply (CH_shp rgrb rgrb_ok). Qed.
  Lemma rb_addr_ok t U k :
    rbok t U → ∃ i kvo, get_rel cmp k (entries U) i kvo ∧ rb_get_addr cmp t k = Val i ∧ rb_get cmp t k = Val (snd <$> kvo).
  Proof using HO.
    intros [HR Hb Ha].
    assert (rb_get_addr cmp t k = Val (root (tdesc cmp k [] U).2)) as Haddr.
    { unfold rb_get_addr. rewrite (rep_root _ _ _ HR). apply bst_get_addr_ok.
      - by apply rep_shp.
      - destruct HR as [Hc _]. by eapply CH_vals.
      - pose proof (rep_tsize _ _ _ HR). pose proof (height_tsize U). erewrite R_fuel by exact HR. lia. }
    destruct (tdesc_ok cmp HO k [] U Ha (onpath_nil cmp k)) as [[Hbe Hab] Hd]. pose proof (tdesc_plug cmp k [] U) as Hp.
    unfold rb_get. rewrite Haddr. simpl in Hp. destruct (tdesc cmp k [] U) as [ctx s]. simpl in *.
    destruct Hd as [->|(m & l & i & kv & r & -> & Hk)].
    - exists 0, None. simpl. split_and!; [|done|done]. eapply get_absent; [rewrite <- Hp; exact (entries_plug ctx Lf)|done|done].
    - rewrite <- Hp in HR, Ha |- *. pose proof (rep_nz cap t _ ctx _ _ _ _ _ HR eq_refl) as Hnz.
      exists i, (Some kv). simpl. split_and!; [|done|].
      + destruct (onpath_found cmp HO _ _ _ _ _ _ _ Ha Hk). rewrite entries_del.
        eapply get_present; [done|done|done|by rewrite fmap_app|by rewrite fmap_app].
      + rewrite decide_False by done. rewrite (rep_node cap t _ ctx _ _ _ _ _ HR eq_refl). done.
  Qed.
  Lemma rb_node_ok t U i kv : rep t U → (i, kv) ∈ entries U → rb_get_node t i = Val kv.
  Proof using Type.
    clear HO. intros HR (ctx & m & l & r & ->)%entries_focus. exact (rep_node cap t _ ctx _ _ _ _ _ HR eq_refl).
  Qed.
  Lemma wp_get_mut' t U k f (Q : option V → rbt → Prop) :
    rbok t U →
    (∀ o t' U', rbok t' U' → upd_rel cmp k f (entries U) o (entries U') → (o = None → t' = t) → same_shape U U' → Q o t') →
    wp (rb_get_mut cmp k f) t Q.
  Proof using GA HO.
    intros Hok HQ. destruct (rb_addr_ok t U k Hok) as (i & kvo & Hr & Haddr & _). unfold rb_get_mut.
    apply wp_bind. eapply wp_gets; [exact Haddr|].
    inversion Hr as [A B i' kv HE Hnz Hk Hb Ha|A B HE Hb Ha]; subst.
    - rewrite decide_False by done. pose proof Hok as [HR Hbal Hasc].
      destruct (entries_focus U i kv) as (ctx & m & l & r & ->).
      { rewrite HE. apply elem_of_app. right. apply elem_of_list_here. }
      apply wp_bind. eapply wp_gets; [exact (rep_node cap t _ ctx _ _ _ _ _ HR eq_refl)|].
      apply wp_bind. eapply rep_set_value; [exact HR|]. intros t' HR'. apply wp_ret.
      eapply HQ; [by eapply rbok_set_value| |done|apply same_plug].
      destruct (onpath_found cmp HO _ _ _ _ _ _ _ Hasc Hk). rewrite !entries_del.
      eapply upd_present; [done|done|by rewrite fmap_app|by rewrite fmap_app].
    - rewrite decide_True by done. apply wp_ret. eapply HQ; [exact Hok| |done|apply same_shape_refl]. by eapply upd_absent.
  Qed.
  Lemma rb_min_index t U : rep t U → rb_get_min_index t = Val (tmin U).
  Proof using Type.
    clear HO. intros HR. unfold rb_get_min_index, rb_find_min. rewrite (rep_root _ _ _ HR). apply na_find_min; [by apply rep_shp|].
    pose proof (rep_tsize _ _ _ HR). pose proof (height_tsize U). erewrite R_fuel by exact HR. lia.
  Qed.
  Lemma rb_max_index t U : rep t U → rb_get_max_index t = Val (tmax U).
  Proof using Type.
    clear HO. intros HR. unfold rb_get_max_index. rewrite (rep_root _ _ _ HR). exact (rep_find_max t [] U HR).
  Qed.
  Lemma rb_min_ok t U : rep t U → rb_get_min t = Val (head (entries U).*2).
  Proof using Type.
    clear HO. intros HR. unfold rb_get_min. rewrite (rb_min_index t U HR). simpl.
    destruct U as [|m l i kv r]; [done|]. destruct (tmin_head (Nd m l i kv r)) as (kv' & es & He); [done|].
    assert ((tmin (Nd m l i kv r), kv') ∈ entries (Nd m l i kv r)) as Hin by (rewrite He; apply elem_of_list_here).
    rewrite decide_False.
    - rewrite (rb_node_ok _ _ _ _ HR Hin). rewrite He. done.
    - intros H0. destruct HR as [Hc _]. destruct (cells_entries rgrb 0 _ _ _ Hin) as [rs Hrs]. by apply (CH_nz _ _ _ _ _ _ Hc Hrs).
  Qed.
  Lemma rb_max_ok t U : rep t U → rb_get_max t = Val (last (entries U).*2).
  Proof using Type.
    clear HO. intros HR. unfold rb_get_max. rewrite (rb_max_index t U HR). simpl.
    destruct U as [|m l i kv r]; [done|]. destruct (tmax_last (Nd m l i kv r)) as (kv' & es & He); [done|].
    assert ((tmax (Nd m l i kv r), kv') ∈ entries (Nd m l i kv r)) as Hin.
    { rewrite He. apply elem_of_app. right. apply elem_of_list_here. }
    rewrite decide_False.
    - rewrite (rb_node_ok _ _ _ _ HR Hin). rewrite He, fmap_app. simpl. by rewrite last_snoc.
    - intros H0. destruct HR as [Hc _]. destruct (cells_entries rgrb 0 _ _ _ Hin) as [rs Hrs]. by apply (CH_nz _ _ _ _ _ _ Hc Hrs).
  Qed.
  Lemma rb_iterate_ok t U sc : rep t U → rb_iterate t sc = Val (de_spec sc (entries U).*2).
  Proof using Type.
    clear HO. intros HR. unfold rb_iterate, rb_iter. rewrite (rep_root _ _ _ HR). destruct HR as [Hc _].
    exact (ti_drive rgrb rgrb_ok cap _ _ sc Hc).
  Qed.
  Lemma rb_iterate_mut_ok t U sc (Q : list (option (N * (K * V))) → rbt → Prop) :
    rbok t U →
    (∀ t' U', rbok t' U' → same_shape U U' → entries U' = (de_mut_spec upd_ent sc (entries U)).2 →
      Q (de_mut_spec upd_ent sc (entries U)).1 t') →
    wp (rb_iterate_mut sc) t Q.
  Proof using Type GA.
    clear HO. intros [HR Hb Ha] HQ. unfold rb_iterate_mut.
    assert (wp (drive_mut rb_iter_mut_next rb_iter_mut_next_back sc) (t, rb_iter t) (λ o st, Q o st.1)) as Hw.
    { unfold rb_iter_mut_next, rb_iter_mut_next_back, rb_on_iter.
      apply (drive_mut_zoom (λ st : rbt * titer, (rb_al st.1, st.2)) (λ at_ st, (set_ral at_.1 st.1, at_.2))).
      - by intros [[] ?].
      - by intros [] [[] ?].
      - by intros [] [] [[] ?].
      - simpl. unfold rb_iter. rewrite (rep_root _ _ _ HR). destruct HR as [Hc Hr].
        eapply (ti_drive_mut rgrb rgrb_ok cap); [exact Hc|]. intros a' it' U' Hc' Hss Hk He. simpl.
        eapply HQ; [|exact Hss|exact He]. split.
        + split; [exact Hc'|]. simpl. rewrite Hr. by apply same_shape_root.
        + by eapply balanced_same.
        + by eapply ascending_keys. }
    unfold wp in *. destruct (drive_mut _ _ sc (t, rb_iter t)) as [a [t' it]|e [t' it]]; done.
  Qed.

  Definition RBI t (E : list (N * (K * V))) : Prop := ∃ U, rbok t U ∧ entries U = E.
  Lemma rb_om_ok : 0 < cap → om_ok (rb_api cmp) cmp cap RBI.
  Proof using GR GA HO.
    intros Hcap. split; unfold rb_api; simpl.
    - intros t E (U & [] & <-). done.
    - intros t E (U & [] & <-). by eapply rep_NoDup.
    - intros t E k v (U & Hok & <-). eapply wp_insert; [exact Hok|done|]. intros o t' U' Hok' Hr Hn.
      exists (entries U'). split_and!; [by exists U'|done|done].
    - intros t E k (U & Hok & <-). eapply wp_remove; [exact Hok|]. intros o t' U' Hok' Hr Hn.
      exists (entries U'). split_and!; [by exists U'|done|done].
    - intros t E k (U & Hok & <-). by apply rb_addr_ok.
    - intros t E i kv (U & [] & <-) Hin. by eapply rb_node_ok.
    - intros t E k f (U & Hok & <-). eapply wp_get_mut'; [exact Hok|]. intros o t' U' Hok' Hr Hn _.
      exists (entries U'). split_and!; [by exists U'|done|done].
    - intros t k o Hg. unfold rb_contains. by rewrite Hg.
    - intros t E (U & [] & <-). by apply rep_len.
    - intros t E (U & [] & <-). by eapply rep_cap.
    - intros t E (U & [] & <-). by apply rb_min_ok.
    - intros t E (U & [] & <-). by apply rb_max_ok.
    - intros t k o Hg. unfold rb_index. rewrite Hg. by destruct o.
    - intros t k f o t' Hg. unfold rb_index_mut, mbind, M_bind. rewrite Hg. by destruct o.
    - intros t E sc (U & [] & <-). by apply rb_iterate_ok.
    - intros t E sc (U & Hok & <-). eapply rb_iterate_mut_ok; [exact Hok|]. intros t' U' Hok' _ He.
      split; [done|]. by exists U'.
  Qed.
End ops.
Lemma rbok_new {K V} (cmp : K → K → comparison) ms (d : K * V) :
  N.of_nat ms + 1 < W32 → rbok cmp (N.of_nat ms) (rb_new ms d) Lf.
Proof.
  intros Hw. split.
  - split; [|done]. apply CH_new; [done|done|lia].
  - split; [done|]. exists 0%nat. constructor.
  - constructor.
Qed.
