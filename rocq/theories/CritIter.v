(** * Critbit: extremes and iterators *)
From Verif Require Export CritApi CritRem.

Section iter.
  Context `{Profile} {V : Type} {G : Ghost V} `{GA : !GAdd G} (nn cap : N).
  Notation critbit := (critbit V).
  Notation ctree := (ctree V).
  Notation OK := (AOK 4 nn).
  Notation LK := (CH 4 cap).
  Notation ent := (N * (N * (N * V)))%type.
  Implicit Types t : critbit.
  Implicit Types U : ctree.
  Implicit Types ctx : list (frame V).

  (** *** Extremes *)
  Fixpoint cmin U : ent := match U with CL i k j v => (i, (j, (k, v))) | CI _ _ _ l _ => cmin l end.
  Fixpoint cmax U : ent := match U with CL i k j v => (i, (j, (k, v))) | CI _ _ _ _ r => cmax r end.
  Lemma cmin_head U : head (ents U) = Some (cmin U).
  Proof. induction U as [|i k p l IHl r IHr]; simpl; [done|]. pose proof (ents_ne l). by destruct (ents l). Qed.
  Lemma cmax_last U : last (ents U) = Some (cmax U).
  Proof. induction U as [|i k p l IHl r IHr]; simpl; [done|]. by rewrite last_app, IHr. Qed.

  Lemma find_min_ok fuel t ctx U fr :
    OK (cb_nodes t) (cells (plug ctx U) 0) fr → (cheight U ≤ fuel)%nat →
    na_find_dir fuel (cb_nodes t) Left (croot U) = Val (cmin U).1.
  Proof.
    revert ctx U. induction fuel as [|fuel IH]; intros ctx U Ho Hf; [destruct U; simpl in Hf; lia|].
    destruct U as [i kk j v|i kk p l r]; cbn [na_find_dir croot cmin].
    - rewrite (AOK_get_register _ _ _ _ _ _ _ Left 0 Ho (CL_cell _ _ _ _ _) eq_refl). done.
    - rewrite (AOK_get_register _ _ _ _ _ _ _ Left (croot l) Ho (CI_cell _ _ _ _ _ _) eq_refl). cbn [mbind res_bind].
      rewrite decide_False; [apply (IH (Fr false i kk p r :: ctx)); [done|simpl in Hf; lia]|].
      eapply AOK_nz; [exact Ho|]. eapply (cells_sub (Fr false i kk p r :: ctx) l); [rewrite cells_eq; apply elem_of_list_here|done].
  Qed.
  Lemma find_max_ok fuel t ctx U fr :
    OK (cb_nodes t) (cells (plug ctx U) 0) fr → (cheight U ≤ fuel)%nat →
    na_find_dir fuel (cb_nodes t) Right (croot U) = Val (cmax U).1.
  Proof.
    revert ctx U. induction fuel as [|fuel IH]; intros ctx U Ho Hf; [destruct U; simpl in Hf; lia|].
    destruct U as [i kk j v|i kk p l r]; cbn [na_find_dir croot cmax].
    - rewrite (AOK_get_register _ _ _ _ _ _ _ Right 0 Ho (CL_cell _ _ _ _ _) eq_refl). done.
    - rewrite (AOK_get_register _ _ _ _ _ _ _ Right (croot r) Ho (CI_cell _ _ _ _ _ _) eq_refl). cbn [mbind res_bind].
      rewrite decide_False; [apply (IH (Fr true i kk p l :: ctx)); [done|simpl in Hf; lia]|].
      eapply AOK_nz; [exact Ho|]. eapply (cells_sub (Fr true i kk p l :: ctx) r); [rewrite cells_eq; apply elem_of_list_here|done].
  Qed.

  (** every leaf of the tree has its place *)
  Lemma ent_plug U i j k v : (i, (j, (k, v))) ∈ ents U → ∃ ctx, plug ctx (CL i k j v) = U.
  Proof.
    induction U as [i' k' j' v'|i' k' p l IHl r IHr]; simpl.
    - intros Hin%elem_of_list_singleton. simplify_eq. by exists [].
    - intros [Hin|Hin]%elem_of_app.
      + destruct (IHl Hin) as [ctx <-]. exists (ctx ++ [Fr false i' k' p r]). by rewrite plug_app.
      + destruct (IHr Hin) as [ctx <-]. exists (ctx ++ [Fr true i' k' p l]). by rewrite plug_app.
  Qed.
  Lemma entry_ok t U e : crep nn cap t U → e ∈ ents U → cb_entry t e.1 = Val e.2.2 ∧ e.1 ≠ 0.
  Proof.
    intros [_ (fr & Ho & _) Hl] Hin. destruct e as (i & j & k & v). destruct (ent_plug _ _ _ _ _ Hin) as [ctx <-]. simpl.
    split; [|eapply AOK_nz; [exact Ho|apply CL_cell]]. unfold cb_entry.
    rewrite (rd_node _ _ _ _ Ho _ _ _ _ _ _ (CL_cell _ _ _ _ _)). cbn [mbind res_bind].
    rewrite (rd_leaf_index _ _ _ _ Ho _ _ _ _ _ _ (CL_cell _ _ _ _ _)). cbn [mbind res_bind]. unfold cb_get_leaf.
    by rewrite (CH_get _ _ _ _ _ _ Hl (lcell_in _ _ _ _ _)).
  Qed.
  Lemma get_min_ok t U : crep nn cap t U → cb_get_min t = Val (head (kvs U)).
  Proof.
    intros HR. unfold cb_get_min, cb_get_min_index. rewrite (cr_root _ _ _ _ HR).
    pose proof (cr_nodes _ _ _ _ HR) as (fr & Ho & _). unfold mbind, res_bind.
    rewrite (find_min_ok _ t [] U fr Ho (Nat.le_trans _ _ _ (cheight_csize U) (crep_fuel _ _ _ _ HR))).
    pose proof (cmin_head U) as Hh. assert (cmin U ∈ ents U) as Hin by (apply head_Some_elem_of; done).
    destruct (entry_ok _ _ _ HR Hin) as [-> Hz]. rewrite decide_False by done. unfold kvs. by destruct (ents U); simplify_eq/=.
  Qed.
  Lemma get_max_ok t U : crep nn cap t U → cb_get_max t = Val (last (kvs U)).
  Proof.
    intros HR. unfold cb_get_max, cb_get_max_index. rewrite (cr_root _ _ _ _ HR).
    pose proof (cr_nodes _ _ _ _ HR) as (fr & Ho & _). unfold mbind, res_bind.
    rewrite (find_max_ok _ t [] U fr Ho (Nat.le_trans _ _ _ (cheight_csize U) (crep_fuel _ _ _ _ HR))).
    pose proof (cmax_last U) as Hh. assert (cmax U ∈ ents U) as Hin by (apply last_Some_elem_of; done).
    destruct (entry_ok _ _ _ HR Hin) as [-> Hz]. rewrite decide_False by done. unfold kvs. by rewrite !fmap_last, Hh.
  Qed.

  (** *** Iterators *)
  (** what stays the same of an entry during a mutable iteration *)
  Definition sk (e : ent) : N * N * N := (e.1, e.2.1, e.2.2.1).
  Definition upd_cent (f : V → V) (e : ent) : ent := (e.1, (e.2.1, (e.2.2.1, f e.2.2.2))).
  Definition stack_ents (st : list ctree) : list ent := concat (map ents st).
  Fixpoint rstack_ents (st : list ctree) : list ent := match st with [] => [] | W :: st => rstack_ents st ++ ents W end.

  (** [P] has been yielded from the front, [B] from the back, [l] is left *)
  Record cit U (it : citer) (P l B : list ent) (fs rs : list ctree) : Prop := {
    ci_fs : ci_fwd_stack it = map (@croot V) fs;
    ci_rs : ci_rev_stack it = map (@croot V) rs;
    ci_fsub : Forall (λ W, ∃ ctx, plug ctx W = U) fs;
    ci_rsub : Forall (λ W, ∃ ctx, plug ctx W = U) rs;
    ci_tm : ci_terminated it = true → l = [];
    ci_fe : ci_terminated it = false → map sk (stack_ents fs) = map sk (l ++ B);
    ci_re : ci_terminated it = false → map sk (rstack_ents rs) = map sk (P ++ l);
    ci_fn : ci_fwd_node it = (λ e, e.2.1) <$> last P;
    ci_rn : ci_rev_node it = (λ e, e.2.1) <$> head B }.
  Definition citok U it P l B : Prop := ∃ fs rs, cit U it P l B fs rs.
  Record cst U t (E : list ent) : Prop := {
    cs_root : cb_root t = croot U;
    cs_nodes : ∃ fr, OK (cb_nodes t) (cells U 0) fr ∧ frok fr;
    cs_leaves : LK (cb_leaves t) (map (@lcell V) E);
    cs_sk : map sk (ents U) = map sk E }.

  Lemma cst_crep U t : crep nn cap t U ↔ cst U t (ents U).
  Proof. split; intros []; by constructor. Qed.
  Lemma cst_NoDup U t E : cst U t E → NoDup (map (λ e : ent, e.2.1) E).
  Proof. intros [_ _ Hl _]. apply CH_NoDup in Hl. rewrite <- list_fmap_compose in Hl. exact Hl. Qed.
  Lemma cst_nz U t E e : cst U t E → e ∈ E → e.2.1 ≠ 0.
  Proof. intros [_ _ Hl _] Hin. eapply CH_nz'; [exact Hl|]. rewrite <- list_fmap_compose. by apply (elem_of_list_fmap_1 (λ e : ent, e.2.1)). Qed.
  Lemma CL_nz U t E ctx i k j v : cst U t E → plug ctx (CL i k j v) = U → j ≠ 0.
  Proof.
    intros Hs <-. assert (sk (i, (j, (k, v))) ∈ map sk E) as Hin.
    { rewrite <- (cs_sk _ _ _ Hs). apply (elem_of_list_fmap_1 sk). rewrite ents_plug. simpl. rewrite elem_of_app, elem_of_cons. auto. }
    apply elem_of_list_fmap in Hin as (e & He & Hin). unfold sk in He. simplify_eq/=. by eapply cst_nz.
  Qed.
  Lemma cst_fuel U t E ctx W : cst U t E → plug ctx W = U → (csize W ≤ cb_fuel t)%nat.
  Proof.
    intros [_ (fr & Ho & _) _ _] <-. pose proof (csize_plug ctx W) as H1. pose proof (cells_length (plug ctx W) 0) as H2.
    unfold cb_fuel. pose proof (AOK_len_le _ _ _ _ _ Ho) as H3. pose proof (ok_cap _ _ _ _ _ Ho) as H4. unfold MAX_SIZE, lengthN in *. lia.
  Qed.

  Lemma iter_start U t : crep nn cap t U → citok U (cb_iter t) [] (ents U) [].
  Proof.
    intros HR. unfold cb_iter. destruct (crep_nonempty _ _ _ _ HR) as (_ & _ & Hz). rewrite decide_False by done.
    rewrite (cr_root _ _ _ _ HR). exists [U], [U]. constructor; simpl; try done.
    - constructor; [by exists []|done].
    - constructor; [by exists []|done].
  Qed.

  Lemma fwd_ok fuel U t it P l B fs rs :
    cst U t (P ++ l ++ B) → cit U it P l B fs rs →
    (match fs with [] => (1 ≤ fuel)%nat | W :: _ => (csize W ≤ fuel)%nat end) →
    ∃ it', ci_fwd fuel t it = Val ((λ e, (e.1, e.2.1)) <$> head l, it') ∧
      match l with [] => citok U it' P [] B | x :: l => ∀ y, sk y = sk x → citok U it' (P ++ [y]) l B end.
  Proof.
    intros Hs. revert it fs. induction fuel as [|fuel IH]; intros it fs Hi Hf.
    { destruct fs as [|[]]; simpl in Hf; lia. }
    destruct it as [nfs fn nrs rn tm]. cbn [ci_fwd].
    destruct tm.
    { pose proof (ci_tm _ _ _ _ _ _ _ Hi eq_refl) as ->. eexists. split; [done|]. by exists fs, rs. }
    pose proof (ci_fs _ _ _ _ _ _ _ Hi) as Hfs. simpl in Hfs. subst nfs.
    pose proof (ci_fe _ _ _ _ _ _ _ Hi eq_refl) as Hfe.
    destruct fs as [|W fs]; cbn [map].
    { unfold stack_ents in Hfe. simpl in Hfe. symmetry in Hfe. apply fmap_nil_inv in Hfe. apply app_nil in Hfe as [-> ->].
      eexists. split; [done|]. by exists [], rs. }
    pose proof (ci_fsub _ _ _ _ _ _ _ Hi) as Hsub. apply Forall_cons in Hsub as [[ctx HS] Hsub].
    pose proof (cs_nodes _ _ _ Hs) as (fr & Ho & _). rewrite <- HS in Ho.
    destruct W as [i k j v|i k p L R]; cbn [croot].
    - rewrite (rd_inner _ _ _ _ Ho _ _ _ _ _ _ (CL_cell _ _ _ _ _)). cbn [mbind res_bind].
      rewrite bool_decide_false by (by eapply CL_nz). cbn [negb].
      rewrite (rd_leaf_index _ _ _ _ Ho _ _ _ _ _ _ (CL_cell _ _ _ _ _)). cbn [mbind res_bind].
      pose proof (ci_rn _ _ _ _ _ _ _ Hi) as Hrn. pose proof (ci_fn _ _ _ _ _ _ _ Hi) as Hfn. simpl in Hrn, Hfn.
      unfold stack_ents in Hfe. simpl in Hfe.
      destruct l as [|x l].
      + destruct B as [|b B]; [done|]. simpl in Hfe. injection Hfe as -> -> -> Hfe.
        rewrite decide_True by (by rewrite Hrn). eexists. split; [done|]. exists fs, rs. constructor; try done.
        * apply Hi.
        * apply Hi.
      + simpl in Hfe. injection Hfe as -> -> -> Hfe.
        rewrite decide_False.
        2:{ rewrite Hrn. destruct B as [|b B]; simpl; [done|]. intros [= Hjb].
            pose proof (cst_NoDup _ _ _ Hs) as Hnd. rewrite map_app in Hnd. simpl in Hnd. rewrite map_app in Hnd. simpl in Hnd.
            apply NoDup_app in Hnd as (_ & _ & Hnd). apply NoDup_cons in Hnd as [Hnd _]. apply Hnd. rewrite Hjb.
            apply elem_of_app. right. apply elem_of_list_here. }
        eexists. split; [done|]. intros y Hy. exists fs, rs.
        pose proof (ci_re _ _ _ _ _ _ _ Hi eq_refl) as Hre.
        constructor; simpl; try done.
        * apply Hi.
        * apply Hi.
        * intros _. rewrite Hre, !map_app. simpl. rewrite Hy, <- app_assoc. done.
        * rewrite last_snoc. simpl. f_equal. unfold sk in Hy. congruence.
    - rewrite (rd_inner _ _ _ _ Ho _ _ _ _ _ _ (CI_cell _ _ _ _ _ _)). cbn [mbind res_bind].
      rewrite bool_decide_true by done. cbn [negb].
      rewrite (rd_right _ _ _ _ Ho _ _ _ _ _ _ (CI_cell _ _ _ _ _ _)). cbn [mbind res_bind].
      rewrite (rd_left _ _ _ _ Ho _ _ _ _ _ _ (CI_cell _ _ _ _ _ _)). cbn [mbind res_bind].
      apply (IH _ (L :: R :: fs)); [|simpl in Hf; lia].
      destruct Hi as [H1 H2 H3 H4 H5 H6 H7 H8 H9]. constructor; try done.
      + constructor; [by exists (Fr false i k p R :: ctx)|]. constructor; [by exists (Fr true i k p L :: ctx)|done].
      + intros _. rewrite <- Hfe. unfold stack_ents. simpl. by rewrite <- app_assoc.
  Qed.
  Lemma rev_ok fuel U t it P l B fs rs :
    cst U t (P ++ l ++ B) → cit U it P l B fs rs →
    (match rs with [] => (1 ≤ fuel)%nat | W :: _ => (csize W ≤ fuel)%nat end) →
    ∃ it', ci_rev fuel t it = Val ((λ e, (e.1, e.2.1)) <$> last l, it') ∧
      match unsnoc l with None => citok U it' P [] B | Some (l, x) => ∀ y, sk y = sk x → citok U it' P l (y :: B) end.
  Proof.
    intros Hs. revert it rs. induction fuel as [|fuel IH]; intros it rs Hi Hf.
    { destruct rs as [|[]]; simpl in Hf; lia. }
    destruct it as [nfs fn nrs rn tm]. cbn [ci_rev].
    destruct tm.
    { pose proof (ci_tm _ _ _ _ _ _ _ Hi eq_refl) as ->. eexists. split; [done|]. by exists fs, rs. }
    pose proof (ci_rs _ _ _ _ _ _ _ Hi) as Hrs. simpl in Hrs. subst nrs.
    pose proof (ci_re _ _ _ _ _ _ _ Hi eq_refl) as Hre.
    destruct rs as [|W rs]; cbn [map].
    { simpl in Hre. symmetry in Hre. apply fmap_nil_inv in Hre. apply app_nil in Hre as [-> ->].
      eexists. split; [done|]. by exists fs, []. }
    pose proof (ci_rsub _ _ _ _ _ _ _ Hi) as Hsub. apply Forall_cons in Hsub as [[ctx HS] Hsub].
    pose proof (cs_nodes _ _ _ Hs) as (fr & Ho & _). rewrite <- HS in Ho.
    destruct W as [i k j v|i k p L R]; cbn [croot].
    - rewrite (rd_inner _ _ _ _ Ho _ _ _ _ _ _ (CL_cell _ _ _ _ _)). cbn [mbind res_bind].
      rewrite bool_decide_false by (by eapply CL_nz). cbn [negb].
      rewrite (rd_leaf_index _ _ _ _ Ho _ _ _ _ _ _ (CL_cell _ _ _ _ _)). cbn [mbind res_bind].
      pose proof (ci_rn _ _ _ _ _ _ _ Hi) as Hrn. pose proof (ci_fn _ _ _ _ _ _ _ Hi) as Hfn. simpl in Hrn, Hfn.
      cbn [rstack_ents] in Hre. rewrite map_app in Hre. simpl in Hre.
      destruct (unsnoc l) as [[l' x]|] eqn:E.
      + apply unsnoc_Some in E as ->. rewrite app_assoc, map_app in Hre. simpl in Hre. apply app_inj_tail in Hre as [Hre Hx].
        unfold sk in Hx. simpl in Hx. injection Hx as -> -> ->.
        rewrite decide_False.
        2:{ rewrite Hfn. destruct (last P) as [b|] eqn:EP; simpl; [|done]. intros [= Hjb].
            apply last_Some in EP as [P' ->].
            pose proof (cst_NoDup _ _ _ Hs) as Hnd. rewrite !map_app in Hnd. simpl in Hnd. rewrite <- app_assoc in Hnd. simpl in Hnd.
            apply NoDup_app in Hnd as (_ & _ & Hnd). apply NoDup_cons in Hnd as [Hnd _]. apply Hnd. rewrite <- Hjb.
            rewrite <- app_assoc. apply elem_of_app. right. apply elem_of_list_here. }
        eexists. split; [by rewrite last_snoc|]. intros y Hy. exists fs, rs.
        pose proof (ci_fe _ _ _ _ _ _ _ Hi eq_refl) as Hfe.
        constructor; simpl; try done.
        * apply Hi.
        * apply Hi.
        * intros _. rewrite Hfe, !map_app. simpl. rewrite Hy, <- app_assoc. done.
        * f_equal. unfold sk in Hy. congruence.
      + apply unsnoc_None in E as ->. rewrite app_nil_r in Hre.
        destruct (last P) as [b|] eqn:EP.
        2:{ apply last_None in EP as ->. simpl in Hre. by apply app_nil in Hre as [_ ?]. }
        apply last_Some in EP as [P' ->]. rewrite map_app in Hre. apply app_inj_tail in Hre as [Hre Hb].
        unfold sk in Hb. simpl in Hb. injection Hb as -> -> ->.
        rewrite decide_True by (rewrite Hfn; done). eexists. split; [done|]. exists fs, rs. constructor; try done.
        * apply Hi.
        * apply Hi.
        * simpl. by rewrite last_snoc.
    - rewrite (rd_inner _ _ _ _ Ho _ _ _ _ _ _ (CI_cell _ _ _ _ _ _)). cbn [mbind res_bind].
      rewrite bool_decide_true by done. cbn [negb].
      rewrite (rd_left _ _ _ _ Ho _ _ _ _ _ _ (CI_cell _ _ _ _ _ _)). cbn [mbind res_bind].
      rewrite (rd_right _ _ _ _ Ho _ _ _ _ _ _ (CI_cell _ _ _ _ _ _)). cbn [mbind res_bind].
      apply (IH _ (R :: L :: rs)); [|simpl in Hf; lia].
      destruct Hi as [H1 H2 H3 H4 H5 H6 H7 H8 H9]. constructor; try done.
      + constructor; [by exists (Fr true i k p L :: ctx)|]. constructor; [by exists (Fr false i k p R :: ctx)|done].
      + intros _. rewrite <- Hre. cbn [rstack_ents ents]. by rewrite <- app_assoc.
  Qed.

  Lemma fuel1 t : (1 ≤ cb_fuel t)%nat. Proof. unfold cb_fuel. lia. Qed.
  Lemma fwd_ok' U t it P l B :
    cst U t (P ++ l ++ B) → citok U it P l B →
    ∃ it', ci_fwd (cb_fuel t) t it = Val ((λ e, (e.1, e.2.1)) <$> head l, it') ∧
      match l with [] => citok U it' P [] B | x :: l => ∀ y, sk y = sk x → citok U it' (P ++ [y]) l B end.
  Proof.
    intros Hs (fs & rs & Hi). eapply fwd_ok; [done|exact Hi|]. destruct fs as [|W fs]; [apply fuel1|].
    pose proof (ci_fsub _ _ _ _ _ _ _ Hi) as Hsub. apply Forall_cons in Hsub as [[ctx HS] _]. by eapply cst_fuel.
  Qed.
  Lemma rev_ok' U t it P l B :
    cst U t (P ++ l ++ B) → citok U it P l B →
    ∃ it', ci_rev (cb_fuel t) t it = Val ((λ e, (e.1, e.2.1)) <$> last l, it') ∧
      match unsnoc l with None => citok U it' P [] B | Some (l, x) => ∀ y, sk y = sk x → citok U it' P l (y :: B) end.
  Proof.
    intros Hs (fs & rs & Hi). eapply rev_ok; [done|exact Hi|]. destruct rs as [|W rs]; [apply fuel1|].
    pose proof (ci_rsub _ _ _ _ _ _ _ Hi) as Hsub. apply Forall_cons in Hsub as [[ctx HS] _]. by eapply cst_fuel.
  Qed.

  (** reading an entry *)
  Lemma cst_node U t E e : cst U t E → e ∈ E → ∃ ctx v, plug ctx (CL e.1 e.2.2.1 e.2.1 v) = U.
  Proof.
    intros Hs Hin. apply (elem_of_list_fmap_1 sk) in Hin. change (sk <$> E) with (map sk E) in Hin. rewrite <- (cs_sk _ _ _ Hs) in Hin.
    apply elem_of_list_fmap in Hin as ([i [j [k v]]] & He & Hin). unfold sk in He. simpl in He. injection He as -> -> ->.
    destruct (ent_plug _ _ _ _ _ Hin) as [ctx HU]. eauto.
  Qed.
  Lemma cst_leaf U t E e : cst U t E → e ∈ E → cb_get_leaf t e.2.1 = Val e.2.2.2.
  Proof.
    intros Hs Hin. unfold cb_get_leaf. erewrite CH_get; [|exact (cs_leaves _ _ _ Hs)|apply (elem_of_list_fmap_1 (@lcell V)); exact Hin]. done.
  Qed.
  Lemma cst_key U t E e : cst U t E → e ∈ E → cb_get_key t e.1 = Val e.2.2.1.
  Proof.
    intros Hs Hin. destruct (cst_node _ _ _ _ Hs Hin) as (ctx & v & <-). destruct (cs_nodes _ _ _ Hs) as (fr & Ho & _).
    by rewrite (rd_key _ _ _ _ Ho _ _ _ _ _ _ (CL_cell _ _ _ _ _)).
  Qed.
  Lemma cst_raw_key U t E e : cst U t E → e ∈ E → cb_raw_key t e.1 = Val e.2.2.1.
  Proof.
    intros Hs Hin. destruct (cst_node _ _ _ _ Hs Hin) as (ctx & v & <-). destruct (cs_nodes _ _ _ Hs) as (fr & Ho & _).
    pose proof (AOK_rd _ _ _ _ _ _ _ Ho (CL_cell _ _ _ _ _)) as Hr. pose proof (rd_lt _ _ _ Hr). unfold rd in Hr.
    rewrite decide_False in Hr by lia. unfold cb_raw_key, u32_sub. rewrite u_sub_ok by lia. simpl. by rewrite Hr.
  Qed.

  Lemma iterate_ok t U sc : crep nn cap t U → drive (cb_iter_next t) (cb_iter_next_back t) sc (cb_iter t) = Val (de_spec sc (kvs U)).
  Proof.
    intros HR. apply (drive_ok _ _ (λ it l, ∃ P l' B, l = l'.*2.*2 ∧ cst U t (P ++ l' ++ B) ∧ citok U it P l' B)).
    - intros it (P & l & B & Hl & Hs & Hi). symmetry in Hl. apply fmap_nil_inv in Hl. apply fmap_nil_inv in Hl. subst l.
      destruct (fwd_ok' _ _ _ _ _ _ Hs Hi) as (it' & He & Hi'). exists it'. unfold cb_iter_next, mbind, res_bind. rewrite He.
      split; [done|]. by exists P, [], B.
    - intros it x l (P & l' & B & Hl & Hs & Hi). destruct l' as [|e l']; [done|]. simpl in Hl. injection Hl as -> ->.
      destruct (fwd_ok' _ _ _ _ _ _ Hs Hi) as (it' & He & Hi'). exists it'. unfold cb_iter_next, mbind, res_bind. rewrite He. simpl.
      assert (e ∈ P ++ (e :: l') ++ B) as Hin by (rewrite !elem_of_app, elem_of_cons; auto).
      rewrite (cst_leaf _ _ _ _ Hs Hin), (cst_key _ _ _ _ Hs Hin). split; [by destruct e as (? & ? & ? & ?)|].
      exists (P ++ [e]), l', B. split_and!; [done|by rewrite <- app_assoc|by apply Hi'].
    - intros it (P & l & B & Hl & Hs & Hi). symmetry in Hl. apply fmap_nil_inv in Hl. apply fmap_nil_inv in Hl. subst l.
      destruct (rev_ok' _ _ _ _ _ _ Hs Hi) as (it' & He & Hi'). exists it'. unfold cb_iter_next_back, mbind, res_bind. rewrite He.
      split; [done|]. by exists P, [], B.
    - intros it x l (P & l' & B & Hl & Hs & Hi). 
      destruct (unsnoc l') as [[m e]|] eqn:E.
      2:{ apply unsnoc_None in E as ->. simpl in Hl. by apply app_nil in Hl as [_ ?]. }
      apply unsnoc_Some in E as ->. rewrite !fmap_app in Hl. simpl in Hl. apply app_inj_tail in Hl as [-> ->].
      destruct (rev_ok' _ _ _ _ _ _ Hs Hi) as (it' & He & Hi'). rewrite unsnoc_snoc in Hi'. rewrite last_snoc in He. exists it'.
      unfold cb_iter_next_back, mbind, res_bind. rewrite He. simpl.
      assert (e ∈ P ++ (m ++ [e]) ++ B) as Hin by (rewrite !elem_of_app, elem_of_list_singleton; auto).
      rewrite (cst_leaf _ _ _ _ Hs Hin), (cst_key _ _ _ _ Hs Hin). split; [by destruct e as (? & ? & ? & ?)|].
      exists P, m, (e :: B). split_and!; [done|by rewrite <- app_assoc in Hs|by apply Hi'].
    - exists [], (ents U), []. rewrite app_nil_r. split_and!; [done|by apply cst_crep|by apply iter_start].
  Qed.

  (** rebuilding the tree around new values *)
  Lemma revalue U E : map sk E = map sk (ents U) →
    ∃ U', ents U' = E ∧ (∀ par, cells U' par = cells U par) ∧ croot U' = croot U ∧ (wf U → wf U').
  Proof.
    revert E. induction U as [i k j v|i k p l IHl r IHr]; intros E HE.
    - destruct E as [|[i' [j' [k' v']]] [|]]; try done. simpl in HE. unfold sk in HE. simpl in HE. injection HE as -> -> ->.
      by exists (CL i k j v').
    - simpl in HE. rewrite map_app in HE. apply fmap_app_inv in HE as (E1 & E2 & H1 & H2 & ->).
      destruct (IHl E1 (eq_sym H1)) as (l' & Hl1 & Hl2 & Hl3 & Hl4). destruct (IHr E2 (eq_sym H2)) as (r' & Hr1 & Hr2 & Hr3 & Hr4).
      exists (CI i k p l' r'). simpl. split_and!; [congruence| |done|].
      + intros par. by rewrite Hl2, Hr2, Hl3, Hr3.
      + assert (∀ A B : list ent, map sk A = map sk B → A.*2.*2.*1 = B.*2.*2.*1) as Hk.
        { intros A B HAB. rewrite <- !list_fmap_compose. 
          transitivity (map snd (map sk A)); [|rewrite HAB]; by rewrite <- list_fmap_compose. }
        intros (? & ? & ? & ? & ? & ?). unfold keys, kvs in *. rewrite Hl1, Hr1, (Hk _ _ (eq_sym H1)), (Hk _ _ (eq_sym H2)).
        split_and!; auto.
  Qed.

  (** *** Mutable iteration *)
  Lemma cst_update U t (f : V → V) (A B : list ent) e (Q : V → critbit → Prop) :
    cst U t (A ++ e :: B) →
    (∀ t', cst U t' (A ++ upd_cent f e :: B) → cb_nodes t' = cb_nodes t → cb_root t' = cb_root t → Q e.2.2.2 t') →
    wp (cb_onl (na_raw_update e.2.1 f)) t Q.
  Proof.
    intros [H1 H2 H3 H4] HQ. destruct t as [rt nd lv]. cbn [cb_root cb_nodes cb_leaves] in *. apply wp_onl.
    rewrite map_app in H3. cbn [map] in H3. 
    eapply (CH_raw_update 4 cap lv (map (@lcell V) A ++ map (@lcell V) B) e.2.1 (Node [0;0;0;0] e.2.2.2)).
    { eapply CH_perm; [exact H3|]. symmetry. apply Permutation_middle. }
    intros lv' Hl'. apply HQ; [|done|done]. constructor; cbn [cb_root cb_nodes cb_leaves]; try done.
    - rewrite map_app. cbn [map]. eapply CH_perm; [exact Hl'|]. apply Permutation_middle.
    - rewrite H4, !map_app. done.
  Qed.

  Definition upd_lf (f : V → V) (x : N * (N * V)) : N * (N * V) := (x.1, (x.2.1, f x.2.2)).
  Definition mst U (t0 : critbit) (st : critbit * citer) (P l B : list (N * (N * V))) : Prop :=
    ∃ P' l' B', P = P'.*2 ∧ l = l'.*2 ∧ B = B'.*2 ∧ cst U st.1 (P' ++ l' ++ B') ∧ citok U st.2 P' l' B' ∧
      cb_nodes st.1 = cb_nodes t0.

  Lemma mut_next0 U t0 st P B f :
    mst U t0 st P [] B → wp (cb_iter_mut_next f) st (λ o st', o = None ∧ mst U t0 st' P [] B).
  Proof.
    intros (P' & l' & B' & -> & Hl & -> & Hs & Hi & Hn). symmetry in Hl. apply fmap_nil_inv in Hl as ->.
    destruct st as [t it]. cbn [fst snd] in *. unfold cb_iter_mut_next. apply wp_bind, wp_mget. cbn [fst snd].
    destruct (fwd_ok' _ _ _ _ _ _ Hs Hi) as (it' & He & Hi'). apply wp_bind. eapply wp_lift; [exact He|].
    apply wp_bind, wp_modify. cbn [head fmap option_fmap option_map fst snd]. apply wp_ret. split; [done|]. by exists P', [], B'.
  Qed.
  Lemma mut_back0 U t0 st P B f :
    mst U t0 st P [] B → wp (cb_iter_mut_next_back f) st (λ o st', o = None ∧ mst U t0 st' P [] B).
  Proof.
    intros (P' & l' & B' & -> & Hl & -> & Hs & Hi & Hn). symmetry in Hl. apply fmap_nil_inv in Hl as ->.
    destruct st as [t it]. cbn [fst snd] in *. unfold cb_iter_mut_next_back. apply wp_bind, wp_mget. cbn [fst snd].
    destruct (rev_ok' _ _ _ _ _ _ Hs Hi) as (it' & He & Hi'). apply wp_bind. eapply wp_lift; [exact He|].
    apply wp_bind, wp_modify. cbn [last fmap option_fmap option_map fst snd]. apply wp_ret. split; [done|]. by exists P', [], B'.
  Qed.
  Lemma mut_next1 U t0 st P x l B f :
    mst U t0 st P (x :: l) B → wp (cb_iter_mut_next f) st (λ o st', o = Some x ∧ mst U t0 st' (P ++ [upd_lf f x]) l B).
  Proof.
    intros (P' & l' & B' & -> & Hl & -> & Hs & Hi & Hn). destruct l' as [|e l']; [done|]. cbn [fmap list_fmap] in Hl. injection Hl as -> ->.
    destruct st as [t it]. cbn [fst snd] in *. unfold cb_iter_mut_next. apply wp_bind, wp_mget. cbn [fst snd].
    destruct (fwd_ok' _ _ _ _ _ _ Hs Hi) as (it' & He & Hi'). apply wp_bind. eapply wp_lift; [exact He|].
    apply wp_bind, wp_modify. cbn [head fmap option_fmap option_map fst snd].
    assert (e ∈ P' ++ (e :: l') ++ B') as Hin by (rewrite !elem_of_app, elem_of_cons; auto).
    apply wp_bind. eapply wp_gets; [exact (cst_raw_key _ _ _ _ Hs Hin)|].
    apply wp_bind, wp_zoom. cbn [fst snd]. eapply cst_update; [exact Hs|]. intros t' Hs' Hn' Hr'. apply wp_ret.
    split; [by destruct e as (? & ? & ? & ?)|]. exists (P' ++ [upd_cent f e]), l', B'. cbn [fst snd].
    split_and!; [by rewrite fmap_app|done|done|by rewrite <- app_assoc|by apply Hi'|congruence].
  Qed.
  Lemma mut_back1 U t0 st P x l B f :
    mst U t0 st P (l ++ [x]) B → wp (cb_iter_mut_next_back f) st (λ o st', o = Some x ∧ mst U t0 st' P l (upd_lf f x :: B)).
  Proof.
    intros (P' & l' & B' & -> & Hl & -> & Hs & Hi & Hn). 
    destruct (unsnoc l') as [[m e]|] eqn:E.
    2:{ apply unsnoc_None in E as ->. simpl in Hl. by apply app_nil in Hl as [_ ?]. }
    apply unsnoc_Some in E as ->. rewrite fmap_app in Hl. cbn [fmap list_fmap] in Hl. apply app_inj_tail in Hl as [-> ->].
    destruct st as [t it]. cbn [fst snd] in *. unfold cb_iter_mut_next_back. apply wp_bind, wp_mget. cbn [fst snd].
    destruct (rev_ok' _ _ _ _ _ _ Hs Hi) as (it' & He & Hi'). rewrite unsnoc_snoc in Hi'. rewrite last_snoc in He.
    apply wp_bind. eapply wp_lift; [exact He|].
    apply wp_bind, wp_modify. cbn [fmap option_fmap option_map fst snd].
    assert (e ∈ P' ++ (m ++ [e]) ++ B') as Hin by (rewrite !elem_of_app, elem_of_list_singleton; auto).
    apply wp_bind. eapply wp_gets; [exact (cst_raw_key _ _ _ _ Hs Hin)|].
    assert (P' ++ (m ++ [e]) ++ B' = (P' ++ m) ++ e :: B') as HE by (by rewrite <- !app_assoc). rewrite HE in Hs.
    apply wp_bind, wp_zoom. cbn [fst snd]. eapply cst_update; [exact Hs|]. intros t' Hs' Hn' Hr'. apply wp_ret.
    split; [by destruct e as (? & ? & ? & ?)|]. exists P', m, (upd_cent f e :: B'). cbn [fst snd].
    split_and!; [done|done|done|by rewrite app_assoc|by apply Hi'|congruence].
  Qed.

  Lemma iterate_mut_ok t U sc :
    crep nn cap t U →
    wp (cb_iterate_mut sc) t (λ o t', o = (de_mut_spec upd_lf sc (ents U).*2).1 ∧
      ∃ U', crep nn cap t' U' ∧ (ents U').*2 = (de_mut_spec upd_lf sc (ents U).*2).2 ∧ (wf U → wf U') ∧
        map sk (ents U') = map sk (ents U) ∧ cb_nodes t' = cb_nodes t ∧ cb_root t' = cb_root t).
  Proof.
    intros HR. unfold cb_iterate_mut, wp.
    assert (mst U t (t, cb_iter t) [] (ents U).*2 []) as HJ.
    { exists [], (ents U), []. cbn [fst snd]. rewrite app_nil_r. split_and!; try done; [by apply cst_crep|by apply iter_start]. }
    pose proof (drive_mut_ok cb_iter_mut_next cb_iter_mut_next_back upd_lf (mst U t)
      (mut_next0 U t) (mut_next1 U t) (mut_back0 U t) (mut_back1 U t) sc _ _ _ _ HJ) as Hd.
    apply wp_elim in Hd as (o & [t' it'] & -> & -> & P & l & B & (P' & l' & B' & -> & -> & -> & Hs & _ & Hn) & HE).
    split; [done|]. cbn [fst snd] in *. destruct Hs as [H1 H2 H3 H4].
    destruct (revalue U (P' ++ l' ++ B') (eq_sym H4)) as (U' & HU1 & HU2 & HU3 & HU4).
    exists U'. simpl in HE. rewrite app_nil_r in HE. rewrite HU1, !fmap_app. split_and!; try done.
    - constructor; [congruence|by rewrite HU2|unfold lcells; by rewrite HU1].
    - rewrite H4. by rewrite !map_app.
    - rewrite (cr_root _ _ _ _ HR). exact H1.
  Qed.
End iter.
