(** * Facts about all reachable red-black trees *)
From Verif Require Export RBOps MapFacts.

Section main.
  Context `{Profile} {K V : Type} (cmp : K → K → comparison) (HO : OrdLaws cmp).
  Notation tree := (tree (K * V)).
  Notation rbt := (rbt K V).
  Implicit Types t : rbt.
  Implicit Types U : tree.

  Section cap.
    Context (cap : N) (Hcap : 0 < cap).
    Notation rbok := (rbok cmp cap).

    Lemma rb_step_ok o t U :
      rbok t U → ∃ r t' U', call (rb_step cmp o) t = (r, t') ∧ rbok t' U' ∧
        (∀ ops rs l', om_run cmp cap ops (entries U').*2 rs l' → om_run cmp cap (o :: ops) (entries U).*2 (r :: rs) l') ∧
        ∀ i kv, (i, kv) ∈ entries U → (∀ k, o = Some (MRemove k) → cmp k kv.1 ≠ Eq) →
          (∀ kv', o = None → r = Val (MPair (Some kv')) → cmp kv'.1 kv.1 ≠ Eq) → ∃ v, (i, (kv.1, v)) ∈ entries U'.
    Proof using HO Hcap.
      intros Hok. destruct o as [o|]; simpl.
      - destruct (om_step_ok _ cmp cap _ (rb_om_ok cmp HO cap Hcap) o t (entries U)) as (Hr & E' & (U' & Hok' & <-) & HE & Hk); [by exists U|].
        destruct (call (om_step (rb_api cmp) o) t) as [r t']. simpl in *. exists r, t', U'. split_and!; [done|done| |].
        + intros ops rs l' Hrun. rewrite Hr. constructor. by rewrite <- HE.
        + intros i kv Hin Hne _. apply Hk; [done|]. intros k ->. by apply Hne.
      - assert (wp rb_remove_root t (λ o t', ∃ U', rbok t' U' ∧
          match o with
          | None => U = Lf ∧ U' = Lf
          | Some kv => kv ∈ (entries U).*2 ∧ rem_rel cmp kv.1 (entries U) (Some kv.2) (entries U')
          end)) as Hw.
        { eapply (wp_remove_root cmp HO); [exact Hok|intros ->; by exists Lf|].
          intros m l i kv r t' U' -> Hok' He Hr. exists U'. split_and!; [done| |done].
          simpl. rewrite fmap_app, elem_of_app. right. apply elem_of_list_here. }
        apply wp_elim in Hw as (o & t' & He & U' & Hok' & Ho).
        exists (Val (MPair o)), t', U'. unfold call, mbind, M_bind. rewrite He. split_and!; [done|done| |].
        + intros ops rs l' Hrun. destruct o as [kv|].
          * destruct Ho as [Hin Hr]. apply run_root; [done|].
            apply (rem_rel_spec _ cap) in Hr. unfold om_spec in Hr. injection Hr as _ Hr. by rewrite Hr.
          * destruct Ho as [-> ->]. by constructor.
        + intros i kv Hin _ Hne. destruct o as [kv'|].
          * destruct Ho as [_ Hr]. exists kv.2. destruct kv. eapply rem_rel_stable; [exact Hr|done|by apply Hne].
          * destruct Ho as [-> _]. simpl in Hin. by apply elem_of_nil in Hin.
    Qed.
    Lemma rb_run_ok ops t U :
      rbok t U → ∃ U' l, rbok (history (rb_step cmp) ops t).2 U' ∧ (entries U').*2 = l ∧
        om_run cmp cap ops (entries U).*2 (history (rb_step cmp) ops t).1 l ∧
        ∀ i kv, (i, kv) ∈ entries U → never_removed cmp kv.1 ops (history (rb_step cmp) ops t).1 →
          ∃ v, (i, (kv.1, v)) ∈ entries U'.
    Proof using HO Hcap.
      revert t U. induction ops as [|o ops IH]; intros t U Hok; simpl.
      { exists U, (entries U).*2. split_and!; [done|done|constructor|]. intros i [k v] Hin _. by exists v. }
      destruct (rb_step_ok o t U Hok) as (r & t1 & U1 & -> & Hok1 & Hrun & Hk1).
      destruct (IH t1 U1 Hok1) as (U2 & l & Hok2 & He2 & Hr2 & Hk2).
      destruct (history (rb_step cmp) ops t1) as [rs t2]. simpl in *. exists U2, l. split_and!; [done|done|by apply Hrun|].
      intros i kv Hin [Hn1 Hn2]. destruct (Hk1 i kv Hin) as [v1 Hv1].
      { intros k ->. apply Hn1. apply elem_of_list_here. }
      { intros kv' -> ->. apply Hn2. simpl. apply elem_of_list_here. }
      apply (Hk2 i (kv.1, v1) Hv1). split.
      - intros k' Hk'. apply Hn1. by apply elem_of_list_further.
      - intros kv' Hkv'. apply Hn2. simpl. by apply elem_of_list_further.
    Qed.

    (** *** Shape *)
    Lemma rep_sub t ctx (s : tree) n : rep cap t (plug ctx s) → rbi s n → rb_sub t (root s) n.
    Proof using Type.
      clear HO Hcap. intros HR Hn. revert ctx HR. induction Hn as [|l i kv r n Hl IHl Hr IHr Hml Hmr|l i kv r n Hl IHl Hr IHr]; intros ctx HR.
      - constructor.
      - eapply rb_sub_red.
        + exact (rep_color cap t _ ctx _ HR eq_refl).
        + exact (rep_left cap t _ ctx _ _ _ _ _ HR eq_refl).
        + exact (rep_right cap t _ ctx _ _ _ _ _ HR eq_refl).
        + rewrite (rep_color cap t _ (F false 1 i kv r :: ctx) l HR eq_refl). by rewrite Hml.
        + rewrite (rep_color cap t _ (F true 1 i kv l :: ctx) r HR eq_refl). by rewrite Hmr.
        + by apply (IHl (F false 1 i kv r :: ctx)).
        + by apply (IHr (F true 1 i kv l :: ctx)).
      - eapply rb_sub_black.
        + exact (rep_nz cap t _ ctx _ _ _ _ _ HR eq_refl).
        + exact (rep_color cap t _ ctx _ HR eq_refl).
        + exact (rep_left cap t _ ctx _ _ _ _ _ HR eq_refl).
        + exact (rep_right cap t _ ctx _ _ _ _ _ HR eq_refl).
        + by apply (IHl (F false 0 i kv r :: ctx)).
        + by apply (IHr (F true 0 i kv l :: ctx)).
    Qed.
    Lemma rep_path t ctx (s : tree) p : rep cap t (plug ctx s) → rb_path t (root s) p → (length p ≤ height s)%nat.
    Proof using Type.
      clear HO Hcap. revert ctx p. induction s as [|m l IHl i kv r IHr]; intros ctx p HR Hp.
      - inversion Hp; subst; [done|done|done].
      - inversion Hp as [|? l' p' Hi Hl Hp'|? r' p' Hi Hr Hp']; subst; simpl; [lia|..].
        + simpl in Hl. rewrite (rep_left cap t _ ctx _ _ _ _ _ HR eq_refl) in Hl. injection Hl as <-.
          apply (IHl (F false m i kv r :: ctx)) in Hp'; [lia|done].
        + simpl in Hr. rewrite (rep_right cap t _ ctx _ _ _ _ _ HR eq_refl) in Hr. injection Hr as <-.
          apply (IHr (F true m i kv l :: ctx)) in Hp'; [lia|done].
    Qed.
    Lemma rb_height t U : rbok t U → 2 ^ N.of_nat (height U) ≤ (rb_len t + 1) ^ 2.
    Proof using Type.
      clear HO Hcap. intros [HR [Hm [n Hn]] _]. rewrite (rep_len cap t U HR).
      pose proof (rbi_size _ _ Hn) as Hs. pose proof (rbi_height _ _ Hn) as Hh. rewrite Hm in Hh.
      change (N.to_nat 0) with 0%nat in Hh. rewrite tsize_entries in Hs. unfold lengthN.
      assert (N.of_nat (2 ^ n) ≤ N.of_nat (length (entries U)) + 1) as Hs' by lia.
      rewrite Nat2N.inj_pow in Hs'. change (N.of_nat 2) with 2 in Hs'.
      etrans; [apply (N.pow_le_mono_r 2 _ (2 * N.of_nat n)); lia|].
      rewrite N.mul_comm, N.pow_mul_r. by apply N.pow_le_mono_l.
    Qed.

    (** *** [is_valid_red_black_tree] *)
    Definition vstack := list (tree * N).
    Definition vsize (st : vstack) : nat := list_sum (map (λ x, tsize x.1) st).
    Definition vok t (B : N) (x : tree * N) : Prop :=
      x.1 ≠ Lf ∧ (∃ ctx, rep cap t (plug ctx x.1)) ∧ ∃ n, rbi x.1 n ∧ x.2 + N.of_nat n = B.
    Lemma rb_valid_loop_ok t B (st : vstack) fuel counts :
      B < W32 → Forall (vok t B) st → Forall (λ c, c = B) counts → (vsize st < fuel)%nat →
      ∃ cs, rb_valid_loop fuel t (map (λ x, (root x.1, x.2)) st) counts = Val (Some cs) ∧ Forall (λ c, c = B) cs.
    Proof using Type.
      clear HO Hcap. intros HB. revert st counts. induction fuel as [|fuel IH]; intros st counts Hst Hc Hf; [lia|].
      destruct st as [|[s count] st]; simpl; [by exists counts|].
      apply Forall_cons in Hst as [(Hne & [ctx HR] & n & Hn & HBn) Hst]. simpl in *.
      destruct s as [|m l i kv r]; [done|]. clear Hne. unfold vsize in Hf. simpl in Hf. fold (vsize st) in Hf.
      rewrite (rep_black cap t _ ctx _ HR eq_refl). simpl.
      assert (u32_add count (if bool_decide (m = 0) then 1 else 0) = Val (count + (if bool_decide (m = 0) then 1 else 0))) as ->.
      { apply u_add_ok. inversion Hn; subst; rewrite ?bool_decide_eq_true_2, ?bool_decide_eq_false_2 by done; lia. }
      simpl. rewrite (rep_is_leaf cap t ctx _ _ _ _ _ HR). simpl.
      assert (l = Lf ∧ r = Lf ∨ ¬ (l = Lf ∧ r = Lf)) as [[-> ->]|Hlr] by (destruct l, r; naive_solver).
      { apply IH; [done| |lia]. constructor; [|done].
        inversion Hn as [|? ? ? ? ? Hl|? ? ? ? n' Hl]; subst; simpl; inversion Hl; subst; lia. }
      replace (match l, r with Lf, Lf => true | _, _ => false end) with false by (destruct l, r; naive_solver).
      rewrite (rep_left cap t _ ctx _ _ _ _ _ HR eq_refl). simpl.
      rewrite (rep_right cap t _ ctx _ _ _ _ _ HR eq_refl). simpl.
      set (count' := count + (if bool_decide (m = 0) then 1 else 0)).
      assert (rb_is_red t i = Val (bool_decide (m = 1))) as Hred by exact (rep_red cap t _ ctx _ HR eq_refl).
      assert (∀ d s o, (s = l ∧ d = false ∧ o = r ∨ s = r ∧ d = true ∧ o = l) →
         (s ≠ Lf → vok t B (s, count')) ∧ rb_is_red t (root s) = Val (bool_decide (mark s = 1)) ∧
         (m = 1 → mark s = 0) ∧ (s ≠ Lf → root s ≠ 0)) as Hch.
      { intros d s o Hs. assert (plug (F d m i kv o :: ctx) s = plug ctx (Nd m l i kv r)) as HP by naive_solver.
        pose proof HR as HR'. rewrite <- HP in HR'. split_and!.
        - intros Hne. split_and!; [done|by eexists|]. unfold count'. simpl.
          inversion Hn as [|? ? ? ? ? Hl Hr|? ? ? ? n' Hl Hr]; subst; simpl.
          + exists n. split; [naive_solver|]. simpl. lia.
          + exists n'. split; [naive_solver|]. simpl. lia.
        - exact (rep_red cap t _ (F d m i kv o :: ctx) s HR' eq_refl).
        - intros ->. inversion Hn; subst. naive_solver.
        - intros Hne. exact (rep_nz' cap t _ (F d m i kv o :: ctx) s HR' eq_refl Hne). }
      assert (∀ d s o st1, (s = l ∧ d = false ∧ o = r ∨ s = r ∧ d = true ∧ o = l) →
        (if decide (root s = SENTINEL) then Val (Some (map (λ x : tree * N, (root x.1, x.2)) st1))
         else ri ← rb_is_red t i;
              rc ← (if (ri : bool) then rb_is_red t (root s) else Val false);
              if (rc : bool) then Val None else Val (Some ((root s, count') :: map (λ x : tree * N, (root x.1, x.2)) st1))) =
        Val (Some (map (λ x : tree * N, (root x.1, x.2)) (if decide (root s = 0) then st1 else (s, count') :: st1)))) as Hpush.
      { intros d s o st1 Hs. destruct (Hch d s o Hs) as (_ & Hrs & Hms & _). destruct (decide (root s = 0)) as [Hz|Hz].
        - by rewrite decide_True.
        - rewrite decide_False by done. rewrite Hred. simpl. destruct (bool_decide (m = 1)) eqn:Hm1; simpl; [|done]. apply bool_decide_eq_true in Hm1.
          rewrite Hrs. simpl. by rewrite (Hms Hm1). }
      rewrite (Hpush false l r st) by auto. simpl. rewrite (Hpush true r l) by auto. simpl.
      assert (∀ s, root s = 0 → (s ≠ Lf → root s ≠ 0) → s = Lf) as Hz0 by (intros [|] ??; naive_solver).
      destruct (Hch false l r) as (Hv1 & _ & _ & Hz1); [by auto|]. destruct (Hch true r l) as (Hv2 & _ & _ & Hz2); [by auto|].
      destruct (decide (root l = 0)) as [E1|E1], (decide (root r = 0)) as [E2|E2]; apply IH; try done;
        repeat match goal with |- Forall _ (_ :: _) => constructor end; try done; unfold vsize; simpl; fold (vsize st);
        try lia; try (apply Hv1; by intros ->); try (apply Hv2; by intros ->).
    Qed.
    Lemma rb_is_valid_ok t U : rbok t U → rb_is_valid t = Val true.
    Proof using Type.
      clear HO Hcap. intros [HR [Hm [n Hn]] _]. unfold rb_is_valid. case_decide as Hl; [done|].
      rewrite (rep_root _ _ _ HR). rewrite (rep_red cap t _ [] U HR eq_refl). rewrite Hm. simpl.
      assert (U ≠ Lf) as Hne. { intros ->. apply Hl. by rewrite (rep_len cap t Lf HR). }
      pose proof (rep_tsize _ _ _ HR) as Hts. pose proof (R_fuel cap t _ _ HR) as Hfu.
      assert (N.of_nat n < W32) as HB.
      { destruct HR as [Hc _]. pose proof (CH_w _ _ _ _ Hc). pose proof (rbi_size _ _ Hn).
        assert (n < 2 ^ n)%nat by (apply Nat.pow_gt_lin_r; lia). lia. }
      destruct (rb_valid_loop_ok t (N.of_nat n) [(U, 0)] (S (rb_fuel t)) []) as (cs & Hcs & Hall).
      - done.
      - constructor; [|constructor]. split_and!; [done|by exists []|]. exists n. split; [done|]. simpl. lia.
      - constructor.
      - unfold vsize. simpl. rewrite Hfu. lia.
      - simpl in Hcs. rewrite Hcs. simpl.
        assert (Forall (λ c, c = N.of_nat n) (reverse cs)) as Hrev by by apply Forall_reverse.
        destruct (reverse cs) as [|c0 cs']; [done|]. f_equal. apply forallb_forall. intros x Hx. apply bool_decide_eq_true.
        rewrite Forall_forall in Hrev. rewrite (Hrev c0) by apply elem_of_list_here. apply Hrev. by apply elem_of_list_In.
    Qed.

    Lemma rb_fuel_enough t U k n :
      rbok t U → (rb_len t + 1) ^ 2 < 2 ^ (N.of_nat n + 1) → bst_get_addr cmp n (rb_al t) (rb_root t) k = rb_get_addr cmp t k.
    Proof using Type.
      clear HO Hcap. intros Hok Hn. pose proof (rb_height t U Hok) as Hh. destruct Hok as [HR _ _].
      assert (2 ^ N.of_nat (height U) < 2 ^ (N.of_nat n + 1)) as Hlt by lia.
      apply N.pow_lt_mono_r_iff in Hlt; [|lia].
      unfold rb_get_addr. rewrite (rep_root _ _ _ HR).
      rewrite bst_get_addr_ok; [symmetry; apply bst_get_addr_ok|..].
      - by apply (rep_shp cap).
      - destruct HR as [Hc _]. by eapply CH_vals.
      - pose proof (rep_tsize _ _ _ HR). pose proof (height_tsize U). erewrite R_fuel by exact HR. lia.
      - by apply (rep_shp cap).
      - destruct HR as [Hc _]. by eapply CH_vals.
      - lia.
    Qed.
    Lemma rb_iter_mut_facts t U sc :
      rbok t U → let '(out, E') := de_mut_spec upd_ent sc (entries U) in
      ∃ t' U', rb_iterate_mut sc t = Ret out t' ∧ rbok t' U' ∧ entries U' = E' ∧
        NoDup (map fst (omap id out)) ∧ E'.*1 = (entries U).*1 ∧ E'.*2.*1 = (entries U).*2.*1 ∧ rb_root t' = rb_root t ∧
        ∀ i n, i ∈ (entries U).*1 → na_get (rb_al t) i = Val n → ∃ n', na_get (rb_al t') i = Val n' ∧ regs n' = regs n.
    Proof using Type.
      clear HO Hcap. intros Hok.
      pose proof (de_mut_spec_out upd_ent sc (entries U)) as Hout.
      pose proof (de_mut_spec_keys upd_ent fst sc (entries U) (λ _ _, eq_refl)) as Hk1.
      pose proof (de_mut_spec_keys upd_ent (λ x : N * (K * V), x.2.1) sc (entries U) (λ _ _, eq_refl)) as Hk2.
      assert (wp (rb_iterate_mut sc) t (λ o t', ∃ U', o = (de_mut_spec upd_ent sc (entries U)).1 ∧ rbok t' U' ∧ same_shape U U' ∧
        entries U' = (de_mut_spec upd_ent sc (entries U)).2)) as Hw.
      { eapply rb_iterate_mut_ok; [exact _|exact Hok|]. intros t' U' Hok' Hss He. by exists U'. }
      apply wp_elim in Hw as (o & t' & He & U' & -> & Hok' & Hss & HE).
      destruct (de_mut_spec upd_ent sc (entries U)) as [out E']. simpl in *. subst out.
      exists t', U'. split_and!; [done|done|done| |exact Hk1| | |].
      - apply de_spec_NoDup. destruct Hok as [HR _ _]. by eapply rep_NoDup.
      - rewrite <- !list_fmap_compose. exact Hk2.
      - destruct Hok as [HR _ _]. destruct Hok' as [HR' _ _]. rewrite (rep_root _ _ _ HR), (rep_root _ _ _ HR').
        symmetry. by apply same_shape_root.
      - intros i n. destruct Hok as [[Hc _] _ _]. destruct Hok' as [[Hc' _] _ _]. by eapply same_regs.
    Qed.
    Lemma rb_min_addr t U kv : rbok t U → head (entries U).*2 = Some kv → ∃ i, rb_get_min_index t = Val i ∧ (i, kv) ∈ entries U.
    Proof using Type.
      clear HO Hcap. intros [HR _ _] Hh. rewrite (rb_min_index cap t U HR). destruct U as [|m l i kv0 r]; [done|].
      destruct (tmin_head (Nd m l i kv0 r)) as (kv' & es & He); [done|]. eexists. split; [done|]. rewrite He in Hh |- *.
      injection Hh as ->. apply elem_of_list_here.
    Qed.
    Lemma rb_max_addr t U kv : rbok t U → last (entries U).*2 = Some kv → ∃ i, rb_get_max_index t = Val i ∧ (i, kv) ∈ entries U.
    Proof using Type.
      clear HO Hcap. intros [HR _ _] Hh. rewrite (rb_max_index cap t U HR). destruct U as [|m l i kv0 r]; [done|].
      destruct (tmax_last (Nd m l i kv0 r)) as (kv' & es & He); [done|]. eexists. split; [done|]. rewrite He in Hh |- *.
      rewrite fmap_app in Hh. simpl in Hh. rewrite last_snoc in Hh. injection Hh as ->. apply elem_of_app. right. apply elem_of_list_here.
    Qed.
  End cap.

  (** *** Reachable states *)
  Definition rb_after (ms : nat) (d : K * V) (ops : list (option (om_op K V))) : rbt := (history (rb_step cmp) ops (rb_new ms d)).2.
  Definition rb_answers (ms : nat) (d : K * V) (ops : list (option (om_op K V))) : list (res (om_out K V)) :=
    (history (rb_step cmp) ops (rb_new ms d)).1.
  (** After the history the specification holds the pairs [l] *)
  Definition rb_holds (ms : nat) (d : K * V) (ops : list (option (om_op K V))) (l : list (K * V)) : Prop :=
    om_run cmp (N.of_nat ms) ops [] (rb_answers ms d ops) l.
  Lemma rb_reach ms d ops :
    (0 < ms)%nat → N.of_nat ms + 1 < W32 →
    ∃ U l, rb_holds ms d ops l ∧ rbok cmp (N.of_nat ms) (rb_after ms d ops) U ∧ (entries U).*2 = l.
  Proof using HO.
    intros H0 Hw. destruct (rb_run_ok (N.of_nat ms)) with (ops := ops) (t := rb_new ms d) (U := @Lf (K * V)) as (U & l & Hok & He & Hr & _).
    - lia.
    - by apply rbok_new.
    - by exists U, l.
  Qed.
  Lemma rb_reach' ms d ops l :
    (0 < ms)%nat → N.of_nat ms + 1 < W32 → rb_holds ms d ops l →
    ∃ U, rbok cmp (N.of_nat ms) (rb_after ms d ops) U ∧ (entries U).*2 = l ∧ RBI cmp (N.of_nat ms) (rb_after ms d ops) (entries U).
  Proof using HO.
    intros H0 Hw Hl. destruct (rb_reach ms d ops H0 Hw) as (U & l' & Hl' & Hok & He).
    rewrite (om_run_det _ _ _ _ _ _ _ Hl Hl'). exists U. split_and!; [done|done|by exists U].
  Qed.

  Section reach.
    Context (ms : nat) (d : K * V) (H0 : (0 < ms)%nat) (Hw : N.of_nat ms + 1 < W32).
    Notation ops := (list (option (om_op K V))).
    Notation after := (rb_after ms d).
    Notation holds := (rb_holds ms d).
    Notation cap := (N.of_nat ms).
    Lemma Hom : om_ok (rb_api (V:=V) cmp) cmp cap (RBI cmp cap).
    Proof using HO H0. clear Hw. apply rb_om_ok; [done|exact _|exact _|lia]. Qed.

    Lemma history_snoc {S O A} (step : O → M S A) os o s :
      history step (os ++ [o]) s =
      ((history step os s).1 ++ [(call (step o) (history step os s).2).1], (call (step o) (history step os s).2).2).
    Proof using Type.
      clear. revert s. induction os as [|o' os IH]; intros s; simpl.
      - by destruct (call (step o) s).
      - destruct (call (step o') s) as [r s1]. rewrite IH. by destruct (history step os s1).
    Qed.
    Lemma om_run_snoc cap (o : option (om_op K V)) ops l rs l1 r l2 :
      om_run cmp cap ops l rs l1 → om_run cmp cap [o] l1 [r] l2 → om_run cmp cap (ops ++ [o]) l (rs ++ [r]) l2.
    Proof using Type. clear. intros H1 H2. induction H1; simpl; [done|..]; constructor; auto. Qed.

    Lemma rb_remove_root_fact (o : ops) l :
      holds o l →
      ∃ r t', rb_remove_root (after o) = Ret r t' ∧
        match r with
        | None => l = [] ∧ t' = after o
        | Some kv => kv ∈ l ∧ holds (o ++ [None]) (om_remove cmp kv.1 l) ∧ after (o ++ [None]) = t' ∧
                     rb_get cmp (after o) kv.1 = Val (Some kv.2) ∧ rb_get cmp t' kv.1 = Val None ∧ rb_len (after o) = rb_len t' + 1
        end.
    Proof using HO H0 Hw.
      intros Hl. destruct (rb_reach' ms d o l H0 Hw Hl) as (U & Hok & <- & HI).
      assert (wp rb_remove_root (after o) (λ r t',
        match r with
        | None => (entries U).*2 = [] ∧ t' = after o
        | Some kv => kv ∈ (entries U).*2 ∧ ∃ U', rbok cmp cap t' U' ∧ rem_rel cmp kv.1 (entries U) (Some kv.2) (entries U') end)) as Hwp.
      { eapply (wp_remove_root cmp HO); [exact Hok|by intros ->|].
        intros m lt i kv rt t' U' -> Hok' He Hr. split; [|by exists U']. simpl. rewrite fmap_app, elem_of_app. right. apply elem_of_list_here. }
      apply wp_elim in Hwp as (r & t' & He & Hr). exists r, t'. split; [done|].
      destruct r as [kv|]; [|done]. destruct Hr as (Hin & U' & Hok' & Hrel).
      assert (RBI cmp cap t' (entries U')) as HI' by by exists U'.
      assert (call (rb_step cmp None) (after o) = (Val (MPair (Some kv)), t')) as Hcall.
      { unfold call, rb_step, mbind, M_bind. by rewrite He. }
      pose proof (rem_rel_spec cmp cap _ _ _ _ Hrel) as Hsp. unfold om_spec in Hsp. injection Hsp as Hg Hrem.
      split_and!; [done| | | | |].
      - unfold rb_holds, rb_answers. rewrite history_snoc. cbn [fst snd]. eapply om_run_snoc; [exact Hl|].
        unfold rb_after in Hcall. rewrite Hcall. cbn [fst]. constructor; [done|constructor].
      - unfold rb_after at 1. rewrite history_snoc. unfold rb_after in Hcall. by rewrite Hcall.
      - destruct (fact_agree _ _ _ _ Hom (after o) _ kv.1 HI) as (i & _ & Hget & _). simpl in Hget. by rewrite Hget, Hg.
      - destruct (fact_agree _ _ _ _ Hom t' _ kv.1 HI') as (i & _ & Hget & _). simpl in Hget. rewrite Hget.
        inversion Hrel as [A B j kv' HE Hc Hb Ha Hv HE'|]; subst. unfold om_get.
        rewrite fmap_app. by rewrite om_find_absent.
      - destruct Hok as [HR _ _]. destruct Hok' as [HR' _ _]. rewrite (rep_len _ _ _ HR), (rep_len _ _ _ HR').
        inversion Hrel as [A B j kv' HE Hc Hb Ha Hv HE'|]; subst. rewrite HE. unfold lengthN. rewrite !app_length. simpl. lia.
    Qed.
    Lemma rb_iter_mut_fact (o : ops) l script :
      holds o l →
      ∃ (es : list (N * (K * V))) t',
        es.*2 = l ∧ (∀ i kv, (i, kv) ∈ es → rb_get_addr cmp (after o) kv.1 = Val i) ∧
        let '(out, es') := de_mut_spec (λ f e, (e.1, (e.2.1, f e.2.2))) script es in
        rb_iterate_mut script (after o) = Ret out t' ∧ NoDup (map fst (omap id out)) ∧
        es'.*1 = es.*1 ∧ es'.*2.*1 = es.*2.*1 ∧ rb_root t' = rb_root (after o) ∧ rb_len t' = rb_len (after o) ∧
        (∀ i kv, (i, kv) ∈ es' → rb_get_addr cmp t' kv.1 = Val i ∧ rb_get_node t' i = Val kv ∧ rb_get cmp t' kv.1 = Val (Some kv.2)) ∧
        (∀ i n, i ∈ es.*1 → na_get (rb_al (after o)) i = Val n → ∃ n', na_get (rb_al t') i = Val n' ∧ regs n' = regs n) ∧
        ∀ script', rb_iterate t' script' = Val (de_spec script' es'.*2).
    Proof using HO H0 Hw.
      intros (U & Hok & <- & HI)%rb_reach'; [|done..].
      pose proof (rb_iter_mut_facts cap (after o) U script Hok) as Hf.
      change (λ (f : V → V) (e : N * (K * V)), (e.1, (e.2.1, f e.2.2))) with (@upd_ent K V).
      destruct (de_mut_spec upd_ent script (entries U)) as [out E'] eqn:Es.
      destruct Hf as (t' & U' & He & Hok' & <- & Hnd & Ha & Hk & Hroot & Hregs).
      exists (entries U), t'. split; [done|]. split.
      { intros i kv Hin. eapply (om_addr_mem _ _ _ _ Hom); [exact HI|done|by apply cmp_refl]. }
      rewrite Es. split_and!; try done.
      - destruct Hok as [HR _ _]. destruct Hok' as [HR' _ _]. rewrite (rep_len _ _ _ HR), (rep_len _ _ _ HR').
        unfold lengthN. by rewrite <- (fmap_length fst (entries U')), Ha, fmap_length.
      - intros i kv Hin. eapply (om_addr_mem _ _ _ _ Hom t' (entries U') i kv kv.1); [by exists U'|done|by apply cmp_refl].
      - intros sc. destruct Hok' as [HR' _ _]. by apply (rb_iterate_ok cap).
    Qed.
    Lemma rb_update_fact (o : ops) l k v v0 :
      holds o l → om_get cmp k l = Some v0 →
      ∃ i t', rb_insert cmp k v (after o) = Ret (Some i) t' ∧
        rb_get_addr cmp (after o) k = Val i ∧ rb_get_addr cmp t' k = Val i ∧ rb_get cmp t' k = Val (Some v) ∧
        rb_len t' = rb_len (after o) ∧ ∀ script, rb_iterate t' script = Val (de_spec script (om_insert cmp k v l)).
    Proof using HO H0 Hw.
      intros (U & Hok & <- & HI)%rb_reach' Hg; [|done..].
      destruct (fact_upsert _ _ _ _ Hom (after o) _ k v v0 HI Hg) as (i & t' & E' & He & HI' & Ha & Ha' & Hg' & HE1 & HE2 & _).
      exists i, t'. split_and!; try done.
      - pose proof (ok_len _ _ _ _ Hom _ _ HI) as H1. pose proof (ok_len _ _ _ _ Hom _ _ HI') as H2. simpl in *. rewrite H1, H2.
        unfold lengthN. by rewrite <- (fmap_length fst E'), HE1, fmap_length.
      - intros sc. rewrite <- HE2. exact (ok_iter _ _ _ _ Hom t' E' sc HI').
    Qed.
    Lemma rb_full_fact (o : ops) l k v :
      holds o l → om_get cmp k l = None → rb_len (after o) = cap → rb_insert cmp k v (after o) = Ret None (after o).
    Proof using HO H0 Hw.
      intros (U & Hok & <- & HI)%rb_reach' Hg Hlen; [|done..]. eapply (fact_full _ _ _ _ Hom (after o) _ k v HI Hg).
      rewrite lengthN_fmap, <- Hlen. symmetry. exact (ok_len _ _ _ _ Hom _ _ HI).
    Qed.
    Lemma rb_index_fact (o : ops) l k f :
      holds o l →
      match om_get cmp k l with
      | Some v => rb_get cmp (after o) k = Val (Some v) ∧ rb_index cmp (after o) k = Val v ∧
                  ∃ t', rb_index_mut cmp k f (after o) = Ret v t' ∧ ∀ script, rb_iterate t' script = Val (de_spec script (om_alter cmp k f l))
      | None => rb_get cmp (after o) k = Val None ∧ rb_index cmp (after o) k = Err Panic ∧
                rb_index_mut cmp k f (after o) = Fail Panic (after o)
      end.
    Proof using HO H0 Hw.
      intros (U & Hok & <- & HI)%rb_reach'; [|done..].
      destruct (fact_agree _ _ _ _ Hom (after o) _ k HI) as (i & _ & Hget & _).
      pose proof (fact_index _ _ _ _ Hom (after o) _ k HI) as Hidx.
      destruct (fact_index_mut _ _ _ _ Hom (after o) _ k f HI) as (t' & E' & HI' & Hmut). simpl in *.
      destruct (om_get cmp k (entries U).*2) as [v|].
      - destruct Hmut as (He & _ & HE). split_and!; [done|done|]. exists t'. split; [done|]. intros sc. rewrite <- HE.
        exact (ok_iter _ _ _ _ Hom t' E' sc HI').
      - destruct Hmut as (He & _ & _). done.
    Qed.
    Lemma rb_lookups_fact (o : ops) l k :
      holds o l →
      ∃ i, rb_get_addr cmp (after o) k = Val i ∧ rb_get cmp (after o) k = Val (om_get cmp k l) ∧
        rb_contains cmp (after o) k = Val (match om_get cmp k l with Some _ => true | None => false end) ∧
        match om_find cmp k l with
        | Some kv => i ≠ SENTINEL ∧ rb_get_node (after o) i = Val kv ∧ cmp k kv.1 = Eq
        | None => i = SENTINEL
        end.
    Proof using HO H0 Hw.
      intros (U & Hok & <- & HI)%rb_reach'; [|done..].
      destruct (fact_agree _ _ _ _ Hom (after o) _ k HI) as (i & Ha & Hget & Hcon & Hm). exists i. split_and!; [done..|].
      destruct (om_find cmp k (entries U).*2) as [kv|]; [|done]. naive_solver.
    Qed.
    Lemma rb_is_map_fact (o : list (om_op K V)) :
      (history (om_step (rb_api cmp)) o (rb_new ms d)).1 = (spec_history (om_spec cmp cap) o []).1.
    Proof using HO H0 Hw.
      refine (proj1 (om_history_ok (rb_api cmp) cmp cap (RBI cmp cap) _ o (rb_new ms d) [] _)).
      - by apply Hom.
      - exists Lf. split; [by apply rbok_new|done].
    Qed.
    Lemma rb_runs_fact (o : ops) : ∃ l, holds o l ∧ ∀ l', holds o l' → l = l'.
    Proof using HO H0 Hw.
      destruct (rb_reach ms d o H0 Hw) as (U & l & Hl & _). exists l. split; [done|].
      intros l' Hl'. by eapply om_run_det.
    Qed.
    Lemma rb_iter_fact (o : ops) l :
      holds o l → ascending cmp l ∧ ∀ script, rb_iterate (after o) script = Val (de_spec script l).
    Proof using HO H0 Hw.
      intros (U & Hok & <- & _)%rb_reach'; [|done..]. split; [by destruct Hok|]. intros sc. destruct Hok. by apply rb_iterate_ok with (cap := cap).
    Qed.
    Lemma rb_valid_fact (o : ops) :
      rb_get_color (after o) (rb_root (after o)) = Val Black ∧ (∃ n, rb_sub (after o) (rb_root (after o)) n) ∧
      rb_is_valid (after o) = Val true.
    Proof using HO H0 Hw.
      destruct (rb_reach ms d o H0 Hw) as (U & l & Hl & Hok & _).
      split_and!; [| |by eapply rb_is_valid_ok].
      - destruct Hok as [HR [Hm _] _]. rewrite (rep_root _ _ _ HR), (rep_color cap _ _ [] U HR eq_refl). by rewrite Hm.
      - destruct Hok as [HR [_ [n Hn]] _]. exists n. rewrite (rep_root _ _ _ HR). by eapply (rep_sub cap _ []).
    Qed.
    Lemma rb_depth_fact (o : ops) p :
      rb_path (after o) (rb_root (after o)) p → 2 ^ lengthN p ≤ (rb_len (after o) + 1) ^ 2.
    Proof using HO H0 Hw.
      intros Hp. destruct (rb_reach ms d o H0 Hw) as (U & l & Hl & Hok & _).
      pose proof (rb_height _ _ _ Hok) as Hh. destruct Hok as [HR _ _]. rewrite (rep_root _ _ _ HR) in Hp.
      apply (rep_path cap _ []) in Hp; [|done]. etrans; [|exact Hh]. apply N.pow_le_mono_r; unfold lengthN; lia.
    Qed.
    Lemma rb_search_steps_fact (o : ops) k n :
      (rb_len (after o) + 1) ^ 2 < 2 ^ (N.of_nat n + 1) →
      bst_get_addr cmp n (rb_al (after o)) (rb_root (after o)) k = rb_get_addr cmp (after o) k.
    Proof using HO H0 Hw. destruct (rb_reach ms d o H0 Hw) as (U & l & Hl & Hok & _). by eapply rb_fuel_enough. Qed.
    Lemma rb_min_fact (o : ops) l :
      holds o l →
      match head l with
      | None => rb_get_min (after o) = Val None ∧ rb_get_min_index (after o) = Val SENTINEL
      | Some kv => rb_get_min (after o) = Val (Some kv) ∧ (∀ kv', kv' ∈ l → kv' = kv ∨ cmp kv.1 kv'.1 = Lt) ∧
          ∃ i, rb_get_min_index (after o) = Val i ∧ rb_get_addr cmp (after o) kv.1 = Val i ∧ rb_get_node (after o) i = Val kv
      end.
    Proof using HO H0 Hw.
      intros (U & Hok & <- & HI)%rb_reach'; [|done..].
      assert (0 < cap) as Hc by lia. pose proof (Hom) as Hom1. pose proof (ok_min _ _ _ _ Hom _ _ HI) as Hmin. simpl in Hmin.
      destruct (head (entries U).*2) as [kv|] eqn:Eh.
      - split_and!; [done|intros kv'; eapply asc_head; [by destruct Hok|done]|].
        destruct (rb_min_addr _ _ _ _ Hok Eh) as (i & Hi & Hin). exists i. split; [done|].
        destruct (om_addr_mem _ _ _ _ Hom _ _ i kv kv.1 HI Hin) as (? & ? & _); [by apply cmp_refl|done].
      - split; [done|]. destruct Hok as [HR _ _]. rewrite (rb_min_index _ _ _ HR). destruct U as [|m lt i kv r]; [done|].
        simpl in Eh. rewrite fmap_app in Eh. by destruct (entries lt).
    Qed.
    Lemma rb_max_fact (o : ops) l :
      holds o l →
      match last l with
      | None => rb_get_max (after o) = Val None ∧ rb_get_max_index (after o) = Val SENTINEL
      | Some kv => rb_get_max (after o) = Val (Some kv) ∧ (∀ kv', kv' ∈ l → kv' = kv ∨ cmp kv'.1 kv.1 = Lt) ∧
          ∃ i, rb_get_max_index (after o) = Val i ∧ rb_get_addr cmp (after o) kv.1 = Val i ∧ rb_get_node (after o) i = Val kv
      end.
    Proof using HO H0 Hw.
      intros (U & Hok & <- & HI)%rb_reach'; [|done..].
      assert (0 < cap) as Hc by lia. pose proof (Hom) as Hom1. pose proof (ok_max _ _ _ _ Hom _ _ HI) as Hmin. simpl in Hmin.
      destruct (last (entries U).*2) as [kv|] eqn:Eh.
      - split_and!; [done|intros kv'; eapply asc_last; [by destruct Hok|done]|].
        destruct (rb_max_addr _ _ _ _ Hok Eh) as (i & Hi & Hin). exists i. split; [done|].
        destruct (om_addr_mem _ _ _ _ Hom _ _ i kv kv.1 HI Hin) as (? & ? & _); [by apply cmp_refl|done].
      - split; [done|]. destruct Hok as [HR _ _]. rewrite (rb_max_index _ _ _ HR). destruct U as [|m lt i kv r]; [done|].
        apply last_None in Eh. apply fmap_nil_inv in Eh. simpl in Eh. by destruct (entries lt).
    Qed.
    Lemma rb_addresses_fact (o o' : ops) k v i t1 :
      rb_insert cmp k v (after o) = Ret (Some i) t1 →
      never_removed cmp k o' (history (rb_step cmp) o' t1).1 →
      let t2 := (history (rb_step cmp) o' t1).2 in
      ∃ k0 v', cmp k k0 = Eq ∧ rb_get_addr cmp t2 k = Val i ∧ rb_get_node t2 i = Val (k0, v') ∧ rb_get cmp t2 k = Val (Some v') ∧
        (o' = [] → v' = v).
    Proof using HO H0 Hw.
      intros Hins Hnr. destruct (rb_reach ms d o H0 Hw) as (U & l & Hl & Hok & _).
      assert (0 < cap) as Hc by lia. pose proof (Hom) as Hom1.
      destruct (fact_insert_addr (rb_api cmp) cmp HO cap (RBI cmp cap) Hom (after o) (entries U) k v i t1) as (E1 & k0 & (U1 & Hok1 & <-) & Hin & Hk & _);
        [by exists U|done|].
      destruct (rb_run_ok cap Hc o' t1 U1 Hok1) as (U2 & l2 & Hok2 & _ & _ & Hkeep).
      assert (∀ k', cmp k' k = cmp k' k0) as Hkk.
      { intros k'. rewrite (cmp_sym _ HO k k'), (cmp_sym _ HO k0 k'). f_equal. by apply cmp_eq. }
      destruct (Hkeep i (k0, v) Hin) as [v' Hin2].
      { destruct Hnr as [Hn1 Hn2]. simpl. split; intros k' Hk'; rewrite <- Hkk; eauto. }
      exists k0, v'. simpl in Hin2. destruct (om_addr_mem _ _ _ _ Hom (history (rb_step cmp) o' t1).2 (entries U2) i (k0, v') k) as (? & ? & ?); [by exists U2|done|done|].
      split_and!; try done. intros ->. simpl in Hok2.
      destruct (om_addr_mem _ _ _ _ Hom t1 (entries U1) i (k0, v) k) as (_ & Hn & _); [by exists U1|done|done|].
      simpl in *. congruence.
    Qed.
  End reach.
End main.
