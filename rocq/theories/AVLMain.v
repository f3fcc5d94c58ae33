(** * Facts about all reachable AVL trees *)
From Verif Require Export AVLOps MapFacts.

Lemma fib_SS n : fib (S (S n)) = fib (S n) + fib n.
Proof. done. Qed.
Lemma fib_mono n m : (n ≤ m)%nat → fib n ≤ fib m.
Proof.
  induction 1 as [|m _ IH]; [done|]. etrans; [exact IH|]. destruct m as [|m]; [done|]. rewrite (fib_SS m). lia.
Qed.
Lemma avl_fib {A} (x : tree A) : avl x → fib (height x + 2) ≤ N.of_nat (tsize x) + 1.
Proof.
  induction 1 as [|x a kv y Hx IHx Hy IHy H1 H2]; [done|]. simpl height. cbn [tsize].
  replace (S (Nat.max (height x) (height y)) + 2)%nat with (S (S (S (Nat.max (height x) (height y))))) by lia. rewrite fib_SS.
  assert (∀ u w : tree A, (height w ≤ height u)%nat → (height u ≤ S (height w))%nat →
    fib (height u + 2) ≤ N.of_nat (tsize u) + 1 → fib (height w + 2) ≤ N.of_nat (tsize w) + 1 →
    fib (S (S (height u))) + fib (S (height u)) ≤ N.of_nat (tsize u) + N.of_nat (tsize w) + 2) as Hb.
  { intros u w Hle Hle2 Hu Hw. pose proof (fib_mono (S (height u)) (height w + 2) ltac:(lia)).
    replace (S (S (height u))) with (height u + 2)%nat by lia. lia. }
  destruct (Nat.max_spec (height x) (height y)) as [[? ->]|[? ->]].
  - specialize (Hb y x ltac:(lia) ltac:(lia) IHy IHx). lia.
  - specialize (Hb x y ltac:(lia) ltac:(lia) IHx IHy). lia.
Qed.

Section main.
  Context `{Profile} {K V : Type} (pcmp : K → K → option comparison) (HO : OrdLaws (av_cmp pcmp)).
  Notation cmp := (av_cmp pcmp).
  Notation tree := (tree (K * V)).
  Notation avlt := (avlt K V).
  Implicit Types t : avlt.
  Implicit Types U : tree.

  Section cap.
    Context (cap : N).
    Notation avok := (avok pcmp cap).
    Notation rep := (rep (K := K) (V := V) cap).

    (** *** Shape *)
    Lemma rep_sub t ctx (s : tree) : rep t (plug ctx s) → avl s → av_sub t (root s) (height s).
    Proof using Type.
      clear HO. intros HR Hn. revert ctx HR. induction Hn as [|x a kv y Hx IHx Hy IHy H1 H2]; intros ctx HR.
      - constructor.
      - eapply av_sub_node; [| | |apply (IHx (F false _ a kv y :: ctx) HR)|apply (IHy (F true _ a kv x :: ctx) HR)|done|done|].
        + exact (rep_nz cap t ctx _ HR ltac:(done)).
        + exact (rep_left cap t ctx _ _ _ _ _ HR).
        + exact (rep_right cap t ctx _ _ _ _ _ HR).
        + exact (rep_hgt cap t ctx _ _ _ _ _ HR).
    Qed.
    Lemma rep_path t ctx (s : tree) p : rep t (plug ctx s) → av_path t (root s) p → (length p ≤ height s)%nat.
    Proof using Type.
      clear HO. revert ctx p. induction s as [|m l IHl i kv r IHr]; intros ctx p HR Hp.
      - inversion Hp; subst; done.
      - inversion Hp as [|? l' p' Hi Hl Hp'|? r' p' Hi Hr Hp']; subst; simpl; [lia|..].
        + simpl in Hl. rewrite (rep_left cap t ctx _ _ _ _ _ HR) in Hl. injection Hl as <-.
          apply (IHl (F false m i kv r :: ctx)) in Hp'; [lia|done].
        + simpl in Hr. rewrite (rep_right cap t ctx _ _ _ _ _ HR) in Hr. injection Hr as <-.
          apply (IHr (F true m i kv l :: ctx)) in Hp'; [lia|done].
    Qed.
    (** the height register of a node on a path *)
    Lemma rep_path_hgt t ctx (s : tree) p i :
      rep t (plug ctx s) → avl s → av_path t (root s) p → i ∈ p → ∃ h, av_get_field t i Height = Val h ∧ h + 1 ≤ N.of_nat (height s).
    Proof using Type.
      clear HO. revert ctx p. induction s as [|m l IHl j kv r IHr]; intros ctx p HR Ha Hp Hin.
      - inversion Hp; subst; [|done|done]. by apply elem_of_nil in Hin.
      - inversion Ha as [|? ? ? ? Hx Hy _ _]; subst.
        assert (∀ q, i ∈ j :: q → (i ∈ q → ∃ h, av_get_field t i Height = Val h ∧ h + 1 ≤ N.of_nat (Nat.max (height l) (height r))) →
          ∃ h, av_get_field t i Height = Val h ∧ h + 1 ≤ N.of_nat (S (Nat.max (height l) (height r)))) as Hgo.
        { intros q [->|Hq]%elem_of_cons Hind.
          - eexists. split; [exact (rep_hgt cap t ctx _ _ _ _ _ HR)|lia].
          - destruct (Hind Hq) as (h & ? & ?). exists h. split; [done|lia]. }
        simpl height. inversion Hp as [|? l' p' Hi Hl Hp'|? r' p' Hi Hr Hp']; subst.
        + by apply elem_of_nil in Hin.
        + simpl in Hl. rewrite (rep_left cap t ctx _ _ _ _ _ HR) in Hl. injection Hl as <-. simpl in Hin.
          apply (Hgo _ Hin). intros Hin'. destruct (IHl (F false _ j kv r :: ctx) p' HR Hx Hp' Hin') as (h & ? & ?). exists h. split; [done|lia].
        + simpl in Hr. rewrite (rep_right cap t ctx _ _ _ _ _ HR) in Hr. injection Hr as <-. simpl in Hin.
          apply (Hgo _ Hin). intros Hin'. destruct (IHr (F true _ j kv l :: ctx) p' HR Hy Hp' Hin') as (h & ? & ?). exists h. split; [done|lia].
    Qed.
    Lemma av_height t U : avok t U → 2 ^ N.of_nat (height U) ≤ (av_len t + 1) ^ 2 ∧ fib (height U + 2) ≤ av_len t + 1.
    Proof using Type.
      clear HO. intros [HR Ha _]. rewrite (rep_len cap t U HR). pose proof (avl_size U Ha) as Hs. pose proof (avl_fib U Ha) as Hf.
      rewrite tsize_entries in Hs, Hf. unfold lengthN. split; [|done].
      assert (N.of_nat (2 ^ height U) ≤ N.of_nat ((length (entries U) + 1) ^ 2)) as Hs' by (clear - Hs; lia).
      by rewrite !Nat2N.inj_pow, Nat2N.inj_add in Hs'.
    Qed.
    Lemma av_fuel_enough t U k n :
      avok t U → (av_len t + 1) ^ 2 < 2 ^ (N.of_nat n + 1) → bst_get_addr cmp n (av_al t) (as_u32 (av_root t)) k = av_get_addr pcmp t k.
    Proof using Type.
      clear HO. intros Hok Hn. pose proof (av_height t U Hok) as [Hh _]. destruct Hok as [HR _ _].
      assert (2 ^ N.of_nat (height U) < 2 ^ (N.of_nat n + 1)) as Hlt by lia.
      apply N.pow_lt_mono_r_iff in Hlt; [|lia].
      unfold av_get_addr. rewrite (rep_root _ _ _ HR).
      rewrite bst_get_addr_ok; [symmetry; apply bst_get_addr_ok|..].
      - by apply (rep_shp cap).
      - destruct HR as [Hc _]. by eapply CH_vals.
      - pose proof (rep_tsize _ _ _ HR). pose proof (height_tsize U). erewrite R_fuel by exact HR. lia.
      - by apply (rep_shp cap).
      - destruct HR as [Hc _]. by eapply CH_vals.
      - lia.
    Qed.
    Lemma av_iter_mut_facts t U sc :
      avok t U → let '(out, E') := de_mut_spec upd_ent sc (entries U) in
      ∃ t' U', av_iterate_mut sc t = Ret out t' ∧ avok t' U' ∧ entries U' = E' ∧
        NoDup (map fst (omap id out)) ∧ E'.*1 = (entries U).*1 ∧ E'.*2.*1 = (entries U).*2.*1 ∧ av_root t' = av_root t ∧
        ∀ i n, i ∈ (entries U).*1 → na_get (av_al t) i = Val n → ∃ n', na_get (av_al t') i = Val n' ∧ regs n' = regs n.
    Proof using Type.
      clear HO. intros Hok.
      pose proof (de_mut_spec_out upd_ent sc (entries U)) as Hout.
      pose proof (de_mut_spec_keys upd_ent fst sc (entries U) (λ _ _, eq_refl)) as Hk1.
      pose proof (de_mut_spec_keys upd_ent (λ x : N * (K * V), x.2.1) sc (entries U) (λ _ _, eq_refl)) as Hk2.
      assert (wp (av_iterate_mut sc) t (λ o t', ∃ U', o = (de_mut_spec upd_ent sc (entries U)).1 ∧ avok t' U' ∧ same_shape U U' ∧
        entries U' = (de_mut_spec upd_ent sc (entries U)).2)) as Hw.
      { eapply av_iterate_mut_ok; [exact _|exact Hok|]. intros t' U' Hok' Hss He. by exists U'. }
      apply wp_elim in Hw as (o & t' & He & U' & -> & Hok' & Hss & HE).
      destruct (de_mut_spec upd_ent sc (entries U)) as [out E']. simpl in *. subst out.
      exists t', U'. split_and!; [done|done|done| |exact Hk1| | |].
      - apply de_spec_NoDup. destruct Hok as [HR _ _]. by eapply rep_NoDup.
      - rewrite <- !list_fmap_compose. exact Hk2.
      - destruct Hok as [[_ Hr] _ _]. destruct Hok' as [[_ Hr'] _ _]. rewrite Hr, Hr'. symmetry. by apply same_shape_root.
      - intros i n. destruct Hok as [[Hc _] _ _]. destruct Hok' as [[Hc' _] _ _]. by eapply same_regs.
    Qed.
    Lemma av_min_addr t U kv : avok t U → head (entries U).*2 = Some kv → ∃ i, av_find_min_index t = Val i ∧ (i, kv) ∈ entries U.
    Proof using Type.
      clear HO. intros [HR _ _] Hh. rewrite (av_min_index cap t U HR). destruct U as [|m l i kv0 r]; [done|].
      destruct (tmin_head (Nd m l i kv0 r)) as (kv' & es & He); [done|]. eexists. split; [done|]. rewrite He in Hh |- *.
      injection Hh as ->. apply elem_of_list_here.
    Qed.
    Lemma av_max_addr t U kv : avok t U → last (entries U).*2 = Some kv → ∃ i, av_find_max_index t = Val i ∧ (i, kv) ∈ entries U.
    Proof using Type.
      clear HO. intros [HR _ _] Hh. rewrite (av_max_index cap t U HR). destruct U as [|m l i kv0 r]; [done|].
      destruct (tmax_last (Nd m l i kv0 r)) as (kv' & es & He); [done|]. eexists. split; [done|]. rewrite He in Hh |- *.
      rewrite fmap_app in Hh. simpl in Hh. rewrite last_snoc in Hh. injection Hh as ->. apply elem_of_app. right. apply elem_of_list_here.
    Qed.
  End cap.

  (** *** Reachable states *)
  Definition av_after (ms : nat) (d : K * V) (ops : list (om_op K V)) : avlt := (history (av_step pcmp) ops (av_new ms d)).2.
  (** The pairs the map of capacity [ms] holds after the history *)
  Definition om_contents (ms : nat) (ops : list (om_op K V)) : list (K * V) := (spec_history (om_spec cmp (N.of_nat ms)) ops []).2.

  Section reach.
    Context (ms : nat) (d : K * V) (H0 : (0 < ms)%nat) (Hw : N.of_nat ms + 1 < W32).
    Notation ops := (list (om_op K V)).
    Notation after := (av_after ms d).
    Notation contents := (om_contents ms).
    Notation cap := (N.of_nat ms).
    Lemma Hom : om_ok (av_api (V:=V) pcmp) cmp cap (AVI pcmp cap).
    Proof using HO H0. clear Hw. apply av_om_ok; [done|exact _|exact _|lia]. Qed.
    Lemma av_reach (o : ops) :
      ∃ U, avok pcmp cap (after o) U ∧ (entries U).*2 = contents o ∧ AVI pcmp cap (after o) (entries U).
    Proof using HO H0 Hw.
      destruct (om_history_ok (av_api pcmp) cmp cap (AVI pcmp cap) Hom o (av_new ms d) []) as (_ & E & (U & Hok & <-) & HE & _).
      - exists Lf. split; [by apply avok_new|done].
      - exists U. split_and!; [done|done|by exists U].
    Qed.

    Lemma av_is_map_fact (o : ops) : (history (av_step pcmp) o (av_new ms d)).1 = (spec_history (om_spec cmp cap) o []).1.
    Proof using HO H0 Hw.
      refine (proj1 (om_history_ok (av_api pcmp) cmp cap (AVI pcmp cap) _ o (av_new ms d) [] _)).
      - by apply Hom.
      - exists Lf. split; [by apply avok_new|done].
    Qed.
    Lemma av_iter_fact (o : ops) : ascending cmp (contents o) ∧ ∀ script, av_iterate (after o) script = Val (de_spec script (contents o)).
    Proof using HO H0 Hw.
      destruct (av_reach o) as (U & Hok & <- & _). split; [by destruct Hok|]. intros sc. destruct Hok. by apply av_iterate_ok with (cap := cap).
    Qed.
    Lemma av_balanced_fact (o : ops) : ∃ h, av_sub (after o) (as_u32 (av_root (after o))) h.
    Proof using HO H0 Hw.
      destruct (av_reach o) as (U & [HR Ha _] & _). exists (height U). rewrite (rep_root _ _ _ HR). by eapply (rep_sub cap _ []).
    Qed.
    Lemma av_depth_fact (o : ops) p :
      av_path (after o) (as_u32 (av_root (after o))) p →
      2 ^ lengthN p ≤ (av_len (after o) + 1) ^ 2 ∧ fib (length p + 2) ≤ av_len (after o) + 1.
    Proof using HO H0 Hw.
      intros Hp. destruct (av_reach o) as (U & Hok & _).
      pose proof (av_height _ _ _ Hok) as [Hh Hf]. destruct Hok as [HR _ _]. rewrite (rep_root _ _ _ HR) in Hp.
      apply (rep_path cap _ []) in Hp; [|done]. split.
      - etrans; [|exact Hh]. apply N.pow_le_mono_r; unfold lengthN; lia.
      - etrans; [|exact Hf]. apply fib_mono. lia.
    Qed.
    Lemma av_height_fact (o : ops) p i :
      av_path (after o) (as_u32 (av_root (after o))) p → i ∈ p →
      ∃ h, av_get_field (after o) i Height = Val h ∧ 2 ^ (h + 1) ≤ (av_len (after o) + 1) ^ 2 ∧ h < 64.
    Proof using HO H0 Hw.
      intros Hp Hi. destruct (av_reach o) as (U & Hok & _).
      pose proof (av_height _ _ _ Hok) as [Hh _]. destruct Hok as [HR Ha _]. rewrite (rep_root _ _ _ HR) in Hp.
      destruct (rep_path_hgt cap _ [] U p i HR Ha Hp Hi) as (h & Hg & Hle). exists h.
      assert (2 ^ (h + 1) ≤ (av_len (after o) + 1) ^ 2) as Hpow. { etrans; [|exact Hh]. apply N.pow_le_mono_r; lia. }
      split_and!; [done|done|].
      pose proof (rep_len_le cap _ _ HR) as Hle2. rewrite <- (rep_len cap _ _ HR) in Hle2.
      assert (2 ^ (h + 1) < 2 ^ 64) as Hlt.
      { eapply N.le_lt_trans; [exact Hpow|]. change (2 ^ 64) with (W32 ^ 2). apply N.pow_lt_mono_l; lia. }
      apply N.pow_lt_mono_r_iff in Hlt; lia.
    Qed.
    Lemma av_search_steps_fact (o : ops) k n :
      (av_len (after o) + 1) ^ 2 < 2 ^ (N.of_nat n + 1) →
      bst_get_addr cmp n (av_al (after o)) (as_u32 (av_root (after o))) k = av_get_addr pcmp (after o) k.
    Proof using HO H0 Hw. destruct (av_reach o) as (U & Hok & _). by eapply av_fuel_enough. Qed.
    Lemma av_min_fact (o : ops) :
      match head (contents o) with
      | None => av_get_min (after o) = Val None ∧ av_find_min (after o) = Val None ∧ av_find_min_index (after o) = Val SENTINEL
      | Some kv => av_get_min (after o) = Val (Some kv) ∧ av_find_min (after o) = Val (Some kv.2) ∧
          (∀ kv', kv' ∈ contents o → kv' = kv ∨ cmp kv.1 kv'.1 = Lt) ∧
          ∃ i, av_find_min_index (after o) = Val i ∧ av_get_addr pcmp (after o) kv.1 = Val i ∧ av_get_node (after o) i = Val kv
      end.
    Proof using HO H0 Hw.
      destruct (av_reach o) as (U & Hok & <- & HI).
      pose proof (ok_min _ _ _ _ Hom _ _ HI) as Hmin. simpl in Hmin.
      destruct (head (entries U).*2) as [kv|] eqn:Eh.
      - destruct (av_min_addr _ _ _ _ Hok Eh) as (i & Hi & Hin).
        destruct (om_addr_mem _ _ _ _ Hom _ _ i kv kv.1 HI Hin) as (Ha & Hn & _); [by apply cmp_refl|]. simpl in Ha, Hn.
        split_and!; [done| |intros kv'; eapply asc_head; [by destruct Hok|done]|by exists i].
        unfold av_find_min. unfold av_get_min in Hmin. rewrite Hi in Hmin |- *. simpl in *. case_decide; [done|].
        rewrite Hn. done.
      - destruct Hok as [HR _ _]. unfold av_find_min. rewrite (av_min_index _ _ _ HR). destruct U as [|m lt i kv r]; [done|].
        simpl in Eh. rewrite fmap_app in Eh. by destruct (entries lt).
    Qed.
    Lemma av_max_fact (o : ops) :
      match last (contents o) with
      | None => av_get_max (after o) = Val None ∧ av_find_max (after o) = Val None ∧ av_find_max_index (after o) = Val SENTINEL
      | Some kv => av_get_max (after o) = Val (Some kv) ∧ av_find_max (after o) = Val (Some kv.2) ∧
          (∀ kv', kv' ∈ contents o → kv' = kv ∨ cmp kv'.1 kv.1 = Lt) ∧
          ∃ i, av_find_max_index (after o) = Val i ∧ av_get_addr pcmp (after o) kv.1 = Val i ∧ av_get_node (after o) i = Val kv
      end.
    Proof using HO H0 Hw.
      destruct (av_reach o) as (U & Hok & <- & HI).
      pose proof (ok_max _ _ _ _ Hom _ _ HI) as Hmin. simpl in Hmin.
      destruct (last (entries U).*2) as [kv|] eqn:Eh.
      - destruct (av_max_addr _ _ _ _ Hok Eh) as (i & Hi & Hin).
        destruct (om_addr_mem _ _ _ _ Hom _ _ i kv kv.1 HI Hin) as (Ha & Hn & _); [by apply cmp_refl|]. simpl in Ha, Hn.
        split_and!; [done| |intros kv'; eapply asc_last; [by destruct Hok|done]|by exists i].
        unfold av_find_max. unfold av_get_max in Hmin. rewrite Hi in Hmin |- *. simpl in *. case_decide; [done|].
        rewrite Hn. done.
      - destruct Hok as [HR _ _]. unfold av_find_max. rewrite (av_max_index _ _ _ HR). destruct U as [|m lt i kv r]; [done|].
        apply last_None in Eh. apply fmap_nil_inv in Eh. simpl in Eh. by destruct (entries lt).
    Qed.
    Lemma av_addresses_fact (o o' : ops) k v i t1 :
      av_insert pcmp k v (after o) = Ret (Some i) t1 →
      (∀ k', MRemove k' ∈ o' → cmp k' k ≠ Eq) →
      let t2 := (history (av_step pcmp) o' t1).2 in
      ∃ k0 v', cmp k k0 = Eq ∧ av_get_addr pcmp t2 k = Val i ∧ av_get_node t2 i = Val (k0, v') ∧ av_get pcmp t2 k = Val (Some v') ∧
        (o' = [] → v' = v).
    Proof using HO H0 Hw.
      intros Hins Hnr. destruct (av_reach o) as (U & Hok & _ & HI).
      destruct (fact_insert_addr (av_api pcmp) cmp HO cap (AVI pcmp cap) Hom (after o) (entries U) k v i t1) as (E1 & k0 & HI1 & Hin & Hk & _);
        [done|done|].
      destruct (om_history_ok (av_api pcmp) cmp cap (AVI pcmp cap) Hom o' t1 E1 HI1) as (_ & E2 & HI2 & _ & Hkeep).
      assert (∀ k', cmp k' k = cmp k' k0) as Hkk.
      { intros k'. rewrite (cmp_sym _ HO k k'), (cmp_sym _ HO k0 k'). f_equal. by apply cmp_eq. }
      destruct (Hkeep i (k0, v) Hin) as [v' Hin2].
      { intros k' Hk'. simpl. rewrite <- Hkk. by apply Hnr. }
      exists k0, v'. simpl in Hin2. destruct (om_addr_mem _ _ _ _ Hom (history (av_step pcmp) o' t1).2 E2 i (k0, v') k HI2) as (? & ? & ?); [done|done|].
      split_and!; try done. intros ->. simpl in HI2.
      destruct (om_addr_mem _ _ _ _ Hom t1 E1 i (k0, v) k) as (_ & Hn & _); [done..|].
      simpl in *. congruence.
    Qed.
    Lemma av_iter_mut_fact (o : ops) script :
      ∃ (es : list (N * (K * V))) t',
        es.*2 = contents o ∧ (∀ i kv, (i, kv) ∈ es → av_get_addr pcmp (after o) kv.1 = Val i) ∧
        let '(out, es') := de_mut_spec (λ f e, (e.1, (e.2.1, f e.2.2))) script es in
        av_iterate_mut script (after o) = Ret out t' ∧ NoDup (map fst (omap id out)) ∧
        es'.*1 = es.*1 ∧ es'.*2.*1 = es.*2.*1 ∧ av_root t' = av_root (after o) ∧ av_len t' = av_len (after o) ∧
        (∀ i kv, (i, kv) ∈ es' → av_get_addr pcmp t' kv.1 = Val i ∧ av_get_node t' i = Val kv ∧ av_get pcmp t' kv.1 = Val (Some kv.2)) ∧
        (∀ i n, i ∈ es.*1 → na_get (av_al (after o)) i = Val n → ∃ n', na_get (av_al t') i = Val n' ∧ regs n' = regs n) ∧
        ∀ script', av_iterate t' script' = Val (de_spec script' es'.*2).
    Proof using HO H0 Hw.
      destruct (av_reach o) as (U & Hok & <- & HI).
      pose proof (av_iter_mut_facts cap (after o) U script Hok) as Hf.
      change (λ (f : V → V) (e : N * (K * V)), (e.1, (e.2.1, f e.2.2))) with (@upd_ent K V).
      destruct (de_mut_spec upd_ent script (entries U)) as [out E'] eqn:Es.
      destruct Hf as (t' & U' & He & Hok' & <- & Hnd & Ha & Hk & Hroot & Hregs).
      exists (entries U), t'. split; [done|]. split.
      { intros i kv Hin. eapply (om_addr_mem _ _ _ _ Hom); [exact HI|done|by apply cmp_refl]. }
      rewrite Es. split_and!; try done.
      - destruct Hok as [HR _ _]. destruct Hok' as [HR' _ _]. rewrite (rep_len _ _ _ HR), (rep_len _ _ _ HR').
        unfold lengthN. by rewrite <- (fmap_length fst (entries U')), Ha, fmap_length.
      - intros i kv Hin. eapply (om_addr_mem _ _ _ _ Hom t' (entries U') i kv kv.1); [by exists U'|done|by apply cmp_refl].
      - intros sc. destruct Hok' as [HR' _ _]. by apply (av_iterate_ok cap).
    Qed.
    Lemma av_update_fact (o : ops) k v v0 :
      om_get cmp k (contents o) = Some v0 →
      ∃ i t', av_insert pcmp k v (after o) = Ret (Some i) t' ∧
        av_get_addr pcmp (after o) k = Val i ∧ av_get_addr pcmp t' k = Val i ∧ av_get pcmp t' k = Val (Some v) ∧
        av_len t' = av_len (after o) ∧ ∀ script, av_iterate t' script = Val (de_spec script (om_insert cmp k v (contents o))).
    Proof using HO H0 Hw.
      destruct (av_reach o) as (U & Hok & <- & HI). intros Hg.
      destruct (fact_upsert _ _ _ _ Hom (after o) _ k v v0 HI Hg) as (i & t' & E' & He & HI' & Ha & Ha' & Hg' & HE1 & HE2 & _).
      exists i, t'. split_and!; try done.
      - pose proof (ok_len _ _ _ _ Hom _ _ HI) as H1. pose proof (ok_len _ _ _ _ Hom _ _ HI') as H2. simpl in *. rewrite H1, H2.
        unfold lengthN. by rewrite <- (fmap_length fst E'), HE1, fmap_length.
      - intros sc. rewrite <- HE2. exact (ok_iter _ _ _ _ Hom t' E' sc HI').
    Qed.
    Lemma av_full_fact (o : ops) k v :
      om_get cmp k (contents o) = None → av_len (after o) = cap → av_insert pcmp k v (after o) = Ret None (after o).
    Proof using HO H0 Hw.
      destruct (av_reach o) as (U & Hok & <- & HI). intros Hg Hlen. eapply (fact_full _ _ _ _ Hom (after o) _ k v HI Hg).
      rewrite lengthN_fmap, <- Hlen. symmetry. exact (ok_len _ _ _ _ Hom _ _ HI).
    Qed.
    Lemma av_index_fact (o : ops) k f :
      match om_get cmp k (contents o) with
      | Some v => av_get pcmp (after o) k = Val (Some v) ∧ av_index pcmp (after o) k = Val v ∧
                  ∃ t', av_index_mut pcmp k f (after o) = Ret v t' ∧
                        ∀ script, av_iterate t' script = Val (de_spec script (om_alter cmp k f (contents o)))
      | None => av_get pcmp (after o) k = Val None ∧ av_index pcmp (after o) k = Err Panic ∧
                av_index_mut pcmp k f (after o) = Fail Panic (after o)
      end.
    Proof using HO H0 Hw.
      destruct (av_reach o) as (U & Hok & <- & HI).
      destruct (fact_agree _ _ _ _ Hom (after o) _ k HI) as (i & _ & Hget & _).
      pose proof (fact_index _ _ _ _ Hom (after o) _ k HI) as Hidx.
      destruct (fact_index_mut _ _ _ _ Hom (after o) _ k f HI) as (t' & E' & HI' & Hmut). simpl in *.
      destruct (om_get cmp k (entries U).*2) as [v|].
      - destruct Hmut as (He & _ & HE). split_and!; [done|done|]. exists t'. split; [done|]. intros sc. rewrite <- HE.
        exact (ok_iter _ _ _ _ Hom t' E' sc HI').
      - destruct Hmut as (He & _ & _). done.
    Qed.
    Lemma av_lookups_fact (o : ops) k :
      ∃ i, av_get_addr pcmp (after o) k = Val i ∧ av_get pcmp (after o) k = Val (om_get cmp k (contents o)) ∧
        av_contains pcmp (after o) k = Val (match om_get cmp k (contents o) with Some _ => true | None => false end) ∧
        match om_find cmp k (contents o) with
        | Some kv => i ≠ SENTINEL ∧ av_get_node (after o) i = Val kv ∧ cmp k kv.1 = Eq
        | None => i = SENTINEL
        end.
    Proof using HO H0 Hw.
      destruct (av_reach o) as (U & Hok & <- & HI).
      destruct (fact_agree _ _ _ _ Hom (after o) _ k HI) as (i & Ha & Hget & Hcon & Hm). exists i. split_and!; [done..|].
      destruct (om_find cmp k (entries U).*2) as [kv|]; [|done]. naive_solver.
    Qed.
  End reach.
End main.
