(** * The iterators of the critbit tree: room on the stacks and rounds of the loops *)
From Verif Require Import IterMeter.
From Verif Require Export CritMain.

Lemma cget_nof `{Profile} {T} (a : alloc T) i : na_get a i ≠ Err OutOfFuel.
Proof.
  unfold na_get. assert (u32_sub i 1 ≠ Err OutOfFuel) as Hn by (unfold u32_sub, u_sub; repeat case_match; done).
  destruct (u32_sub i 1); cbn [mbind res_bind]; [by case_match|congruence].
Qed.
Lemma cregister_nof `{Profile} {T} (a : alloc T) i r : na_get_register a i r ≠ Err OutOfFuel.
Proof.
  unfold na_get_register. case_decide; [done|]. pose proof (cget_nof a i) as Hn.
  destruct (na_get a i) as [n|]; cbn [mbind res_bind]; [|congruence]. unfold node_get_register. by repeat case_match.
Qed.
Lemma raw_update_nof `{Profile} {T} (a : alloc T) i (f : T → T) :
  match na_raw_update i f a with Ret _ _ => True | Fail e _ => e ≠ OutOfFuel end.
Proof.
  unfold na_raw_update, mbind, M_bind, lift, gets, modify.
  assert (u32_sub i 1 ≠ Err OutOfFuel) as Hn by (unfold u32_sub, u_sub; repeat case_match; done).
  destruct (u32_sub i 1) as [j|]; [|congruence]. by destruct (lookupN (nodes a) j).
Qed.
Lemma cdrop_end {S IT Mt A} (b : outcome (S * (IT * Mt)) A) (r : outcome (S * IT) A) :
  drop_meter b = r →
  match b with Ret x (t, _) => Ret x t | Fail e (t, _) => Fail e t end = match r with Ret x (t, _) => Ret x t | Fail e (t, _) => Fail e t end.
Proof. intros <-. by destruct b as [? []|? []]. Qed.

Section crit.
  Context `{Profile} {V : Type}.
  Notation ctree := (ctree V).
  Implicit Types t : critbit V.
  Implicit Types U W : ctree.

  (** the nodes of [W] are where they should be *)
  Fixpoint cshp t W : Prop :=
    match W with
    | CL i k j v => cb_is_inner_node t i = Val false ∧ cb_get_leaf_index t i = Val j
    | CI i k p l r => cb_is_inner_node t i = Val true ∧ cb_get_left t i = Val (croot l) ∧ cb_get_right t i = Val (croot r) ∧ cshp t l ∧ cshp t r
    end.
  Lemma cshp_nodes t t' W : cb_nodes t' = cb_nodes t → cshp t W → cshp t' W.
  Proof.
    intros Hn. induction W; simpl; unfold cb_is_inner_node, cb_get_left, cb_get_right, cb_get_leaf_index in *; rewrite Hn; naive_solver.
  Qed.
  Lemma crep_cshp `{G : Ghost V} `{!GAdd G} nn cap t U : crep nn cap t U → cshp t U.
  Proof.
    intros [_ (fr & Ho & _) Hl].
    enough (∀ W ctx, plug ctx W = U → cshp t W) as HW by (by apply (HW U [])).
    induction W as [i k j v|i k p l IHl r IHr]; intros ctx <-; cbn [cshp].
    - rewrite (rd_inner _ _ _ _ Ho _ _ _ _ _ _ (CL_cell _ _ _ _ _)), (rd_leaf_index _ _ _ _ Ho _ _ _ _ _ _ (CL_cell _ _ _ _ _)).
      split; [|done]. f_equal. apply bool_decide_false. eapply CH_nz; [exact Hl|apply lcell_in].
    - rewrite (rd_inner _ _ _ _ Ho _ _ _ _ _ _ (CI_cell _ _ _ _ _ _)), (rd_left _ _ _ _ Ho _ _ _ _ _ _ (CI_cell _ _ _ _ _ _)),
        (rd_right _ _ _ _ Ho _ _ _ _ _ _ (CI_cell _ _ _ _ _ _)).
      split_and!; [done|done|done|by apply (IHl (Fr false i k p r :: ctx))|by apply (IHr (Fr true i k p l :: ctx))].
  Qed.
  Lemma cheight_ents U : (cheight U ≤ length (ents U))%nat.
  Proof.
    induction U as [|i k p l IHl r IHr]; simpl; [lia|]. rewrite app_length. pose proof (ents_ne l) as Hl. pose proof (ents_ne r) as Hr.
    destruct (ents l), (ents r); try done. simpl in *. lia.
  Qed.

  Fixpoint cpot (gs : list ctree) : nat := match gs with [] => O | g :: gs => csize g + cpot gs end.
  Fixpoint cfits (R : nat) (gs : list ctree) : Prop :=
    match gs with [] => True | g :: gs => (length gs + cheight g ≤ R)%nat ∧ cfits R gs end.
  Definition chalf t R (fs : list N) (rds : nat) : Prop :=
    ∃ gs, fs = map croot gs ∧ Forall (cshp t) gs ∧ cfits R gs ∧ (cpot gs ≤ rds)%nat.

  Lemma cfwd_within room t R c fs fn rs rn tm rds :
    chalf t R fs rds → (R ≤ room)%nat → (R - length fs < c)%nat →
    match cim_fwd room c rds t (CIter fs fn rs rn tm) with
    | Val (_, (it, rds')) => chalf t R (ci_fwd_stack it) rds' ∧ ci_rev_stack it = rs
    | Err _ => False
    end.
  Proof.
    intros Hh HR. revert fs rds Hh. induction c as [|c IH]; intros fs rds Hh Hc; [lia|]. cbn [cim_fwd].
    destruct tm; [done|].
    destruct Hh as (gs & -> & Hgs & Hfi & Hp). destruct gs as [|g gs]; cbn [map].
    { split; [|done]. exists []. done. }
    apply Forall_cons in Hgs as [Hg Hgs]. destruct Hfi as [Hhg Hfi]. cbn [cpot] in Hp. cbn [length map] in Hc. rewrite map_length in *.
    destruct g as [i k j v|i k p l r]; cbn [croot csize cheight cshp] in *.
    - destruct rds as [|rds]; [lia|]. destruct Hg as [-> ->]. cbn [mbind res_bind negb].
      destruct (decide (Some j = rn)); (split; [|done]); exists gs; (split_and!; [done|done|done|lia]).
    - destruct rds as [|rds]; [lia|]. destruct Hg as (-> & Hl & Hr & Hsl & Hsr). cbn [mbind res_bind negb].
      assert (0 < cheight r)%nat by (destruct r; simpl; lia).
      rewrite decide_True by lia. rewrite Hr, Hl. cbn [mbind res_bind].
      apply (IH (croot l :: croot r :: map croot gs)).
      + exists (l :: r :: gs). split_and!; [done|by repeat constructor| |cbn [cpot]; lia]. cbn [cfits length]. split_and!; [lia|lia|done].
      + cbn [length]. rewrite map_length. lia.
  Qed.
  Lemma crev_within room t R c fs fn rs rn tm rds :
    chalf t R rs rds → (R ≤ room)%nat → (R - length rs < c)%nat →
    match cim_rev room c rds t (CIter fs fn rs rn tm) with
    | Val (_, (it, rds')) => chalf t R (ci_rev_stack it) rds' ∧ ci_fwd_stack it = fs
    | Err _ => False
    end.
  Proof.
    intros Hh HR. revert rs rds Hh. induction c as [|c IH]; intros rs rds Hh Hc; [lia|]. cbn [cim_rev].
    destruct tm; [done|].
    destruct Hh as (gs & -> & Hgs & Hfi & Hp). destruct gs as [|g gs]; cbn [map].
    { split; [|done]. exists []. done. }
    apply Forall_cons in Hgs as [Hg Hgs]. destruct Hfi as [Hhg Hfi]. cbn [cpot] in Hp. cbn [length map] in Hc. rewrite map_length in *.
    destruct g as [i k j v|i k p l r]; cbn [croot csize cheight cshp] in *.
    - destruct rds as [|rds]; [lia|]. destruct Hg as [-> ->]. cbn [mbind res_bind negb].
      destruct (decide (Some j = fn)); (split; [|done]); exists gs; (split_and!; [done|done|done|lia]).
    - destruct rds as [|rds]; [lia|]. destruct Hg as (-> & Hl & Hr & Hsl & Hsr). cbn [mbind res_bind negb].
      assert (0 < cheight l)%nat by (destruct l; simpl; lia).
      rewrite decide_True by lia. rewrite Hl, Hr. cbn [mbind res_bind].
      apply (IH (croot r :: croot l :: map croot gs)).
      + exists (r :: l :: gs). split_and!; [done|by repeat constructor| |cbn [cpot]; lia]. cbn [cfits length]. split_and!; [lia|lia|done].
      + cbn [length]. rewrite map_length. lia.
  Qed.

  Definition cwithin R (st : critbit V * (citer * meter)) : Prop :=
    (R ≤ length (nodes (cb_nodes st.1)))%nat ∧ chalf st.1 R (ci_fwd_stack st.2.1) st.2.2.1 ∧ chalf st.1 R (ci_rev_stack st.2.1) st.2.2.2.
  Lemma cwithin_nodes R t t' it m : cb_nodes t' = cb_nodes t → cwithin R (t, (it, m)) → cwithin R (t', (it, m)).
  Proof.
    intros Hn (H0 & (gs & H1 & H2 & H3 & H4) & (gs' & H5 & H6 & H7 & H8)). simpl in *. split; [by simpl; rewrite Hn|].
    split; [exists gs|exists gs']; (split_and!; [done| |done|done]); (eapply Forall_impl; [done|]); intros g; by apply cshp_nodes.
  Qed.
  Lemma cfwd_call room R t it m :
    cwithin R (t, (it, m)) → (R ≤ room)%nat → (0 < room)%nat →
    match cim_fwd room (cim_call room t) m.1 t it with
    | Val (_, (it', n)) => cwithin R (t, (it', (n, m.2))) | Err _ => False end.
  Proof.
    intros (H0 & H1 & H2) HR Hr. destruct it as [fs fn rs rn tm]. cbn [fst snd ci_fwd_stack ci_rev_stack] in *.
    pose proof (cfwd_within room t R (cim_call room t) fs fn rs rn tm m.1 H1 HR) as Hw.
    destruct fs as [|f fs].
    { destruct H1 as (gs & Hg & _). destruct (cim_call room t); cbn [cim_fwd]; destruct tm; (split_and!; [done|by exists []; simpl; auto with lia|done]). }
    assert (R - length (f :: fs) < cim_call room t)%nat as Hc by (unfold cim_call, cb_fuel; cbn [length]; lia). specialize (Hw Hc).
    destruct (cim_fwd _ _ _ _ _) as [[x [it' n]]|]; [|done]. destruct Hw as (Hw & <-). by split_and!.
  Qed.
  Lemma crev_call room R t it m :
    cwithin R (t, (it, m)) → (R ≤ room)%nat → (0 < room)%nat →
    match cim_rev room (cim_call room t) m.2 t it with
    | Val (_, (it', n)) => cwithin R (t, (it', (m.1, n))) | Err _ => False end.
  Proof.
    intros (H0 & H1 & H2) HR Hr. destruct it as [fs fn rs rn tm]. cbn [fst snd ci_fwd_stack ci_rev_stack] in *.
    pose proof (crev_within room t R (cim_call room t) fs fn rs rn tm m.2 H2 HR) as Hw.
    destruct rs as [|f rs].
    { destruct H2 as (gs & Hg & _). destruct (cim_call room t); cbn [cim_rev]; destruct tm; (split_and!; [done|done|by exists []; simpl; auto with lia]). }
    assert (R - length (f :: rs) < cim_call room t)%nat as Hc by (unfold cim_call, cb_fuel; cbn [length]; lia). specialize (Hw Hc).
    destruct (cim_rev _ _ _ _ _) as [[x [it' n]]|]; [|done]. destruct Hw as (Hw & <-). by split_and!.
  Qed.
  Lemma centry_nof t n i : match (v ← cb_get_leaf t i; k ← cb_get_key t n; Val (k, v)) with Err e => e ≠ OutOfFuel | _ => True end.
  Proof.
    unfold cb_get_leaf, cb_get_key. pose proof (cget_nof (cb_leaves t) i). pose proof (cget_nof (cb_nodes t) n).
    destruct (na_get (cb_leaves t) i); cbn [mbind res_bind]; [|congruence]. destruct (na_get (cb_nodes t) n); cbn [mbind res_bind]; [done|congruence].
  Qed.
  Lemma cnext_within room R t st : cwithin R (t, st) → (R ≤ room)%nat → (0 < room)%nat →
    match cim_next room t st with Val (_, st') => cwithin R (t, st') | Err e => e ≠ OutOfFuel end.
  Proof.
    destruct st as [it m]. intros Hw HR Hr. pose proof (cfwd_call room R t it m Hw HR Hr) as Hc. unfold cim_next. cbn [fst snd].
    destruct (cim_fwd _ _ _ _ _) as [[[[n i]|] [it' m']]|]; [|done|done]. cbn [mbind res_bind fst snd].
    pose proof (centry_nof t n i) as Hn. destruct (cb_get_leaf t i); cbn [mbind res_bind] in *; [|done]. by destruct (cb_get_key t n).
  Qed.
  Lemma cnext_back_within room R t st : cwithin R (t, st) → (R ≤ room)%nat → (0 < room)%nat →
    match cim_next_back room t st with Val (_, st') => cwithin R (t, st') | Err e => e ≠ OutOfFuel end.
  Proof.
    destruct st as [it m]. intros Hw HR Hr. pose proof (crev_call room R t it m Hw HR Hr) as Hc. unfold cim_next_back. cbn [fst snd].
    destruct (cim_rev _ _ _ _ _) as [[[[n i]|] [it' m']]|]; [|done|done]. cbn [mbind res_bind fst snd].
    pose proof (centry_nof t n i) as Hn. destruct (cb_get_leaf t i); cbn [mbind res_bind] in *; [|done]. by destruct (cb_get_key t n).
  Qed.
  Lemma craw_nof t n : cb_raw_key t n ≠ Err OutOfFuel.
  Proof.
    unfold cb_raw_key. assert (u32_sub n 1 ≠ Err OutOfFuel) as Hn by (unfold u32_sub, u_sub; repeat case_match; done).
    destruct (u32_sub n 1); cbn [mbind res_bind]; [by case_match|congruence].
  Qed.
  Lemma conl_nof t i f :
    match cb_onl (na_raw_update i f) t with Ret _ t' => cb_nodes t' = cb_nodes t | Fail e _ => e ≠ OutOfFuel end.
  Proof. unfold cb_onl, zoom. pose proof (raw_update_nof (cb_leaves t) i f). by destruct (na_raw_update i f _). Qed.
  Lemma cmut_next_within room R f s : cwithin R s → (R ≤ room)%nat → (0 < room)%nat →
    match cim_mut_next room f s with Ret _ s' => cwithin R s' | Fail e _ => e ≠ OutOfFuel end.
  Proof.
    destruct s as [t [it m]]. intros Hw HR Hr. pose proof (cfwd_call room R t it m Hw HR Hr) as Hc.
    unfold cim_mut_next, mbind, M_bind, mget, lift, gets, modify. cbn [fst snd].
    destruct (cim_fwd _ _ _ _ _) as [[[[n i]|] [it' m']]|]; [|done|done]. cbn [fst snd].
    pose proof (craw_nof t n). destruct (cb_raw_key t n); [|congruence]. unfold zoom. cbn [fst snd].
    pose proof (conl_nof t i f) as Hu. destruct (cb_onl _ t) as [v t'|]; [|done]. cbn. by eapply cwithin_nodes.
  Qed.
  Lemma cmut_next_back_within room R f s : cwithin R s → (R ≤ room)%nat → (0 < room)%nat →
    match cim_mut_next_back room f s with Ret _ s' => cwithin R s' | Fail e _ => e ≠ OutOfFuel end.
  Proof.
    destruct s as [t [it m]]. intros Hw HR Hr. pose proof (crev_call room R t it m Hw HR Hr) as Hc.
    unfold cim_mut_next_back, mbind, M_bind, mget, lift, gets, modify. cbn [fst snd].
    destruct (cim_rev _ _ _ _ _) as [[[[n i]|] [it' m']]|]; [|done|done]. cbn [fst snd].
    pose proof (craw_nof t n). destruct (cb_raw_key t n); [|congruence]. unfold zoom. cbn [fst snd].
    pose proof (conl_nof t i f) as Hu. destruct (cb_onl _ t) as [v t'|]; [|done]. cbn. by eapply cwithin_nodes.
  Qed.
  Lemma cbm_mle room m t :
    (∀ sc, cbm_iterate room m t sc = Err OutOfFuel ∨ cbm_iterate room m t sc = cb_iterate t sc) ∧
    (∀ sc, (∃ t', cbm_iterate_mut room m sc t = Fail OutOfFuel t') ∨ cbm_iterate_mut room m sc t = cb_iterate_mut sc t).
  Proof.
    split; intros sc.
    - apply (drive_mle _ _ (cb_iter_next t) (cb_iter_next_back t)); intros st; [apply cnext_mle|apply cnext_back_mle].
    - unfold cbm_iterate_mut, cb_iterate_mut.
      destruct (drive_mut_mle _ _ _ _ (cmut_next_mle room) (cmut_next_back_mle room) sc t (cb_iter t, m)) as [[[t' ?] ->]|Hx].
      + left. by eexists.
      + right. by apply cdrop_end.
  Qed.
  Lemma cbm_within room m t R :
    cwithin R (t, (cb_iter t, m)) → (R ≤ room)%nat → (0 < room)%nat →
    (∀ sc, cbm_iterate room m t sc = cb_iterate t sc) ∧ (∀ sc, cbm_iterate_mut room m sc t = cb_iterate_mut sc t).
  Proof.
    intros Hw HR Hr. split; intros sc.
    - apply (drive_within _ _ (cb_iter_next t) (cb_iter_next_back t)) with (J := λ st, cwithin R (t, st)); [..|done].
      + intros st. apply cnext_mle. + intros st. apply cnext_back_mle.
      + intros st Hs. by apply cnext_within. + intros st Hs. by apply cnext_back_within.
    - apply cdrop_end.
      apply (drive_mut_within _ _ _ _ (cmut_next_mle room) (cmut_next_back_mle room)) with (J := cwithin R); [..|done].
      + intros f s Hs. by apply cmut_next_within. + intros f s Hs. by apply cmut_next_back_within.
  Qed.
End crit.

Section reach.
  Context `{Profile} {V : Type} (nn ms : nat) (d : V) (H0 : (0 < ms)%nat) (Hw : N.of_nat nn + 1 < W32) (t0 : critbit V).
  Context (Hnew : cb_new nn ms d = Some t0).
  Lemma cb_reach_room (o : list (om_op N V)) n :
    Forall u128_op o →
    let t := (history cb_step o t0).2 in let len := N.to_nat (cb_len t) in
    (129 ≤ n)%nat ∨ (0 < n)%nat ∧ (len ≤ n)%nat →
    let m := (2 * len - 1, 2 * len - 1)%nat in
    (∀ sc, cbm_iterate n m t sc = cb_iterate t sc) ∧ (∀ sc, cbm_iterate_mut n m sc t = cb_iterate_mut sc t).
  Proof using H0 Hw Hnew.
    intros Hu t len Hn m. destruct (cb_reach nn ms d t0 H0 Hw Hnew o Hu) as [_ (E & HE & _)]. fold t in HE.
    destruct HE as [[HW ->]|(U & HR & HwU & ->)].
    - apply (cbm_within n m t 0); [|lia|lia]. pose proof HW as [Hr _ _].
      split; [lia|]. unfold cb_iter. rewrite decide_True by done. split; exists []; simpl; (split_and!; [done|done|done|lia]).
    - pose proof (crep_cshp _ _ _ _ HR) as Hs. destruct (crep_nonempty _ _ _ _ HR) as (He & Hlen & Hrt).
      pose proof (depth_le _ HwU). pose proof (cheight_ents U). pose proof (csize_ents U). pose proof (cheight_csize U).
      assert (len = length (ents U)) as Hl.
      { unfold len. destruct (crep_size _ _ _ _ HR) as [_ ->]. unfold lengthN. lia. }
      apply (cbm_within n m t (cheight U)); [|lia|lia].
      split.
      { destruct (cr_nodes _ _ _ _ HR) as (fr & Ho & _). pose proof (cells_length U 0) as Hc. pose proof (AOK_len_le _ _ _ _ _ Ho) as Hx3.
        pose proof (ok_cap _ _ _ _ _ Ho) as Hx4. unfold MAX_SIZE, lengthN in *. simpl. lia. }
      unfold cb_iter. rewrite decide_False by done. rewrite (cr_root _ _ _ _ HR).
      split; exists [U]; simpl; (split_and!; [done|by repeat constructor|lia|done|lia]).
  Qed.
End reach.
