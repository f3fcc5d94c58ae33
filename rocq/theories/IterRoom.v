(** * The iterators of the search trees: room on the stacks and rounds of the loops *)
From Verif Require Export IterMeter TreeProof.

(** What never fails with [OutOfFuel] *)
Definition nof {A} (r : res A) : Prop := r ≠ Err OutOfFuel.
Section nof.
  Context `{Profile}.
  Lemma u32_sub_nof x y : nof (u32_sub x y).
  Proof. unfold nof, u32_sub, u_sub. repeat case_match; done. Qed.
  Lemma na_get_nof {T} (a : alloc T) i : nof (na_get a i).
  Proof. pose proof (u32_sub_nof i 1) as Hn. unfold nof, na_get in *. destruct (u32_sub i 1); cbn [mbind res_bind]; [by case_match|congruence]. Qed.
  Lemma na_get_register_nof {T} (a : alloc T) i r : nof (na_get_register a i r).
  Proof.
    unfold nof, na_get_register. case_decide; [done|]. pose proof (na_get_nof a i) as Hn. unfold nof in Hn.
    destruct (na_get a i) as [n|]; cbn [mbind res_bind]; [|congruence]. unfold node_get_register. by repeat case_match.
  Qed.
  Lemma raw_update_end {T} (a : alloc T) i (f : T → T) :
    match na_raw_update i f a with
    | Ret _ a' => length (nodes a') = length (nodes a) ∧ ∀ j x, na_get_register a' j x = na_get_register a j x
    | Fail e _ => e ≠ OutOfFuel end.
  Proof.
    unfold na_raw_update, mbind, M_bind, lift, gets, modify. pose proof (u32_sub_nof i 1) as Hn. unfold nof in Hn.
    destruct (u32_sub i 1) as [j|]; [|congruence]. destruct (lookupN (nodes a) j) as [nd|] eqn:E; [|done]. simpl.
    split; [apply insert_length|]. intros k x. unfold na_get_register. case_decide; [done|]. unfold na_get.
    destruct (u32_sub k 1) as [j1|]; [|done]. simpl. destruct (decide (j = j1)) as [-> | Hne].
    - rewrite lookupN_insertN, E; [done|]. apply lookupN_Some, lookup_lt_Some in E. unfold lengthN. lia.
    - by rewrite lookupN_insertN_ne.
  Qed.
End nof.

Section room.
  Context `{Profile} {K V : Type}.
  Notation al := (alloc (K * V)).
  Notation tree := (tree (K * V)).
  Implicit Types a : al.
  Implicit Types t l r : tree.

  (** rounds to come: two for a node not yet on the stack, one for a node on it *)
  Fixpoint fpot (gs : list tree) : nat :=
    match gs with Nd _ _ _ _ r :: gs => S (2 * tsize r) + fpot gs | _ => O end.
  Fixpoint bpot (gs : list tree) : nat :=
    match gs with Nd _ l _ _ _ :: gs => S (2 * tsize l) + bpot gs | _ => O end.
  Fixpoint fits (R : nat) (gs : list tree) : Prop :=
    match gs with [] => True | g :: gs => (length gs + height g ≤ R)%nat ∧ fits R gs end.
  Record side a (R : nat) (gs : list tree) ft : Prop := {
    sd_gs : Forall (λ g, shp a g ∧ g ≠ Lf) gs;
    sd_ft : shp a ft;
    sd_fits : fits R gs;
    sd_h : (length gs + height ft ≤ R)%nat }.
  Definition fhalf a R (fs : list N) fp (rds : nat) : Prop :=
    ∃ gs ft, fs = map root gs ∧ fp = root ft ∧ side a R gs ft ∧ (2 * tsize ft + fpot gs ≤ rds)%nat.
  Definition bhalf a R (rs : list N) rp (rds : nat) : Prop :=
    ∃ gs rt, rs = map root gs ∧ rp = root rt ∧ side a R gs rt ∧ (2 * tsize rt + bpot gs ≤ rds)%nat.

  Lemma side_regs a a' R gs ft : (∀ i x, na_get_register a' i x = na_get_register a i x) → side a R gs ft → side a' R gs ft.
  Proof.
    intros Hr [H1 H2 H3 H4]. constructor; [|by eapply shp_regs|done..]. eapply Forall_impl; [exact H1|]. intros g []. split; [by eapply shp_regs|done].
  Qed.

  Lemma fwd_within room a R c fs fp fn rs rp rn tm rds :
    fhalf a R fs fp rds → (R ≤ room)%nat → (R - length fs < c)%nat →
    match tim_fwd room c rds a (TIter fs fp fn rs rp rn tm) with
    | Val (_, (it, rds')) => fhalf a R (ti_fwd_stack it) (ti_fwd_ptr it) rds' ∧ ti_rev_stack it = rs ∧ ti_rev_ptr it = rp
    | Err _ => False
    end.
  Proof.
    intros Hh HR. revert fs fp rds Hh. induction c as [|c IH]; intros fs fp rds Hh Hc; [lia|]. cbn [tim_fwd].
    destruct tm; [done|].
    destruct Hh as (gs & ft & -> & -> & [Hgs Hft Hfi Hhe] & Hp). rewrite map_length in *. destruct ft as [|m l i kv r]; cbn [root].
    - rewrite decide_True by done. destruct gs as [|g gs]; cbn [map].
      { simpl. split; [|done]. exists [], Lf. split_and!; done. }
      apply Forall_cons in Hgs as [[Hg Hg0] Hgs]. destruct g as [|m l i kv r]; [done|]. cbn [root].
      cbn [fpot] in Hp. destruct rds as [|rds]; [simpl in Hp; lia|]. destruct Hfi as [Hhg Hfi]. simpl in Hhg.
      destruct (decide (Some i = rn)).
      + simpl. split; [|done]. exists gs, Lf. split_and!; [done|done| |simpl in *; lia]. constructor; [done|done|done|simpl in *; lia].
      + destruct Hg as (Hi & _ & Hr & _ & Hsr). rewrite Hr. simpl. split; [|done]. exists gs, r. split_and!; [done|done| |simpl in *; lia].
        constructor; [done|done|done|lia].
    - pose proof Hft as (Hi & Hl & Hr & Hsl & Hsr). rewrite decide_False by done. simpl in Hp, Hhe.
      destruct rds as [|rds]; [lia|]. rewrite decide_True by lia. rewrite Hl. cbn [mbind res_bind].
      apply (IH (i :: map root gs)).
      + exists (Nd m l i kv r :: gs), l. split_and!; [done|done| |simpl; lia]. constructor; [by constructor|done| |simpl; lia].
        simpl. split; [lia|done].
      + simpl. rewrite map_length. lia.
  Qed.
  Lemma rev_within room a R c fs fp fn rs rp rn tm rds :
    bhalf a R rs rp rds → (R ≤ room)%nat → (R - length rs < c)%nat →
    match tim_rev room c rds a (TIter fs fp fn rs rp rn tm) with
    | Val (_, (it, rds')) => bhalf a R (ti_rev_stack it) (ti_rev_ptr it) rds' ∧ ti_fwd_stack it = fs ∧ ti_fwd_ptr it = fp
    | Err _ => False
    end.
  Proof.
    intros Hh HR. revert rs rp rds Hh. induction c as [|c IH]; intros rs rp rds Hh Hc; [lia|]. cbn [tim_rev].
    destruct tm; [done|].
    destruct Hh as (gs & rt & -> & -> & [Hgs Hrt Hfi Hhe] & Hp). rewrite map_length in *. destruct rt as [|m l i kv r]; cbn [root].
    - rewrite decide_True by done. destruct gs as [|g gs]; cbn [map].
      { simpl. split; [|done]. exists [], Lf. split_and!; done. }
      apply Forall_cons in Hgs as [[Hg Hg0] Hgs]. destruct g as [|m l i kv r]; [done|]. cbn [root].
      cbn [bpot] in Hp. destruct rds as [|rds]; [simpl in Hp; lia|]. destruct Hfi as [Hhg Hfi]. simpl in Hhg.
      destruct (decide (Some i = fn)).
      + simpl. split; [|done]. exists gs, Lf. split_and!; [done|done| |simpl in *; lia]. constructor; [done|done|done|simpl in *; lia].
      + destruct Hg as (Hi & Hl & _ & Hsl & _). rewrite Hl. simpl. split; [|done]. exists gs, l. split_and!; [done|done| |simpl in *; lia].
        constructor; [done|done|done|lia].
    - pose proof Hrt as (Hi & Hl & Hr & Hsl & Hsr). rewrite decide_False by done. simpl in Hp, Hhe.
      destruct rds as [|rds]; [lia|]. rewrite decide_True by lia. rewrite Hr. cbn [mbind res_bind].
      apply (IH (i :: map root gs)).
      + exists (Nd m l i kv r :: gs), r. split_and!; [done|done| |simpl; lia]. constructor; [by constructor|done| |simpl; lia].
        simpl. split; [lia|done].
      + simpl. rewrite map_length. lia.
  Qed.

  (** the invariant of an iterator with its meter *)
  Definition within R (st : al * (titer * meter)) : Prop :=
    (R ≤ length (nodes st.1))%nat ∧
    fhalf st.1 R (ti_fwd_stack st.2.1) (ti_fwd_ptr st.2.1) st.2.2.1 ∧ bhalf st.1 R (ti_rev_stack st.2.1) (ti_rev_ptr st.2.1) st.2.2.2.
  Lemma within_new a t n : shp a t → (tsize t ≤ length (nodes a))%nat → (2 * tsize t ≤ n)%nat → within (height t) (a, (ti_new (root t), (n, n))).
  Proof.
    intros Hs Ht Hn. pose proof (height_tsize t). split; [simpl; lia|]. split; exists [], t; (split_and!; [done|done| |simpl; lia]); constructor; done.
  Qed.
  Lemma within_regs R a a' it m : (∀ i x, na_get_register a' i x = na_get_register a i x) → length (nodes a') = length (nodes a) →
    within R (a, (it, m)) → within R (a', (it, m)).
  Proof.
    intros Hr Hl (H0 & (gs & ft & H1 & H2 & H3 & H4) & (gs' & rt & H5 & H6 & H7 & H8)). simpl in *. split; [simpl; lia|].
    split; [exists gs, ft|exists gs', rt]; (split_and!; [done|done|by eapply side_regs|done]).
  Qed.

  Lemma fwd_call room R a it m :
    within R (a, (it, m)) → (R ≤ room)%nat →
    match tim_fwd room (tim_call room a) m.1 a it with
    | Val (_, (it', n)) => within R (a, (it', (n, m.2))) | Err _ => False end.
  Proof.
    intros (H0 & H1 & H2) HR. destruct it as [fs fp fn rs rp rn tm]. cbn [fst snd ti_fwd_stack ti_fwd_ptr ti_rev_stack ti_rev_ptr] in *.
    pose proof (fwd_within room a R (tim_call room a) fs fp fn rs rp rn tm m.1 H1 HR) as Hw.
    assert (R - length fs < tim_call room a)%nat as Hc by (unfold tim_call, ti_fuel; lia). specialize (Hw Hc).
    destruct (tim_fwd _ _ _ _ _) as [[x [it' n]]|]; [|done]. destruct Hw as (Hw & <- & <-). by split_and!.
  Qed.
  Lemma rev_call room R a it m :
    within R (a, (it, m)) → (R ≤ room)%nat →
    match tim_rev room (tim_call room a) m.2 a it with
    | Val (_, (it', n)) => within R (a, (it', (m.1, n))) | Err _ => False end.
  Proof.
    intros (H0 & H1 & H2) HR. destruct it as [fs fp fn rs rp rn tm]. cbn [fst snd ti_fwd_stack ti_fwd_ptr ti_rev_stack ti_rev_ptr] in *.
    pose proof (rev_within room a R (tim_call room a) fs fp fn rs rp rn tm m.2 H2 HR) as Hw.
    assert (R - length rs < tim_call room a)%nat as Hc by (unfold tim_call, ti_fuel; lia). specialize (Hw Hc).
    destruct (tim_rev _ _ _ _ _) as [[x [it' n]]|]; [|done]. destruct Hw as (Hw & <- & <-). by split_and!.
  Qed.
  Lemma next_within room R a st : within R (a, st) → (R ≤ room)%nat →
    match tim_next room a st with Val (_, st') => within R (a, st') | Err e => e ≠ OutOfFuel end.
  Proof.
    destruct st as [it m]. intros Hw HR. pose proof (fwd_call room R a it m Hw HR) as Hc. unfold tim_next. cbn [fst snd].
    destruct (tim_fwd _ _ _ _ _) as [[[x|] [it' n]]|]; [|done|done]. cbn [mbind res_bind fst snd].
    pose proof (na_get_nof a x) as Hn. destruct (na_get a x); [done|]. unfold nof in Hn. simpl. congruence.
  Qed.
  Lemma next_back_within room R a st : within R (a, st) → (R ≤ room)%nat →
    match tim_next_back room a st with Val (_, st') => within R (a, st') | Err e => e ≠ OutOfFuel end.
  Proof.
    destruct st as [it m]. intros Hw HR. pose proof (rev_call room R a it m Hw HR) as Hc. unfold tim_next_back. cbn [fst snd].
    destruct (tim_rev _ _ _ _ _) as [[[x|] [it' n]]|]; [|done|done]. cbn [mbind res_bind fst snd].
    pose proof (na_get_nof a x) as Hn. destruct (na_get a x); [done|]. unfold nof in Hn. simpl. congruence.
  Qed.
  Lemma mut_next_within room R f s : within R s → (R ≤ room)%nat →
    match tim_mut_next room f s with Ret _ s' => within R s' | Fail e _ => e ≠ OutOfFuel end.
  Proof.
    destruct s as [a [it m]]. intros Hw HR. pose proof (fwd_call room R a it m Hw HR) as Hc.
    unfold tim_mut_next, mbind, M_bind, mget, lift, gets, modify, zoom. cbn [fst snd].
    destruct (tim_fwd _ _ _ _ _) as [[[x|] [it' n]]|]; [|done|done]. cbn [fst snd].
    pose proof (raw_update_end a x (λ n : K * V, (n.1, f n.2))) as Hu. destruct (na_raw_update x _ a) as [v a'|]; [|done].
    destruct Hu as [Hl Hr]. cbn. by eapply within_regs.
  Qed.
  Lemma mut_next_back_within room R f s : within R s → (R ≤ room)%nat →
    match tim_mut_next_back room f s with Ret _ s' => within R s' | Fail e _ => e ≠ OutOfFuel end.
  Proof.
    destruct s as [a [it m]]. intros Hw HR. pose proof (rev_call room R a it m Hw HR) as Hc.
    unfold tim_mut_next_back, mbind, M_bind, mget, lift, gets, modify, zoom. cbn [fst snd].
    destruct (tim_rev _ _ _ _ _) as [[[x|] [it' n]]|]; [|done|done]. cbn [fst snd].
    pose proof (raw_update_end a x (λ n : K * V, (n.1, f n.2))) as Hu. destruct (na_raw_update x _ a) as [v a'|]; [|done].
    destruct Hu as [Hl Hr]. cbn. by eapply within_regs.
  Qed.

End room.

(** ** The two trees *)
Section trees.
  Context `{Profile} {K V : Type}.
  Lemma drop_end {S IT Mt A} (b : outcome (S * (IT * Mt)) A) (r : outcome (S * IT) A) :
    drop_meter b = r →
    match b with Ret x (t, _) => Ret x t | Fail e (t, _) => Fail e t end = match r with Ret x (t, _) => Ret x t | Fail e (t, _) => Fail e t end.
  Proof. intros <-. by destruct b as [? []|? []]. Qed.
  Lemma rbm_mle room m (t : rbt K V) :
    (∀ sc, rbm_iterate room m t sc = Err OutOfFuel ∨ rbm_iterate room m t sc = rb_iterate t sc) ∧
    (∀ sc, (∃ t', rbm_iterate_mut room m sc t = Fail OutOfFuel t') ∨ rbm_iterate_mut room m sc t = rb_iterate_mut sc t).
  Proof.
    split; intros sc.
    - apply (drive_mle _ _ (rb_iter_next t) (rb_iter_next_back t)); intros st; [apply next_mle|apply next_back_mle].
    - unfold rbm_iterate_mut, rb_iterate_mut.
      destruct (drive_mut_mle (λ f, rbm_on_iter (tim_mut_next room f)) (λ f, rbm_on_iter (tim_mut_next_back room f))
        rb_iter_mut_next rb_iter_mut_next_back ltac:(intros f; apply (mlem_zoom rb_al set_ral), mut_next_mle)
        ltac:(intros f; apply (mlem_zoom rb_al set_ral), mut_next_back_mle) sc t (rb_iter t, m)) as [[[t' ?] ->]|Hx].
      + left. by eexists.
      + right. by apply drop_end.
  Qed.
  Lemma avm_mle room m (t : avlt K V) :
    (∀ sc, avm_iterate room m t sc = Err OutOfFuel ∨ avm_iterate room m t sc = av_iterate t sc) ∧
    (∀ sc, (∃ t', avm_iterate_mut room m sc t = Fail OutOfFuel t') ∨ avm_iterate_mut room m sc t = av_iterate_mut sc t).
  Proof.
    split; intros sc.
    - apply (drive_mle _ _ (av_iter_next t) (av_iter_next_back t)); intros st; [apply next_mle|apply next_back_mle].
    - unfold avm_iterate_mut, av_iterate_mut.
      destruct (drive_mut_mle (λ f, avm_on_iter (tim_mut_next room f)) (λ f, avm_on_iter (tim_mut_next_back room f))
        av_iter_mut_next av_iter_mut_next_back ltac:(intros f; apply (mlem_zoom av_al set_aal), mut_next_mle)
        ltac:(intros f; apply (mlem_zoom av_al set_aal), mut_next_back_mle) sc t (av_iter t, m)) as [[[t' ?] ->]|Hx].
      + left. by eexists.
      + right. by apply drop_end.
  Qed.
  Lemma rbm_within room m (t : rbt K V) R :
    within R (rb_al t, (rb_iter t, m)) → (R ≤ room)%nat →
    (∀ sc, rbm_iterate room m t sc = rb_iterate t sc) ∧ (∀ sc, rbm_iterate_mut room m sc t = rb_iterate_mut sc t).
  Proof.
    intros Hw HR. split; intros sc.
    - apply (drive_within _ _ (rb_iter_next t) (rb_iter_next_back t)) with (J := λ st, within R (rb_al t, st)); [..|done].
      + intros st. apply next_mle. + intros st. apply next_back_mle.
      + intros st Hs. by apply next_within. + intros st Hs. by apply next_back_within.
    - apply drop_end.
      apply (drive_mut_within _ _ rb_iter_mut_next rb_iter_mut_next_back) with (J := λ s, within R (rb_al s.1, s.2)); [..|done].
      + intros f. apply (mlem_zoom rb_al set_ral), mut_next_mle. + intros f. apply (mlem_zoom rb_al set_ral), mut_next_back_mle.
      + intros f [t' st] Hs. unfold rbm_on_iter, zoom. cbn [fst snd]. pose proof (mut_next_within room R f _ Hs HR) as Hm. cbn [fst snd] in Hm.
        by destruct (tim_mut_next room f _) as [? []|].
      + intros f [t' st] Hs. unfold rbm_on_iter, zoom. cbn [fst snd]. pose proof (mut_next_back_within room R f _ Hs HR) as Hm. cbn [fst snd] in Hm.
        by destruct (tim_mut_next_back room f _) as [? []|].
  Qed.
  Lemma avm_within room m (t : avlt K V) R :
    within R (av_al t, (av_iter t, m)) → (R ≤ room)%nat →
    (∀ sc, avm_iterate room m t sc = av_iterate t sc) ∧ (∀ sc, avm_iterate_mut room m sc t = av_iterate_mut sc t).
  Proof.
    intros Hw HR. split; intros sc.
    - apply (drive_within _ _ (av_iter_next t) (av_iter_next_back t)) with (J := λ st, within R (av_al t, st)); [..|done].
      + intros st. apply next_mle. + intros st. apply next_back_mle.
      + intros st Hs. by apply next_within. + intros st Hs. by apply next_back_within.
    - apply drop_end.
      apply (drive_mut_within _ _ av_iter_mut_next av_iter_mut_next_back) with (J := λ s, within R (av_al s.1, s.2)); [..|done].
      + intros f. apply (mlem_zoom av_al set_aal), mut_next_mle. + intros f. apply (mlem_zoom av_al set_aal), mut_next_back_mle.
      + intros f [t' st] Hs. unfold avm_on_iter, zoom. cbn [fst snd]. pose proof (mut_next_within room R f _ Hs HR) as Hm. cbn [fst snd] in Hm.
        by destruct (tim_mut_next room f _) as [? []|].
      + intros f [t' st] Hs. unfold avm_on_iter, zoom. cbn [fst snd]. pose proof (mut_next_back_within room R f _ Hs HR) as Hm. cbn [fst snd] in Hm.
        by destruct (tim_mut_next_back room f _) as [? []|].
  Qed.
End trees.
