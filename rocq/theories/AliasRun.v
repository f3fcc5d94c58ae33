(** * Programs that keep references: the run is that of HeldModel.v; Stacked Borrows *)
From Verif Require Import AliasModel AliasUse AliasProof AliasProg.
Local Open Scope nat_scope.

(** ** Steps of the stacks *)
Lemma app_two (t : trace) a b : t ++ [a; b] = (t ++ [a]) ++ [b].
Proof. by rewrite <- app_assoc. Qed.
Lemma sb_ok_at tr l : sb_ok tr → ∃ s, sb_at tr l = Some s ∧ bottom s.
Proof. intros Hk. destruct (Hk l) as [s E]. exists s. split; [done|]. by eapply bottom_at. Qed.
Lemma sb_read_top it s p : grants_read p it → sb_read p (it :: s) = Some (it :: s).
Proof. intros Hg. cbn [sb_read]. by rewrite decide_True. Qed.
Lemma sb_write_top it s p : grants_write p it → sb_write p (it :: s) = Some (it :: s).
Proof. intros Hg. cbn [sb_write]. by rewrite decide_True. Qed.
(** A read through the top item changes nothing *)
Lemma sb_read_step tr p g :
  (∀ l, covers g l → ∃ it s, sb_at tr l = Some (it :: s) ∧ grants_read p it) → ∀ l, sb_at (tr ++ [Read p g]) l = sb_at tr l.
Proof.
  intros Hg l. rewrite sb_at_snoc. destruct (sb_at tr l) as [s|] eqn:E; [|done]. cbn [mbind option_bind target]. destruct (decide _) as [Hl|]; [|done].
  cbn [sb_event]. destruct (Hg l Hl) as (it & s' & E' & Hr). rewrite E in E'. injection E' as ->. by apply sb_read_top.
Qed.
Lemma sb_write_step tr p g :
  (∀ l, covers g l → ∃ it s, sb_at tr l = Some (it :: s) ∧ grants_write p it) → ∀ l, sb_at (tr ++ [Write p g]) l = sb_at tr l.
Proof.
  intros Hg l. rewrite sb_at_snoc. destruct (sb_at tr l) as [s|] eqn:E; [|done]. cbn [mbind option_bind target]. destruct (decide _) as [Hl|]; [|done].
  cbn [sb_event]. destruct (Hg l Hl) as (it & s' & E' & Hr). rewrite E in E'. injection E' as ->. by apply sb_write_top.
Qed.
(** [tr'] follows [tr], is fine, and keeps the shared items *)
Definition keeps (tr tr' : trace) : Prop :=
  sb_ok tr' ∧ ∀ l k s, sb_at tr l = Some s → (SharedRO, k) ∈ s → ∃ s', sb_at tr' l = Some s' ∧ (SharedRO, k) ∈ s'.
Lemma keeps_refl tr : sb_ok tr → keeps tr tr.
Proof. intros Hk. split; [done|]. eauto. Qed.
Lemma keeps_trans t1 t2 t3 : keeps t1 t2 → keeps t2 t3 → keeps t1 t3.
Proof. intros [_ H1] [H2 H3]. split; [done|]. intros l k s E Hs. destruct (H1 _ _ _ E Hs) as (s' & E' & Hs'). eauto. Qed.
Lemma keeps_eq tr tr' : sb_ok tr → (∀ l, sb_at tr' l = sb_at tr l) → keeps tr tr'.
Proof. intros Hk He. split; [intros l; rewrite He; apply Hk|]. intros l k s E Hs. rewrite He. eauto. Qed.
(** A read or a shared reborrow through a pointer with an item everywhere *)
Lemma sb_shr_step tr p g :
  sb_ok tr → (∀ l s, covers g l → sb_at tr l = Some s → is_Some (sb_read p s)) →
  keeps tr (tr ++ [Reborrow KShr p g]) ∧ ∀ l, covers g l → ∃ s, sb_at (tr ++ [Reborrow KShr p g]) l = Some ((SharedRO, (KShr, length tr) :: p) :: s).
Proof.
  intros Hk Hp.
  assert (Hstep : ∀ l s, sb_at tr l = Some s → ∃ s', sb_at (tr ++ [Reborrow KShr p g]) l = Some s' ∧ (∀ k, (SharedRO, k) ∈ s → (SharedRO, k) ∈ s')
    ∧ (covers g l → ∃ s0, s' = (SharedRO, (KShr, length tr) :: p) :: s0)).
  { intros l s E. rewrite sb_at_snoc, E. cbn [mbind option_bind target]. destruct (decide (covers g l)) as [Hl|]; [|exists s; naive_solver].
    cbn [sb_event]. destruct (Hp l s Hl E) as [s' E']. rewrite E'. cbn [mbind option_bind]. eexists. split; [done|]. split; [|by eauto].
    intros k Hs. right. by eapply sb_read_shared. }
  split; [split|].
  - intros l. destruct (Hk l) as [s E]. destruct (Hstep l s E) as (s' & -> & _). done.
  - intros l k s E Hs. destruct (Hstep l s E) as (s' & -> & Hin & _). eauto.
  - intros l Hl. destruct (Hk l) as [s E]. destruct (Hstep l s E) as (s' & -> & _ & Ht). destruct (Ht Hl) as [s0 ->]. eauto.
Qed.
Lemma sb_rd_step tr p g :
  sb_ok tr → (∀ l s, covers g l → sb_at tr l = Some s → is_Some (sb_read p s)) → keeps tr (tr ++ [Read p g]).
Proof.
  intros Hk Hp.
  assert (Hstep : ∀ l s, sb_at tr l = Some s → ∃ s', sb_at (tr ++ [Read p g]) l = Some s' ∧ (∀ k, (SharedRO, k) ∈ s → (SharedRO, k) ∈ s')).
  { intros l s E. rewrite sb_at_snoc, E. cbn [mbind option_bind target]. destruct (decide (covers g l)) as [Hl|]; [|by eauto].
    cbn [sb_event]. destruct (Hp l s Hl E) as [s' E']. rewrite E'. eexists. split; [done|].
    intros k Hs. by eapply sb_read_shared. }
  split.
  - intros l. destruct (Hk l) as [s E]. destruct (Hstep l s E) as (s' & -> & _). done.
  - intros l k s E Hs. destruct (Hstep l s E) as (s' & -> & Hin). eauto.
Qed.
Lemma sb_root_shr tr g : sb_ok tr → keeps tr (tr ++ [Reborrow KShr [] g]) ∧ ∀ l, covers g l → ∃ s, sb_at (tr ++ [Reborrow KShr [] g]) l = Some ((SharedRO, [(KShr, length tr)]) :: s).
Proof. intros Hk. apply sb_shr_step; [done|]. intros l s _ E. apply bottom_read_root. by eapply bottom_at. Qed.

Lemma walk_sb n w : walk n w → ∀ tr, length tr = n → sb_ok tr → keeps tr (tr ++ w).
Proof.
  induction 1 as [n|n w Hw IH|n w Hw IH|n b i w Hw IH]; intros tr Hn Hk.
  - rewrite app_nil_r. by apply keeps_refl.
  - rewrite cons_middle, app_assoc.
    assert (H1 : keeps tr (tr ++ [Read [] Hdr])). { apply sb_rd_step; [done|]. intros l s _ E. apply bottom_read_root. by eapply bottom_at. }
    eapply keeps_trans; [exact H1|]. apply IH; [rewrite app_length; cbn; lia|]. apply H1.
  - rewrite cons_middle, app_assoc. destruct (sb_root_shr tr Whole Hk) as [H1 _].
    eapply keeps_trans; [exact H1|]. apply IH; [rewrite app_length; cbn; lia|]. apply H1.
  - rewrite cons_middle, app_assoc. destruct (sb_root_shr tr Whole Hk) as [H1 H2]. set (t1 := tr ++ [_]) in *.
    rewrite cons_middle, app_assoc.
    assert (H3 : keeps t1 (t1 ++ [Read [(KShr, n)] (RegsOf b i)])).
    { apply keeps_eq; [apply H1|]. apply sb_read_step. intros l _. destruct (H2 l I) as [s E]. exists (SharedRO, [(KShr, n)]), s. subst n. split; [done|]. split; done. }
    eapply keeps_trans; [exact H1|]. eapply keeps_trans; [exact H3|]. apply IH; [unfold t1; rewrite !app_length; cbn; lia|]. apply H3.
Qed.

(** The references of one item *)
Definition val_live (tr : trace) (v : ptr * region) : Prop :=
  ∀ l, covers v.2 l → ∃ s, sb_at tr l = Some ((Unique, v.1) :: s).
Definition key_live (tr : trace) (k : option (ptr * region)) : Prop :=
  match k with None => True | Some (p, g) => ∀ l, covers g l → ∃ s, sb_at tr l = Some s ∧ (SharedRO, p) ∈ s end.
Lemma keeps_key t1 t2 k : keeps t1 t2 → key_live t1 k → key_live t2 k.
Proof.
  intros [_ Hk] Hl. destruct k as [[p g]|]; [|done]. intros l Hg. destruct (Hl l Hg) as (s & E & Hs). by eapply Hk.
Qed.

Definition value_stack (n : nat) : stack := [(Unique, p_val n); (Unique, p_node n); (SharedRW, p_raw n); (Unique, p_pool n); (Unique, [])].
Lemma value_evs_sb tr b g i :
  sb_ok tr → (∀ l, covers g l → covers (Slot b i) l) →
  let tr' := tr ++ value_evs (length tr) b g i in
  sb_ok tr' ∧ (∀ l, covers g l → sb_at tr' l = Some (value_stack (length tr))) ∧ (∀ l, ¬ covers (Pool b) l → sb_at tr' l = sb_at tr l).
Proof.
  intros Hk Hg. cbn zeta. set (n := length tr).
  assert (Hall : ∀ l, is_Some (sb_at (tr ++ value_evs n b g i) l) ∧ (covers g l → sb_at (tr ++ value_evs n b g i) l = Some (value_stack n)) ∧
    (¬ covers (Pool b) l → sb_at (tr ++ value_evs n b g i) l = sb_at tr l)).
  { intros l. destruct (sb_ok_at tr l Hk) as (s & E & Hb). rewrite sb_at_app, E. cbn [mbind option_bind]. unfold value_evs. cbn [sb_run target].
    assert (Hsp : covers (Slot b i) l → covers (Pool b) l). { cbn. by intros [-> | [-> | ->]]. }
    destruct (decide (covers (Pool b) l)) as [H1|H1].
    - cbn [sb_event]. rewrite (bottom_write_root s Hb). cbn [mbind option_bind sb_raw]. rewrite decide_True by (by split; [|left]). cbn [mbind option_bind].
      destruct (decide (covers (Slot b i) l)) as [H2|H2].
      + cbn [sb_event]. rewrite sb_write_top by (by split; [|right]). cbn [mbind option_bind].
        destruct (decide (covers g l)) as [H3|H3].
        * cbn [sb_event]. rewrite sb_write_top by (by split; [|left]). cbn [mbind option_bind]. done.
        * cbn [mbind option_bind]. done.
      + cbn [mbind option_bind]. rewrite decide_False by naive_solver. cbn [mbind option_bind]. naive_solver.
    - cbn [mbind option_bind]. rewrite decide_False by naive_solver. cbn [mbind option_bind]. rewrite decide_False by naive_solver.
      cbn [mbind option_bind]. naive_solver. }
  split; [intros l; apply Hall|]. split; intros l; apply Hall.
Qed.
(** After the item is made, its references are usable; with Critbit the keys of the earlier items still are *)
Lemma yield_sb fl tr nd i :
  sb_ok tr → let tr' := tr ++ yield_evs fl (length tr) nd i in let q := yield_refs fl (length tr) nd i in
  sb_ok tr' ∧ val_live tr' (rf_val q) ∧ key_live tr' (rf_key q) ∧ (fl = FlLeaf → ∀ n' k, key_live tr (Some (k, KeyOf false n')) → key_live tr' (Some (k, KeyOf false n'))).
Proof.
  intros Hk. cbn zeta. set (n := length tr). destruct fl; cbn [yield_evs yield_refs rf_val rf_key].
  - destruct (value_evs_sb tr false (ValOf false i) i Hk) as (H1 & H2 & _). { cbn. naive_solver. }
    split; [done|]. split; [|done]. intros l Hl. cbn [fst snd] in *. rewrite H2 by done. by eexists.
  - destruct (value_evs_sb tr false (Entry false i) i Hk) as (H1 & H2 & _). { cbn. naive_solver. }
    fold n in H1, H2. set (t1 := tr ++ value_evs n false (Entry false i) i) in *.
    assert (Hlen : length t1 = 4 + n). { unfold t1. rewrite app_length. cbn. fold n. lia. }
    rewrite app_assoc. fold t1. rewrite app_two.
    destruct (sb_shr_step t1 (p_val n) (KeyOf false i) H1) as [H3 H4].
    { intros l s Hl E. cbn in Hl. subst l. rewrite H2 in E by (cbn; by left). injection E as <-. unfold value_stack. by rewrite sb_read_top by done. }
    set (t2 := t1 ++ [_]) in *.
    assert (H2' : sb_at t2 (LVal false i) = Some (value_stack n)).
    { unfold t2. rewrite sb_at_snoc, H2 by (cbn; by right). cbn [mbind option_bind target]. by rewrite decide_False. }
    assert (H5 : ∀ l, sb_at (t2 ++ [Reborrow KMut (p_val n) (ValOf false i)]) l =
      if decide (l = LVal false i) then Some ((Unique, (KMut, 5 + n) :: p_val n) :: value_stack n) else sb_at t2 l).
    { intros l. rewrite sb_at_snoc. destruct (decide (l = LVal false i)) as [-> |Hl].
      - rewrite H2'. cbn [mbind option_bind target]. rewrite decide_True by done. cbn [sb_event]. unfold value_stack. rewrite sb_write_top by (by split; [|left]).
        cbn [mbind option_bind]. do 3 f_equal. unfold t2. rewrite app_length. cbn [length]. do 2 f_equal. lia.
      - destruct (sb_at t2 l) as [s|]; [|done]. cbn [mbind option_bind target]. by rewrite decide_False. }
    split; [|split; [|split; [|done]]].
    + intros l. rewrite H5. destruct (decide _); [done|]. apply H3.
    + intros l Hl. cbn [snd covers] in Hl. subst l. rewrite H5, decide_True by done. cbn [fst]. by eexists.
    + intros l Hl. cbn [covers] in Hl. subst l. rewrite H5, decide_False by done. destruct (H4 (LKey false i) eq_refl) as [s E]. rewrite E. eexists. split; [done|].
      rewrite Hlen. left.
  - destruct (sb_root_shr tr (Pool false) Hk) as [H1 H2]. set (t1 := tr ++ [_]) in *.
    assert (Hl1 : length t1 = S n). { unfold t1. rewrite app_length. cbn. unfold n. lia. }
    destruct (sb_shr_step t1 [(KShr, n)] (KeyOf false nd)) as [H3 H4]; [apply H1| |].
    { intros l s Hl E. cbn in Hl. subst l. destruct (H2 (LKey false nd) eq_refl) as [s' E']. rewrite E in E'. injection E' as ->. by rewrite sb_read_top by done. }
    set (t2 := t1 ++ [_]) in *. assert (Hl2 : length t2 = S (S n)). { unfold t2. rewrite app_length. cbn. lia. }
    destruct (value_evs_sb t2 true (ValOf true i) i) as (H5 & H6 & H7). { apply H3. } { cbn. naive_solver. }
    rewrite Hl2 in *. rewrite app_assoc, app_two. fold t1. fold t2.
    split; [done|]. split; [|split].
    + intros l Hl. cbn [snd covers] in Hl. subst l. rewrite H6 by done. cbn [fst]. by eexists.
    + intros l Hl. cbn [covers] in Hl. subst l. rewrite H7 by (by cbn). destruct (H4 (LKey false nd) eq_refl) as [s E]. rewrite E. eexists. split; [done|].
      rewrite Hl1. left.
    + intros _ n' k Hkl l Hl. cbn [covers] in Hl. subst l. rewrite H7 by (by cbn).
      refine (keeps_key t1 t2 (Some (k, KeyOf false n')) H3 _ _ _); [|done]. refine (keeps_key tr t1 (Some (k, KeyOf false n')) H1 _). exact Hkl.
Qed.

(** ** Programs *)
Section program.
  Context {S0 R K V : Type} (fl : flavour) (next next_back : M (S0 * trace) (option (R * refs))) (base base_back : M S0 (option R)).
  Context (index : R → N) (key : R → S0 → res K) (use : R → (V → V) → M S0 V).
  Hypothesis Hn : contract fl index next base.
  Hypothesis Hb : contract fl index next_back base_back.
  Notation run := (traced (K:=K) next next_back index key use).
  Notation plain := (held (K:=K) base base_back index key use).

  Lemma call_ok e : contract fl index (match e with Fwd => next | Bwd => next_back end) (match e with Fwd => base | Bwd => base_back end).
  Proof using Hn Hb. by destruct e. Qed.

  (** *** Without the events it is the program of HeldModel.v *)
  Lemma run_erase script : ∀ hs s (tr : trace), ∃ ext,
    run script hs (s, tr) = match plain script (option_map fst <$> hs) s with Ret a s' => Ret a (s', tr ++ ext) | Fail e s' => Fail e (s', tr ++ ext) end.
  Proof using Hn Hb.
    induction script as [|[e|j|j f] script IH]; intros hs s tr; cbn [traced held].
    - exists []. out. by rewrite app_nil_r.
    - destruct (call_ok e s tr) as (w & _ & E). out. destruct (match e with Fwd => base | Bwd => base_back end s) as [[r|] s'|er s'].
      + destruct E as [nd E]. rewrite E. set (q := yield_refs _ _ _ _). set (t1 := _ ++ yield_evs _ _ _ _).
        destruct (IH (hs ++ [Some (r, q)]) s' t1) as [ext E2]. rewrite E2, fmap_app. clear E2. cbn [fmap list_fmap option_map fst].
        exists (w ++ yield_evs fl (length (tr ++ w)) nd (index r) ++ ext). unfold t1. destruct (plain _ _ _) as [a s2|er s2]; cbn; by rewrite <- !app_assoc.
      + rewrite E. destruct (IH (hs ++ [None]) s' (tr ++ w)) as [ext E2]. rewrite E2, fmap_app. clear E2. cbn [fmap list_fmap option_map fst].
        exists (w ++ ext). destruct (plain _ _ _) as [a s2|er s2]; cbn; by rewrite <- !app_assoc.
      + rewrite E. by exists w.
    - rewrite list_lookup_fmap. destruct (hs !! j) as [[[r q]|]|]; cbn [option_map fmap option_fmap fst].
      + out. set (t1 := tr ++ match rf_key q with Some (p, g) => [Read p g] | None => [] end).
        assert (Et : (match rf_key q with Some (p, g) => emit (Read p g) | None => λ s1, Ret () s1 end) (s, tr) = Ret () (s, t1)).
        { unfold t1. destruct (rf_key q) as [[p g]|]; [done|]. by rewrite app_nil_r. }
        rewrite Et. cbn [fst snd]. destruct (key r s) as [k|er].
        2:{ unfold t1. by eexists. }
        destruct (IH hs s t1) as [ext E2]. rewrite E2. clear E2. unfold t1. eexists (_ ++ ext). destruct (plain _ _ _); by rewrite app_assoc.
      + out. destruct (IH hs s tr) as [ext E2]. rewrite E2. clear E2. exists ext. by destruct (plain _ _ _).
      + out. destruct (IH hs s tr) as [ext E2]. rewrite E2. clear E2. exists ext. by destruct (plain _ _ _).
    - rewrite list_lookup_fmap. destruct (hs !! j) as [[[r q]|]|]; cbn [option_map fmap option_fmap fst].
      + out. unfold emit, modify. cbn [fst snd]. rewrite <- app_two. destruct (use r f s) as [v s'|er s']; [|by eexists].
        destruct (IH hs s' (tr ++ [Read (rf_val q).1 (rf_val q).2; Write (rf_val q).1 (rf_val q).2])) as [ext E2]. rewrite E2. clear E2.
        eexists (_ ++ ext). destruct (plain _ _ _); by rewrite app_assoc.
      + out. destruct (IH hs s tr) as [ext E2]. rewrite E2. clear E2. exists ext. by destruct (plain _ _ _).
      + out. destruct (IH hs s tr) as [ext E2]. rewrite E2. clear E2. exists ext. by destruct (plain _ _ _).
  Qed.

  (** *** Stacked Borrows allows using the last item *)
  Notation keysok := (match fl with FlEntry => false | _ => true end).
  Definition last_live (tr : trace) (hs : list (option (R * refs))) : Prop :=
    match last hs with Some (Some (r, q)) => val_live tr (rf_val q) ∧ key_live tr (rf_key q) | _ => True end.
  Definition keys_live (tr : trace) (hs : list (option (R * refs))) : Prop :=
    ∀ r q, Some (r, q) ∈ hs → ∃ n' k, rf_key q = Some (k, KeyOf false n') ∧ key_live tr (rf_key q).
  Lemma last_at {A} (l : list A) j x : l !! j = Some x → S j = length l → last l = Some x.
  Proof. intros Hl Hj. rewrite last_lookup. by rewrite <- Hj. Qed.
  Definition shaped (o : option (R * refs)) : Prop :=
    match o with
    | None => True
    | Some (r, q) => ∃ b i v, rf_val q = (v, ValOf b i) ∧ match rf_key q with None => True | Some (_, g) => fl ≠ FlValue ∧ ∃ n', g = KeyOf false n' end
    end.
  Lemma shaped_yield n nd i r : shaped (Some (r, yield_refs fl n nd i)).
  Proof. unfold shaped. destruct fl; cbn; eexists _, _, _; split; try done; (split; [done|by eexists]). Qed.
  Lemma run_streaming script : ∀ hs s (tr : trace),
    Forall shaped hs → sb_ok tr → last_live tr hs → (fl = FlLeaf → keys_live tr hs) → streaming keysok (length hs) script → sb_ok (trace_of (run script hs (s, tr))).
  Proof using Hn Hb.
    induction script as [|[e|j|j f] script IH]; intros hs s tr Hsh Hk Hlast Hkeys Hst; cbn [traced streaming] in *.
    - done.
    - destruct (call_ok e s tr) as (w & Hw & E). out. pose proof (walk_sb _ _ Hw tr eq_refl Hk) as Hkw.
      destruct (match e with Fwd => base | Bwd => base_back end s) as [[r|] s'|er s'].
      + destruct E as [nd E]. rewrite E. destruct (yield_sb fl (tr ++ w) nd (index r)) as (H1 & H2 & H3 & H4); [apply Hkw|].
        set (q := yield_refs _ _ _ _) in *. set (t1 := _ ++ yield_evs _ _ _ _) in *.
        specialize (IH (hs ++ [Some (r, q)]) s' t1). rewrite app_length, Nat.add_1_r in IH.
        destruct (run script (hs ++ [Some (r, q)]) (s', t1)); apply IH; try done; try (unfold last_live; by rewrite last_snoc); try (apply Forall_app; split; [done|]; constructor; [|constructor]; apply shaped_yield).
        all: intros Hfl r' q'; rewrite elem_of_app, elem_of_list_singleton; intros [Hin|[= -> ->]];
          [destruct (Hkeys Hfl r' q' Hin) as (n' & k & Ek & Hlive); exists n', k; split; [done|]; rewrite Ek in *; apply (H4 Hfl); by eapply keeps_key
          |unfold q in *; rewrite Hfl in *; cbn [yield_refs rf_key] in *; by eexists _, _].
      + rewrite E. specialize (IH (hs ++ [None]) s' (tr ++ w)). rewrite app_length, Nat.add_1_r in IH.
        destruct (run script (hs ++ [None]) (s', tr ++ w)); apply IH; try done; try apply Hkw; try (unfold last_live; by rewrite last_snoc); try (apply Forall_app; split; [done|]; by repeat constructor).
        all: intros Hfl r' q'; rewrite elem_of_app, elem_of_list_singleton; intros [Hin|[=]];
          destruct (Hkeys Hfl r' q' Hin) as (n' & k & Ek & Hlive); exists n', k; split; [done|]; by eapply keeps_key.
      + rewrite E. apply Hkw.
    - destruct Hst as [Hj Hst]. destruct (hs !! j) as [[[r q]|]|] eqn:Ej.
      2,3: out; specialize (IH hs s tr Hsh Hk Hlast Hkeys Hst); by destruct (run script hs (s, tr)).
      out. set (t1 := tr ++ match rf_key q with Some (p, g) => [Read p g] | None => [] end).
      assert (Et : (match rf_key q with Some (p, g) => emit (Read p g) | None => λ s1, Ret () s1 end) (s, tr) = Ret () (s, t1)).
      { unfold t1. destruct (rf_key q) as [[p g]|]; [done|]. by rewrite app_nil_r. }
      rewrite Et. cbn [fst snd].
      assert (Hkey : ∀ r q, hs !! j = Some (Some (r, q)) → keysok = true → rf_key q = None ∨ fl = FlLeaf).
      { intros r0 q0 H0 Hf. rewrite Forall_forall in Hsh. destruct (Hsh _ (elem_of_list_lookup_2 _ _ _ H0)) as (_ & _ & _ & _ & Hsk).
        destruct (rf_key q0) as [[]|]; [|by left]. right. destruct Hsk as [Hnv _]. by destruct fl. }
      assert (Hlive : key_live tr (rf_key q)).
      { destruct Hj as [Hj|Hj].
        - destruct (Hkey r q Ej Hj) as [->|Hfl]; [done|]. destruct (Hkeys Hfl r q) as (? & ? & _ & Hl); [by eapply elem_of_list_lookup_2|done].
        - unfold last_live in Hlast. rewrite (last_at _ _ _ Ej Hj) in Hlast. apply Hlast. }
      assert (Hk1 : keeps tr t1).
      { unfold t1. destruct (rf_key q) as [[p g]|]; [|rewrite app_nil_r; by apply keeps_refl]. apply sb_rd_step; [done|].
        intros l s1 Hl Es. destruct (Hlive l Hl) as (s2 & Es2 & Hin). rewrite Es in Es2. injection Es2 as <-. by apply sb_read_shared_ok. }
      destruct (key r s) as [k|er]; [|apply Hk1].
      assert (Hlast' : last_live t1 hs).
      { unfold last_live in *. destruct (last hs) as [[[r' q']|]|] eqn:El; try done. destruct Hlast as [Hv Hkl]. split; [|by eapply keeps_key].
        assert (Hin : Some (r', q') ∈ hs) by (by eapply last_Some_elem_of). rewrite Forall_forall in Hsh. destruct (Hsh _ Hin) as (b & i & v & Ev & _). rewrite Ev in *.
        destruct (Hsh _ (elem_of_list_lookup_2 _ _ _ Ej)) as (_ & _ & _ & _ & Eq).
        intros l Hl. unfold t1. destruct (rf_key q) as [[p g]|]; [|rewrite app_nil_r; by apply Hv]. destruct Eq as [_ [n' ->]].
        destruct (Hv l Hl) as [s1 Es]. rewrite sb_at_snoc, Es. cbn [mbind option_bind target]. cbn [snd covers] in Hl. subst l. rewrite decide_False by done. by eexists. }
      specialize (IH hs s t1). destruct (run script hs (s, t1)); apply IH; try done; try apply Hk1.
      all: intros Hfl r' q' Hin; destruct (Hkeys Hfl r' q' Hin) as (n' & k' & Ek & Hlv); exists n', k'; split; [done|]; by eapply keeps_key.
    - destruct Hst as [Hj Hst]. destruct (hs !! j) as [[[r q]|]|] eqn:Ej.
      2,3: out; specialize (IH hs s tr Hsh Hk Hlast Hkeys Hst); by destruct (run script hs (s, tr)).
      out. unfold emit, modify. cbn [fst snd].
      assert (Hl : val_live tr (rf_val q)). { unfold last_live in Hlast. rewrite (last_at _ _ _ Ej Hj) in Hlast. apply Hlast. }
      assert (Heq : ∀ l, sb_at ((tr ++ [Read (rf_val q).1 (rf_val q).2]) ++ [Write (rf_val q).1 (rf_val q).2]) l = sb_at tr l).
      { assert (H1 : ∀ l, sb_at (tr ++ [Read (rf_val q).1 (rf_val q).2]) l = sb_at tr l).
        { apply sb_read_step. intros l Hg. destruct (Hl l Hg) as [s1 E1]. eexists _, _. split; [done|]. by split. }
        intros l. rewrite sb_write_step; [done|]. intros l' Hg. rewrite H1. destruct (Hl l' Hg) as [s1 E1]. eexists _, _. split; [done|]. split; [done|by left]. }
      set (t1 := (tr ++ _) ++ _) in *.
      assert (Hk1 : keeps tr t1) by (by apply keeps_eq).
      destruct (use r f s) as [v s'|er s']; [|apply Hk1].
      assert (Hlast' : last_live t1 hs).
      { unfold last_live in *. destruct (last hs) as [[[r' q']|]|] eqn:El; try done. destruct Hlast as [Hv Hkl]. split; [|by eapply keeps_key].
        intros l Hg. rewrite Heq. by apply Hv. }
      specialize (IH hs s' t1). destruct (run script hs (s', t1)); apply IH; try done; try apply Hk1.
      all: intros Hfl r' q' Hin; destruct (Hkeys Hfl r' q' Hin) as (n' & k' & Ek & Hlv); exists n', k'; split; [done|]; by eapply keeps_key.
  Qed.
End program.
