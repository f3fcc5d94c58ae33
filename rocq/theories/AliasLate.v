(** * Programs that keep references: uses that come too late *)
From Verif Require Import AliasModel AliasUse AliasProof AliasProg AliasRun.
Local Open Scope nat_scope.

Lemma look_0 {A} (a b : A) l : (a :: l) !! 0 = Some b → a = b.
Proof. by injection 1. Qed.
Lemma look_S {A} (a : A) l n x : (a :: l) !! S n = x → l !! n = x.
Proof. done. Qed.

Section program.
  Context {S0 R K V : Type} (fl : flavour) (next next_back : M (S0 * trace) (option (R * refs))) (base base_back : M S0 (option R)).
  Context (index : R → N) (key : R → S0 → res K) (use : R → (V → V) → M S0 V).
  Hypothesis Hn : contract fl index next base.
  Hypothesis Hb : contract fl index next_back base_back.
  Notation run := (traced (K:=K) next next_back index key use).

  (** The references a program keeps were made by events of the trace *)
  Definition born (tr : trace) (o : option (R * refs)) : Prop :=
    match o with
    | None => True
    | Some (r, q) =>
        (∃ m p, rf_val q = ((KMut, m) :: p, ValOf (fl_pool fl) (index r)) ∧ tr !! m = Some (Reborrow KMut p (ValOf (fl_pool fl) (index r)))) ∧
        match rf_key q with
        | None => fl = FlValue
        | Some (k, g) => ∃ m p b i', k = (KShr, m) :: p ∧ g = KeyOf b i' ∧ (fl = FlEntry → b = false) ∧ tr !! m = Some (Reborrow KShr p g)
        end
    end.
  Lemma born_app tr ext o : born tr o → born (tr ++ ext) o.
  Proof.
    destruct o as [[r q]|]; [|done]. intros [(m & p & H1 & H2) H3]. split.
    - exists m, p. split; [done|]. by apply lookup_app_l_Some.
    - destruct (rf_key q) as [[k g]|]; [|done]. destruct H3 as (m' & p' & b & i' & ? & ? & ? & H5). exists m', p', b, i'. split_and!; try done. by apply lookup_app_l_Some.
  Qed.
  Lemma born_yield tr nd r : born (tr ++ yield_evs fl (length tr) nd (index r)) (Some (r, yield_refs fl (length tr) nd (index r))).
  Proof.
    split.
    - destruct fl; cbn [yield_refs rf_val fl_pool yield_evs]; eexists _, _; (split; [reflexivity|]); rewrite lookup_app_r by lia.
      + by replace (S (S (S (length tr))) - length tr) with 3 by lia.
      + by replace (5 + length tr - length tr) with 5 by lia.
      + by replace (S (S (S (S (S (length tr))))) - length tr) with 5 by lia.
    - destruct fl; cbn [yield_refs rf_key yield_evs]; [done|..]; eexists _, _, _, _; (split; [reflexivity|]; split; [reflexivity|]; split; [done|]); rewrite lookup_app_r by lia.
      + by replace (4 + length tr - length tr) with 4 by lia.
      + by replace (S (length tr) - length tr) with 1 by lia.
  Qed.
  Lemma yield_splits n nd i : ∃ y1 y2, yield_evs fl n nd i = y1 ++ Reborrow KMut [] (Pool (fl_pool fl)) :: y2.
  Proof. destruct fl; [by eexists [], _|by eexists [], _|]. by eexists [_; _], _. Qed.

  (** One step *)
  Lemma run_next e script hs s tr ans st' : run (HNext e :: script) hs (s, tr) = Ret ans st' →
    ∃ (o : option (R * refs)) (s1 : S0) (ext : trace) ans', run script (hs ++ [o]) (s1, tr ++ ext) = Ret ans' st' ∧ ans = HGot (index ∘ fst <$> o) :: ans' ∧ born (tr ++ ext) o ∧
      (is_Some o → ∃ y1 y2, ext = y1 ++ Reborrow KMut [] (Pool (fl_pool fl)) :: y2).
  Proof using Hn Hb.
    cbn [traced]. out. intros E0. destruct (call_ok fl next next_back base base_back index Hn Hb e s tr) as (w & Hw & E).
    destruct (match e with Fwd => base | Bwd => base_back end s) as [[r|] s'|er s'].
    - destruct E as [nd E]. rewrite E in E0. set (q := yield_refs _ _ _ _) in *. rewrite <- app_assoc in E0.
      exists (Some (r, q)), s', (w ++ yield_evs fl (length (tr ++ w)) nd (index r)). destruct (run _ _ _) as [ans' st|]; [|done]. injection E0 as <- <-.
      exists ans'. split; [done|]. split; [done|]. split; [rewrite app_assoc; apply born_yield|]. intros _. destruct (yield_splits (length (tr ++ w)) nd (index r)) as (y1 & y2 & ->).
      exists (w ++ y1), y2. by rewrite <- app_assoc.
    - rewrite E in E0. exists None, s', w. destruct (run _ _ _) as [ans' st|]; [|done]. injection E0 as <- <-. exists ans'. by split_and!; try by intros [??].
    - by rewrite E in E0.
  Qed.
  Lemma run_key j script hs s tr ans st' : run (HKey j :: script) hs (s, tr) = Ret ans st' →
    ∃ (s1 : S0) (ext : trace) k ans', run script hs (s1, tr ++ ext) = Ret ans' st' ∧ ans = HKeyIs k :: ans' ∧
      (is_Some k → ∃ r q, hs !! j = Some (Some (r, q)) ∧ ext = match rf_key q with Some (p, g) => [Read p g] | None => [] end).
  Proof.
    cbn [traced]. out. intros E0. destruct (hs !! j) as [[[r q]|]|].
    - assert (Et : (match rf_key q with Some (p, g) => emit (Read p g) | None => λ s1, Ret () s1 end) (s, tr) =
        Ret () (s, tr ++ match rf_key q with Some (p, g) => [Read p g] | None => [] end)).
      { destruct (rf_key q) as [[p g]|]; [done|]. by rewrite app_nil_r. }
      rewrite Et in E0. cbn [fst snd] in E0. destruct (key r s) as [k|]; [|done]. exists s, (match rf_key q with Some (p, g) => [Read p g] | None => [] end), (Some k). destruct (run _ _ _) as [ans' st|]; [|done]. injection E0 as <- <-.
      exists ans'. split_and!; try done. intros _. by exists r, q.
    - exists s, [], None. rewrite app_nil_r. destruct (run _ _ _) as [ans' st|]; [|done]. injection E0 as <- <-. exists ans'. by split_and!; try by intros [??].
    - exists s, [], None. rewrite app_nil_r. destruct (run _ _ _) as [ans' st|]; [|done]. injection E0 as <- <-. exists ans'. by split_and!; try by intros [??].
  Qed.
  Lemma run_use j f script hs s tr ans st' : run (HUse j f :: script) hs (s, tr) = Ret ans st' →
    ∃ (s1 : S0) (ext : trace) v ans', run script hs (s1, tr ++ ext) = Ret ans' st' ∧ ans = HFound v :: ans' ∧
      (is_Some v → ∃ r q, hs !! j = Some (Some (r, q)) ∧ ext = [Read (rf_val q).1 (rf_val q).2; Write (rf_val q).1 (rf_val q).2]) ∧
      (∀ r q, hs !! j = Some (Some (r, q)) → is_Some v) ∧ (v = None → ext = []).
  Proof.
    cbn [traced]. out. intros E0. destruct (hs !! j) as [[[r q]|]|] eqn:Ej.
    - unfold emit, modify in E0. cbn [fst snd] in E0. rewrite <- app_two in E0. destruct (use r f s) as [v s'|]; [|done].
      exists s', [Read (rf_val q).1 (rf_val q).2; Write (rf_val q).1 (rf_val q).2], (Some v). destruct (run _ _ _) as [ans' st|]; [|done]. injection E0 as <- <-. exists ans'. split_and!; try done. intros _. by exists r, q.
    - exists s, [], None. rewrite app_nil_r. destruct (run _ _ _) as [ans' st|]; [|done]. injection E0 as <- <-. exists ans'. by split_and!; try by intros [??].
    - exists s, [], None. rewrite app_nil_r. destruct (run _ _ _) as [ans' st|]; [|done]. injection E0 as <- <-. exists ans'. by split_and!; try by intros [??].
  Qed.
  (** Several steps *)
  Lemma run_split s1 : ∀ s2 hs s tr ans st', run (s1 ++ s2) hs (s, tr) = Ret ans st' → Forall (born tr) hs →
    ∃ hs1 ans1 ans2 s' ext, length hs1 = calls s1 ∧ length ans1 = length s1 ∧ ans = ans1 ++ ans2 ∧ run s2 (hs ++ hs1) (s', tr ++ ext) = Ret ans2 st' ∧ Forall (born (tr ++ ext)) (hs ++ hs1).
  Proof using Hn Hb.
    induction s1 as [|[e|j|j f] s1 IH]; intros s2 hs s tr ans st' E Hf; cbn [app] in E.
    - exists [], [], ans, s, []. by rewrite !app_nil_r.
    - apply run_next in E as (o & s' & ext & ans' & E & -> & Ho & _). destruct (IH _ _ _ _ _ _ E) as (hs1 & a1 & a2 & s'' & ext2 & H1 & H2 & H3 & H4 & H5).
      { apply Forall_app. split; [|by constructor]. eapply Forall_impl; [done|]. intros. by apply born_app. }
      exists (o :: hs1), (HGot (index ∘ fst <$> o) :: a1), a2, s'', (ext ++ ext2). rewrite !app_assoc. rewrite <- (app_assoc hs [o]) in H4, H5. cbn [app] in *. rewrite <- app_assoc in H4, H5. rewrite <- app_assoc. cbn [calls length]. split_and!; try done; by rewrite ?H1, ?H2, ?H3.
    - apply run_key in E as (s' & ext & k & ans' & E & -> & _). destruct (IH _ _ _ _ _ _ E) as (hs1 & a1 & a2 & s'' & ext2 & H1 & H2 & H3 & H4 & H5).
      { eapply Forall_impl; [done|]. intros. by apply born_app. }
      exists hs1, (HKeyIs k :: a1), a2, s'', (ext ++ ext2). rewrite app_assoc. cbn [length calls]. split_and!; try done; by rewrite ?H2, ?H3.
    - apply run_use in E as (s' & ext & v & ans' & E & -> & _). destruct (IH _ _ _ _ _ _ E) as (hs1 & a1 & a2 & s'' & ext2 & H1 & H2 & H3 & H4 & H5).
      { eapply Forall_impl; [done|]. intros. by apply born_app. }
      exists hs1, (HFound v :: a1), a2, s'', (ext ++ ext2). rewrite app_assoc. cbn [length calls]. split_and!; try done; by rewrite ?H2, ?H3.
  Qed.
  Lemma run_grows script : ∀ hs s tr ans st', run script hs (s, tr) = Ret ans st' → ∃ ext, st'.2 = tr ++ ext.
  Proof using Hn Hb.
    intros hs s tr ans st' E. destruct (run_erase fl next next_back base base_back index key use Hn Hb script hs s tr) as [ext E2].
    rewrite E in E2. exists ext. destruct (held _ _ _ _ _ _ _ _); [|done]. by injection E2 as -> ->.
  Qed.

  (** *** Stacked Borrows forbids using an item after a later one was made *)
  Lemma late_use s1 e s2 j f s3 s ans st' i x :
    run (s1 ++ HNext e :: s2 ++ HUse j f :: s3) [] (s, []) = Ret ans st' → j < calls s1 →
    ans !! length s1 = Some (HGot (Some i)) → ans !! (length s1 + S (length s2)) = Some (HFound (Some x)) → ¬ sb_ok st'.2.
  Proof using Hn Hb.
    intros E Hj H1 H2 Hok. apply run_split in E as (hs1 & a1 & a2 & s' & t1 & Hl1 & Hl2 & -> & E & Hf); [|constructor]. cbn [app] in E, Hf.
    rewrite lookup_app_r in H1 by lia. rewrite lookup_app_r in H2 by lia. rewrite Hl2 in *. rewrite Nat.sub_diag in H1. replace (length s1 + S (length s2) - length s1) with (S (length s2)) in H2 by lia.
    apply run_next in E as (o & s'' & t2 & a3 & E & -> & Ho & Hy). apply look_0 in H1. apply look_S in H2. injection H1 as H1. destruct o as [[r0 q0]|]; [|done].
    destruct (Hy ltac:(by eexists)) as (y1 & y2 & ->). clear Hy H1.
    apply run_split in E as (hs2 & a4 & a5 & s3' & t3 & Hl3 & Hl4 & -> & E & Hf2); [|apply Forall_app; split; [eapply Forall_impl; [done|]; intros; by apply born_app|by constructor]].
    rewrite lookup_app_r in H2 by lia. rewrite Hl4, Nat.sub_diag in H2.
    apply run_use in E as (s4 & t4 & v & a6 & E & -> & Hv & _). apply look_0 in H2. injection H2 as ->. destruct (Hv ltac:(by eexists)) as (r & q & Hq & ->).
    rewrite <- app_assoc, lookup_app_l in Hq by lia. rewrite Forall_lookup in Hf. destruct (Hf _ _ Hq) as [(m & p & Ev & Em) _]. rewrite Ev in E.
    apply run_grows in E as [t5 E]. rewrite E in Hok. destruct (Hok (LVal (fl_pool fl) (index r))) as [sk Hsk].
    erewrite (sb_stale _ (t1 ++ y1) (Pool (fl_pool fl)) (y2 ++ t3) (ValOf (fl_pool fl) (index r)) _ KMut m p) in Hsk; [done| | |done|done].
    - cbn [fst snd]. do 4 (rewrite <- ?app_assoc; cbn [app]). reflexivity.
    - rewrite app_length. apply lookup_lt_Some in Em. lia.
  Qed.
  Lemma late_key s1 e s2 j s3 s ans st' i x :
    fl = FlEntry → run (s1 ++ HNext e :: s2 ++ HKey j :: s3) [] (s, []) = Ret ans st' → j < calls s1 →
    ans !! length s1 = Some (HGot (Some i)) → ans !! (length s1 + S (length s2)) = Some (HKeyIs (Some x)) → ¬ sb_ok st'.2.
  Proof using Hn Hb.
    intros Hfl E Hj H1 H2 Hok. apply run_split in E as (hs1 & a1 & a2 & s' & t1 & Hl1 & Hl2 & -> & E & Hf); [|constructor]. cbn [app] in E, Hf.
    rewrite lookup_app_r in H1 by lia. rewrite lookup_app_r in H2 by lia. rewrite Hl2 in *. rewrite Nat.sub_diag in H1. replace (length s1 + S (length s2) - length s1) with (S (length s2)) in H2 by lia.
    apply run_next in E as (o & s'' & t2 & a3 & E & -> & Ho & Hy). apply look_0 in H1. apply look_S in H2. injection H1 as H1. destruct o as [[r0 q0]|]; [|done].
    destruct (Hy ltac:(by eexists)) as (y1 & y2 & ->). clear Hy H1.
    apply run_split in E as (hs2 & a4 & a5 & s3' & t3 & Hl3 & Hl4 & -> & E & Hf2); [|apply Forall_app; split; [eapply Forall_impl; [done|]; intros; by apply born_app|by constructor]].
    rewrite lookup_app_r in H2 by lia. rewrite Hl4, Nat.sub_diag in H2.
    apply run_key in E as (s4 & t4 & v & a6 & E & -> & Hv). apply look_0 in H2. injection H2 as ->. destruct (Hv ltac:(by eexists)) as (r & q & Hq & ->).
    rewrite <- app_assoc, lookup_app_l in Hq by lia. rewrite Forall_lookup in Hf. destruct (Hf _ _ Hq) as [_ Hkey].
    destruct (rf_key q) as [[k g]|]; [|congruence]. destruct Hkey as (m & p & b & i' & -> & -> & Hbf & Em). rewrite (Hbf Hfl) in *.
    apply run_grows in E as [t5 E]. rewrite E in Hok. destruct (Hok (LKey false i')) as [sk Hsk].
    erewrite (sb_stale _ (t1 ++ y1) (Pool (fl_pool fl)) (y2 ++ t3) (KeyOf false i') _ KShr m p) in Hsk; [done| | |by rewrite Hfl|done].
    - do 4 (rewrite <- ?app_assoc; cbn [app]). reflexivity.
    - rewrite app_length. apply lookup_lt_Some in Em. lia.
  Qed.
  (** *** Tree Borrows forbids using a value, then asking the iterator, and using the value again *)
  Lemma late_reuse s0 j f s1 e s2 g s3 s ans st' i x y :
    run (s0 ++ HUse j f :: s1 ++ HNext e :: s2 ++ HUse j g :: s3) [] (s, []) = Ret ans st' →
    ans !! length s0 = Some (HFound (Some x)) → ans !! (length s0 + S (length s1)) = Some (HGot (Some i)) →
    ans !! (length s0 + S (length s1 + S (length s2))) = Some (HFound (Some y)) → ¬ tb_ok st'.2.
  Proof using Hn Hb.
    intros E H0 H1 H2. apply run_split in E as (hs1 & a1 & a2 & s' & t1 & Hl1 & Hl2 & -> & E & Hf); [|constructor]. cbn [app] in E, Hf.
    rewrite lookup_app_r in H0, H1, H2 by lia. rewrite Hl2 in *. rewrite Nat.sub_diag in H0.
    replace (length s0 + S (length s1) - length s0) with (S (length s1)) in H1 by lia.
    replace (length s0 + S (length s1 + S (length s2)) - length s0) with (S (length s1 + S (length s2))) in H2 by lia.
    apply run_use in E as (sa & ta & va & aa & E & -> & Hv & _). apply look_0 in H0. apply look_S in H1, H2. injection H0 as ->. destruct (Hv ltac:(by eexists)) as (r & q & Hq & ->). clear Hv.
    rewrite Forall_lookup in Hf. destruct (Hf _ _ Hq) as [(m & p & Ev & Em) _]. rewrite <- Forall_lookup in Hf. rewrite Ev in E. cbn [fst snd] in E.
    apply run_split in E as (hs2 & a4 & a5 & s3' & t3 & Hl3 & Hl4 & -> & E & Hf2); [|eapply Forall_impl; [done|]; intros; by apply born_app].
    rewrite lookup_app_r in H1, H2 by lia. rewrite Hl4 in *. rewrite Nat.sub_diag in H1. replace (length s1 + S (length s2) - length s1) with (S (length s2)) in H2 by lia.
    apply run_next in E as (o & s'' & t2 & a3 & E & -> & Ho & Hy). apply look_0 in H1. apply look_S in H2. injection H1 as H1. destruct o as [[r0 q0]|]; [|done].
    destruct (Hy ltac:(by eexists)) as (y1 & y2 & ->). clear Hy H1.
    apply run_split in E as (hs5 & a6 & a7 & s5 & t5 & Hl5 & Hl6 & -> & E & Hf5); [|apply Forall_app; split; [eapply Forall_impl; [done|]; intros; by apply born_app|by constructor]].
    rewrite lookup_app_r in H2 by lia. rewrite Hl6, Nat.sub_diag in H2.
    apply run_use in E as (sb & tb & vb & ab & E & -> & Hv & _). apply look_0 in H2. injection H2 as ->. destruct (Hv ltac:(by eexists)) as (r' & q' & Hq' & ->).
    rewrite <- !app_assoc, lookup_app_l in Hq' by (by eapply lookup_lt_Some). rewrite Hq in Hq'. injection Hq' as <- <-. rewrite Ev in E. cbn [fst snd] in E.
    apply run_grows in E as [t6 E]. rewrite E.
    refine (tb_stale _ (t1 ++ [Read ((KMut, m) :: p) (ValOf (fl_pool fl) (index r))]) (t3 ++ y1) (Pool (fl_pool fl))
      (y2 ++ t5 ++ [Read ((KMut, m) :: p) (ValOf (fl_pool fl) (index r))]) t6 (ValOf (fl_pool fl) (index r)) m p (ValOf (fl_pool fl) (index r)) (LVal (fl_pool fl) (index r)) _ _ _ _ _ _); try done.
    - do 4 (rewrite <- ?app_assoc; cbn [app]). reflexivity.
    - rewrite <- !app_assoc. by apply lookup_app_l_Some.
    - rewrite app_length. apply lookup_lt_Some in Em. lia.
  Qed.
End program.
