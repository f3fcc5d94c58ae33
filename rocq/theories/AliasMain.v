(** * The aliasing rules: the containers *)
From Verif Require Import AliasModel AliasUse AliasProof AliasProg AliasRun AliasLate AliasTB.
Local Open Scope nat_scope.

Lemma last_call {V} (s1 : list (hact V)) m : calls s1 = S m → ∃ a e b, s1 = a ++ HNext e :: b ∧ calls a = m.
Proof.
  revert m. induction s1 as [|[e|j|j f] s1 IH]; intros m; cbn [calls]; [done| | |].
  - intros [= E]. destruct m as [|m]; [by exists [], e, s1|]. destruct (IH _ E) as (a & e' & b & -> & Ha). exists (HNext e :: a), e', b. cbn. by rewrite Ha.
  - intros E. destruct (IH _ E) as (a & e' & b & -> & Ha). by exists (HKey j :: a), e', b.
  - intros E. destruct (IH _ E) as (a & e' & b & -> & Ha). by exists (HUse j f :: a), e', b.
Qed.
Lemma streaming_or {V} keys (script : list (hact V)) : ∀ n, streaming keys n script ∨
  (∃ s1 j f s2, script = s1 ++ HUse j f :: s2 ∧ S j ≠ n + calls s1) ∨ (keys = false ∧ ∃ s1 j s2, script = s1 ++ HKey j :: s2 ∧ S j ≠ n + calls s1).
Proof.
  induction script as [|[e|j|j f] script IH]; intros n; cbn [streaming]; [by left| | |].
  - destruct (IH (S n)) as [?|[(s1 & j & f & s2 & -> & Hj)|(? & s1 & j & s2 & -> & Hj)]]; [by left|..]; right.
    + left. exists (HNext e :: s1), j, f, s2. cbn [calls app]. split; [done|lia].
    + right. split; [done|]. exists (HNext e :: s1), j, s2. cbn [calls app]. split; [done|lia].
  - destruct (IH n) as [Hs|[(s1 & j' & f & s2 & -> & Hj)|(? & s1 & j' & s2 & -> & Hj)]].
    + destruct keys; [by left; split; [left|]|]. destruct (decide (S j = n)); [by left; split; [right|]|]. right. right. split; [done|]. exists [], j, script. cbn. split; [done|lia].
    + right. left. by exists (HKey j :: s1), j', f, s2.
    + right. right. split; [done|]. by exists (HKey j :: s1), j', s2.
  - destruct (IH n) as [Hs|[(s1 & j' & f' & s2 & -> & Hj)|(? & s1 & j' & s2 & -> & Hj)]].
    + destruct (decide (S j = n)); [by left|]. right. left. exists [], j, f, script. cbn. split; [done|lia].
    + right. left. by exists (HUse j f :: s1), j', f', s2.
    + right. right. split; [done|]. by exists (HUse j f :: s1), j', s2.
Qed.

Section facts.
  Context {C I R K V : Type} (fl : flavour) (next next_back : M ((C * I) * trace) (option (R * refs))) (base base_back : M (C * I) (option R)).
  Context (index : R → N) (key : R → C * I → res K) (use : R → (V → V) → M (C * I) V).
  Hypothesis Hn : contract fl index next base.
  Hypothesis Hb : contract fl index next_back base_back.
  Notation run := (traced (K:=K) next next_back index key use).
  Notation prog script st := (drop_iter (run script [] (st, []))).
  Notation keysok := (match fl with FlEntry => false | _ => true end).
  Implicit Types (st : C * I).

  Lemma prog_ret script st ans c' tr : prog script st = Ret ans (c', tr) → ∃ it', run script [] (st, []) = Ret ans ((c', it'), tr).
  Proof. intros E. destruct (run _ _ _) as [a [[c it] t]|]; [|done]. injection E as <- <- <-. by exists it. Qed.

  Lemma f_same script st :
    forget (prog script st) = match held (K:=K) base base_back index key use script [] st with Ret a (c, _) => Ret a c | Fail e (c, _) => Fail e c end.
  Proof using Hn Hb.
    destruct (run_erase fl next next_back base base_back index key use Hn Hb script [] st []) as [ext E]. rewrite E. cbn [fmap list_fmap].
    by destruct (held _ _ _ _ _ _ _ _) as [a [c it]|e [c it]].
  Qed.
  Lemma f_streaming script st : streaming keysok 0 script → sb_ok (trace_of (prog script st)).
  Proof using Hn Hb.
    intros Hs. pose proof (run_streaming fl next next_back base base_back index key use Hn Hb script [] st []) as Hr.
    destruct (run script [] (st, [])) as [a [[c it] t]|e [[c it] t]]; cbn in *; apply Hr; try done; try (intros l; by eexists); try (intros _ r q Hq; by apply elem_of_nil in Hq).
  Qed.
  Lemma f_late script st ans c' tr s1 e s2 j f s3 i x :
    prog script st = Ret ans (c', tr) → script = s1 ++ HNext e :: s2 ++ HUse j f :: s3 → j < calls s1 →
    ans !! length s1 = Some (HGot (Some i)) → ans !! (length s1 + S (length s2)) = Some (HFound (Some x)) → ¬ sb_ok tr.
  Proof using Hn Hb. intros E -> Hj H1 H2. apply prog_ret in E as [it' E]. exact (late_use fl _ _ _ _ _ _ _ Hn Hb _ _ _ _ _ _ _ _ _ _ _ E Hj H1 H2). Qed.
  Lemma f_late_key script st ans c' tr s1 e s2 j s3 i x : fl = FlEntry →
    prog script st = Ret ans (c', tr) → script = s1 ++ HNext e :: s2 ++ HKey j :: s3 → j < calls s1 →
    ans !! length s1 = Some (HGot (Some i)) → ans !! (length s1 + S (length s2)) = Some (HKeyIs (Some x)) → ¬ sb_ok tr.
  Proof using Hn Hb. intros Hfl E -> Hj H1 H2. apply prog_ret in E as [it' E]. exact (late_key fl _ _ _ _ _ _ _ Hn Hb _ _ _ _ _ _ _ _ _ _ Hfl E Hj H1 H2). Qed.
  Lemma f_reuse script st ans c' tr s0 j f s1 e s2 g s3 x i y :
    prog script st = Ret ans (c', tr) → script = s0 ++ HUse j f :: s1 ++ HNext e :: s2 ++ HUse j g :: s3 →
    ans !! length s0 = Some (HFound (Some x)) → ans !! (length s0 + S (length s1)) = Some (HGot (Some i)) →
    ans !! (length s0 + S (length s1 + S (length s2))) = Some (HFound (Some y)) → ¬ tb_ok tr.
  Proof using Hn Hb. intros E -> H0 H1 H2. apply prog_ret in E as [it' E]. exact (late_reuse fl _ _ _ _ _ _ _ Hn Hb _ _ _ _ _ _ _ _ _ _ _ _ _ _ E H0 H1 H2). Qed.
  Lemma f_phases script st ans c' tr : prog script st = Ret ans (c', tr) → NoDup (omap got ans) → one_phase script → tb_ok tr.
  Proof using Hn Hb. intros E Hnd Ho. apply prog_ret in E as [it' E]. exact (run_one_phase fl _ _ _ _ _ _ _ Hn Hb _ _ _ _ E Hnd Ho). Qed.

  (** If every question is answered, the conditions are exact *)
  Lemma ans_next s1 e s2 st ans sf : run (s1 ++ HNext e :: s2) [] (st, []) = Ret ans sf → Forall answered ans → ∃ i, ans !! length s1 = Some (HGot (Some i)).
  Proof using Hn Hb.
    intros E Ha. apply (run_split fl _ _ _ _ _ _ _ Hn Hb) in E as (hs1 & a1 & a2 & s' & t1 & _ & Hl & -> & E & _); [|constructor].
    apply (run_next fl _ _ _ _ _ _ _ Hn Hb) in E as (o & s'' & t2 & a3 & _ & -> & _). apply Forall_app in Ha as [_ Ha]. apply Forall_cons in Ha as [[i Hi] _].
    exists i. rewrite lookup_app_r by lia. rewrite Hl, Nat.sub_diag. cbn. by rewrite Hi.
  Qed.
  Lemma ans_use s1 j f s2 st ans sf : run (s1 ++ HUse j f :: s2) [] (st, []) = Ret ans sf → Forall answered ans →
    j < calls s1 ∧ ∃ x, ans !! length s1 = Some (HFound (Some x)).
  Proof using Hn Hb.
    intros E Ha. apply (run_split fl _ _ _ _ _ _ _ Hn Hb) in E as (hs1 & a1 & a2 & s' & t1 & Hc & Hl & -> & E & _); [|constructor].
    apply run_use in E as (s'' & t2 & v & a3 & _ & -> & Hv & _). apply Forall_app in Ha as [_ Ha]. apply Forall_cons in Ha as [Hs _]. cbn in Hs.
    destruct (Hv Hs) as (r & q & Hq & _). apply lookup_lt_Some in Hq. cbn in Hq. split; [lia|]. destruct Hs as [x ->]. exists x.
    rewrite lookup_app_r by lia. by rewrite Hl, Nat.sub_diag.
  Qed.
  Lemma ans_key s1 j s2 st ans sf : run (s1 ++ HKey j :: s2) [] (st, []) = Ret ans sf → Forall answered ans →
    j < calls s1 ∧ ∃ x, ans !! length s1 = Some (HKeyIs (Some x)).
  Proof using Hn Hb.
    intros E Ha. apply (run_split fl _ _ _ _ _ _ _ Hn Hb) in E as (hs1 & a1 & a2 & s' & t1 & Hc & Hl & -> & E & _); [|constructor].
    apply run_key in E as (s'' & t2 & v & a3 & _ & -> & Hv). apply Forall_app in Ha as [_ Ha]. apply Forall_cons in Ha as [Hs _]. cbn in Hs.
    destruct (Hv Hs) as (r & q & Hq & _). apply lookup_lt_Some in Hq. cbn in Hq. split; [lia|]. destruct Hs as [x ->]. exists x.
    rewrite lookup_app_r by lia. by rewrite Hl, Nat.sub_diag.
  Qed.
  Lemma f_sb_exact script st ans c' tr : prog script st = Ret ans (c', tr) → Forall answered ans → sb_ok tr ↔ streaming keysok 0 script.
  Proof using Hn Hb.
    intros E Ha. split.
    - intros Hok. destruct (prog_ret _ _ _ _ _ E) as [it' Er].
      destruct (streaming_or keysok script 0) as [?|[(s1 & j & f & s2 & Es & Hj)|(Hf & s1 & j & s2 & Es & Hj)]]; [done|exfalso..]; rewrite Es in Er.
      + destruct (ans_use _ _ _ _ _ _ _ Er Ha) as [Hlt [x Hx]]. destruct (calls s1) as [|m] eqn:Ec; [lia|]. destruct (last_call _ _ Ec) as (a & e & b & -> & Hca).
        rewrite <- app_assoc in Er, Es. cbn [app] in Er, Es. destruct (ans_next _ _ _ _ _ _ Er Ha) as [i Hi]. rewrite app_length in Hx. cbn [length] in Hx.
        refine (f_late script st ans c' tr a e b j f s2 i x E Es _ Hi Hx Hok). lia.
      + destruct (ans_key _ _ _ _ _ _ Er Ha) as [Hlt [x Hx]]. destruct (calls s1) as [|m] eqn:Ec; [lia|]. destruct (last_call _ _ Ec) as (a & e & b & -> & Hca).
        rewrite <- app_assoc in Er, Es. cbn [app] in Er, Es. destruct (ans_next _ _ _ _ _ _ Er Ha) as [i Hi]. rewrite app_length in Hx. cbn [length] in Hx.
        refine (f_late_key script st ans c' tr a e b j s2 i x _ E Es _ Hi Hx Hok); [by destruct fl|lia].
    - intros Hs. pose proof (f_streaming script st Hs) as Hok. by rewrite E in Hok.
  Qed.
  Lemma f_tb_exact script st ans c' tr : prog script st = Ret ans (c', tr) → Forall answered ans → NoDup (omap got ans) → tb_ok tr ↔ one_phase script.
  Proof using Hn Hb.
    intros E Ha Hnd. split; [|by eapply f_phases].
    intros Hok s0 j f s1 e s2 g s3 Es. destruct (prog_ret _ _ _ _ _ E) as [it' Er]. rewrite Es in Er. pose proof Er as Er1.
    destruct (ans_use _ _ _ _ _ _ _ Er Ha) as [_ [x Hx]].
    rewrite app_comm_cons, app_assoc in Er. destruct (ans_next _ _ _ _ _ _ Er Ha) as [i Hi]. rewrite app_length in Hi. cbn [length] in Hi.
    rewrite app_comm_cons, app_assoc in Er. destruct (ans_use _ _ _ _ _ _ _ Er Ha) as [_ [y Hy]]. rewrite !app_length in Hy. cbn [length] in Hy.
    refine (f_reuse script st ans c' tr s0 j f s1 e s2 g s3 x i y E Es Hx Hi _ Hok). rewrite <- Hy. f_equal. lia.
  Qed.
End facts.

(** ** The items are distinct *)
From Verif Require Import HeldSpec IterProof.
Lemma held_spec_got {K V} (script : list (hact V)) : ∀ (out : list (option (N * (K * V)))) cells,
  omap got (held_spec script out cells) `prefix_of` map fst (omap id out).
Proof.
  induction script as [|[e|j|j f] script IH]; intros out cells; cbn [held_spec]; [apply prefix_nil| | |].
  - destruct out as [|[[i kv]|] out]; [apply prefix_nil|..]; cbn; [apply prefix_cons|]; apply IH.
  - cbn. apply IH.
  - cbn. apply IH.
Qed.
Lemma held_spec_distinct {K V} (script : list (hact V)) (out : list (option (N * (K * V)))) cells :
  NoDup (map fst (omap id out)) → NoDup (omap got (held_spec script out cells)).
Proof. intros Hnd. destruct (held_spec_got script out cells) as [k Hk]. rewrite Hk in Hnd. by apply NoDup_app in Hnd as [? _]. Qed.
Lemma forgotten {C A} (o : outcome (C * trace) A) a c : forget o = Ret a c → o = Ret a (c, trace_of o).
Proof. destruct o as [x [y t]|]; [|done]. cbn. by intros [= -> ->]. Qed.
