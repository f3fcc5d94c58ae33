(** * Growing: after any calls and growings *)
From Verif Require Import DequeProps RBMain AVLMain HashMain CritMain FuzzProof MapFacts GrowSpec GrowProof.

Lemma added_cons {O X} (more : X → N) (sg : list O * X) segs : added more (sg :: segs) = more sg.2 + added more segs.
Proof. done. Qed.

(** Reading a map that has the same entries *)
Section same.
  Context {S K V : Type} (api : oapi S K V) (cmp : K → K → comparison) (cap cap' : N) (I I' : S → list (N * (K * V)) → Prop).
  Context (HO : OrdLaws cmp) (Hok : om_ok api cmp cap I) (Hok' : om_ok api cmp cap' I').
  Lemma om_same s s' E : I s E → I' s' E → same_reads api s s'.
  Proof using HO Hok Hok'.
    intros Hi Hi'. unfold same_reads.
    rewrite (ok_min _ _ _ _ Hok s E Hi), (ok_min _ _ _ _ Hok' s' E Hi'), (ok_max _ _ _ _ Hok s E Hi), (ok_max _ _ _ _ Hok' s' E Hi'),
      (ok_len _ _ _ _ Hok s E Hi), (ok_len _ _ _ _ Hok' s' E Hi').
    split_and!; [|intros sc; by rewrite (ok_iter _ _ _ _ Hok s E sc Hi), (ok_iter _ _ _ _ Hok' s' E sc Hi')|done..].
    intros k. destruct (fact_agree _ _ _ _ Hok s E k Hi) as (i & Ha & Hg & Hc & Hf).
    destruct (fact_agree _ _ _ _ Hok' s' E k Hi') as (i' & Ha' & Hg' & Hc' & Hf').
    rewrite (ok_index _ _ _ _ Hok s k _ Hg), (ok_index _ _ _ _ Hok' s' k _ Hg'), Hg, Hg', Hc, Hc', Ha'. split_and!; try done.
    destruct (om_find cmp k E.*2) as [kv|]; [|by subst i i'].
    destruct Hf' as (_ & _ & Hk & Hin). symmetry. by eapply (om_addr_mem _ _ _ _ Hok s E i' kv k).
  Qed.
End same.

Section deque.
  Context `{Profile} {T : Type}.
  Notation segs := (list (list (dq_op T) * list (node T))).
  Lemma dq_spec_hcount cap ops (c : list T * N) : (spec_history (dq_spec cap) ops c).2.2 ≤ c.2 + lengthN ops.
  Proof.
    revert c. induction ops as [|o ops IH]; intros c; cbn [spec_history]; [simpl; lia|].
    pose proof (dq_spec_count cap o c). destruct (dq_spec cap o c) as [r c1]. specialize (IH c1).
    destruct (spec_history (dq_spec cap) ops c1). cbn [fst snd] in *. rewrite lengthN_cons. lia.
  Qed.
  Lemma dq_grown_ok (sg : segs) cap d c :
    Forall (λ s, Forall (blank 2) s.2) sg → cap + added lengthN sg + 1 < W32 → (overflow_checks = true → c.2 + total_calls sg < W64) →
    DSim cap c d →
    ∃ c', grown_run lengthN dq_run cap sg c (grown dq_step dq_grow sg d).1 c' ∧ DSim (cap + added lengthN sg) c' (grown dq_step dq_grow sg d).2.
  Proof.
    intros Hb. revert cap d c. induction Hb as [|[ops ex] sg Hex Hb IH]; intros cap d c Hw Hc Hs; cbn [grown].
    { exists c. split; [constructor|]. unfold added. simpl. by rewrite N.add_0_r. }
    cbn [fst snd] in Hex. rewrite added_cons in Hw |- *. cbn [snd] in *. unfold total_calls in Hc. cbn [foldr fst] in Hc. fold (total_calls sg) in Hc.
    destruct (sim_history dq_step (dq_spec cap) (DSim cap) (λ _ s, seq_room s.2) ltac:(intros o a s; apply dq_step_sim) ops d c Hs) as [Ha Hd].
    { apply dq_allowed. intros Ho. specialize (Hc Ho). lia. }
    pose proof (dq_spec_hcount cap ops c) as Hcnt.
    destruct (history dq_step ops d) as [rs d1]. destruct (spec_history (dq_spec cap) ops c) as [rs' c1] eqn:E. cbn [fst snd] in *. subst rs'.
    destruct (IH (cap + lengthN ex) (dq_grow ex d1) c1) as (c2 & Hr & Hd2); [lia|intros Ho; specialize (Hc Ho); lia| |].
    { destruct Hd as (Hq & es & Hok & He). split; [done|]. exists es. split; [apply DOK_grow; [done|lia|done]|done]. }
    destruct (grown dq_step dq_grow sg (dq_grow ex d1)) as [rss d2]. cbn [fst snd] in *.
    exists c2. split; [by econstructor|]. by rewrite N.add_assoc.
  Qed.
  Lemma dq_grow_fact ms v (sg : segs) :
    N.of_nat ms + added lengthN sg + 1 < W32 → (overflow_checks = true → total_calls sg < W64) → Forall (λ s, Forall (blank 2) s.2) sg →
    let '(rss, d) := grown dq_step dq_grow sg (dq_new ms v) in
    ∃ l n es, grown_run lengthN dq_run (N.of_nat ms) sg ([], 0) rss (l, n) ∧ es.*2 = l ∧ NoDup es.*1 ∧
      dq_len d = lengthN l ∧ dq_seqno d = n mod W64 ∧ (∀ i x, (i, x) ∈ es → dq_get_node d i = Val x) ∧
      (∀ script, dq_iterate script d = Val (de_spec script es)) ∧
      (∀ ex, Forall (blank 2) ex → N.of_nat ms + added lengthN sg + lengthN ex + 1 < W32 →
        (∀ script, dq_iterate script (dq_grow ex d) = Val (de_spec script es)) ∧ ∀ i x, (i, x) ∈ es → dq_get_node (dq_grow ex d) i = Val x).
  Proof.
    intros Hw Hc Hb. destruct (dq_grown_ok sg (N.of_nat ms) (dq_new ms v) ([], 0) Hb Hw) as ([l n] & Hr & Hq & es & Hok & He).
    { exact Hc. }
    { split; [done|]. exists []. split; [apply dq_new_ok; lia|done]. }
    destruct (grown dq_step dq_grow sg (dq_new ms v)) as [rss d]. cbn [fst snd] in *.
    assert (∀ cap (d : deque T) es, DOK cap d es → ∀ i x, (i, x) ∈ es → dq_get_node d i = Val x) as Hnode.
    { clear. intros cap d es Hok i x [k Hk]%elem_of_list_lookup. by destruct (DOK_links _ _ _ _ _ _ Hok Hk). }
    exists l, n, es. split_and!; [done|done|by eapply DOK_NoDup| |done|by eapply Hnode|intros; by eapply dq_iterate_ok|].
    - rewrite (DOK_len _ _ _ Hok), <- He. unfold lengthN. by rewrite map_length.
    - intros ex Hex Hw'. pose proof (DOK_grow ex _ _ _ Hex Hw' Hok) as Hok'. split; [intros; by eapply dq_iterate_ok|by eapply Hnode].
  Qed.
End deque.

Section rb.
  Context `{Profile} {K V : Type} (cmp : K → K → comparison) (HO : OrdLaws cmp).
  Notation segs := (list (list (option (om_op K V)) * list (node (K * V)))).
  Lemma rb_grown_ok (sg : segs) cap t U :
    0 < cap → Forall (λ s, Forall (blank 4) s.2) sg → cap + added lengthN sg + 1 < W32 → rbok cmp cap t U →
    ∃ U', grown_run lengthN (om_run cmp) cap sg (entries U).*2 (grown (rb_step cmp) rb_grow sg t).1 (entries U').*2 ∧
      rbok cmp (cap + added lengthN sg) (grown (rb_step cmp) rb_grow sg t).2 U' ∧
      ∀ i kv, (i, kv) ∈ entries U → Forall2 (λ s rs, never_removed cmp kv.1 s.1 rs) sg (grown (rb_step cmp) rb_grow sg t).1 →
        ∃ v, (i, (kv.1, v)) ∈ entries U'.
  Proof using HO.
    intros H0 Hb. revert cap t U H0. induction Hb as [|[ops ex] sg Hex Hb IH]; intros cap t U H0 Hw Hok; cbn [grown].
    { exists U. split_and!; [constructor| |intros i [k v] Hin _; by exists v]. unfold added. simpl. by rewrite N.add_0_r. }
    cbn [fst snd] in Hex. rewrite added_cons in Hw |- *. cbn [snd] in *.
    destruct (rb_run_ok cmp HO cap H0 ops t U Hok) as (U1 & l1 & Hok1 & <- & Hr1 & Hk1).
    destruct (history (rb_step cmp) ops t) as [rs t1]. cbn [fst snd] in *.
    destruct (IH (cap + lengthN ex) (rb_grow ex t1) U1) as (U2 & Hr & Hok2 & Hk2); [lia|lia|apply rbok_grow; [done|lia|done]|].
    destruct (grown (rb_step cmp) rb_grow sg (rb_grow ex t1)) as [rss t2]. cbn [fst snd] in *.
    exists U2. split_and!; [by econstructor|by rewrite N.add_assoc|].
    intros i kv Hin Hn. apply Forall2_cons in Hn as [Hn1 Hn2]. cbn [fst] in Hn1. destruct (Hk1 i kv Hin Hn1) as [v1 Hv1].
    by destruct (Hk2 i (kv.1, v1) Hv1 Hn2) as [v2 Hv2]; exists v2.
  Qed.

  Context (ms : nat) (d : K * V) (H0 : (0 < ms)%nat).
  Lemma rb_grow_fact (sg : segs) :
    N.of_nat ms + added lengthN sg + 1 < W32 → Forall (λ s, Forall (blank 4) s.2) sg →
    let '(rss, t) := grown (rb_step cmp) rb_grow sg (rb_new ms d) in
    ∃ l, grown_run lengthN (om_run cmp) (N.of_nat ms) sg [] rss l ∧ ascending cmp l ∧
      rb_len t = lengthN l ∧ rb_capacity t = N.of_nat ms + added lengthN sg ∧ (∀ script, rb_iterate t script = Val (de_spec script l)) ∧
      rb_is_valid t = Val true ∧ (∀ p, rb_path t (rb_root t) p → 2 ^ lengthN p ≤ (rb_len t + 1) ^ 2) ∧
      ∀ ex, Forall (blank 4) ex → N.of_nat ms + added lengthN sg + lengthN ex + 1 < W32 → same_reads (rb_api cmp) t (rb_grow ex t).
  Proof using HO H0.
    intros Hw Hb. destruct (rb_grown_ok sg (N.of_nat ms) (rb_new ms d) Lf ltac:(lia) Hb Hw) as (U & Hr & Hok & _); [apply rbok_new; lia|].
    destruct (grown (rb_step cmp) rb_grow sg (rb_new ms d)) as [rss t]. cbn [fst snd] in *.
    pose proof (rbok_rep _ _ _ _ Hok) as HR. exists (entries U).*2. split_and!; [done|by destruct Hok| | | |by eapply rb_is_valid_ok| |].
    - rewrite (RBOps.rep_len _ _ _ HR). unfold lengthN. by rewrite fmap_length.
    - by apply (RBOps.rep_cap _ _ _ HR).
    - intros sc. by apply (rb_iterate_ok (N.of_nat ms + added lengthN sg)).
    - intros p Hp. rewrite (RBProof.rep_root _ _ _ HR) in Hp. pose proof (RBMain.rep_path _ _ [] U p HR Hp) as Hh.
      etrans; [|by eapply rb_height]. unfold lengthN. apply N.pow_le_mono_r; lia.
    - intros ex Hex Hw'. eapply (om_same _ cmp _ _ (RBI cmp (N.of_nat ms + added lengthN sg)) (RBI cmp (N.of_nat ms + added lengthN sg + lengthN ex)) HO).
      + apply rb_om_ok; [done|exact _|exact _|lia].
      + apply rb_om_ok; [done|exact _|exact _|lia].
      + exists U. by split.
      + exists U. split; [apply rbok_grow; [done|lia|done]|done].
  Qed.
  Lemma rb_grow_addr_fact (sg sg' : segs) k i :
    let t := (grown (rb_step cmp) rb_grow sg (rb_new ms d)).2 in let g' := grown (rb_step cmp) rb_grow sg' t in
    N.of_nat ms + added lengthN sg + added lengthN sg' + 1 < W32 → Forall (λ s, Forall (blank 4) s.2) sg → Forall (λ s, Forall (blank 4) s.2) sg' →
    rb_get_addr cmp t k = Val i → i ≠ SENTINEL → Forall2 (λ s rs, never_removed cmp k s.1 rs) sg' g'.1 → rb_get_addr cmp g'.2 k = Val i.
  Proof using HO H0.
    intros t g' Hw Hb Hb' Ha Hi Hn.
    destruct (rb_grown_ok sg (N.of_nat ms) (rb_new ms d) Lf ltac:(lia) Hb ltac:(lia)) as (U & _ & Hok & _); [apply rbok_new; lia|].
    destruct (rb_grown_ok sg' (N.of_nat ms + added lengthN sg) t U ltac:(lia) Hb' ltac:(lia) Hok) as (U' & _ & Hok' & Hk).
    assert (0 < N.of_nat ms + added lengthN sg) as Hc by lia.
    destruct (fact_agree _ _ _ _ (rb_om_ok cmp HO _ Hc) t (entries U) k) as (i' & Ha' & _ & _ & Hf); [by exists U|].
    change (rb_get_addr cmp t k = Val i') in Ha'. rewrite Ha in Ha'. injection Ha' as <-.
    destruct (om_find cmp k (entries U).*2) as [kv|]; [|done]. destruct Hf as (_ & _ & Hkk & Hin).
    assert (Forall2 (λ s rs, never_removed cmp kv.1 s.1 rs) sg' g'.1) as Hn'.
    { eapply Forall2_impl; [exact Hn|]. intros s rs [Hn1 Hn2]. split.
      - intros k' Hk' He. apply (Hn1 k' Hk'). rewrite (cmp_eq _ HO _ _ k He). by rewrite (cmp_sym _ HO), Hkk.
      - intros kv' Hk' He. apply (Hn2 kv' Hk'). rewrite (cmp_eq _ HO _ _ k He). by rewrite (cmp_sym _ HO), Hkk. }
    destruct (Hk i kv Hin Hn') as [v Hv].
    assert (0 < N.of_nat ms + added lengthN sg + added lengthN sg') as Hc' by lia.
    eapply (om_addr_mem _ _ _ _ (rb_om_ok cmp HO _ Hc') g'.2 (entries U') i (kv.1, v) k); [by exists U'|done|done].
  Qed.
End rb.

Section av.
  Context `{Profile} {K V : Type} (pcmp : K → K → option comparison) (HO : OrdLaws (po_cmp pcmp)).
  Notation cmp := (po_cmp pcmp).
  Notation segs := (list (list (om_op K V) * list (node (K * V)))).
  Lemma not_removed_cons {X} k (ops : list (om_op K V)) (ex : X) sg : not_removed cmp k ((ops, ex) :: sg) → (∀ k', MRemove k' ∈ ops → cmp k' k ≠ Eq) ∧ not_removed cmp k sg.
  Proof using Type.
    intros Hn. split; [intros k' Hk; by apply (Hn (ops, ex) k' (elem_of_list_here _ _))|].
    intros s k' Hs. apply Hn. by apply elem_of_list_further.
  Qed.
  Lemma av_grown_ok (sg : segs) cap t U :
    0 < cap → Forall (λ s, Forall (blank 4) s.2) sg → cap + added lengthN sg + 1 < W32 → avok pcmp cap t U →
    ∃ U', grown_run lengthN (om_seg cmp) cap sg (entries U).*2 (grown (av_step pcmp) av_grow sg t).1 (entries U').*2 ∧
      avok pcmp (cap + added lengthN sg) (grown (av_step pcmp) av_grow sg t).2 U' ∧
      ∀ i kv, (i, kv) ∈ entries U → not_removed cmp kv.1 sg → ∃ v, (i, (kv.1, v)) ∈ entries U'.
  Proof using HO.
    intros H0 Hb. revert cap t U H0. induction Hb as [|[ops ex] sg Hex Hb IH]; intros cap t U H0 Hw Hok; cbn [grown].
    { exists U. split_and!; [constructor| |intros i [k v] Hin _; by exists v]. unfold added. simpl. by rewrite N.add_0_r. }
    cbn [fst snd] in Hex. rewrite added_cons in Hw |- *. cbn [snd] in *.
    destruct (om_history_ok (av_api pcmp) cmp cap (AVI pcmp cap) (av_om_ok pcmp HO cap H0) ops t (entries U)) as (Ha & E & (U1 & Hok1 & <-) & HE & Hk1); [by exists U|].
    change (om_step (av_api pcmp)) with (av_step (V:=V) pcmp) in *.
    destruct (history (av_step pcmp) ops t) as [rs t1]. cbn [fst snd] in *.
    destruct (IH (cap + lengthN ex) (av_grow ex t1) U1) as (U2 & Hr & Hok2 & Hk2); [lia|lia|apply avok_grow; [done|lia|done]|].
    destruct (grown (av_step pcmp) av_grow sg (av_grow ex t1)) as [rss t2]. cbn [fst snd] in *.
    exists U2. split_and!; [|by rewrite N.add_assoc|].
    - econstructor; [|exact Hr]. unfold om_seg. rewrite HE, Ha. by destruct (spec_history _ _ _).
    - intros i kv Hin [Hn1 Hn2]%not_removed_cons. destruct (Hk1 i kv Hin Hn1) as [v1 Hv1]. by destruct (Hk2 i (kv.1, v1) Hv1 Hn2) as [v2 Hv2]; exists v2.
  Qed.

  Context (ms : nat) (d : K * V) (H0 : (0 < ms)%nat).
  Lemma av_grow_fact (sg : segs) :
    N.of_nat ms + added lengthN sg + 1 < W32 → Forall (λ s, Forall (blank 4) s.2) sg →
    let '(rss, t) := grown (av_step pcmp) av_grow sg (av_new ms d) in
    ∃ l, grown_run lengthN (om_seg cmp) (N.of_nat ms) sg [] rss l ∧ ascending cmp l ∧
      av_len t = lengthN l ∧ av_capacity t = N.of_nat ms + added lengthN sg ∧ (∀ script, av_iterate t script = Val (de_spec script l)) ∧
      (∃ h, av_sub t (as_u32 (av_root t)) h) ∧ (∀ p, av_path t (as_u32 (av_root t)) p → 2 ^ lengthN p ≤ (av_len t + 1) ^ 2) ∧
      ∀ ex, Forall (blank 4) ex → N.of_nat ms + added lengthN sg + lengthN ex + 1 < W32 → same_reads (av_api pcmp) t (av_grow ex t).
  Proof using HO H0.
    intros Hw Hb. destruct (av_grown_ok sg (N.of_nat ms) (av_new ms d) Lf ltac:(lia) Hb Hw) as (U & Hr & Hok & _); [apply avok_new; lia|].
    destruct (grown (av_step pcmp) av_grow sg (av_new ms d)) as [rss t]. cbn [fst snd] in *.
    pose proof (avok_rep _ _ _ _ Hok) as HR. exists (entries U).*2. split_and!; [done|by destruct Hok| | | | | |].
    - rewrite (AVLOps.rep_len _ _ _ HR). unfold lengthN. by rewrite fmap_length.
    - by apply (AVLOps.rep_cap _ _ _ HR).
    - intros sc. by apply av_iterate_ok with (cap := N.of_nat ms + added lengthN sg).
    - exists (height U). rewrite (AVLProof.rep_root _ _ _ HR). eapply (AVLMain.rep_sub _ _ []); [exact HR|by destruct Hok].
    - intros p Hp. rewrite (AVLProof.rep_root _ _ _ HR) in Hp. pose proof (AVLMain.rep_path _ _ [] U p HR Hp) as Hh.
      etrans; [|by eapply av_height]. unfold lengthN. apply N.pow_le_mono_r; lia.
    - intros ex Hex Hw'. eapply (om_same _ cmp _ _ (AVI pcmp (N.of_nat ms + added lengthN sg)) (AVI pcmp (N.of_nat ms + added lengthN sg + lengthN ex)) HO).
      + apply av_om_ok; [done|exact _|exact _|lia].
      + apply av_om_ok; [done|exact _|exact _|lia].
      + exists U. by split.
      + exists U. split; [apply avok_grow; [done|lia|done]|done].
  Qed.
  Lemma av_grow_addr_fact (sg sg' : segs) k i :
    let t := (grown (av_step pcmp) av_grow sg (av_new ms d)).2 in let g' := grown (av_step pcmp) av_grow sg' t in
    N.of_nat ms + added lengthN sg + added lengthN sg' + 1 < W32 → Forall (λ s, Forall (blank 4) s.2) sg → Forall (λ s, Forall (blank 4) s.2) sg' →
    av_get_addr pcmp t k = Val i → i ≠ SENTINEL → not_removed cmp k sg' → av_get_addr pcmp g'.2 k = Val i.
  Proof using HO H0.
    intros t g' Hw Hb Hb' Ha Hi Hn.
    destruct (av_grown_ok sg (N.of_nat ms) (av_new ms d) Lf ltac:(lia) Hb ltac:(lia)) as (U & _ & Hok & _); [apply avok_new; lia|].
    destruct (av_grown_ok sg' (N.of_nat ms + added lengthN sg) t U ltac:(lia) Hb' ltac:(lia) Hok) as (U' & _ & Hok' & Hk).
    assert (0 < N.of_nat ms + added lengthN sg) as Hc by lia.
    destruct (fact_agree _ _ _ _ (av_om_ok pcmp HO _ Hc) t (entries U) k) as (i' & Ha' & _ & _ & Hf); [by exists U|].
    change (av_get_addr pcmp t k = Val i') in Ha'. rewrite Ha in Ha'. injection Ha' as <-.
    destruct (om_find (av_cmp pcmp) k (entries U).*2) as [kv|]; [|done]. destruct Hf as (_ & _ & Hkk & Hin). change (cmp k kv.1 = Eq) in Hkk.
    destruct (Hk i kv Hin) as [v Hv].
    { intros s k' Hs Hr He. apply (Hn s k' Hs Hr). rewrite (cmp_eq _ HO _ _ k He). by rewrite (cmp_sym _ HO), Hkk. }
    assert (0 < N.of_nat ms + added lengthN sg + added lengthN sg') as Hc' by lia.
    eapply (om_addr_mem _ _ _ _ (av_om_ok pcmp HO _ Hc') g'.2 (entries U') i (kv.1, v) k); [by exists U'|done|done].
  Qed.
End av.

Section hash.
  Context `{Profile} {K V : Type} (keq : K → K → bool) (hash : K → N) (HL : HashLaws keq hash).
  Notation segs := (list (list (hm_op K V) * list (node (K * V)))).
  Notation step := (ht_step keq hash).
  Lemma ht_grown_ok (sg : segs) cap h E :
    Forall (λ s, Forall (blank 4) s.2) sg → cap + added lengthN sg + 1 < W32 → HI keq hash cap h E →
    ∃ E', grown_run lengthN (hm_run keq) cap sg E.*2 (grown step ht_grow sg h).1 E'.*2 ∧
      HI keq hash (cap + added lengthN sg) (grown step ht_grow sg h).2 E' ∧
      ∀ i k v, (i, (k, v)) ∈ E → (∀ s k', s ∈ sg → HRemove k' ∈ s.1 → keq k k' = false) → ∃ v', (i, (k, v')) ∈ E'.
  Proof using HL.
    intros Hb. revert cap h E. induction Hb as [|[ops ex] sg Hex Hb IH]; intros cap h E Hw Hok; cbn [grown].
    { exists E. split_and!; [constructor| |eauto]. unfold added. simpl. by rewrite N.add_0_r. }
    cbn [fst snd] in Hex. rewrite added_cons in Hw |- *. cbn [snd] in *.
    destruct (ht_history_ok keq hash HL cap ops h E Hok) as (E1 & Hok1 & Hr1 & Hk1).
    destruct (history step ops h) as [rs h1]. cbn [fst snd] in *.
    destruct (IH (cap + lengthN ex) (ht_grow ex h1) E1) as (E2 & Hr & Hok2 & Hk2); [lia|apply HI_grow; [done|lia|done]|].
    destruct (grown step ht_grow sg (ht_grow ex h1)) as [rss h2]. cbn [fst snd] in *.
    exists E2. split_and!; [by econstructor|by rewrite N.add_assoc|].
    intros i k v Hin Hn. destruct (Hk1 i k v Hin) as [v1 Hv1]; [intros k' Hk'; by apply (Hn (ops, ex) k' (elem_of_list_here _ _))|].
    eapply Hk2; [exact Hv1|]. intros s k' Hs. apply Hn. by apply elem_of_list_further.
  Qed.
  Lemma ht_lookups_grow cap h (E : list (N * (K * V))) (k : K) : HI keq hash cap h E →
    ∃ i, ht_get_addr keq hash h k = Val i ∧ ht_get keq hash h k = Val (hm_get keq k E.*2) ∧
      match hm_find keq k E.*2 with Some kv => (i, kv) ∈ E ∧ i ≠ SENTINEL ∧ keq kv.1 k = true | None => i = SENTINEL end.
  Proof using HL.
    intros Hok. rewrite <- (N2Nat.id cap) in Hok. destruct (HI_lookups keq hash HL _ _ _ k Hok) as (i & ? & ? & _ & _ & Hf). exists i. split_and!; [done..|].
    destruct (hm_find _ _ _); naive_solver.
  Qed.
  Lemma ht_mem_grow cap h (E : list (N * (K * V))) (k : K) i kv : HI keq hash cap h E → (i, kv) ∈ E → keq kv.1 k = true → ht_get_addr keq hash h k = Val i.
  Proof using HL. intros Hok. rewrite <- (N2Nat.id cap) in Hok. intros Hin He. by destruct (HI_addr keq hash HL _ _ _ k i kv Hok Hin He). Qed.
  Lemma ht_same_grow cap cap' h h' (E : list (N * (K * V))) (k : K) : HI keq hash cap h E → HI keq hash cap' h' E →
    ht_get keq hash h' k = ht_get keq hash h k ∧ ht_get_addr keq hash h' k = ht_get_addr keq hash h k.
  Proof using HL.
    intros Hok Hok'. destruct (ht_lookups_grow _ _ _ k Hok) as (i & Ha & Hg & Hf). destruct (ht_lookups_grow _ _ _ k Hok') as (i' & Ha' & Hg' & Hf').
    split; [congruence|]. destruct (hm_find _ _ _) as [kv|]; [|congruence]. rewrite Ha. destruct Hf as (? & _ & ?). by eapply ht_mem_grow.
  Qed.
  Context (nb ms : nat) (d : K * V) (h0 : htable K V) (Hnew : ht_new nb ms d = Some h0) (Hnb : (0 < nb)%nat).
  Lemma ht_grow_fact (sg : segs) :
    N.of_nat ms + added lengthN sg + 1 < W32 → Forall (λ s, Forall (blank 4) s.2) sg →
    let '(rss, h) := grown step ht_grow sg h0 in
    ∃ l, grown_run lengthN (hm_run keq) (N.of_nat ms) sg [] rss l ∧ distinct_keys keq l ∧
      ht_len h = lengthN l ∧ ht_capacity h = N.of_nat ms + added lengthN sg ∧ (∃ l', l' ≡ₚ l ∧ ∀ script, ht_iterate h script = Val (fw_spec script l')) ∧
      (∀ k, ht_get keq hash h k = Val (hm_get keq k l)) ∧
      ∀ ex, Forall (blank 4) ex → N.of_nat ms + added lengthN sg + lengthN ex + 1 < W32 →
        (∀ k, ht_get keq hash (ht_grow ex h) k = ht_get keq hash h k ∧ ht_get_addr keq hash (ht_grow ex h) k = ht_get_addr keq hash h k) ∧
        ∀ script, ht_iterate (ht_grow ex h) script = ht_iterate h script.
  Proof using HL Hnew Hnb.
    intros Hw Hb. destruct (ht_grown_ok sg (N.of_nat ms) h0 [] Hb Hw) as (E & Hr & Hok & _).
    { eapply ht_new_ok; [exact Hnew|done|lia]. }
    destruct (grown step ht_grow sg h0) as [rss h]. cbn [fst snd] in *.
    exists E.*2. split_and!; [done|by eapply HI_keys| | | | |].
    - rewrite (HI_len _ _ _ _ _ Hok). unfold lengthN. by rewrite fmap_length.
    - exact (HI_capacity _ _ _ _ _ Hok).
    - destruct Hok as (bs & Hok & Hp). exists (concat bs).*2. split; [by rewrite Hp|]. intros. by eapply ht_iterate_ok.
    - intros k. by destruct (ht_lookups_grow _ _ _ k Hok) as (i & _ & ? & _).
    - intros ex Hex Hw'. pose proof (HI_grow keq hash ex _ _ _ Hex Hw' Hok) as Hok'. split.
      + intros k. destruct (ht_same_grow _ _ _ _ _ k Hok Hok'). done.
      + intros sc. destruct Hok as (bs & Hok & Hp). erewrite (ht_iterate_ok _ _ _ h); [|exact Hok]. eapply ht_iterate_ok.
        destruct Hok. constructor; [by apply CH_grow|done..].
  Qed.
  Lemma ht_grow_addr_fact (sg sg' : segs) k i :
    let h := (grown step ht_grow sg h0).2 in let g' := grown step ht_grow sg' h in
    N.of_nat ms + added lengthN sg + added lengthN sg' + 1 < W32 → Forall (λ s, Forall (blank 4) s.2) sg → Forall (λ s, Forall (blank 4) s.2) sg' →
    ht_get_addr keq hash h k = Val i → i ≠ SENTINEL → (∀ s k', s ∈ sg' → HRemove k' ∈ s.1 → keq k k' = false) → ht_get_addr keq hash g'.2 k = Val i.
  Proof using HL Hnew Hnb.
    intros h g' Hw Hb Hb' Ha Hi Hn.
    destruct (ht_grown_ok sg (N.of_nat ms) h0 [] Hb ltac:(lia)) as (E & _ & Hok & _).
    { eapply ht_new_ok; [exact Hnew|done|lia]. }
    destruct (ht_grown_ok sg' (N.of_nat ms + added lengthN sg) h E Hb' ltac:(lia) Hok) as (E' & _ & Hok' & Hk).
    destruct (ht_lookups_grow _ _ _ k Hok) as (i' & Ha' & _ & Hf). fold h in Ha'. rewrite Ha in Ha'. injection Ha' as <-.
    destruct (hm_find _ _ _) as [[k0 v0]|]; [|done]. destruct Hf as (Hin & _ & He). cbn [fst] in He.
    destruct (Hk i k0 v0 Hin) as [v' Hv'].
    { intros s k' Hs Hr. specialize (Hn s k' Hs Hr). destruct (keq k0 k') eqn:E1; [|done].
      rewrite (keq_sym _ _ HL) in He. pose proof (keq_trans _ _ HL _ _ _ He E1). congruence. }
    by eapply ht_mem_grow.
  Qed.
End hash.

Lemma om_find_mem {V} k (l : list (N * V)) kv : om_find N.compare k l = Some kv → kv ∈ l ∧ N.compare k kv.1 = Eq.
Proof.
  unfold om_find. induction l as [|[k' v] l IH]; simpl; [done|]. destruct (N.compare k k') eqn:E.
  - intros [= <-]. split; [left|done].
  - intros Hf. destruct (IH Hf). split; [by right|done].
  - intros Hf. destruct (IH Hf). split; [by right|done].
Qed.
Section crit.
  Context `{Profile} {V : Type}.
  Notation growth := (list (node cnode) * list (node V))%type.
  Notation segs := (list (list (om_op N V) * growth)).
  Lemma cb_grown_ok (sg : segs) nn cap t E :
    0 < cap → 2 * cap ≤ nn → Forall (λ s, Forall u128_op s.1 ∧ cb_growth s.2) sg → cb_room nn cap sg → nn + added more_nodes sg + 1 < W32 → CritMain.cbok nn cap t E →
    ∃ E', grown_run more_leaves cb_seg cap sg E.*2.*2 (grown cb_step cb_grow' sg t).1 E'.*2.*2 ∧
      CritMain.cbok (nn + added more_nodes sg) (cap + added more_leaves sg) (grown cb_step cb_grow' sg t).2 E' ∧
      2 * (cap + added more_leaves sg) ≤ nn + added more_nodes sg ∧
      ∀ i j k v, (i, (j, (k, v))) ∈ E → (∀ s, s ∈ sg → MRemove k ∉ s.1) → ∃ i' v', (i', (j, (k, v'))) ∈ E'.
  Proof.
    intros H0 H2 Hb. revert nn cap t E H0 H2. induction Hb as [|[ops ex] sg [Hu Hex] Hb IH]; intros nn cap t E H0 H2 Hroom Hw Hok; cbn [grown].
    { exists E. unfold added. simpl foldr. rewrite !N.add_0_r. split_and!; [constructor|done|done|eauto]. }
    cbn [fst snd] in Hu, Hex. destruct Hex as (Hbn & Hbl). destruct Hroom as [H2x Hroom]. rewrite !added_cons in *. cbn [snd] in *.
    destruct (cb_history_ok nn cap H0 H2 ops t E Hu Hok) as (Ha & E1 & Hok1 & HE & Hk1).
    destruct (history cb_step ops t) as [rs t1]. cbn [fst snd] in *.
    destruct (IH (nn + more_nodes ex) (cap + more_leaves ex) (cb_grow' ex t1) E1) as (E2 & Hr & Hok2 & H22 & Hk2); [lia|done|done|lia| |].
    { apply cbok_grow; [done|done|unfold more_nodes in *; lia| |done]. fold (more_leaves ex). unfold more_nodes in *. lia. }
    destruct (grown cb_step cb_grow' sg (cb_grow' ex t1)) as [rss t2]. cbn [fst snd] in *.
    exists E2. split_and!; [|by rewrite !N.add_assoc|lia|].
    - econstructor; [|exact Hr]. unfold cb_seg. rewrite HE, Ha. by destruct (spec_history _ _ _).
    - intros i j k v Hin Hn. destruct (Hk1 i j k v Hin) as (i1 & v1 & Hv1); [apply (Hn (ops, ex) (elem_of_list_here _ _))|].
      eapply Hk2; [exact Hv1|]. intros s Hs. apply Hn. by apply elem_of_list_further.
  Qed.

  Context (nn ms : nat) (d : V) (t0 : critbit V) (H0 : (0 < ms)%nat) (Hnew : cb_new nn ms d = Some t0).
  Lemma cb_addr_grow m cap m' cap' (t t' : critbit V) E k : CritMain.cbok m cap t E → CritMain.cbok m' cap' t' E → m + 1 < W32 → m' + 1 < W32 → k < W128 → cb_get_addr t' k = cb_get_addr t k.
  Proof.
    intros [[Ht ->]|(U & HR & HwU & ->)] [[Ht' He]|(U' & HR' & HwU' & He)] Hm Hm' Hk.
    { by rewrite (empty_addr _ _ _ k Ht Hm), (empty_addr _ _ _ k Ht' Hm'). }
    { by destruct (ents_ne _ (eq_sym He)). }
    { by destruct (ents_ne _ He). }
    pose proof (addr_spec _ _ _ _ _ HR HwU Hk) as Ha. pose proof (addr_spec _ _ _ _ _ HR' HwU' Hk) as Ha'. unfold kvs in Ha, Ha'. rewrite <- He in Ha'.
    destruct (om_find N.compare k (ents U).*2.*2) as [[k' v]|]; [|congruence].
    destruct Ha as (i & j & Hin & <- & ->). rewrite He in Hin. by eapply addr_mem.
  Qed.
  Lemma cb_grow_fact (sg : segs) :
    N.of_nat nn + added more_nodes sg + 1 < W32 → Forall (λ s, Forall u128_op s.1 ∧ cb_growth s.2) sg → cb_room (N.of_nat nn) (N.of_nat ms) sg →
    let '(rss, t) := grown cb_step cb_grow' sg t0 in
    ∃ l, grown_run more_leaves cb_seg (N.of_nat ms) sg [] rss l ∧ ascending N.compare l ∧
      cb_len t = lengthN l ∧ cb_capacity t = N.of_nat ms + added more_leaves sg ∧ (∀ script, cb_iterate t script = Val (de_spec script l)) ∧
      (∀ k, k < W128 → cb_get t k = Val (om_get N.compare k l)) ∧
      ∀ ex, cb_growth ex → N.of_nat nn + added more_nodes sg + more_nodes ex + 1 < W32 →
        2 * (N.of_nat ms + added more_leaves sg + more_leaves ex) ≤ N.of_nat nn + added more_nodes sg + more_nodes ex → cb_reads t (cb_grow' ex t).
  Proof using H0 Hnew.
    intros Hw Hb Hroom. destruct (new_ok nn ms d t0) as (Hok0 & H2 & Hc); [done|lia|done|].
    destruct (cb_grown_ok sg _ _ t0 [] Hc H2 Hb Hroom Hw Hok0) as (E & Hr & Hok & H2' & _).
    destruct (grown cb_step cb_grow' sg t0) as [rss t]. cbn [fst snd] in *.
    destruct (asc_facts _ _ _ _ Hok) as (Hasc & _). destruct (CritMain.len_facts _ _ _ _ Hok) as [Hl Hcap].
    exists E.*2.*2. split_and!; [done|done|rewrite Hl; unfold lengthN; by rewrite !fmap_length|done|intros; by eapply iter_facts|intros; by eapply get_facts|].
    intros ex (Hbn & Hbl) Hw' H2x. unfold more_nodes, more_leaves in Hw', H2x.
    assert (N.of_nat ms + added more_leaves sg + lengthN ex.2 + 1 < W32) as Hwl by lia.
    pose proof (cbok_grow ex.1 ex.2 _ _ _ _ Hbn Hbl Hw' Hwl Hok) as Hok'. fold (cb_grow' ex t) in Hok'.
    destruct (CritMain.len_facts _ _ _ _ Hok') as [Hl' _]. destruct (min_facts _ _ _ _ Hok) as [Hm1 Hm2]. destruct (min_facts _ _ _ _ Hok') as [Hm1' Hm2'].
    split_and!; [|intros sc; by rewrite (iter_facts _ _ _ _ sc Hok), (iter_facts _ _ _ _ sc Hok')|congruence..].
    intros k Hk. rewrite (get_facts _ _ _ _ _ Hok Hk), (get_facts _ _ _ _ _ Hok' Hk), (contains_facts _ _ _ _ _ Hok Hk), (contains_facts _ _ _ _ _ Hok' Hk).
    split_and!; [done..|]. by eapply (cb_addr_grow _ _ _ _ _ _ _ _ Hok Hok').
  Qed.
  (** the value of a key stays in its slot of the leaf pool *)
  Lemma cb_slot_mem m cap (t : critbit V) E i j k v : CritMain.cbok m cap t E → (i, (j, (k, v))) ∈ E → cb_value_slot t k = Val j.
  Proof.
    intros [[_ ->]|(U & HR & HwU & ->)] Hin; [by apply elem_of_nil in Hin|]. unfold cb_value_slot, mbind, res_bind.
    rewrite (addr_mem _ _ _ _ _ _ _ _ HR HwU Hin). destruct HR as [_ (fr & Ho & _) _]. destruct (ent_plug _ _ _ _ _ Hin) as [ctx <-].
    by rewrite (rd_leaf_index _ _ _ _ Ho _ _ _ _ _ _ (CL_cell _ _ _ _ _)).
  Qed.
  Lemma cb_grow_slot_fact (sg sg' : segs) k j :
    let t := (grown cb_step cb_grow' sg t0).2 in let g' := grown cb_step cb_grow' sg' t in
    N.of_nat nn + added more_nodes sg + added more_nodes sg' + 1 < W32 →
    Forall (λ s, Forall u128_op s.1 ∧ cb_growth s.2) sg → Forall (λ s, Forall u128_op s.1 ∧ cb_growth s.2) sg' →
    cb_room (N.of_nat nn) (N.of_nat ms) sg → cb_room (N.of_nat nn + added more_nodes sg) (N.of_nat ms + added more_leaves sg) sg' →
    k < W128 → cb_contains t k = Val true → cb_value_slot t k = Val j → (∀ s, s ∈ sg' → MRemove k ∉ s.1) → cb_value_slot g'.2 k = Val j.
  Proof using H0 Hnew.
    intros t g' Hw Hb Hb' Hroom Hroom' Hk Hc Hj Hn. destruct (new_ok nn ms d t0) as (Hok0 & H2 & Hc0); [done|lia|done|].
    destruct (cb_grown_ok sg _ _ t0 [] Hc0 H2 Hb Hroom ltac:(lia) Hok0) as (E & _ & Hok & H2' & _). fold t in Hok.
    destruct (cb_grown_ok sg' (N.of_nat nn + added more_nodes sg) (N.of_nat ms + added more_leaves sg) t E ltac:(lia) H2' Hb' Hroom' ltac:(lia) Hok) as (E' & _ & Hok' & _ & Hkeep). fold g' in Hok'.
    rewrite (contains_facts _ _ _ _ _ Hok Hk) in Hc.
    assert (∃ i j v, (i, (j, (k, v))) ∈ E) as (i & j' & v & Hin).
    { unfold om_get in Hc. destruct (om_find N.compare k E.*2.*2) as [[k' v]|] eqn:Ef; [|done]. apply om_find_mem in Ef as [Hin He].
      apply N.compare_eq in He. simpl in He. subst k'. apply elem_of_list_fmap in Hin as ([j1 kv] & Heq & Hin). simpl in Heq. subst kv.
      apply elem_of_list_fmap in Hin as ([i1 jkv] & Heq & Hin). simpl in Heq. subst jkv. eauto. }
    rewrite (cb_slot_mem _ _ _ _ _ _ _ _ Hok Hin) in Hj. injection Hj as <-.
    destruct (Hkeep _ _ _ _ Hin Hn) as (i2 & v2 & Hin2). by eapply cb_slot_mem.
  Qed.
End crit.
