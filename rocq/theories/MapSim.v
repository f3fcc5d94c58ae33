(** * From one-step facts about a tree model to histories *)
From Verif Require Export TreeProof MapRel MapApi.

(** What has to be shown of a model: [I s E] says that state [s] holds the slots and pairs [E], in key order. *)
Record om_ok {S K V} (api : oapi S K V) (cmp : K → K → comparison) (cap : N) (I : S → list (N * (K * V)) → Prop) : Prop := {
  ok_asc : ∀ s E, I s E → ascending cmp E.*2;
  ok_nodup : ∀ s E, I s E → NoDup E.*1;
  ok_insert : ∀ s E k v, I s E → wp (a_insert api k v) s (λ o s', ∃ E', I s' E' ∧ ins_rel cmp cap k v E o E' ∧ (o = None → s' = s));
  ok_remove : ∀ s E k, I s E → wp (a_remove api k) s (λ o s', ∃ E', I s' E' ∧ rem_rel cmp k E o E' ∧ (o = None → s' = s));
  ok_addr : ∀ s E k, I s E → ∃ i o, get_rel cmp k E i o ∧ a_addr api s k = Val i ∧ a_get api s k = Val (snd <$> o);
  ok_node : ∀ s E i kv, I s E → (i, kv) ∈ E → a_node api s i = Val kv;
  ok_get_mut : ∀ s E k f, I s E → wp (a_get_mut api k f) s (λ o s', ∃ E', I s' E' ∧ upd_rel cmp k f E o E' ∧ (o = None → s' = s));
  ok_contains : ∀ s k o, a_get api s k = Val o → a_contains api s k = Val (match o with Some _ => true | None => false end);
  ok_len : ∀ s E, I s E → a_len api s = lengthN E;
  ok_capacity : ∀ s E, I s E → a_capacity api s = cap;
  ok_min : ∀ s E, I s E → a_min api s = Val (head E.*2);
  ok_max : ∀ s E, I s E → a_max api s = Val (last E.*2);
  ok_index : ∀ s k o, a_get api s k = Val o → a_index api s k = match o with Some v => Val v | None => Err Panic end;
  ok_index_mut : ∀ s k f o s', a_get_mut api k f s = Ret o s' →
    a_index_mut api k f s = match o with Some v => Ret v s' | None => Fail Panic s' end;
  ok_iter : ∀ s E sc, I s E → a_iter api s sc = Val (de_spec sc E.*2);
  ok_iter_mut : ∀ s E sc, I s E →
    wp (a_iter_mut api sc) s (λ o s', o = (de_mut_spec upd_ent sc E).1 ∧ I s' (de_mut_spec upd_ent sc E).2);
}.

(** Driving a mutable iterator on a component of the state *)
Lemma drive_mut_zoom {S T A V} (g : S → T) (u : T → S → S) (next next_back : (V → V) → M T (option A)) sc s Q :
  (∀ s, u (g s) s = s) → (∀ t s, g (u t s) = t) → (∀ t t' s, u t' (u t s) = u t' s) →
  wp (drive_mut next next_back sc) (g s) (λ a t, Q a (u t s)) →
  wp (drive_mut (λ f, zoom g u (next f)) (λ f, zoom g u (next_back f)) sc) s Q.
Proof.
  intros H1 H2 H3. revert s Q. induction sc as [|[e f] sc IH]; intros s Q Hw; simpl in *.
  { unfold wp in *. simpl in *. by rewrite H1 in Hw. }
  apply wp_bind.
  assert (∀ m : M T (option A), wp (r ← m; rs ← drive_mut next next_back sc; mret (r :: rs)) (g s) (λ a t, Q a (u t s)) →
    wp (zoom g u m) s (λ a s', wp (rs ← drive_mut (λ f, zoom g u (next f)) (λ f, zoom g u (next_back f)) sc; mret (a :: rs)) s' Q)) as Hm.
  { intros m Hm. apply wp_zoom. unfold wp in Hm |- *. unfold mbind at 1, M_bind at 1 in Hm. destruct (m (g s)) as [a t|]; [|done].
    apply wp_bind. apply IH. rewrite H2. unfold wp in Hm |- *. unfold mbind, M_bind in Hm.
    destruct (drive_mut next next_back sc t) as [rs t'|]; [|done]. simpl in *. by rewrite H3. }
  destruct e; by apply Hm.
Qed.

Section sim.
  Context {S K V : Type} (api : oapi S K V) (cmp : K → K → comparison) (HO : OrdLaws cmp) (cap : N)
    (I : S → list (N * (K * V)) → Prop) (Hok : om_ok api cmp cap I).
  Implicit Types s : S.
  Implicit Types E : list (N * (K * V)).

  (** the pair at slot [i] stays there, up to its value *)
  Definition keeps (o : om_op K V) E E' : Prop :=
    ∀ i kv, (i, kv) ∈ E → (∀ k, o = MRemove k → cmp k kv.1 ≠ Eq) → ∃ v, (i, (kv.1, v)) ∈ E'.

  Lemma keeps_refl o E : keeps o E E.
  Proof using Type. clear HO. intros i [k v] Hi _. by exists v. Qed.

  Lemma head_fmap_nil E : (match E.*2 with [] => true | _ => false end) = bool_decide (lengthN E = 0).
  Proof using Type. clear. by destruct E. Qed.

  Lemma om_step_ok o s E :
    I s E →
    (call (om_step api o) s).1 = (om_spec cmp cap o E.*2).1 ∧
    ∃ E', I (call (om_step api o) s).2 E' ∧ E'.*2 = (om_spec cmp cap o E.*2).2 ∧ keeps o E E'.
  Proof using Hok.
    clear HO. intros Hi. destruct o as [k v|k|k|k f|k| | | | | |k|k f|sc|sc]; unfold om_step.
    - destruct (wp_elim _ _ _ (ok_insert _ _ _ _ Hok s E k v Hi)) as (o & s' & He & E' & Hi' & Hr & _).
      unfold call, mbind, M_bind. rewrite He. rewrite (ins_rel_spec _ _ _ _ _ _ _ Hr). simpl. split; [done|].
      exists E'. split_and!; [done|done|]. intros i kv Hin _.
      destruct Hr as [A B j kv' -> Hc Hb Ha|A B j -> Hl Hb Ha _ _ _|A B -> Hl Hb Ha].
      + apply elem_of_app in Hin as [Hin|[Heq|Hin]%elem_of_cons].
        * exists kv.2. rewrite elem_of_app. left. by destruct kv.
        * simplify_eq. exists v. rewrite elem_of_app, elem_of_cons. auto.
        * exists kv.2. rewrite elem_of_app, elem_of_cons. right. right. by destruct kv.
      + exists kv.2. rewrite elem_of_app, elem_of_cons. apply elem_of_app in Hin as [Hin|Hin]; destruct kv; auto.
      + exists kv.2. by destruct kv.
    - destruct (wp_elim _ _ _ (ok_remove _ _ _ _ Hok s E k Hi)) as (o & s' & He & E' & Hi' & Hr & _).
      unfold call, mbind, M_bind. rewrite He. rewrite (rem_rel_spec _ cap _ _ _ _ Hr). simpl. split; [done|].
      exists E'. split_and!; [done|done|]. intros i kv Hin Hne. exists kv.2. destruct kv as [k1 v1].
      eapply rem_rel_stable; [exact Hr|done|by apply Hne].
    - destruct (ok_addr _ _ _ _ Hok s E k Hi) as (i & o & Hr & _ & Hg). apply get_rel_find in Hr.
      unfold call, mbind, M_bind, gets. rewrite Hg. simpl. unfold om_get. rewrite Hr. split; [done|].
      exists E. split_and!; [done|done|apply keeps_refl].
    - destruct (wp_elim _ _ _ (ok_get_mut _ _ _ _ Hok s E k f Hi)) as (o & s' & He & E' & Hi' & Hr & _).
      unfold call, mbind, M_bind. rewrite He. simpl. destruct (upd_rel_spec _ _ _ _ _ _ Hr) as [-> ->].
      split; [done|]. exists E'. split_and!; [done|done|]. intros i kv Hin _.
      destruct Hr as [A B j kv' -> Hc Hb Ha|A B -> Hb Ha].
      + apply elem_of_app in Hin as [Hin|[Heq|Hin]%elem_of_cons].
        * exists kv.2. rewrite elem_of_app. left. by destruct kv.
        * simplify_eq. exists (f kv'.2). rewrite elem_of_app, elem_of_cons. auto.
        * exists kv.2. rewrite elem_of_app, elem_of_cons. right. right. by destruct kv.
      + exists kv.2. by destruct kv.
    - destruct (ok_addr _ _ _ _ Hok s E k Hi) as (i & o & Hr & _ & Hg). apply get_rel_find in Hr.
      apply (ok_contains _ _ _ _ Hok) in Hg.
      unfold call, mbind, M_bind, gets. rewrite Hg. simpl. rewrite Hr. split; [by destruct o|].
      exists E. split_and!; [done|done|apply keeps_refl].
    - unfold call, mbind, M_bind, mget. simpl. rewrite (ok_len _ _ _ _ Hok s E Hi), lengthN_fmap. split; [done|].
      exists E. split_and!; [done|done|apply keeps_refl].
    - unfold call, mbind, M_bind, mget. simpl. rewrite (ok_len _ _ _ _ Hok s E Hi), head_fmap_nil. split; [done|].
      exists E. split_and!; [done|done|apply keeps_refl].
    - unfold call, mbind, M_bind, mget. simpl. rewrite (ok_capacity _ _ _ _ Hok s E Hi). split; [done|].
      exists E. split_and!; [done|done|apply keeps_refl].
    - unfold call, mbind, M_bind, gets. rewrite (ok_min _ _ _ _ Hok s E Hi). simpl. split; [done|].
      exists E. split_and!; [done|done|apply keeps_refl].
    - unfold call, mbind, M_bind, gets. rewrite (ok_max _ _ _ _ Hok s E Hi). simpl. split; [done|].
      exists E. split_and!; [done|done|apply keeps_refl].
    - destruct (ok_addr _ _ _ _ Hok s E k Hi) as (i & o & Hr & _ & Hg). apply get_rel_find in Hr.
      apply (ok_index _ _ _ _ Hok) in Hg.
      unfold call, mbind, M_bind, gets. rewrite Hg. simpl. unfold om_get. rewrite Hr.
      split; [by destruct o|]. exists E. split_and!; [by destruct o|done|apply keeps_refl].
    - destruct (wp_elim _ _ _ (ok_get_mut _ _ _ _ Hok s E k f Hi)) as (o & s' & He & E' & Hi' & Hr & _).
      apply (ok_index_mut _ _ _ _ Hok) in He.
      unfold call, mbind, M_bind. rewrite He. simpl. destruct (upd_rel_spec _ _ _ _ _ _ Hr) as [-> ->].
      split; [by destruct o|]. exists E'. split_and!; [by destruct o|done|]. intros i kv Hin _.
      destruct Hr as [A B j kv' -> Hc Hb Ha|A B -> Hb Ha].
      + apply elem_of_app in Hin as [Hin|[Heq|Hin]%elem_of_cons].
        * exists kv.2. rewrite elem_of_app. left. by destruct kv.
        * simplify_eq. exists (f kv'.2). rewrite elem_of_app, elem_of_cons. auto.
        * exists kv.2. rewrite elem_of_app, elem_of_cons. right. right. by destruct kv.
      + exists kv.2. by destruct kv.
    - unfold call, mbind, M_bind, gets. rewrite (ok_iter _ _ _ _ Hok s E sc Hi). simpl. split; [done|].
      exists E. split_and!; [done|done|apply keeps_refl].
    - destruct (wp_elim _ _ _ (ok_iter_mut _ _ _ _ Hok s E sc Hi)) as (o & s' & He & -> & Hi').
      unfold call, mbind, M_bind. rewrite He. simpl.
      pose proof (de_mut_spec_map snd upd_ent (λ (f : V → V) (x : K * V), (x.1, f x.2)) sc E (λ _ _, eq_refl)) as Hm.
      change (map snd E) with (E.*2) in Hm. rewrite Hm. simpl. split; [done|]. eexists. split_and!; [exact Hi'|done|].
      intros i kv Hin _.
      pose proof (de_mut_spec_keys upd_ent (λ x : N * (K * V), (x.1, x.2.1)) sc E (λ _ _, eq_refl)) as Hk.
      assert ((i, kv.1) ∈ map (λ x : N * (K * V), (x.1, x.2.1)) E) as Hin'.
      { apply elem_of_list_fmap. by exists (i, kv). }
      rewrite <- Hk in Hin'. apply elem_of_list_fmap in Hin' as ([j [k' v']] & Heq & Hin'). simplify_eq/=. by exists v'.
  Qed.

  Lemma om_history_ok ops s E :
    I s E →
    (history (om_step api) ops s).1 = (spec_history (om_spec cmp cap) ops E.*2).1 ∧
    ∃ E', I (history (om_step api) ops s).2 E' ∧ E'.*2 = (spec_history (om_spec cmp cap) ops E.*2).2 ∧
      ∀ i kv, (i, kv) ∈ E → (∀ k, MRemove k ∈ ops → cmp k kv.1 ≠ Eq) → ∃ v, (i, (kv.1, v)) ∈ E'.
  Proof using Hok.
    clear HO. revert s E. induction ops as [|o ops IH]; intros s E Hi; simpl.
    { split; [done|]. exists E. split_and!; [done|done|]. intros i [k v] Hin _. by exists v. }
    destruct (om_step_ok o s E Hi) as (H1 & E1 & Hi1 & HE1 & Hk1).
    destruct (call (om_step api o) s) as [r s1]. destruct (om_spec cmp cap o E.*2) as [r' l1]. simpl in *. subst r' l1.
    destruct (IH s1 E1 Hi1) as (H3 & E2 & Hi2 & HE2 & Hk2).
    destruct (history (om_step api) ops s1). destruct (spec_history (om_spec cmp cap) ops E1.*2). simpl in *.
    split; [by rewrite H3|]. exists E2. split_and!; [done|done|].
    intros i kv Hin Hne. destruct (Hk1 i kv Hin) as [v1 Hv1].
    { intros k ->. apply Hne. apply elem_of_list_here. }
    destruct (Hk2 i (kv.1, v1) Hv1) as [v2 Hv2]; [|by exists v2].
    intros k Hk. apply Hne. by apply elem_of_list_further.
  Qed.

  Lemma NoDup_fst_inj {A B} (l : list (A * B)) x y y' : NoDup l.*1 → (x, y) ∈ l → (x, y') ∈ l → y = y'.
  Proof using Type.
    clear. induction l as [|[x0 y0] l IH]; intros Hnd H1 H2; [by apply elem_of_nil in H1|].
    simpl in Hnd. apply NoDup_cons in Hnd as [Hn Hnd].
    apply elem_of_cons in H1 as [H1|H1]; apply elem_of_cons in H2 as [H2|H2]; simplify_eq; [done| | |by apply IH].
    - exfalso. apply Hn. apply elem_of_list_fmap. by exists (x0, y').
    - exfalso. apply Hn. apply elem_of_list_fmap. by exists (x0, y).
  Qed.

  Lemma below_mem (k : K) (l : list (K * V)) kv : below cmp k l → kv ∈ l → cmp k kv.1 = Gt.
  Proof using Type. clear. intros Hb Hin. unfold below in Hb. rewrite Forall_forall in Hb. by apply Hb. Qed.
  Lemma above_mem (k : K) (l : list (K * V)) kv : above cmp k l → kv ∈ l → cmp k kv.1 = Lt.
  Proof using Type. clear. intros Hb Hin. unfold above in Hb. rewrite Forall_forall in Hb. by apply Hb. Qed.

  (** a member's address *)
  Lemma om_addr_mem s E i kv k :
    I s E → (i, kv) ∈ E → cmp k kv.1 = Eq → a_addr api s k = Val i ∧ a_node api s i = Val kv ∧ a_get api s k = Val (Some kv.2).
  Proof using Hok.
    clear HO. intros Hi Hin Hc. destruct (ok_addr _ _ _ _ Hok s E k Hi) as (j & o & Hr & Ha & Hg).
    rewrite (ok_node _ _ _ _ Hok s E i kv Hi Hin), Ha, Hg.
    destruct Hr as [A B j kv' -> _ Hc2 Hb Hab|A B -> Hb Hab].
    - apply elem_of_app in Hin as [Hin|[Heq|Hin]%elem_of_cons].
      + apply (elem_of_list_fmap_1 snd) in Hin. apply (below_mem _ _ _ Hb) in Hin. simpl in Hin. congruence.
      + by simplify_eq.
      + apply (elem_of_list_fmap_1 snd) in Hin. apply (above_mem _ _ _ Hab) in Hin. simpl in Hin. congruence.
    - exfalso. apply elem_of_app in Hin as [Hin|Hin].
      + apply (elem_of_list_fmap_1 snd) in Hin. apply (below_mem _ _ _ Hb) in Hin. simpl in Hin. congruence.
      + apply (elem_of_list_fmap_1 snd) in Hin. apply (above_mem _ _ _ Hab) in Hin. simpl in Hin. congruence.
  Qed.
End sim.
