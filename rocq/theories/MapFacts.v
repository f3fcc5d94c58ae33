(** * Facts about a single state of an ordered map, from the one-step facts [om_ok] *)
From Verif Require Export MapSim.

Section spec.
  Context {K V : Type} (cmp : K → K → comparison).
  Lemma om_run_det cap (ops : list (option (om_op K V))) l rs l1 l2 :
    om_run cmp cap ops l rs l1 → om_run cmp cap ops l rs l2 → l1 = l2.
  Proof.
    intros H1. revert l2. induction H1 as [l|o ops l rs l' H1 IH|ops rs l' H1 IH|kv ops l rs l' Hin H1 IH]; intros l2 H2;
      inversion H2; subst; auto.
  Qed.
  Lemma om_run_ops cap (ops : list (om_op K V)) l rs l' :
    om_run cmp cap (map Some ops) l rs l' ↔ spec_history (om_spec cmp cap) ops l = (rs, l').
  Proof.
    revert l rs l'. induction ops as [|o ops IH]; intros l rs l'; simpl.
    - split; [by inversion 1|]. intros [= <- <-]. constructor.
    - split.
      + inversion 1; subst. destruct (om_spec cmp cap o l) as [r l1]. simpl in *.
        match goal with H : om_run _ _ _ _ _ _ |- _ => apply IH in H; by rewrite H end.
      + destruct (om_spec cmp cap o l) as [r l1] eqn:E1. destruct (spec_history (om_spec cmp cap) ops l1) as [rs1 l2] eqn:E2.
        intros [= <- <-]. pose proof (run_op cmp cap o (map Some ops) l rs1 l2) as Hr. rewrite E1 in Hr. apply Hr.
        by apply IH.
  Qed.

  (** The ends of an ascending list are its extremes *)
  Lemma asc_head (l : list (K * V)) kv kv' :
    ascending cmp l → head l = Some kv → kv' ∈ l → kv' = kv ∨ cmp kv.1 kv'.1 = Lt.
  Proof.
    intros Ha Hh Hin. destruct l as [|x l]; [done|]. injection Hh as ->. inversion Ha as [|? ? ? Hf]; subst.
    apply elem_of_cons in Hin as [->|Hin]; [by left|]. right. rewrite Forall_forall in Hf. by apply Hf.
  Qed.
  Lemma asc_last (l : list (K * V)) kv kv' :
    ascending cmp l → last l = Some kv → kv' ∈ l → kv' = kv ∨ cmp kv'.1 kv.1 = Lt.
  Proof.
    induction l as [|x l IH]; intros Ha Hh Hin; [done|]. inversion Ha as [|? ? Ha' Hf]; subst.
    destruct l as [|y l].
    - injection Hh as ->. apply elem_of_list_singleton in Hin as ->. by left.
    - simpl in Hh. apply elem_of_cons in Hin as [->|Hin]; [|by apply IH].
      right. rewrite Forall_forall in Hf. apply Hf. apply (last_Some_elem_of (y :: l)). done.
  Qed.
  Lemma asc_find_mem (HO : OrdLaws cmp) (l : list (K * V)) kv : om_find cmp kv.1 l = Some kv → kv ∈ l.
  Proof.
    induction l as [|x l IH]; simpl; [done|]. destruct (cmp kv.1 x.1); [intros [= ->]; apply elem_of_list_here|..];
    intros; apply elem_of_list_further; by apply IH.
  Qed.
End spec.

Section facts.
  Context {S K V : Type} (api : oapi S K V) (cmp : K → K → comparison) (HO : OrdLaws cmp) (cap : N)
    (I : S → list (N * (K * V)) → Prop) (Hok : om_ok api cmp cap I).
  Implicit Types s : S.
  Implicit Types E : list (N * (K * V)).

  (** The lookups agree *)
  Lemma fact_agree s E k :
    I s E → ∃ i, a_addr api s k = Val i ∧ a_get api s k = Val (om_get cmp k E.*2) ∧
      a_contains api s k = Val (match om_get cmp k E.*2 with Some _ => true | None => false end) ∧
      match om_find cmp k E.*2 with
      | Some kv => i ≠ SENTINEL ∧ a_node api s i = Val kv ∧ cmp k kv.1 = Eq ∧ (i, kv) ∈ E
      | None => i = SENTINEL
      end.
  Proof using Hok.
    clear HO. intros Hi. destruct (ok_addr _ _ _ _ Hok s E k Hi) as (i & o & Hr & Ha & Hg).
    pose proof (get_rel_find _ _ _ _ _ Hr) as Hf. exists i. unfold om_get. rewrite Hf. rewrite (ok_contains _ _ _ _ Hok _ _ _ Hg).
    split_and!; [done|done|done|].
    destruct Hr as [A B i kv -> Hnz Hc Hb Hab|A B -> Hb Hab]; [|done].
    assert ((i, kv) ∈ A ++ (i, kv) :: B) as Hin by (apply elem_of_app; right; apply elem_of_list_here).
    split_and!; [done| |done|done]. by eapply (ok_node _ _ _ _ Hok).
  Qed.
  Lemma fact_index s E k :
    I s E → a_index api s k = match om_get cmp k E.*2 with Some v => Val v | None => Err Panic end.
  Proof using Hok.
    clear HO. intros Hi. destruct (fact_agree s E k Hi) as (i & _ & Hg & _). by apply (ok_index _ _ _ _ Hok).
  Qed.
  Lemma fact_index_mut s E k f :
    I s E → ∃ s' E', I s' E' ∧
      match om_get cmp k E.*2 with
      | Some v => a_index_mut api k f s = Ret v s' ∧ E'.*1 = E.*1 ∧ E'.*2 = om_alter cmp k f E.*2
      | None => a_index_mut api k f s = Fail Panic s ∧ s' = s ∧ E' = E
      end.
  Proof using Hok.
    clear HO. intros Hi. destruct (wp_elim _ _ _ (ok_get_mut _ _ _ _ Hok s E k f Hi)) as (o & s' & He & E' & Hi' & Hr & Hn).
    apply (ok_index_mut _ _ _ _ Hok) in He. exists s', E'. split; [done|]. destruct (upd_rel_spec _ _ _ _ _ _ Hr) as [-> Hal].
    destruct Hr as [A B i kv -> Hc Hb Hab|A B -> Hb Hab].
    - split_and!; [done| |done]. by rewrite !fmap_app, !fmap_cons.
    - split_and!; [|by apply Hn|done]. rewrite He. by rewrite Hn.
  Qed.
  Lemma fact_upsert s E k v v0 :
    I s E → om_get cmp k E.*2 = Some v0 →
    ∃ i s' E', a_insert api k v s = Ret (Some i) s' ∧ I s' E' ∧ a_addr api s k = Val i ∧ a_addr api s' k = Val i ∧
      a_get api s' k = Val (Some v) ∧
      E'.*1 = E.*1 ∧ E'.*2 = om_insert cmp k v E.*2 ∧ lengthN E'.*2 = lengthN E.*2.
  Proof using Hok.
    clear HO. intros Hi Hg. destruct (wp_elim _ _ _ (ok_insert _ _ _ _ Hok s E k v Hi)) as (o & s' & He & E' & Hi' & Hr & Hn).
    pose proof (ins_rel_spec _ _ _ _ _ _ _ Hr) as Hsp. unfold om_spec in Hsp. unfold om_get in Hg.
    destruct (om_find cmp k E.*2) as [kv0|] eqn:Ef; [|done]. injection Hsp as Ho Hsp.
    destruct Hr as [A B i kv -> Hc Hb Hab|A B i -> Hl Hb Hab _ _ _|A B -> Hl Hb Hab]; [|exfalso|done].
    - exists i, s', (A ++ (i, (kv.1, v)) :: B). split_and!; [done|done| | | | |done|].
      + eapply (om_addr_mem api cmp cap I Hok s); [exact Hi| |exact Hc]. apply elem_of_app. right. apply elem_of_list_here.
      + eapply (om_addr_mem api cmp cap I Hok s' _ i (kv.1, v)); [exact Hi'| |exact Hc]. apply elem_of_app. right. apply elem_of_list_here.
      + eapply (om_addr_mem api cmp cap I Hok s' _ i (kv.1, v)); [exact Hi'| |exact Hc]. apply elem_of_app. right. apply elem_of_list_here.
      + by rewrite !fmap_app, !fmap_cons.
      + unfold lengthN. by rewrite !fmap_app, !fmap_cons, !app_length.
    - rewrite fmap_app in Ef. by rewrite om_find_absent in Ef.
  Qed.
  Lemma fact_full s E k v :
    I s E → om_get cmp k E.*2 = None → lengthN E.*2 = cap → a_insert api k v s = Ret None s.
  Proof using Hok.
    clear HO. intros Hi Hg Hl. destruct (wp_elim _ _ _ (ok_insert _ _ _ _ Hok s E k v Hi)) as (o & s' & He & E' & Hi' & Hr & Hn).
    pose proof (ins_rel_spec _ _ _ _ _ _ _ Hr) as Hsp. unfold om_spec in Hsp. unfold om_get in Hg.
    destruct (om_find cmp k E.*2) as [kv0|] eqn:Ef; [done|]. rewrite decide_False in Hsp by lia. injection Hsp as Ho Hsp.
    destruct o; [done|]. rewrite He. by rewrite Hn.
  Qed.
  Lemma fact_insert_addr s E k v i s' :
    I s E → a_insert api k v s = Ret (Some i) s' →
    ∃ E' k0, I s' E' ∧ (i, (k0, v)) ∈ E' ∧ cmp k k0 = Eq ∧ E'.*2 = om_insert cmp k v E.*2.
  Proof using Hok HO.
    intros Hi He'. destruct (wp_elim _ _ _ (ok_insert _ _ _ _ Hok s E k v Hi)) as (o & s1 & He & E' & Hi' & Hr & Hn).
    rewrite He in He'. injection He' as -> ->.
    pose proof (ins_rel_spec _ _ _ _ _ _ _ Hr) as Hsp. unfold om_spec in Hsp.
    assert (E'.*2 = om_insert cmp k v E.*2) as HE.
    { destruct (om_find cmp k E.*2); [by injection Hsp|]. case_decide; by injection Hsp. }
    inversion Hr as [A B j kv HEE Hc Hb Hab|A B j HEE Hl Hb Hab _ _ _|]; subst.
    - eexists _, kv.1. split_and!; [exact Hi'| |done|done]. apply elem_of_app. right. apply elem_of_list_here.
    - eexists _, k. split_and!; [exact Hi'| |by apply cmp_refl|done]. apply elem_of_app. right. apply elem_of_list_here.
  Qed.
  Lemma fact_min s E kv : I s E → head E.*2 = Some kv → a_min api s = Val (Some kv) ∧ ∀ kv', kv' ∈ E.*2 → kv' = kv ∨ cmp kv.1 kv'.1 = Lt.
  Proof using Hok.
    clear HO. intros Hi Hh. rewrite (ok_min _ _ _ _ Hok s E Hi), Hh. split; [done|]. intros kv'. eapply asc_head; [|done].
    by eapply (ok_asc _ _ _ _ Hok).
  Qed.
  (** Everything about one [iter_mut] session *)
  Lemma fact_iter_mut s E sc :
    I s E → let '(out, E') := de_mut_spec upd_ent sc E in
    ∃ s', a_iter_mut api sc s = Ret out s' ∧ I s' E' ∧ NoDup (map fst (omap id out)) ∧ E'.*1 = E.*1 ∧ E'.*2.*1 = E.*2.*1.
  Proof using Hok.
    clear HO. intros Hi. destruct (wp_elim _ _ _ (ok_iter_mut _ _ _ _ Hok s E sc Hi)) as (o & s' & He & Ho & Hi').
    pose proof (de_mut_spec_out upd_ent sc E) as Hout.
    pose proof (de_mut_spec_keys upd_ent fst sc E (λ _ _, eq_refl)) as Hk1.
    pose proof (de_mut_spec_keys upd_ent (λ x : N * (K * V), x.2.1) sc E (λ _ _, eq_refl)) as Hk2.
    destruct (de_mut_spec upd_ent sc E) as [out E']. simpl in *. subst o out.
    exists s'. split_and!; [done|done| |exact Hk1|].
    - apply de_spec_NoDup. by eapply (ok_nodup _ _ _ _ Hok).
    - rewrite <- !list_fmap_compose. exact Hk2.
  Qed.
End facts.

(** Registers after changes of values only *)
Lemma same_regs `{Profile} {K V} rg nr cap (a a' : alloc (K * V)) U U' i n :
  CH nr cap a (cells rg 0 U) → CH nr cap a' (cells rg 0 U') → same_shape U U' → i ∈ (entries U).*1 → na_get a i = Val n →
  ∃ n', na_get a' i = Val n' ∧ regs n' = regs n.
Proof.
  intros Hc Hc' Hss Hi Hn.
  assert (∀ p i nd, (i, nd) ∈ cells rg p U → ∃ nd', (i, nd') ∈ cells rg p U' ∧ regs nd' = regs nd) as Hcells.
  { clear Hc Hc' Hi Hn. induction Hss as [|m l a0 kv kv' r l' r' Hl IHl Hr IHr]; intros p j nd; simpl; [by intros ?%elem_of_nil|].
    rewrite <- (same_shape_root _ _ Hl), <- (same_shape_root _ _ Hr).
    intros [[= -> ->]|[Hin|Hin]%elem_of_app]%elem_of_cons.
    - eexists. split; [apply elem_of_list_here|done].
    - destruct (IHl _ _ _ Hin) as (nd' & ? & ?). exists nd'. split; [|done]. rewrite elem_of_cons, elem_of_app. auto.
    - destruct (IHr _ _ _ Hin) as (nd' & ? & ?). exists nd'. split; [|done]. rewrite elem_of_cons, elem_of_app. auto. }
  apply elem_of_list_fmap in Hi as ([? kv] & -> & Hi). destruct (cells_entries rg 0 _ _ _ Hi) as [rs Hrs]. simpl in *.
  rewrite (CH_get _ _ _ _ _ _ Hc Hrs) in Hn. injection Hn as <-.
  destruct (Hcells _ _ _ Hrs) as (nd' & Hin' & He). exists nd'. split; [|done]. by eapply CH_get.
Qed.
