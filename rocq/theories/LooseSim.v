(** * Searches by an arbitrary comparison in ghost trees, and histories *)
From Verif Require Export LooseSpec MapSim.

Fixpoint bt_of {K V} (U : tree (K * V)) : bt K V :=
  match U with Lf => BL | Nd _ l i kv r => BN (bt_of l) i kv (bt_of r) end.

Section pure.
  Context {K V : Type} (cmp : K → K → comparison).
  Notation tree := (tree (K * V)).
  Notation frame := (frame (K * V)).
  Implicit Types U s l r : tree.
  Implicit Types ctx : list frame.

  Lemma bt_seq_of U : bt_seq (bt_of U) = entries U.
  Proof using Type. induction U as [|m l IHl i kv r IHr]; simpl; [done|]. by rewrite IHl, IHr. Qed.

  (** [ctx] is the way a search for [k] takes *)
  Definition follows (k : K) ctx : Prop := Forall (λ f, cmp k (fkv f).1 = if fd f then Gt else Lt) ctx.

  Lemma follows_nil k : follows k [].
  Proof using Type. constructor. Qed.
  Lemma follows_left k ctx m i kv o : cmp k kv.1 = Lt → follows k ctx → follows k (F false m i kv o :: ctx).
  Proof using Type. intros ??. by constructor. Qed.
  Lemma follows_right k ctx m i kv o : cmp k kv.1 = Gt → follows k ctx → follows k (F true m i kv o :: ctx).
  Proof using Type. intros ??. by constructor. Qed.
  Lemma tdesc_follows k ctx s :
    follows k ctx → follows k (tdesc cmp k ctx s).1 ∧
      ((tdesc cmp k ctx s).2 = Lf ∨ ∃ m l a kv r, (tdesc cmp k ctx s).2 = Nd m l a kv r ∧ cmp k kv.1 = Eq).
  Proof using Type.
    revert ctx. induction s as [|m l IHl a kv r IHr]; intros ctx Hf; simpl; [auto|].
    destruct (cmp k kv.1) eqn:E; simpl.
    - split; [done|]. right. eauto 10.
    - apply IHl. by apply follows_left.
    - apply IHr. by apply follows_right.
  Qed.

  Lemma bt_find_plug k ctx s : follows k ctx → bt_find cmp k (bt_of (plug ctx s)) = bt_find cmp k (bt_of s).
  Proof using Type.
    revert s. induction ctx as [|[d m a kv o] ctx IH]; intros s Hf; simpl; [done|].
    apply Forall_cons in Hf as [Hk Hf]. simpl in Hk. rewrite IH by done. destruct d; simpl; by rewrite Hk.
  Qed.
  Lemma bt_put_plug k x ctx s :
    follows k ctx → bt_put cmp k x (bt_of (plug ctx s)) = cbef ctx ++ bt_put cmp k x (bt_of s) ++ caft ctx.
  Proof using Type.
    revert s. induction ctx as [|[d m a kv o] ctx IH]; intros s Hf; simpl; [by rewrite app_nil_r|].
    apply Forall_cons in Hf as [Hk Hf]. simpl in Hk. rewrite IH by done. destruct d; simpl; rewrite Hk, bt_seq_of.
    all: by rewrite <- ?app_assoc, ?app_nil_r.
  Qed.
  Lemma bt_del_plug k ctx s :
    follows k ctx → bt_del cmp k (bt_of (plug ctx s)) = cbef ctx ++ bt_del cmp k (bt_of s) ++ caft ctx.
  Proof using Type.
    revert s. induction ctx as [|[d m a kv o] ctx IH]; intros s Hf; simpl; [by rewrite app_nil_r|].
    apply Forall_cons in Hf as [Hk Hf]. simpl in Hk. rewrite IH by done. destruct d; simpl; rewrite Hk, bt_seq_of.
    all: by rewrite <- ?app_assoc, ?app_nil_r.
  Qed.
  Lemma bt_upd_plug k f ctx s s' :
    follows k ctx → bt_upd cmp k f (bt_of s) = bt_of s' → bt_upd cmp k f (bt_of (plug ctx s)) = bt_of (plug ctx s').
  Proof using Type.
    revert s s'. induction ctx as [|[d m a kv o] ctx IH]; intros s s' Hf He; simpl; [done|].
    apply Forall_cons in Hf as [Hk Hf]. simpl in Hk. apply IH; [done|]. destruct d; simpl; by rewrite Hk, He.
  Qed.
  Lemma bt_upd_absent k f (T : bt K V) : bt_find cmp k T = None → bt_upd cmp k f T = T.
  Proof using Type.
    induction T as [|l IHl i kv r IHr]; simpl; [done|]. destruct (cmp k kv.1); [done| |]; intros Hn.
    - by rewrite IHl.
    - by rewrite IHr.
  Qed.

  (** at a node that compares equal *)
  Lemma found_find k ctx m l i kv r :
    follows k ctx → cmp k kv.1 = Eq → bt_find cmp k (bt_of (plug ctx (Nd m l i kv r))) = Some (i, kv).
  Proof using Type. intros Hf Hk. rewrite bt_find_plug by done. simpl. by rewrite Hk. Qed.
  Lemma found_upd k f ctx m l i kv r :
    follows k ctx → cmp k kv.1 = Eq →
    bt_upd cmp k f (bt_of (plug ctx (Nd m l i kv r))) = bt_of (plug ctx (Nd m l i (kv.1, f kv.2) r)).
  Proof using Type. intros Hf Hk. apply bt_upd_plug; [done|]. simpl. by rewrite Hk. Qed.
  Lemma found_del k ctx m l i kv r :
    follows k ctx → cmp k kv.1 = Eq →
    bt_del cmp k (bt_of (plug ctx (Nd m l i kv r))) = cbef ctx ++ (entries l ++ entries r) ++ caft ctx.
  Proof using Type. intros Hf Hk. rewrite bt_del_plug by done. simpl. by rewrite Hk, !bt_seq_of. Qed.
  (** at a missing child *)
  Lemma absent_find k ctx : follows k ctx → bt_find cmp k (bt_of (plug ctx Lf)) = None.
  Proof using Type. intros Hf. by rewrite bt_find_plug. Qed.
  Lemma absent_put k x ctx : follows k ctx → bt_put cmp k x (bt_of (plug ctx Lf)) = cbef ctx ++ x :: caft ctx.
  Proof using Type. intros Hf. by rewrite bt_put_plug. Qed.

  Lemma same_bt_keys U U' : same_shape U U' → (entries U').*2.*1 = (entries U).*2.*1 → bt_keys (bt_of U') = bt_keys (bt_of U).
  Proof using Type.
    induction 1 as [|m l a kv kv' r l' r' H1 IH1 H2 IH2]; simpl; [done|].
    rewrite !fmap_app, !fmap_cons. simpl. intros He.
    assert (length (entries l').*2.*1 = length (entries l).*2.*1) as Hl.
    { rewrite !fmap_length. pose proof (same_shape_addrs _ _ H1) as Ha. apply (f_equal length) in Ha. by rewrite !fmap_length in Ha. }
    apply app_inj_1 in He as [He1 [= He2 He3]]; [|done].
    by rewrite IH1, IH2, He2.
  Qed.
End pure.

(** What has to be shown of a model: [I s T] says that state [s] holds tree [T]. *)
Record lm_ok {S K V} (api : oapi S K V) (cmp : K → K → comparison) (cap : N) (I : S → bt K V → Prop) : Prop := {
  lk_insert : ∀ s T k v, I s T → wp (a_insert api k v) s (λ o s', ∃ T', I s' T' ∧
    bt_step cmp cap (Some (MInsert k v)) T (Val (MBool (match o with Some _ => true | None => false end))) T');
  lk_remove : ∀ s T k, I s T → wp (a_remove api k) s (λ o s', ∃ T', I s' T' ∧
    bt_step cmp cap (Some (MRemove k)) T (Val (MVal o)) T');
  lk_get : ∀ s T k, I s T → a_get api s k = Val (bt_get cmp k T);
  lk_get_mut : ∀ s T k f, I s T → wp (a_get_mut api k f) s (λ o s', o = bt_get cmp k T ∧ I s' (bt_upd cmp k f T));
  lk_contains : ∀ s k o, a_get api s k = Val o → a_contains api s k = Val (match o with Some _ => true | None => false end);
  lk_len : ∀ s T, I s T → a_len api s = lengthN (bt_seq T);
  lk_capacity : ∀ s T, I s T → a_capacity api s = cap;
  lk_min : ∀ s T, I s T → a_min api s = Val (head (bt_seq T).*2);
  lk_max : ∀ s T, I s T → a_max api s = Val (last (bt_seq T).*2);
  lk_index : ∀ s k o, a_get api s k = Val o → a_index api s k = match o with Some v => Val v | None => Err Panic end;
  lk_index_mut : ∀ s k f o s', a_get_mut api k f s = Ret o s' →
    a_index_mut api k f s = match o with Some v => Ret v s' | None => Fail Panic s' end;
  lk_iter : ∀ s T sc, I s T → a_iter api s sc = Val (de_spec sc (bt_seq T).*2);
  lk_iter_mut : ∀ s T sc, I s T →
    wp (a_iter_mut api sc) s (λ o s', o = (de_mut_spec upd_ent sc (bt_seq T)).1 ∧
      ∃ T', I s' T' ∧ bt_keys T' = bt_keys T ∧ bt_seq T' = (de_mut_spec upd_ent sc (bt_seq T)).2);
}.

Lemma lm_step_ok {S K V} (api : oapi S K V) cmp cap (I : S → bt K V → Prop) o s T :
  lm_ok api cmp cap I → I s T →
  ∃ r s' T', call (om_step api o) s = (r, s') ∧ I s' T' ∧ bt_step cmp cap (Some o) T r T'.
Proof.
  intros Hok Hi. destruct o as [k v|k|k|k f|k| | | | | |k|k f|sc|sc]; unfold om_step.
  - destruct (wp_elim _ _ _ (lk_insert _ _ _ _ Hok s T k v Hi)) as (o & s' & He & T' & Hi' & Hs).
    unfold call, mbind, M_bind. rewrite He. simpl. by eexists _, s', T'.
  - destruct (wp_elim _ _ _ (lk_remove _ _ _ _ Hok s T k Hi)) as (o & s' & He & T' & Hi' & Hs).
    unfold call, mbind, M_bind. rewrite He. simpl. by eexists _, s', T'.
  - unfold call, mbind, M_bind, gets. rewrite (lk_get _ _ _ _ Hok s T k Hi). simpl. eexists _, s, T.
    split_and!; [done|done|by constructor].
  - destruct (wp_elim _ _ _ (lk_get_mut _ _ _ _ Hok s T k f Hi)) as (o & s' & He & -> & Hi').
    unfold call, mbind, M_bind. rewrite He. simpl. eexists _, s', _. split_and!; [done|exact Hi'|constructor].
  - unfold call, mbind, M_bind, gets. rewrite (lk_contains _ _ _ _ Hok s k _ (lk_get _ _ _ _ Hok s T k Hi)). simpl.
    eexists _, s, T. split_and!; [done|done|]. constructor. unfold bt_get. simpl. by destruct (bt_find cmp k T).
  - unfold call, mbind, M_bind, mget. simpl. rewrite (lk_len _ _ _ _ Hok s T Hi). eexists _, s, T.
    split_and!; [done|done|by constructor].
  - unfold call, mbind, M_bind, mget. simpl. rewrite (lk_len _ _ _ _ Hok s T Hi). eexists _, s, T.
    split_and!; [done|done|by constructor].
  - unfold call, mbind, M_bind, mget. simpl. rewrite (lk_capacity _ _ _ _ Hok s T Hi). eexists _, s, T.
    split_and!; [done|done|by constructor].
  - unfold call, mbind, M_bind, gets. rewrite (lk_min _ _ _ _ Hok s T Hi). simpl. eexists _, s, T.
    split_and!; [done|done|by constructor].
  - unfold call, mbind, M_bind, gets. rewrite (lk_max _ _ _ _ Hok s T Hi). simpl. eexists _, s, T.
    split_and!; [done|done|by constructor].
  - unfold call, mbind, M_bind, gets. rewrite (lk_index _ _ _ _ Hok s k _ (lk_get _ _ _ _ Hok s T k Hi)).
    exists (match bt_get cmp k T with Some v => Val (MRef v) | None => Err Panic end), s, T.
    split_and!; [by destruct (bt_get cmp k T)|done|by constructor].
  - destruct (wp_elim _ _ _ (lk_get_mut _ _ _ _ Hok s T k f Hi)) as (o & s' & He & -> & Hi').
    apply (lk_index_mut _ _ _ _ Hok) in He.
    unfold call, mbind, M_bind. rewrite He.
    exists (match bt_get cmp k T with Some v => Val (MRef v) | None => Err Panic end), s', (bt_upd cmp k f T).
    split_and!; [by destruct (bt_get cmp k T)|done|constructor].
  - unfold call, mbind, M_bind, gets. rewrite (lk_iter _ _ _ _ Hok s T sc Hi). simpl. eexists _, s, T.
    split_and!; [done|done|by constructor].
  - destruct (wp_elim _ _ _ (lk_iter_mut _ _ _ _ Hok s T sc Hi)) as (o & s' & He & -> & T' & Hi' & Hk & Hs).
    unfold call, mbind, M_bind. rewrite He. simpl.
    pose proof (de_mut_spec_map snd upd_ent (λ (f : V → V) (x : K * V), (x.1, f x.2)) sc (bt_seq T) (λ _ _, eq_refl)) as Hm.
    change (map snd (bt_seq T)) with ((bt_seq T).*2) in Hm.
    eexists _, s', T'. split_and!; [done|done|].
    match goal with |- bt_step _ _ _ _ (Val (MList ?y)) _ =>
      replace y with (de_mut_spec (λ (f : V → V) (x : K * V), (x.1, f x.2)) sc (bt_seq T).*2).1 by (by rewrite Hm) end.
    constructor; [done|]. rewrite Hm. simpl. by rewrite Hs.
Qed.

(** ** Facts about [bt_step] *)
Section facts.
  Context {K V : Type} (cmp : K → K → comparison).
  Implicit Types T : bt K V.

  Lemma bt_put_perm k x T : bt_find cmp k T = None → bt_put cmp k x T ≡ₚ x :: bt_seq T.
  Proof.
    induction T as [|l IHl i kv r IHr]; simpl; [done|]. destruct (cmp k kv.1); [done| |]; intros Hn.
    - by rewrite IHl.
    - rewrite IHr by done. rewrite (Permutation_swap x (i, kv)). by rewrite <- Permutation_middle.
  Qed.
  Lemma bt_del_perm k x T : bt_find cmp k T = Some x → bt_seq T ≡ₚ x :: bt_del cmp k T.
  Proof.
    induction T as [|l IHl i kv r IHr]; simpl; [done|]. destruct (cmp k kv.1); intros Hn.
    - injection Hn as <-. by rewrite Permutation_middle.
    - by rewrite (IHl Hn).
    - rewrite (IHr Hn). rewrite (Permutation_swap x (i, kv)). by rewrite <- Permutation_middle.
  Qed.
  Lemma bt_keys_upd k f T : bt_keys (bt_upd cmp k f T) = bt_keys T.
  Proof.
    induction T as [|l IHl i kv r IHr]; simpl; [done|]. destruct (cmp k kv.1); simpl; [done|by rewrite IHl|by rewrite IHr].
  Qed.

  Lemma bt_step_err cap o T a T' e :
    bt_step cmp cap o T a T' → a = Err e → e = Panic ∧ ∃ k, o = Some (MIndex k) ∨ ∃ f, o = Some (MIndexMut k f).
  Proof.
    destruct 1 as [| | | | |o a T Hr|k f T|k f T| | |]; try done.
    - intros ->. destruct o; simpl in Hr; try done. destruct (bt_get cmp k T); [done|]. injection Hr as <-. eauto.
    - intros He. destruct (bt_get cmp k T); [done|]. injection He as <-. eauto.
  Qed.
  Lemma bt_run_err cap ops T rs T' :
    bt_run cmp cap ops T rs T' →
    Forall2 (λ o a, ∀ e, a = Err e → e = Panic ∧ ∃ k, o = Some (MIndex k) ∨ ∃ f, o = Some (MIndexMut k f)) ops rs.
  Proof. induction 1; constructor; [|done]. intros e. by eapply bt_step_err. Qed.

  Lemma bt_step_keeps cap o T a T' :
    bt_step cmp cap o T a T' →
    bt_keys T' = bt_keys T ∨
    (∃ k v i, o = Some (MInsert k v) ∧ a = Val (MBool true) ∧ bt_seq T' ≡ₚ (i, (k, v)) :: bt_seq T) ∨
    (∃ k i kv, o = Some (MRemove k) ∧ a = Val (MVal (Some kv.2)) ∧ cmp k kv.1 = Eq ∧ bt_seq T ≡ₚ (i, kv) :: bt_seq T') ∨
    (∃ i kv, o = None ∧ a = Val (MPair (Some kv)) ∧ bt_seq T ≡ₚ (i, kv) :: bt_seq T').
  Proof.
    destruct 1 as [k v x T Hf|k v i T T' Hf Hl Hi Hz Hc Hs| |k x T T' Hf Hs| | | | | | |l i kv r T' Hs]; auto using bt_keys_upd.
    - right. left. exists k, v, i. split_and!; [done|done|]. rewrite Hs. by apply bt_put_perm.
    - right. right. left. exists k, x.1, x.2. split_and!; [done|done| |].
      + clear Hs. induction T as [|l IHl i kv r IHr]; simpl in *; [done|]. destruct (cmp k kv.1) eqn:E; [|by apply IHl|by apply IHr].
        by injection Hf as <-.
      + rewrite Hs. destruct x. by apply bt_del_perm.
    - right. right. right. exists i, kv. split_and!; [done|done|]. simpl. rewrite Hs. by rewrite Permutation_middle.
  Qed.

  (** *** With a total order: the ordered map of [MapSpec] *)
  Fixpoint tree_of T : tree (K * V) :=
    match T with BL => Lf | BN l i kv r => Nd 0 (tree_of l) i kv (tree_of r) end.
  Lemma bt_of_tree_of T : bt_of (tree_of T) = T.
  Proof. induction T as [|l IHl i kv r IHr]; simpl; [done|]. by rewrite IHl, IHr. Qed.
  Lemma bt_lawful k x T :
    OrdLaws cmp → ascending cmp (bt_seq T).*2 → x.2.1 = k →
    bt_get cmp k T = om_get cmp k (bt_seq T).*2 ∧
    (bt_find cmp k T = None → (bt_put cmp k x T).*2 = om_insert cmp k x.2.2 (bt_seq T).*2) ∧
    (bt_find cmp k T ≠ None → (bt_del cmp k T).*2 = om_remove cmp k (bt_seq T).*2) ∧
    ∀ f, (bt_seq (bt_upd cmp k f T)).*2 = om_alter cmp k f (bt_seq T).*2.
  Proof.
    intros HO. rewrite <- (bt_of_tree_of T). generalize (tree_of T). intros U. rewrite bt_seq_of. intros Ha Hx.
    destruct (tdesc_ok cmp HO k [] U Ha (onpath_nil cmp k)) as [Hon _].
    destruct (tdesc_follows cmp k [] U (follows_nil cmp k)) as [Hf Hd]. pose proof (tdesc_plug cmp k [] U) as Hp.
    destruct (tdesc cmp k [] U) as [ctx s]. simpl in *. subst U. unfold bt_get, om_get.
    destruct Hd as [->|(m & l & i & kv & r & -> & Hk)].
    - rewrite absent_find by done. destruct (spec_absent cmp k ctx Hon) as (-> & Hi & _ & Hal). split_and!; [done| |done|].
      + intros _. rewrite Hi, absent_put by done. rewrite fmap_app, fmap_cons. destruct x as [? [? ?]]. simpl in *. by subst.
      + intros f. by rewrite bt_upd_absent, bt_seq_of, Hal by (by apply absent_find).
    - destruct (spec_found cmp HO k ctx m l i kv r Ha Hk) as (Hfi & _ & Hr & Hal). rewrite found_find, Hfi by done.
      split_and!; [done|done| |].
      + intros _. rewrite Hr, found_del by done. by rewrite !fmap_app, <- !app_assoc.
      + intros f. by rewrite Hal, found_upd, bt_seq_of by done.
  Qed.
End facts.
