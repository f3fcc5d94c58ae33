(** * HashTable: iteration, histories, and the facts behind the properties *)
From Verif Require Export HashProof.

(** ** Iterators whose [next_back] always says [None] *)
Section drive_fw.
  Context {IT A : Type} (next next_back : IT → res (option A * IT)) (I : IT → list A → Prop).
  Hypothesis Hn0 : ∀ it, I it [] → ∃ it', next it = Val (None, it') ∧ I it' [].
  Hypothesis Hn1 : ∀ it x l, I it (x :: l) → ∃ it', next it = Val (Some x, it') ∧ I it' l.
  Hypothesis Hb : ∀ it, next_back it = Val (None, it).
  Lemma drive_fw_ok script it l : I it l → drive next next_back script it = Val (fw_spec script l).
  Proof.
    revert it l. induction script as [|[] script IH]; intros it l Hi; simpl; [done|..].
    - destruct l as [|x l].
      + destruct (Hn0 _ Hi) as (it' & -> & Hi'). cbn. by rewrite (IH _ _ Hi').
      + destruct (Hn1 _ _ _ Hi) as (it' & -> & Hi'). cbn. by rewrite (IH _ _ Hi').
    - rewrite Hb. cbn. by rewrite (IH _ _ Hi).
  Qed.
End drive_fw.
Section drive_mut_fw.
  Context {S A V : Type} (next next_back : (V → V) → M S (option A)) (upd : (V → V) → A → A) (J : S → list A → list A → Prop).
  Hypothesis Hn0 : ∀ s P f, J s P [] → wp (next f) s (λ o s', o = None ∧ J s' P []).
  Hypothesis Hn1 : ∀ s P x l f, J s P (x :: l) → wp (next f) s (λ o s', o = Some x ∧ J s' (P ++ [upd f x]) l).
  Hypothesis Hb : ∀ f, next_back f = mret None.
  Lemma drive_mut_fw_ok script s P l :
    J s P l →
    wp (drive_mut next next_back script) s (λ o s', o = (fw_mut_spec upd script l).1 ∧
      ∃ P' l', J s' P' l' ∧ P' ++ l' = P ++ (fw_mut_spec upd script l).2).
  Proof.
    revert s P l. induction script as [|[[] f] script IH]; intros s P l Hj; simpl.
    { apply wp_ret. split; [done|]. eauto. }
    - destruct l as [|x l]; apply wp_bind.
      + eapply wp_mono; [by apply Hn0|]. intros o s' [-> Hj']. apply wp_bind.
        eapply wp_mono; [by eapply IH|]. intros o' s'' [-> Hs]. apply wp_ret.
        destruct (fw_mut_spec upd script []). simpl in *. eauto.
      + eapply wp_mono; [by apply Hn1|]. intros o s' [-> Hj']. apply wp_bind.
        eapply wp_mono; [by eapply IH|]. intros o' s'' [-> Hs]. apply wp_ret.
        destruct (fw_mut_spec upd script l). simpl in *. split; [done|].
        destruct Hs as (P' & l' & ? & He). exists P', l'. split; [done|].
        rewrite He, <- app_assoc. done.
    - rewrite Hb. apply wp_bind, wp_ret. apply wp_bind. eapply wp_mono; [by eapply IH|]. intros o' s'' [-> Hs]. apply wp_ret.
      destruct (fw_mut_spec upd script l). simpl in *. eauto.
  Qed.
End drive_mut_fw.

Lemma fw_spec_map {A B} (f : A → B) sc l : map (option_map f) (fw_spec sc l) = fw_spec sc (map f l).
Proof. revert l. induction sc as [|[] sc IH]; intros l; simpl; [done|..]; [destruct l; simpl|]; by rewrite ?IH. Qed.
Lemma fw_mut_spec_out {A V} (u : (V → V) → A → A) sc l : (fw_mut_spec u sc l).1 = fw_spec sc.*1 l.
Proof.
  revert l. induction sc as [|[[] f] sc IH]; intros l; simpl; [done|..].
  - destruct l as [|x l].
    + specialize (IH []). destruct (fw_mut_spec u sc []). simpl in *. by rewrite IH.
    + specialize (IH l). destruct (fw_mut_spec u sc l). simpl in *. by rewrite IH.
  - specialize (IH l). destruct (fw_mut_spec u sc l). simpl in *. by rewrite IH.
Qed.
Lemma fw_mut_spec_keys {A B V} (u : (V → V) → A → A) (f : A → B) sc l :
  (∀ g x, f (u g x) = f x) → map f (fw_mut_spec u sc l).2 = map f l.
Proof.
  intros Hf. revert l. induction sc as [|[[] g] sc IH]; intros l; simpl; [done|..].
  - destruct l as [|x l]; simpl.
    + specialize (IH []). destruct (fw_mut_spec u sc []). done.
    + specialize (IH l). destruct (fw_mut_spec u sc l). simpl in *. by rewrite Hf, IH.
  - specialize (IH l). destruct (fw_mut_spec u sc l). done.
Qed.
Lemma fw_mut_spec_map {A B V} (f : A → B) (u : (V → V) → A → A) (w : (V → V) → B → B) sc l :
  (∀ g x, f (u g x) = w g (f x)) →
  fw_mut_spec w sc (map f l) = (map (option_map f) (fw_mut_spec u sc l).1, map f (fw_mut_spec u sc l).2).
Proof.
  intros Hf. revert l. induction sc as [|[[] g] sc IH]; intros l; simpl; [done|..].
  - destruct l as [|x l]; simpl.
    + specialize (IH []). simpl in IH. rewrite IH. by destruct (fw_mut_spec u sc []).
    + rewrite IH. destruct (fw_mut_spec u sc l). simpl. by rewrite Hf.
  - rewrite IH. by destruct (fw_mut_spec u sc l).
Qed.
Lemma fw_spec_sub {A} sc (l : list A) : omap id (fw_spec sc l) ⊆+ l.
Proof.
  revert l. induction sc as [|[] sc IH]; intros l; simpl; [apply submseteq_nil_l|..]; [|apply IH].
  destruct l; simpl; [apply (IH [])|]. by apply submseteq_skip.
Qed.
Lemma fw_spec_fwd {A} n (l : list A) : fw_spec (replicate n Fwd) l = de_spec (replicate n Fwd) l.
Proof. revert l. induction n as [|n IH]; intros l; simpl; [done|]. destruct l; by rewrite IH. Qed.
Lemma fw_spec_all {A} (l : list A) m : fw_spec (replicate (length l + m) Fwd) l = map Some l ++ replicate m None.
Proof. induction l as [|x l IH]; simpl; [|by rewrite IH]. induction m as [|m IH]; simpl; [done|]. by rewrite IH. Qed.
Lemma fw_mut_spec_fwd {A V} (u : (V → V) → A → A) fs l : fw_mut_spec u (map (λ f, (Fwd, f)) fs) l = de_mut_spec u (map (λ f, (Fwd, f)) fs) l.
Proof. revert l. induction fs as [|f fs IH]; intros l; simpl; [done|]. destruct l; by rewrite IH. Qed.
Lemma fw_spec_bwd {A} n (l : list A) : fw_spec (replicate n Bwd) l = replicate n None.
Proof. induction n as [|n IH]; simpl; [done|]. by rewrite IH. Qed.

Lemma list_insert_mid {A} (l1 l2 : list A) x y : <[length l1:=y]> (l1 ++ x :: l2) = l1 ++ y :: l2.
Proof. induction l1 as [|z l1 IH]; simpl; [done|]. by rewrite IH. Qed.

Section iter.
  Context `{Profile} {K V : Type} (keq : K → K → bool) (hash : K → N) (HL : HashLaws keq hash) {G : Ghost (K * V)} `{GA : !GAdd G} (cap : N).
  Implicit Types h : htable K V.
  Implicit Types es : list (N * (K * V)).
  Implicit Types bs : list (list (N * (K * V))).
  Notation HOK := (HOK keq hash cap).
  Notation HI := (HI keq hash cap).
  Definition hupd (f : V → V) (e : N * (K * V)) : N * (K * V) := (e.1, (e.2.1, f e.2.2)).

  Lemma ht_skip_ok h bs1 es1 es2 bs2 fuel :
    HOK h (bs1 ++ (es1 ++ es2) :: bs2) → (length bs2 < fuel)%nat →
    (es2 ++ concat bs2 = [] ∧ ∃ x, ht_skip fuel h (HtIter (lengthN bs1) (fst0 0 es2)) = Val (None, HtIter (lengthN (buckets h)) x)) ∨
    (∃ bs1' es1' i kv es2' bs2', bs1 ++ (es1 ++ es2) :: bs2 = bs1' ++ (es1' ++ (i, kv) :: es2') :: bs2' ∧
      concat bs1' ++ es1' = concat bs1 ++ es1 ∧ (i, kv) :: es2' ++ concat bs2' = es2 ++ concat bs2 ∧
      ht_skip fuel h (HtIter (lengthN bs1) (fst0 0 es2)) = Val (Some i, HtIter (lengthN bs1') i)).
  Proof.
    intros Hok. revert bs1 es1 es2 bs2 Hok. induction fuel as [|fuel IH]; intros bs1 es1 es2 bs2 Hok Hf; [lia|].
    pose proof (HOK_bk_len _ _ _ _ _ Hok) as Hbl. rewrite app_length in Hbl. simpl in Hbl.
    destruct es2 as [|[i kv] es2].
    - cbn [fst0 app]. cbn [ht_skip hti_node hti_bucket]. rewrite decide_True by done. destruct bs2 as [|es3 bs2].
      + left. split; [done|]. rewrite decide_True by (unfold lengthN; simpl in *; lia). eexists. repeat f_equal. unfold lengthN. simpl in *. lia.
      + rewrite decide_False by (unfold lengthN; simpl in *; lia).
        replace (lengthN bs1 + 1) with (N.of_nat (length bs1 + 1)) by (unfold lengthN; lia).
        rewrite (ht_bucket_ok _ _ _ _ _ _ es3 Hok).
        2:{ rewrite lookup_app_r by lia. replace (length bs1 + 1 - length bs1)%nat with 1%nat by lia. done. }
        unfold mbind, res_bind. replace (N.of_nat (length bs1 + 1)) with (lengthN (bs1 ++ [es1])) by (unfold lengthN; rewrite app_length; simpl; lia).
        destruct (IH (bs1 ++ [es1]) [] es3 bs2) as [[H1 H2]|(bs1' & es1' & i & kv & es2' & bs2' & H1 & H2 & H3 & H4)].
        { rewrite app_nil_r, <- app_assoc in *. done. }
        { simpl in Hf. lia. }
        * left. split; [done|]. done.
        * right. exists bs1', es1', i, kv, es2', bs2'. split_and!; [|rewrite H2, concat_app; simpl; by rewrite !app_nil_r|done|done].
          rewrite <- H1, app_nil_r, <- app_assoc. done.
    - right. exists bs1, es1, i, kv, es2, bs2. split_and!; [done..|].
      destruct (ht_read _ _ _ _ _ (length bs1) es1 i kv es2 Hok) as (Hnz & _).
      { rewrite lookup_app_r by lia. by rewrite Nat.sub_diag. }
      cbn [fst0 ht_skip hti_node]. by rewrite decide_False by done.
  Qed.

  (** State of an iterator: [P] has been visited, [l] is to come *)
  Definition IInv bs (it : ht_iter) (P l : list (N * (K * V))) : Prop :=
    (hti_bucket it = lengthN bs ∧ l = [] ∧ P = concat bs) ∨
    ∃ bs1 es1 es2 bs2, bs = bs1 ++ (es1 ++ es2) :: bs2 ∧ it = HtIter (lengthN bs1) (fst0 0 es2) ∧
      P = concat bs1 ++ es1 ∧ l = es2 ++ concat bs2.
  Lemma IInv_concat bs it P l : IInv bs it P l → concat bs = P ++ l.
  Proof.
    intros [(_ & -> & ->)|(bs1 & es1 & es2 & bs2 & -> & _ & -> & ->)]; [by rewrite app_nil_r|].
    rewrite concat_app. simpl. by rewrite <- !app_assoc.
  Qed.
  (** What [next] does first *)
  Lemma ht_skip_inv h bs it P l :
    HOK h bs → IInv bs it P l →
    (l = [] ∧ hti_bucket it < lengthN (buckets h) ∧ ∃ it', ht_skip (S (length (buckets h))) h it = Val (None, it') ∧ IInv bs it' P []) ∨
    (l = [] ∧ ¬ hti_bucket it < lengthN (buckets h)) ∨
    (∃ i kv l' b bs1 es1 es2 bs2, l = (i, kv) :: l' ∧ hti_bucket it < lengthN (buckets h) ∧
      ht_skip (S (length (buckets h))) h it = Val (Some i, HtIter b i) ∧
      bs = bs1 ++ (es1 ++ (i, kv) :: es2) :: bs2 ∧ b = lengthN bs1 ∧ P = concat bs1 ++ es1 ∧ l' = es2 ++ concat bs2).
  Proof.
    intros Hok Hinv. pose proof (HOK_bk_len _ _ _ _ _ Hok) as Hbl.
    destruct Hinv as [(Hit & -> & ->)|(bs1 & es1 & es2 & bs2 & -> & -> & -> & ->)].
    { right. left. split; [done|]. rewrite Hit. unfold lengthN. lia. }
    rewrite app_length in Hbl. simpl in Hbl.
    destruct (ht_skip_ok h bs1 es1 es2 bs2 (S (length (buckets h))) Hok) as [[H1 [x H2]]|(bs1' & es1' & i & kv & es2' & bs2' & H1 & H2 & H3 & H4)]; [lia|..].
    - left. split; [done|]. split; [simpl; unfold lengthN; lia|]. eexists. split; [exact H2|]. left.
      split; [simpl; unfold lengthN; rewrite app_length; simpl; lia|]. split; [done|].
      apply app_eq_nil in H1 as [-> H1]. rewrite concat_app. simpl. by rewrite H1, !app_nil_r.
    - right. right. exists i, kv, (es2' ++ concat bs2'), (lengthN bs1'), bs1', es1', es2', bs2'.
      split_and!; [done|simpl; unfold lengthN; lia|done|done|done|done|done].
  Qed.

  Lemma ht_iterate_ok h bs script : HOK h bs → ht_iterate h script = Val (fw_spec script (concat bs).*2).
  Proof.
    intros Hok. unfold ht_iterate. destruct bs as [|es0 bs0] eqn:Ebs; [by destruct Hok|]. rewrite <- Ebs in *.
    assert (ht_mk_iter h = Val (HtIter 0 (fst0 0 es0))) as ->.
    { pose proof (ht_bucket_ok _ _ _ _ _ 0 es0 Hok) as Hx. unfold ht_mk_iter. simpl in Hx. rewrite Hx; [done|]. by rewrite Ebs. }
    unfold mbind, res_bind.
    apply (drive_fw_ok _ _ (λ it l, ∃ P l', IInv bs it P l' ∧ l = l'.*2)); [| |done|].
    - intros it (P & l & Hinv & Hl). symmetry in Hl. apply fmap_nil_inv in Hl as ->. unfold ht_iter_next.
      destruct (ht_skip_inv h bs it P _ Hok Hinv) as [(_ & Hlt & it' & Hs & Hi')|[[_ Hlt]|(i & kv & l' & b & bs1 & es1 & es2 & bs2 & He & _)]]; [..|done].
      + rewrite decide_True by done. rewrite Hs. simpl. eexists. split; [done|]. by exists P, [].
      + rewrite decide_False by done. eexists. split; [done|]. by exists P, [].
    - intros it x l (P & l0 & Hinv & Hl). unfold ht_iter_next.
      destruct (ht_skip_inv h bs it P _ Hok Hinv) as [(-> & _)|[[-> _]|(i & kv & l' & b & bs1 & es1 & es2 & bs2 & -> & Hlt & Hs & Hbs & -> & HP & Hl')]];
        [done|done|]. injection Hl as -> ->.
      rewrite decide_True by done. rewrite Hs. unfold mbind, res_bind.
      destruct (ht_read _ _ _ h bs (length bs1) es1 i kv es2 Hok) as (_ & Hn & Hnx & _).
      { rewrite Hbs, lookup_app_r by lia. by rewrite Nat.sub_diag. }
      rewrite Hn, Hnx. eexists. split; [done|]. exists (P ++ [(i, kv)]), l'. split; [|done].
      right. exists bs1, (es1 ++ [(i, kv)]), es2, bs2. split_and!; [by rewrite <- app_assoc|done|by rewrite HP, <- app_assoc|done].
    - exists [], (concat bs). split; [|done]. right. exists [], [], es0, bs0. by rewrite Ebs.
  Qed.

  Lemma ht_iterate_mut_ok h bs script (Q : list (option (N * (K * V))) → htable K V → Prop) :
    HOK h bs →
    (∀ h' bs', HOK h' bs' → concat bs' = (fw_mut_spec hupd script (concat bs)).2 → Q (fw_mut_spec hupd script (concat bs)).1 h') →
    wp (ht_iterate_mut script) h Q.
  Proof using GA HL.
    intros Hok HQ. destruct bs as [|es0 bs0] eqn:Ebs; [by destruct Hok|]. rewrite <- Ebs in *.
    assert (ht_mk_iter h = Val (HtIter 0 (fst0 0 es0))) as Hmk.
    { pose proof (ht_bucket_ok _ _ _ _ _ 0 es0 Hok) as Hx. unfold ht_mk_iter. simpl in Hx. rewrite Hx; [done|]. by rewrite Ebs. }
    assert (wp (drive_mut ht_iter_mut_next ht_iter_mut_next_back script) (h, HtIter 0 (fst0 0 es0))
      (λ o s', o = (fw_mut_spec hupd script (concat bs)).1 ∧
        ∃ P' l', (∃ bs', HOK s'.1 bs' ∧ IInv bs' s'.2 P' l') ∧ P' ++ l' = [] ++ (fw_mut_spec hupd script (concat bs)).2)) as Hw.
    { apply (drive_mut_fw_ok _ _ _ (λ s' P' l', ∃ bs', HOK s'.1 bs' ∧ IInv bs' s'.2 P' l')); [| |done|]; clear Q HQ Hmk.
      - intros [h1 it] P f (bs1 & Hok1 & Hinv). simpl in *. unfold ht_iter_mut_next. apply wp_bind, wp_mget.
        destruct (ht_skip_inv h1 bs1 it P _ Hok1 Hinv) as [(_ & Hlt & it' & Hs & Hi')|[[_ Hlt]|(i & kv & l' & b & bs3 & es1 & es2 & bs2 & He & _)]]; [..|done].
        + rewrite decide_True by done. apply wp_bind. eapply wp_lift; [exact Hs|]. apply wp_bind, wp_modify, wp_ret. simpl. split; [done|].
          by exists bs1.
        + rewrite decide_False by done. apply wp_ret. split; [done|]. by exists bs1.
      - intros [h1 it] P x l f (bs1 & Hok1 & Hinv). simpl in *. unfold ht_iter_mut_next. apply wp_bind, wp_mget.
        destruct (ht_skip_inv h1 bs1 it P _ Hok1 Hinv) as [(Hl & _)|[[Hl _]|(i & kv & l' & b & bs3 & es1 & es2 & bs2 & [= -> ->] & Hlt & Hs & Hbs & -> & HP & Hl')]];
          [done|done|].
        assert (bs1 !! length bs3 = Some (es1 ++ (i, kv) :: es2)) as Hlk.
        { rewrite Hbs, lookup_app_r by lia. by rewrite Nat.sub_diag. }
        destruct (ht_read _ _ _ h1 bs1 (length bs3) es1 i kv es2 Hok1 Hlk) as (_ & Hn & Hnx & _).
        rewrite decide_True by done. apply wp_bind. eapply wp_lift; [exact Hs|]. apply wp_bind. eapply wp_lift; [exact Hnx|].
        apply wp_bind, wp_modify. apply wp_bind, wp_zoom. simpl. apply ht_on_wp.
        pose proof (ho_heap _ _ _ _ _ Hok1) as Hh. rewrite (hcells_focus' _ _ _ Hlk), hseg_app in Hh. simpl in Hh. rewrite <- app_assoc in Hh. simpl in Hh.
        eapply CH_perm in Hh; [|symmetry; apply Permutation_middle].
        eapply CH_raw_update; [exact _|exact Hh|]. intros a' Ha'. apply wp_ret. simpl. split; [done|].
        set (es' := es1 ++ hupd f (i, kv) :: es2).
        assert (HOK (HT (<[length bs3:=fst0 0 es']> (buckets h1)) a') (<[length bs3:=es']> bs1)) as Hok2.
        { eapply (HOK_update _ _ HL _ _ _ _ _ es'); [exact Hok1|exact Hlk| | |].
          - eapply CH_perm; [exact Ha'|]. unfold es'. rewrite hseg_app. simpl. rewrite <- app_assoc. apply Permutation_middle.
          - pose proof (ho_hash _ _ _ _ _ Hok1 _ _ Hlk) as Hx. unfold es'. rewrite !Forall_app, !Forall_cons in *. tauto.
          - pose proof (ho_keys _ _ _ _ _ Hok1) as Hd. eapply dk_perm in Hd; [|done|apply fmap_Permutation, (concat_focus0' _ _ _ Hlk)].
            clear - Hd HL. unfold es'. revert Hd. rewrite !fmap_app, !fmap_cons, <- !app_assoc. simpl.
            generalize (es1.*2) as l1. generalize (es2.*2 ++ (concat (<[length bs3:=[]]> bs1)).*2) as l2. intros l2 l1 Hd.
            eapply dk_perm; [done|apply Permutation_middle|]. eapply dk_perm in Hd; [|done|symmetry; apply Permutation_middle].
            rewrite dk_cons in * by done. simpl in *. done. }
        assert (set_hal a' h1 = HT (<[length bs3:=fst0 0 es']> (buckets h1)) a') as ->.
        { unfold set_hal. f_equal. symmetry. apply list_insert_id. rewrite (ho_bk _ _ _ _ _ Hok1).
          etrans; [apply (list_lookup_fmap (fst0 0) bs1)|]. rewrite Hlk. unfold es'. simpl. by rewrite !fst0_app. }
        exists (<[length bs3:=es']> bs1). split; [done|]. right.
        exists bs3, (es1 ++ [hupd f (i, kv)]), es2, bs2. split_and!; [|done|by rewrite HP, <- app_assoc|done].
        rewrite Hbs, list_insert_mid. unfold es'. by rewrite <- app_assoc.
      - exists bs. split; [done|]. right. exists [], [], es0, bs0. by rewrite Ebs. }
    unfold ht_iterate_mut, wp in *. rewrite Hmk. destruct (drive_mut _ _ _ _) as [o [h' it']|e [h' it']]; [|done].
    destruct Hw as (-> & P' & l' & (bs' & Hok' & Hinv) & He). simpl in *. apply (HQ h' bs'); [done|].
    by rewrite (IInv_concat _ _ _ _ Hinv).
  Qed.
End iter.

(** ** Histories *)
Section steps.
  Context {K V : Type} (keq : K → K → bool) (hash : K → N) (HL : HashLaws keq hash) (cap : N).
  Implicit Types l : list (K * V).

  Lemma hm_find_fmap k (E : list (N * (K * V))) : Forall (λ e, keq e.2.1 k = false) E → hm_find keq k E.*2 = None.
  Proof. intros Hf. apply hm_find_None. by apply Forall_fmap. Qed.
  (** Update and removal of entries *)
  Definition e_alter k (f : V → V) (E : list (N * (K * V))) := map (λ e, if keq e.2.1 k then hupd f e else e) E.
  Definition e_remove k (E : list (N * (K * V))) := List.filter (λ e, negb (keq e.2.1 k)) E.
  Lemma e_alter_snd k f E : (e_alter k f E).*2 = hm_alter keq k f E.*2.
  Proof. unfold e_alter, hm_alter. induction E as [|e E IH]; simpl; [done|]. f_equal; [|exact IH]. by destruct (keq e.2.1 k). Qed.
  Lemma e_alter_fst k f E : (e_alter k f E).*1 = E.*1.
  Proof. unfold e_alter. induction E as [|e E IH]; simpl; [done|]. f_equal; [|exact IH]. by destruct (keq e.2.1 k). Qed.
  Lemma e_alter_none k f E : Forall (λ e, keq e.2.1 k = false) E → e_alter k f E = E.
  Proof. unfold e_alter. induction 1 as [|e E He _ IH]; simpl; [done|]. by rewrite He, IH. Qed.
  Lemma e_alter_found k f E i kv R :
    E ≡ₚ (i, kv) :: R → keq kv.1 k = true → Forall (λ e, keq e.2.1 k = false) R → e_alter k f E ≡ₚ (i, (kv.1, f kv.2)) :: R.
  Proof.
    intros Hp Hk Hf. rewrite <- (e_alter_none k f R Hf). unfold e_alter. rewrite Hp. simpl. by rewrite Hk.
  Qed.
  Lemma e_remove_snd k E : (e_remove k E).*2 = hm_remove keq k E.*2.
  Proof. unfold e_remove, hm_remove. induction E as [|e E IH]; simpl; [done|]. destruct (keq e.2.1 k); simpl; [exact IH|]. f_equal. exact IH. Qed.
  Lemma e_remove_none k E : Forall (λ e, keq e.2.1 k = false) E → e_remove k E = E.
  Proof. unfold e_remove. induction 1 as [|e E He _ IH]; simpl; [done|]. rewrite He. simpl. by rewrite IH. Qed.
  Lemma filter_perm {A} (p : A → bool) (l l' : list A) : l ≡ₚ l' → List.filter p l ≡ₚ List.filter p l'.
  Proof.
    induction 1 as [|x l l' _ IH|x y l|l1 l2 l3 _ IH1 _ IH2]; simpl; [done| | |by rewrite IH1].
    - destruct (p x); by rewrite IH.
    - destruct (p x), (p y); try done. by rewrite Permutation_swap.
  Qed.
  Lemma e_remove_found k E i kv R :
    E ≡ₚ (i, kv) :: R → keq kv.1 k = true → Forall (λ e, keq e.2.1 k = false) R → e_remove k E ≡ₚ R.
  Proof.
    intros Hp Hk Hf. rewrite <- (e_remove_none k R Hf). unfold e_remove. rewrite (filter_perm _ _ _ Hp). simpl. by rewrite Hk.
  Qed.

  (** The map after a run is determined, up to order, by the answers *)
  Lemma hm_alter_perm k f l l' : l ≡ₚ l' → hm_alter keq k f l ≡ₚ hm_alter keq k f l'.
  Proof. unfold hm_alter. by intros ->. Qed.
  Lemma de_mut_fwd_det fs l1 l2 out r1 r2 :
    l1 ≡ₚ l2 → de_mut_spec (λ f (x : K * V), (x.1, f x.2)) (map (λ f, (Fwd, f)) fs) l1 = (out, r1) →
    de_mut_spec (λ f (x : K * V), (x.1, f x.2)) (map (λ f, (Fwd, f)) fs) l2 = (out, r2) → r1 ≡ₚ r2.
  Proof.
    revert l1 l2 out r1 r2. induction fs as [|f fs IH]; intros l1 l2 out r1 r2 Hp; simpl; [congruence|].
    destruct l1 as [|x1 l1].
    - apply Permutation_nil_l in Hp as <-. destruct (de_mut_spec _ _ []) as [o r] eqn:E. intros [= <- <-] [= <-]. done.
    - destruct l2 as [|x2 l2]; [by apply Permutation_nil_r in Hp|].
      destruct (de_mut_spec _ _ l1) as [o1 q1] eqn:E1. destruct (de_mut_spec _ _ l2) as [o2 q2] eqn:E2.
      intros [= <- <-] [= <- -> <-]. f_equiv. eapply IH; [|done|done]. by apply Permutation_cons_inv in Hp.
  Qed.
  Lemma distinct_perm l l' : l ≡ₚ l' → distinct_keys keq l → distinct_keys keq l'.
  Proof using HL. by eapply dk_perm. Qed.
  Lemma hm_step_det o l1 l2 r l1' l2' :
    distinct_keys keq l1 → l1 ≡ₚ l2 → hm_step keq cap o l1 r l1' → hm_step keq cap o l2 r l2' → l1' ≡ₚ l2'.
  Proof using HL.
    intros Hd Hp H1 H2. assert (∀ k, hm_find keq k l2 = hm_find keq k l1) as Hf by (intros k; by eapply hm_find_perm).
    destruct H1; inversion H2; subst; try done;
      try (by apply hm_alter_perm); try (unfold hm_insert in *; rewrite ?Hf in *).
    - destruct (hm_find keq k l); [by apply hm_alter_perm|by f_equiv].
    - destruct (hm_find keq k l); [by apply hm_alter_perm|by f_equiv].
    - destruct (hm_find keq k l); [by apply hm_alter_perm|by f_equiv].
    - destruct (hm_find keq k l); [by apply hm_alter_perm|by f_equiv].
    - by apply filter_perm.
    - eapply de_mut_fwd_det; [|done|done]. etrans; [done|]. etrans; [done|]. done.
  Qed.
  Lemma dk_alter k f l : distinct_keys keq l → distinct_keys keq (hm_alter keq k f l).
  Proof using HL.
    unfold hm_alter. induction l as [|x l IH]; simpl; [done|]. rewrite !dk_cons by done. intros [H1 H2]. split; [|by apply IH].
    apply Forall_fmap. eapply Forall_impl; [done|]. intros y. simpl. destruct (keq x.1 k), (keq y.1 k); done.
  Qed.
  Lemma dk_keys l l' : l.*1 = l'.*1 → distinct_keys keq l → distinct_keys keq l'.
  Proof using HL.
    revert l'. induction l as [|x l IH]; intros [|y l'] He Hd; try done. simpl in He. injection He as He1 He2.
    rewrite dk_cons in * by done. destruct Hd as [H1 H2]. split; [|by apply IH].
    rewrite He1 in H1. apply (Forall_fmap fst (λ k, keq k y.1 = false)). change (l.*1 = l'.*1) in He2.
    rewrite <- He2. by apply (Forall_fmap fst (λ k, keq k y.1 = false)).
  Qed.
  Lemma hm_step_distinct o l r l' : hm_step keq cap o l r l' → distinct_keys keq l → distinct_keys keq l'.
  Proof using HL.
    intros Hs Hd. destruct Hs; try done.
    - unfold hm_insert. rewrite H. by apply dk_alter.
    - unfold hm_insert. rewrite H. apply (dk_cons _ _ HL). split; [|done]. by apply hm_find_None.
    - unfold hm_remove. clear - HL Hd. induction l as [|x l IH]; simpl; [done|]. apply (dk_cons _ _ HL) in Hd as [H1 H2].
      destruct (keq x.1 k); simpl; [by apply IH|]. apply (dk_cons _ _ HL). split; [|by apply IH].
      apply Forall_forall. intros y Hy%elem_of_list_In%filter_In. rewrite Forall_forall in H1. apply H1, elem_of_list_In. tauto.
    - by apply dk_alter.
    - by apply dk_alter.
    - pose proof (de_mut_spec_keys (λ f (x : K * V), (x.1, f x.2)) fst (map (λ f, (Fwd, f)) fs) l' (λ _ _, eq_refl)) as Hk.
      rewrite H0 in Hk. simpl in Hk. eapply dk_keys; [symmetry; exact Hk|]. by eapply dk_perm.
  Qed.
  Lemma hm_run_det ops l1 l2 rs l1' l2' :
    distinct_keys keq l1 → l1 ≡ₚ l2 → hm_run keq cap ops l1 rs l1' → hm_run keq cap ops l2 rs l2' → l1' ≡ₚ l2'.
  Proof using HL.
    intros Hd Hp H1. revert l2 Hd Hp. induction H1 as [l|o ops l r l1 rs l1' Hs Hr IH]; intros l2 Hd Hp H2; inversion H2; subst; [done|].
    eapply IH; [|eapply hm_step_det; [exact Hd|exact Hp|done|done]|done]. by eapply hm_step_distinct.
  Qed.
End steps.

Section hist.
  Context `{Profile} {K V : Type} (keq : K → K → bool) (hash : K → N) (HL : HashLaws keq hash) (cap : N).
  Implicit Types h : htable K V.
  Notation HI := (HI keq hash cap).
  Notation step := (ht_step keq hash).
  Implicit Types E : list (N * (K * V)).

  Lemma call_eq {S A} (m : M S A) s r s' : m s = Ret r s' → call m s = (Val r, s').
  Proof. apply call_ret. Qed.

  (** The entries survive, in their slots, except those removed *)
  Definition survive (o : hm_op K V) E E' : Prop :=
    ∀ i k v, (i, (k, v)) ∈ E → (∃ k', o = HRemove k' ∧ keq k k' = true) ∨ ∃ v', (i, (k, v')) ∈ E'.
  Lemma survive_alter o k f E : survive o E (e_alter keq k f E).
  Proof.
    intros i k' v Hin. right. unfold e_alter.
    destruct (keq k' k) eqn:Ek; eexists; apply elem_of_list_In, in_map_iff; eexists; (split; [|by apply elem_of_list_In]); simpl; rewrite Ek; reflexivity.
  Qed.
  Lemma survive_refl o E : survive o E E.
  Proof. intros i k v Hin. right. by exists v. Qed.

  Lemma ht_step_ok o h E :
    HI h E → ∃ E', HI (call (step o) h).2 E' ∧ hm_step keq cap o E.*2 (call (step o) h).1 E'.*2 ∧ survive o E E'.
  Proof using HL.
    intros Hi. pose proof (HI_keys _ _ HL _ _ _ Hi) as Hd.
    assert (∀ k, (∃ i kv R, E ≡ₚ (i, kv) :: R ∧ keq kv.1 k = true ∧ Forall (λ e, keq e.2.1 k = false) R ∧ hm_find keq k E.*2 = Some kv) ∨
      Forall (λ e, keq e.2.1 k = false) E ∧ hm_find keq k E.*2 = None) as Hcase.
    { intros k. destruct (HI_case _ _ HL _ _ _ k Hi) as [(i & kv & R & H1 & H2 & H3)|Hn].
      - left. exists i, kv, R. split_and!; try done. eapply hm_find_in; [done..|rewrite H1; simpl; mem|done].
      - right. split; [done|]. by apply hm_find_fmap. }
    pose proof (HI_len _ _ _ _ _ Hi) as Hlen.
    assert (lengthN E = lengthN E.*2) as Hle by (unfold lengthN; by rewrite fmap_length).
    destruct o as [k v|k|k|k f|k|k| | | |k|k f|n|fs]; simpl ht_step.
    - (* insert *)
      destruct (Hcase k) as [(i & kv & R & H1 & H2 & H3 & H4)|[H3 H4]].
      + destruct (wp_elim _ _ _ (ht_insert_found _ _ HL _ _ _ k v _ _ _ Hi H1 H2)) as (o & h' & He & -> & Hi').
        unfold call, mbind, M_bind. rewrite He. simpl. exists (e_alter keq k (λ _, v) E). split_and!.
        * eapply HI_perm; [exact Hi'|]. symmetry. by apply e_alter_found.
        * rewrite e_alter_snd. replace (hm_alter keq k (λ _, v) E.*2) with (hm_insert keq k v E.*2) by (unfold hm_insert; by rewrite H4).
          by eapply st_update.
        * apply survive_alter.
      + pose proof (HI_len_le _ _ _ _ _ Hi). destruct (decide (lengthN E < cap)) as [Hlt|Hge].
        * destruct (wp_elim _ _ _ (ht_insert_new _ _ HL _ _ _ k v Hi H3 Hlt)) as (o & h' & He & i & -> & Hi').
          unfold call, mbind, M_bind. rewrite He. simpl. exists ((i, (k, v)) :: E). split_and!; [done| |].
          -- cbn. replace ((k, v) :: E.*2) with (hm_insert keq k v E.*2) by (unfold hm_insert; by rewrite H4).
             apply st_insert; [done|]. by rewrite <- Hle.
          -- intros i' k' v' Hin. right. exists v'. by apply elem_of_list_further.
        * unfold call, mbind, M_bind. rewrite (ht_insert_full _ _ HL _ _ _ k v Hi H3) by lia. simpl. exists E.
          split_and!; [done| |apply survive_refl]. apply st_full; [done|]. rewrite <- Hle. lia.
    - (* remove *)
      destruct (Hcase k) as [(i & kv & R & H1 & H2 & H3 & H4)|[H3 H4]].
      + destruct (wp_elim _ _ _ (ht_remove_found _ _ HL _ _ _ k _ _ _ Hi H1 H2)) as (o & h' & He & -> & Hi').
        unfold call, mbind, M_bind. rewrite He. simpl. exists (e_remove keq k E). split_and!.
        * eapply HI_perm; [exact Hi'|]. symmetry. by eapply e_remove_found.
        * rewrite e_remove_snd. replace (Some kv.2) with (hm_get keq k E.*2) by (unfold hm_get; by rewrite H4). constructor.
        * intros i' k' v' Hin. destruct (keq k' k) eqn:Ek; [left; by exists k|]. right. exists v'.
          apply elem_of_list_In, filter_In. split; [by apply elem_of_list_In|]. simpl. by rewrite Ek.
      + unfold call, mbind, M_bind. rewrite (ht_remove_none _ _ HL _ _ _ k Hi H3). simpl. exists E. split_and!; [done| |apply survive_refl].
        rewrite <- (e_remove_none keq k E H3) at 2. rewrite e_remove_snd.
        replace None with (hm_get keq k E.*2) by (unfold hm_get; by rewrite H4). constructor.
    - (* get *)
      exists E. destruct (Hcase k) as [(i & kv & R & H1 & H2 & H3 & H4)|[H3 H4]].
      + destruct (ht_found _ _ HL _ _ _ _ _ _ _ Hi H1 H2) as (Hg & _). unfold call, mbind, M_bind, gets. rewrite Hg. simpl.
        split_and!; [done| |apply survive_refl]. replace (Some kv.2) with (hm_get keq k E.*2) by (unfold hm_get; by rewrite H4). constructor.
      + destruct (ht_absent _ _ HL _ _ _ _ Hi H3) as (Hg & _). unfold call, mbind, M_bind, gets. rewrite Hg. simpl.
        split_and!; [done| |apply survive_refl]. replace None with (hm_get keq k E.*2) by (unfold hm_get; by rewrite H4). constructor.
    - (* get_mut *)
      destruct (Hcase k) as [(i & kv & R & H1 & H2 & H3 & H4)|[H3 H4]].
      + destruct (wp_elim _ _ _ (ht_get_mut_found _ _ HL _ _ _ k f _ _ _ Hi H1 H2)) as (o & h' & He & -> & Hi').
        unfold call, mbind, M_bind. rewrite He. simpl. exists (e_alter keq k f E). split_and!.
        * eapply HI_perm; [exact Hi'|]. symmetry. by apply e_alter_found.
        * rewrite e_alter_snd. replace (Some kv.2) with (hm_get keq k E.*2) by (unfold hm_get; by rewrite H4). constructor.
        * apply survive_alter.
      + unfold call, mbind, M_bind. rewrite (ht_get_mut_none _ _ HL _ _ _ k f Hi H3). simpl. exists E. split_and!; [done| |apply survive_refl].
        rewrite <- (e_alter_none keq k f E H3) at 2. rewrite e_alter_snd.
        replace None with (hm_get keq k E.*2) by (unfold hm_get; by rewrite H4). constructor.
    - (* contains *)
      exists E. destruct (Hcase k) as [(i & kv & R & H1 & H2 & H3 & H4)|[H3 H4]].
      + destruct (ht_found _ _ HL _ _ _ _ _ _ _ Hi H1 H2) as (_ & Hg & _). unfold call, mbind, M_bind, gets. rewrite Hg. simpl.
        split_and!; [done| |apply survive_refl]. replace true with (is_found (hm_find keq k E.*2)) by (by rewrite H4). constructor.
      + destruct (ht_absent _ _ HL _ _ _ _ Hi H3) as (_ & Hg & _). unfold call, mbind, M_bind, gets. rewrite Hg. simpl.
        split_and!; [done| |apply survive_refl]. replace false with (is_found (hm_find keq k E.*2)) by (by rewrite H4). constructor.
    - exists E. destruct (Hcase k) as [(i & kv & R & H1 & H2 & H3 & H4)|[H3 H4]].
      + destruct (ht_found _ _ HL _ _ _ _ _ _ _ Hi H1 H2) as (_ & _ & Hg & _). unfold call, mbind, M_bind, gets. rewrite Hg. simpl.
        split_and!; [done| |apply survive_refl]. replace true with (is_found (hm_find keq k E.*2)) by (by rewrite H4). constructor.
      + destruct (ht_absent _ _ HL _ _ _ _ Hi H3) as (_ & _ & Hg & _). unfold call, mbind, M_bind, gets. rewrite Hg. simpl.
        split_and!; [done| |apply survive_refl]. replace false with (is_found (hm_find keq k E.*2)) by (by rewrite H4). constructor.
    - exists E. unfold call, mbind, M_bind, mget, mret, M_ret. cbn [fst snd]. rewrite Hlen, Hle. split_and!; [done|constructor|apply survive_refl].
    - exists E. unfold call, mbind, M_bind, mget, mret, M_ret. cbn [fst snd]. rewrite Hlen, Hle. split_and!; [done| |apply survive_refl].
      replace (bool_decide (lengthN E.*2 = 0)) with (match E.*2 with [] => true | _ => false end); [constructor|].
      destruct (E.*2); [done|]. symmetry. apply bool_decide_eq_false. unfold lengthN. simpl. lia.
    - exists E. unfold call, mbind, M_bind, mget, mret, M_ret. cbn [fst snd]. rewrite (HI_capacity _ _ _ _ _ Hi). split_and!; [done|constructor|apply survive_refl].
    - (* index *)
      exists E. destruct (Hcase k) as [(i & kv & R & H1 & H2 & H3 & H4)|[H3 H4]].
      + destruct (ht_found _ _ HL _ _ _ _ _ _ _ Hi H1 H2) as (_ & _ & _ & _ & _ & Hg). unfold call, mbind, M_bind, gets. rewrite Hg. simpl.
        split_and!; [done| |apply survive_refl]. pose proof (st_index keq cap k E.*2) as Hs. unfold hm_get in Hs. by rewrite H4 in Hs.
      + destruct (ht_absent _ _ HL _ _ _ _ Hi H3) as (_ & _ & _ & _ & Hg). unfold call, mbind, M_bind, gets. rewrite Hg. simpl.
        split_and!; [done| |apply survive_refl]. pose proof (st_index keq cap k E.*2) as Hs. unfold hm_get in Hs. by rewrite H4 in Hs.
    - destruct (Hcase k) as [(i & kv & R & H1 & H2 & H3 & H4)|[H3 H4]].
      + destruct (wp_elim _ _ _ (ht_get_mut_found _ _ HL _ _ _ k f _ _ _ Hi H1 H2)) as (o & h' & He & -> & Hi').
        unfold call, ht_index_mut, mbind, M_bind. rewrite He. simpl. exists (e_alter keq k f E). split_and!.
        * eapply HI_perm; [exact Hi'|]. symmetry. by apply e_alter_found.
        * rewrite e_alter_snd. pose proof (st_index_mut keq cap k f E.*2) as Hs. unfold hm_get in Hs. by rewrite H4 in Hs.
        * apply survive_alter.
      + unfold call, ht_index_mut, mbind, M_bind. rewrite (ht_get_mut_none _ _ HL _ _ _ k f Hi H3). simpl. exists E.
        split_and!; [done| |apply survive_refl].
        rewrite <- (e_alter_none keq k f E H3) at 2. rewrite e_alter_snd.
        pose proof (st_index_mut keq cap k f E.*2) as Hs. unfold hm_get in Hs. by rewrite H4 in Hs.
    - (* iter *)
      destruct Hi as (bs & Hok & Hp). exists E. unfold call, mbind, M_bind, gets. rewrite (ht_iterate_ok _ _ _ _ _ _ Hok). simpl.
      split_and!; [by exists bs| |apply survive_refl]. rewrite fw_spec_fwd. constructor. by rewrite Hp.
    - (* iter_mut *)
      destruct Hi as (bs & Hok & Hp).
      assert (wp (ht_iterate_mut (map (λ f, (Fwd, f)) fs)) h (λ o h', o = (fw_mut_spec hupd (map (λ f, (Fwd, f)) fs) (concat bs)).1 ∧
        ∃ bs', HOK keq hash cap h' bs' ∧ concat bs' = (fw_mut_spec hupd (map (λ f, (Fwd, f)) fs) (concat bs)).2)) as Hw.
      { apply (ht_iterate_mut_ok _ _ HL _ _ _ _ _ Hok). intros h' bs' Hok' He. split; [done|]. by exists bs'. }
      destruct (wp_elim _ _ _ Hw) as (o & h' & He & -> & bs' & Hok' & Hc).
      unfold call, mbind, M_bind. rewrite He. simpl. exists (concat bs'). split_and!; [by exists bs'| |].
      + eapply (st_iter_mut _ _ _ _ (concat bs).*2); [by rewrite Hp|]. rewrite <- fw_mut_spec_fwd, Hc.
        pose proof (fw_mut_spec_map snd hupd (λ f (x : K * V), (x.1, f x.2)) (map (λ f, (Fwd, f)) fs) (concat bs)) as Hm.
        apply Hm. done.
      + intros i k v Hin. right. rewrite Hp in Hin.
        pose proof (fw_mut_spec_keys hupd (λ e : N * (K * V), (e.1, e.2.1)) (map (λ f, (Fwd, f)) fs) (concat bs) (λ _ _, eq_refl)) as Hk.
        rewrite <- Hc in Hk. assert ((i, k) ∈ map (λ e : N * (K * V), (e.1, e.2.1)) (concat bs)) as Hx.
        { apply elem_of_list_In, in_map_iff. exists (i, (k, v)). split; [done|]. by apply elem_of_list_In. }
        rewrite <- Hk in Hx. apply elem_of_list_In, in_map_iff in Hx as ([i' [k' v']] & [= -> ->] & Hx).
        exists v'. by apply elem_of_list_In.
  Qed.

  Lemma ht_history_ok ops h E :
    HI h E → ∃ E', HI (history step ops h).2 E' ∧ hm_run keq cap ops E.*2 (history step ops h).1 E'.*2 ∧
      (∀ i k v, (i, (k, v)) ∈ E → (∀ k', HRemove k' ∈ ops → keq k k' = false) → ∃ v', (i, (k, v')) ∈ E').
  Proof using HL.
    revert h E. induction ops as [|o ops IH]; intros h E Hi.
    - exists E. simpl. split_and!; [done|constructor|eauto].
    - destruct (ht_step_ok o h E Hi) as (E1 & Hi1 & Hs & Hv). cbn [history].
      destruct (call (step o) h) as [r h1]. cbn [fst snd] in *.
      destruct (IH h1 E1 Hi1) as (E2 & Hi2 & Hr & Hv2). destruct (history step ops h1) as [rs h2]. cbn [fst snd] in *.
      exists E2. split_and!; [done|by econstructor|].
      intros i k v Hin Hrm. destruct (Hv i k v Hin) as [(k' & -> & Hk)|[v' Hin']].
      + rewrite (Hrm k') in Hk; [done|mem].
      + eapply Hv2; [exact Hin'|]. intros k' Hk'. apply Hrm. by apply elem_of_list_further.
  Qed.
End hist.

(** ** Facts about reachable tables *)
Definition ht_after `{Profile} {K V} keq hash (h0 : htable K V) (o : list (hm_op K V)) : htable K V := (history (ht_step keq hash) o h0).2.
(** [l] is the contents, by the answers to the calls [o], of the map of capacity [ms] *)
Definition ht_holds `{Profile} {K V} keq hash (ms : nat) (h0 : htable K V) (o : list (hm_op K V)) (l : list (K * V)) : Prop :=
  hm_run keq (N.of_nat ms) o [] (history (ht_step keq hash) o h0).1 l.

Section facts.
  Context `{Profile} {K V : Type} (keq : K → K → bool) (hash : K → N) (HL : HashLaws keq hash) (nb ms : nat) (d : K * V).
  Context (h0 : htable K V) (Hnew : ht_new nb ms d = Some h0) (Hnb : (0 < nb)%nat) (Hw : N.of_nat ms + 1 < W32).
  Notation ops := (list (hm_op K V)).
  Notation after := (ht_after keq hash h0).
  Notation holds := (ht_holds keq hash ms h0).
  Notation cap := (N.of_nat ms).
  Notation step := (ht_step keq hash).
  Notation HI := (HI keq hash cap).
  Notation get := (ht_get keq hash).
  Notation addr := (ht_get_addr keq hash).
  Implicit Types h : htable K V.
  Implicit Types E : list (N * (K * V)).

  Lemma ht_new_ok : HI h0 [].
  Proof using Hnew Hnb Hw.
    unfold ht_new in Hnew. case_decide; [|done]. injection Hnew as <-. exists (replicate nb []).
    assert (concat (replicate nb (@nil (N * (K * V)))) = []) as Hc by (clear; induction nb; simpl; done).
    split; [|by rewrite Hc]. constructor; simpl.
    - assert (hcells (replicate nb (@nil (N * (K * V)))) = []) as ->.
      { unfold hcells. clear. induction nb; simpl; done. }
      apply CH_new; [done|done|lia].
    - clear. induction nb as [|n IH]; simpl; [done|]. by rewrite IH.
    - destruct nb; [lia|done].
    - intros b es [-> _]%lookup_replicate. constructor.
    - rewrite Hc. constructor.
  Qed.
  Lemma ht_reach (o : ops) l : holds o l → ∃ E, HI (after o) E ∧ E.*2 = l.
  Proof using HL Hnew Hnb Hw.
    intros Hh. destruct (ht_history_ok keq hash HL cap o h0 [] ht_new_ok) as (E & Hi & Hr & _).
    assert (E.*2 ≡ₚ l) as Hp.
    { eapply (hm_run_det keq hash HL cap o [] []); [constructor|done|exact Hr|exact Hh]. }
    symmetry in Hp. apply Permutation_map_inv in Hp as (E' & -> & Hp). exists E'. split; [|done]. by eapply HI_perm.
  Qed.
  Lemma ht_is_map_fact (o : ops) : ∃ l, holds o l ∧ distinct_keys keq l ∧ lengthN l ≤ cap.
  Proof using HL Hnew Hnb Hw.
    destruct (ht_history_ok keq hash HL cap o h0 [] ht_new_ok) as (E & Hi & Hr & _). exists E.*2. split_and!; [exact Hr|by eapply HI_keys|].
    apply HI_len_le in Hi. unfold lengthN in *. by rewrite fmap_length.
  Qed.
  Lemma ht_contents_unique (o : ops) l l' : holds o l → holds o l' → l ≡ₚ l'.
  Proof using HL. intros H1 H2. eapply (hm_run_det keq hash HL cap o [] []); [constructor|done|exact H1|exact H2]. Qed.

  (** How the lookups follow from the entries *)
  Lemma HI_lookups h E k :
    HI h E → ∃ i, addr h k = Val i ∧ get h k = Val (hm_get keq k E.*2) ∧
      ht_contains_trait keq hash h k = Val (is_found (hm_find keq k E.*2)) ∧ ht_contains keq hash h k = Val (is_found (hm_find keq k E.*2)) ∧
      match hm_find keq k E.*2 with
      | Some kv => (i, kv) ∈ E ∧ i ≠ SENTINEL ∧ ht_get_node h i = Val kv ∧ keq kv.1 k = true ∧ ht_index keq hash h k = Val kv.2
      | None => i = SENTINEL ∧ ht_index keq hash h k = Err Panic
      end.
  Proof using HL.
    intros Hi. unfold hm_get. destruct (HI_case _ _ HL _ _ _ k Hi) as [(i & kv & R & H1 & H2 & H3)|Hn].
    - assert (hm_find keq k E.*2 = Some kv) as ->.
      { eapply (hm_find_in _ _ HL); [by eapply HI_keys|rewrite H1; simpl; mem|done]. }
      destruct (ht_found _ _ HL _ _ _ _ _ _ _ Hi H1 H2) as (Ha & Hb & Hc & Hd & He & Hf). exists i. split_and!; try done.
      + rewrite H1. mem.
      + eapply HI_nz; [exact Hi|]. rewrite H1. simpl. mem.
    - rewrite (hm_find_fmap keq k E Hn). destruct (ht_absent _ _ HL _ _ _ _ Hi Hn) as (Ha & Hb & Hc & Hd & He). exists 0. done.
  Qed.
  Lemma HI_addr h E k i kv : HI h E → (i, kv) ∈ E → keq kv.1 k = true → addr h k = Val i ∧ ht_get_node h i = Val kv ∧ get h k = Val (Some kv.2).
  Proof using HL.
    intros Hi Hin Hk. apply elem_of_Permutation in Hin as [R HR].
    destruct (ht_found _ _ HL _ _ _ _ _ _ _ Hi HR Hk) as (Ha & Hb & Hc & Hd & He & Hf). done.
  Qed.
  Lemma HI_same h E h' E' k :
    HI h E → HI h' E' → (∀ e, keq e.2.1 k = true → e ∈ E ↔ e ∈ E') → addr h' k = addr h k ∧ get h' k = get h k.
  Proof using HL.
    intros Hi Hi' Hs. destruct (HI_case _ _ HL _ _ _ k Hi) as [(i & kv & R & H1 & H2 & H3)|Hn].
    - assert ((i, kv) ∈ E) as Hin by (rewrite H1; mem).
      destruct (HI_addr _ _ k _ _ Hi Hin H2) as (-> & _ & ->). apply Hs in Hin; [|done].
      by destruct (HI_addr _ _ k _ _ Hi' Hin H2) as (-> & _ & ->).
    - destruct (ht_absent _ _ HL _ _ _ _ Hi Hn) as (-> & _ & _ & -> & _).
      assert (Forall (λ e, keq e.2.1 k = false) E') as Hn'.
      { apply Forall_forall. intros e He. destruct (keq e.2.1 k) eqn:Ek; [|done]. apply Hs in He; [|done].
        rewrite Forall_forall in Hn. specialize (Hn e He). simpl in Hn. congruence. }
      by destruct (ht_absent _ _ HL _ _ _ _ Hi' Hn') as (-> & _ & _ & -> & _).
  Qed.
  (** After the value of [k] has been changed *)
  Lemma HI_altered h h' i kv v R k :
    HI h ((i, kv) :: R) → HI h' ((i, (kv.1, v)) :: R) → keq kv.1 k = true →
    get h' k = Val (Some v) ∧ addr h k = Val i ∧ (∀ k', addr h' k' = addr h k') ∧ (∀ k', keq k' k = false → get h' k' = get h k') ∧
    ht_len h' = ht_len h.
  Proof using HL.
    intros Hi Hi' Hk.
    destruct (HI_addr _ _ k i _ Hi' (elem_of_list_here _ _) Hk) as (Ha' & _ & Hg').
    destruct (HI_addr _ _ k i _ Hi (elem_of_list_here _ _) Hk) as (Ha & _ & Hg).
    assert (∀ k', keq kv.1 k' = false → addr h' k' = addr h k' ∧ get h' k' = get h k') as Hoth.
    { intros k' Hne. eapply HI_same; [exact Hi|exact Hi'|]. intros e He. rewrite !elem_of_cons. split.
      - intros [->|?]; [simpl in He; congruence|auto].
      - intros [->|?]; [simpl in He; congruence|auto]. }
    split_and!; [done|done| | |].
    - intros k'. destruct (keq kv.1 k') eqn:E; [|by apply Hoth].
      destruct (HI_addr _ _ k' i _ Hi' (elem_of_list_here _ _) E) as (-> & _).
      by destruct (HI_addr _ _ k' i _ Hi (elem_of_list_here _ _) E) as (-> & _).
    - intros k' Hne. apply Hoth. destruct (keq kv.1 k') eqn:E; [|done]. exfalso.
      assert (keq k' k = true); [|congruence]. eapply (keq_trans _ _ HL); [|exact Hk]. by rewrite (keq_sym _ _ HL).
    - by rewrite (HI_len _ _ _ _ _ Hi), (HI_len _ _ _ _ _ Hi').
  Qed.

  Lemma ht_update_fact (o : ops) l k v kv :
    holds o l → hm_find keq k l = Some kv →
    ∃ i h', ht_insert keq hash k v (after o) = Ret (Some i) h' ∧
      get h' k = Val (Some v) ∧ addr (after o) k = Val i ∧ (∀ k', addr h' k' = addr (after o) k') ∧
      (∀ k', keq k' k = false → get h' k' = get (after o) k') ∧ ht_len h' = ht_len (after o).
  Proof using HL Hnew Hnb Hw.
    intros (E & Hi & <-)%ht_reach Hf. destruct (HI_case _ _ HL _ _ _ k Hi) as [(i & kv' & R & H1 & H2 & H3)|Hn].
    - destruct (wp_elim _ _ _ (ht_insert_found _ _ HL _ _ _ k v _ _ _ Hi H1 H2)) as (? & h' & He & -> & Hi').
      exists i, h'. split; [done|]. eapply HI_altered; [|exact Hi'|done]. by eapply HI_perm.
    - rewrite (hm_find_fmap keq k E Hn) in Hf. done.
  Qed.
  Lemma ht_full_fact (o : ops) l k v :
    holds o l → hm_find keq k l = None → ht_len (after o) = cap → ht_insert keq hash k v (after o) = Ret None (after o).
  Proof using HL Hnew Hnb Hw.
    intros (E & Hi & <-)%ht_reach Hf Hl. eapply (ht_insert_full _ _ HL); [exact Hi| |].
    - apply hm_find_None in Hf. by apply Forall_fmap in Hf.
    - rewrite (HI_len _ _ _ _ _ Hi) in Hl. lia.
  Qed.
  Lemma ht_iter_fact (o : ops) l :
    holds o l → ∃ l', l' ≡ₚ l ∧ ∀ script, ht_iterate (after o) script = Val (fw_spec script l').
  Proof using HL Hnew Hnb Hw.
    intros (E & (bs & Hok & Hp) & <-)%ht_reach. exists (concat bs).*2. split; [by rewrite Hp|]. intros. by eapply ht_iterate_ok.
  Qed.
  Lemma ht_iter_once_fact (o : ops) l :
    holds o l → ∃ l', l' ≡ₚ l ∧
      (∀ m, ht_iterate (after o) (replicate (length l + m) Fwd) = Val (map Some l' ++ replicate m None)) ∧
      (∀ fs m, length fs = (length l + m)%nat → ∃ out h',
        ht_iterate_mut (map (λ f, (Fwd, f)) fs) (after o) = Ret out h' ∧ no_index out = map Some l' ++ replicate m None).
  Proof using HL Hnew Hnb Hw.
    intros (E & (bs & Hok & Hp) & <-)%ht_reach. exists (concat bs).*2. split; [by rewrite Hp|].
    assert (length E.*2 = length (concat bs).*2) as Hl by (by rewrite Hp).
    split.
    - intros m. rewrite (ht_iterate_ok _ _ _ _ _ _ Hok), Hl. f_equal. apply fw_spec_all.
    - intros fs m Hfs. assert (wp (ht_iterate_mut (map (λ f, (Fwd, f)) fs)) (after o)
        (λ out _, out = (fw_mut_spec hupd (map (λ f, (Fwd, f)) fs) (concat bs)).1)) as Hwp.
      { apply (ht_iterate_mut_ok _ _ HL _ _ _ _ _ Hok). done. }
      destruct (wp_elim _ _ _ Hwp) as (out & h' & He & ->). do 2 eexists. split; [exact He|].
      unfold no_index. rewrite fw_mut_spec_out, fw_spec_map.
      replace ((map (λ f, (Fwd, f)) fs).*1) with (replicate (length (concat bs).*2 + m) Fwd); [apply fw_spec_all|].
      rewrite <- Hl, <- Hfs. clear. induction fs as [|f fs IH]; simpl; [done|]. f_equal. exact IH.
  Qed.
  Lemma ht_get_mut_fact (o : ops) l k f :
    holds o l →
    match hm_find keq k l with
    | Some kv => ∃ h', ht_get_mut keq hash k f (after o) = Ret (Some kv.2) h' ∧
        get h' k = Val (Some (f kv.2)) ∧ (∀ k', keq k' k = false → get h' k' = get (after o) k') ∧
        (∀ k', addr h' k' = addr (after o) k') ∧ ht_len h' = ht_len (after o)
    | None => ht_get_mut keq hash k f (after o) = Ret None (after o)
    end.
  Proof using HL Hnew Hnb Hw.
    intros (E & Hi & <-)%ht_reach. destruct (HI_case _ _ HL _ _ _ k Hi) as [(i & kv & R & H1 & H2 & H3)|Hn].
    - assert (hm_find keq k E.*2 = Some kv) as ->.
      { eapply (hm_find_in _ _ HL); [by eapply HI_keys|rewrite H1; simpl; mem|done]. }
      destruct (wp_elim _ _ _ (ht_get_mut_found _ _ HL _ _ _ k f _ _ _ Hi H1 H2)) as (? & h' & He & -> & Hi').
      exists h'. split; [done|]. destruct (HI_altered (after o) h' i kv (f kv.2) R k) as (Ha & Hb & Hc & Hd & He'); [by eapply HI_perm|done|done|].
      done.
    - rewrite (hm_find_fmap keq k E Hn). by eapply ht_get_mut_none.
  Qed.
  Lemma ht_index_fact (o : ops) l k f :
    holds o l →
    match hm_find keq k l with
    | Some kv => get (after o) k = Val (Some kv.2) ∧ ht_index keq hash (after o) k = Val kv.2 ∧
        ∃ h', ht_index_mut keq hash k f (after o) = Ret kv.2 h' ∧ get h' k = Val (Some (f kv.2)) ∧
          (∀ k', keq k' k = false → get h' k' = get (after o) k') ∧ ht_len h' = ht_len (after o)
    | None => get (after o) k = Val None ∧ ht_index keq hash (after o) k = Err Panic ∧
        ht_index_mut keq hash k f (after o) = Fail Panic (after o)
    end.
  Proof using HL Hnew Hnb Hw.
    intros Hh. pose proof (ht_get_mut_fact o l k f Hh) as Hm. destruct (ht_reach _ _ Hh) as (E & Hi & <-).
    destruct (HI_lookups _ _ k Hi) as (i & _ & Hg & _ & _ & Hx). unfold hm_get in Hg. unfold ht_index_mut, mbind, M_bind.
    destruct (hm_find keq k E.*2) as [kv|].
    - destruct Hx as (_ & _ & _ & _ & Hx). destruct Hm as (h' & -> & H1 & H2 & H3 & H4). split_and!; [done|done|]. by exists h'.
    - destruct Hx as (_ & Hx). by rewrite Hm.
  Qed.
  Lemma ht_lookups_fact (o : ops) l k :
    holds o l →
    ∃ i, addr (after o) k = Val i ∧ get (after o) k = Val (hm_get keq k l) ∧
      ht_contains_trait keq hash (after o) k = Val (is_found (hm_find keq k l)) ∧
      ht_contains keq hash (after o) k = Val (is_found (hm_find keq k l)) ∧
      match hm_find keq k l with
      | Some kv => i ≠ SENTINEL ∧ ht_get_node (after o) i = Val kv ∧ keq kv.1 k = true
      | None => i = SENTINEL
      end.
  Proof using HL Hnew Hnb Hw.
    intros (E & Hi & <-)%ht_reach. destruct (HI_lookups _ _ k Hi) as (i & H1 & H2 & H3 & H4 & H5). exists i. split_and!; try done.
    destruct (hm_find keq k E.*2); tauto.
  Qed.
  Lemma ht_addresses_fact (o o' : ops) k v i h1 :
    ht_insert keq hash k v (after o) = Ret (Some i) h1 →
    (∀ k', HRemove k' ∈ o' → keq k k' = false) →
    let h2 := (history step o' h1).2 in
    ∃ k0 v', keq k0 k = true ∧ addr h2 k = Val i ∧ ht_get_node h2 i = Val (k0, v') ∧ get h2 k = Val (Some v') ∧ (o' = [] → v' = v).
  Proof using HL Hnew Hnb Hw.
    intros Hins Hrm. destruct (ht_is_map_fact o) as (l & Hh & _). destruct (ht_reach _ _ Hh) as (E & Hi & _).
    assert (∃ k0 E1, keq k0 k = true ∧ HI h1 E1 ∧ (i, (k0, v)) ∈ E1) as (k0 & E1 & Hk & Hi1 & Hin).
    { destruct (HI_case _ _ HL _ _ _ k Hi) as [(j & kv & R & H1 & H2 & H3)|Hn].
      - destruct (wp_elim _ _ _ (ht_insert_found _ _ HL _ _ _ k v _ _ _ Hi H1 H2)) as (? & h' & He & -> & Hi').
        rewrite Hins in He. injection He as -> ->. exists kv.1. eexists. split; [done|]. split; [exact Hi'|mem].
      - destruct (decide (lengthN E < cap)) as [Hlt|Hge].
        + destruct (wp_elim _ _ _ (ht_insert_new _ _ HL _ _ _ k v Hi Hn Hlt)) as (? & h' & He & j & -> & Hi').
          rewrite Hins in He. injection He as -> ->. exists k. eexists. split; [apply (keq_refl _ _ HL)|]. split; [exact Hi'|mem].
        + rewrite (ht_insert_full _ _ HL _ _ _ k v Hi Hn) in Hins by lia. done. }
    destruct (ht_history_ok keq hash HL cap o' h1 E1 Hi1) as (E2 & Hi2 & _ & Hv).
    destruct (decide (o' = [])) as [->|Hne].
    - simpl. exists k0, v. destruct (HI_addr _ _ k _ _ Hi1 Hin Hk) as (? & ? & ?). done.
    - destruct (Hv i k0 v Hin) as (v' & Hin').
      { intros k' Hk'. specialize (Hrm k' Hk'). destruct (keq k0 k') eqn:E0; [|done]. exfalso.
        assert (keq k k' = true); [|congruence]. eapply (keq_trans _ _ HL); [|exact E0]. by rewrite (keq_sym _ _ HL). }
      exists k0, v'. destruct (HI_addr _ _ k _ _ Hi2 Hin' Hk) as (? & ? & ?). done.
  Qed.
  Lemma ht_iter_mut_fact (o : ops) l script :
    holds o l →
    ∃ (es : list (N * (K * V))) h',
      es.*2 ≡ₚ l ∧ (∀ i kv, (i, kv) ∈ es → addr (after o) kv.1 = Val i) ∧
      (∀ script', ht_iterate (after o) script' = Val (fw_spec script' es.*2)) ∧
      let '(out, es') := fw_mut_spec (λ f e, (e.1, (e.2.1, f e.2.2))) script es in
      ht_iterate_mut script (after o) = Ret out h' ∧ NoDup (map fst (omap id out)) ∧
      es'.*1 = es.*1 ∧ es'.*2.*1 = es.*2.*1 ∧ ht_len h' = ht_len (after o) ∧
      (∀ i kv, (i, kv) ∈ es' → addr h' kv.1 = Val i ∧ ht_get_node h' i = Val kv ∧ get h' kv.1 = Val (Some kv.2)) ∧
      ∀ script', ht_iterate h' script' = Val (fw_spec script' es'.*2).
  Proof using HL Hnew Hnb Hw.
    intros (E & Hi & <-)%ht_reach. pose proof Hi as (bs & Hok & Hp).
    pose proof (HI_perm _ _ _ _ _ _ Hi Hp) as Hi0.
    assert (wp (ht_iterate_mut script) (after o) (λ out h', out = (fw_mut_spec hupd script (concat bs)).1 ∧
      ∃ bs', HOK keq hash cap h' bs' ∧ concat bs' = (fw_mut_spec hupd script (concat bs)).2)) as Hwp.
    { apply (ht_iterate_mut_ok _ _ HL _ _ _ _ _ Hok). intros h' bs' ? ?. split; [done|]. by exists bs'. }
    destruct (wp_elim _ _ _ Hwp) as (out & h' & He & Ho & bs' & Hok' & Hc').
    exists (concat bs), h'. split_and!; [by rewrite Hp| | |].
    - intros i kv Hin. by destruct (HI_addr _ _ kv.1 _ _ Hi0 Hin (keq_refl _ _ HL _)).
    - intros script'. by eapply ht_iterate_ok.
    - pose proof (fw_mut_spec_out hupd script (concat bs)) as Hout.
      pose proof (fw_mut_spec_keys hupd fst script (concat bs) (λ _ _, eq_refl)) as Hk1.
      pose proof (fw_mut_spec_keys hupd (λ x : N * (K * V), x.2.1) script (concat bs) (λ _ _, eq_refl)) as Hk2.
      change (λ f e, (e.1, (e.2.1, f e.2.2))) with (@hupd K V).
      destruct (fw_mut_spec hupd script (concat bs)) as [out' es'] eqn:Es. simpl in *. subst out' out es'.
      assert (HI h' (concat bs')) as Hi' by (by exists bs'). split_and!.
      + done.
      + eapply IterProof.NoDup_submseteq; [apply (fmap_submseteq fst), fw_spec_sub|]. by eapply HI_NoDup.
      + done.
      + rewrite <- !list_fmap_compose. exact Hk2.
      + rewrite (HI_len _ _ _ _ _ Hi'), (HI_len _ _ _ _ _ Hi0). unfold lengthN. f_equal.
        rewrite <- (fmap_length fst (concat bs')), <- (fmap_length fst (concat bs)). f_equal. exact Hk1.
      + intros i kv Hin. by apply (HI_addr _ _ kv.1 _ _ Hi' Hin (keq_refl _ _ HL _)).
      + intros script'. by eapply ht_iterate_ok.
  Qed.
End facts.
