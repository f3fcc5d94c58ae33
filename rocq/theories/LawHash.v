(** * The laws for the hash table (for C88) *)
From Verif Require Import LawMaps.
From Verif Require Export AlikeHash LawSpec.

Section hm.
  Context {K V : Type} (keq : K → K → bool) (hash : K → N) (HL : HashLaws keq hash) (cap : N).
  Implicit Types l : list (K * V).
  Notation same := (λ a b, keq a b = true).
  Notation get := (hm_get keq).
  Notation upd k F l l' := (∀ k', get k' l' = if keq k k' then F (get k l) else get k' l).
  Definition heff (o : hm_op K V) (x : option V) : option V :=
    match o with HInsert _ v => Some v | HRemove _ => None | HGetMut _ f | HIndexMut _ f => f <$> x | _ => x end.
  Definition hans (o : hm_op K V) (x : option V) : res (hm_out K V) :=
    match o with
    | HInsert _ _ => Val (HBool true)
    | HContains _ | HContainsInherent _ => Val (HBool (match x with Some _ => true | None => false end))
    | HIndex _ | HIndexMut _ _ => match x with Some v => Val (HRef v) | None => Err Panic end
    | _ => Val (HVal x)
    end.
  Definition hfits (o : hm_op K V) (k : K) l : Prop := lengthN l + hm_needs o ≤ cap ∨ get k l ≠ None.
  Lemma find_get k l : is_found (hm_find keq k l) = match get k l with Some _ => true | None => false end.
  Proof using Type. unfold hm_get. by destruct (hm_find keq k l). Qed.
  Lemma hm_alter_len k f l : lengthN (hm_alter keq k f l) = lengthN l.
  Proof using Type. unfold hm_alter, lengthN. by rewrite map_length. Qed.
  Lemma hm_remove_le k l : lengthN (hm_remove keq k l) ≤ lengthN l.
  Proof using Type. unfold lengthN, hm_remove. induction l as [|x l IH]; [done|]. cbn. destruct (negb _); cbn; lia. Qed.
  Lemma hkeyed o k l r l' : hm_key o = Some k → distinct_keys keq l → hm_step keq cap o l r l' → hfits o k l →
    r = hans o (get k l) ∧ upd k (heff o) l l' ∧ lengthN l' ≤ lengthN l + hm_needs o.
  Proof using HL.
    intros Hk Hd Hs Hf.
    assert (∀ l : list (K * V), upd k (λ x, x) l l) as Hid by (intros l1 k'; destruct (keq k k') eqn:E; [by rewrite (hm_get_keq keq hash HL k k')|done]).
    assert (∀ v x, hm_find keq k l = Some x → upd k (λ _, Some v) l (hm_insert keq k v l) ∧ lengthN (hm_insert keq k v l) ≤ lengthN l + 1) as Hi1.
    { intros v x Hx. unfold hm_insert. rewrite Hx. split; [|rewrite hm_alter_len; lia]. intros k'. rewrite (hm_get_alter keq hash HL).
      destruct (keq k k'); [|done]. unfold hm_get. by rewrite Hx. }
    assert (∀ v, hm_find keq k l = None → upd k (λ _, Some v) l (hm_insert keq k v l) ∧ lengthN (hm_insert keq k v l) ≤ lengthN l + 1) as Hi2.
    { intros v Hx. unfold hm_insert. rewrite Hx. split; [|rewrite lengthN_cons; lia]. intros k'. by rewrite hm_get_cons. }
    destruct Hs; try done; injection Hk as ->; cbn [hans heff hm_needs] in *.
    - split; [done|]. eauto.
    - split; [done|]. eauto.
    - destruct Hf as [Hf|Hf]; [cbn in Hf; lia|]. exfalso. apply Hf. unfold hm_get. match goal with Hq : hm_find _ _ _ = None |- _ => by rewrite Hq end.
    - split_and!; [done| |rewrite N.add_0_r; apply hm_remove_le]. intros k'. by rewrite (hm_get_remove keq hash HL).
    - split_and!; [done|done|lia].
    - split_and!; [done| |rewrite hm_alter_len; lia]. intros k'. by rewrite (hm_get_alter keq hash HL).
    - rewrite find_get. split_and!; [done|done|lia].
    - rewrite find_get. split_and!; [done|done|lia].
    - split_and!; [done|done|lia].
    - split_and!; [done| |rewrite hm_alter_len; lia]. intros k'. by rewrite (hm_get_alter keq hash HL).
  Qed.
  Lemma hrefused k v l r l' : hm_step keq cap (HInsert k v) l r l' → get k l = None → cap ≤ lengthN l → l' = l ∧ r = Val (HBool false).
  Proof using Type. intros Hs Hg Hc. apply get_find in Hg. inversion Hs; subst; [congruence|lia|done]. Qed.
  Lemma hfits_or k v l : hfits (HInsert k v) k l ∨ (get k l = None ∧ cap ≤ lengthN l).
  Proof using Type. unfold hfits. cbn [hm_needs]. destruct (get k l); [by left; right|]. destruct (decide (lengthN l < cap)); [left; left; lia|right; split; [done|lia]]. Qed.

  Lemma run1 a l rs l' : hm_run keq cap [a] l rs l' → ∃ r, hm_step keq cap a l r l'.
  Proof using Type. inversion 1 as [|? ? ? ? ? ? ? Ha Hb]; subst. inversion Hb; subst. eauto. Qed.
  Lemma run2 a b l rs l' : hm_run keq cap [a; b] l rs l' → ∃ ra la rb, hm_step keq cap a l ra la ∧ hm_step keq cap b la rb l' ∧ rs = [ra; rb].
  Proof using Type. inversion 1 as [|? ? ? ? ? ? ? Ha Hb]; subst. inversion Hb as [|? ? ? ? ? ? ? Hb1 Hb2]; subst. inversion Hb2; subst. eauto 6. Qed.
  Notation sg := (same_gets keq).
  Notation dist := (hm_step_distinct keq hash HL cap).
  Lemma hmerge a b c ka kb kc l la l2 l1 ra rb rc :
    hm_key a = Some ka → hm_key b = Some kb → hm_key c = Some kc → keq ka kb = true → keq kc kb = true → distinct_keys keq l →
    hm_step keq cap a l ra la → hm_step keq cap b la rb l2 → hm_step keq cap c l rc l1 →
    hfits a ka l → (get kb la = heff a (get ka l) → lengthN la ≤ lengthN l + hm_needs a → hfits b kb la) → hfits c kc l →
    (∀ x, heff b (heff a x) = heff c x) → sg l2 l1.
  Proof using HL.
    intros Ka Kb Kc Hs Hs' Hd Sa Sb Sc Fa Fb Fc He k.
    destruct (hkeyed a ka l ra la Ka Hd Sa Fa) as (_ & Ua & La). pose proof (dist _ _ _ _ Sa Hd) as Hda.
    assert (get kb la = heff a (get ka l)) as E1 by (rewrite Ua; by rewrite Hs).
    destruct (hkeyed b kb la rb l2 Kb Hda Sb (Fb E1 La)) as (_ & Ub & _). destruct (hkeyed c kc l rc l1 Kc Hd Sc Fc) as (_ & Uc & _).
    rewrite Ub, Uc, E1, Ua. assert (keq ka k = keq kb k) as ->.
    { destruct (keq kb k) eqn:E; [by apply (keq_trans _ _ HL _ kb)|]. destruct (keq ka k) eqn:E'; [|done]. rewrite <- E. symmetry. apply (keq_trans _ _ HL _ ka); [|done]. by rewrite (keq_sym _ _ HL). }
    assert (keq kc k = keq kb k) as ->.
    { destruct (keq kb k) eqn:E; [by apply (keq_trans _ _ HL _ kb)|]. destruct (keq kc k) eqn:E'; [|done]. rewrite <- E. symmetry. apply (keq_trans _ _ HL _ kc); [|done]. by rewrite (keq_sym _ _ HL). }
    destruct (keq kb k); [|done]. rewrite He. f_equal. rewrite (hm_get_keq keq hash HL ka kb), (hm_get_keq keq hash HL kc kb); done.
  Qed.
  Lemma hswap a b ka kb l ra la rb lab rb' lb ra' lba :
    hm_key a = Some ka → hm_key b = Some kb → keq ka kb ≠ true → distinct_keys keq l → lengthN l + (hm_needs a + hm_needs b) ≤ cap →
    hm_step keq cap a l ra la → hm_step keq cap b la rb lab → hm_step keq cap b l rb' lb → hm_step keq cap a lb ra' lba → sg lab lba.
  Proof using HL.
    intros Ka Kb Hn Hd Hl Sa Sb Sb' Sa' k.
    destruct (hkeyed a ka l ra la Ka Hd Sa) as (_ & Ua & La); [left; lia|]. destruct (hkeyed b kb l rb' lb Kb Hd Sb') as (_ & Ub & Lb); [left; lia|].
    destruct (hkeyed b kb la rb lab Kb (dist _ _ _ _ Sa Hd) Sb) as (_ & Uab & _); [left; lia|].
    destruct (hkeyed a ka lb ra' lba Ka (dist _ _ _ _ Sb' Hd) Sa') as (_ & Uba & _); [left; lia|].
    apply not_true_is_false in Hn. assert (keq kb ka = false) as Hn' by (by rewrite (keq_sym _ _ HL)).
    rewrite Uab, Uba, (Ua kb), (Ub ka), Hn, Hn', Ua, Ub. destruct (keq kb k) eqn:E, (keq ka k) eqn:E'; try done.
    exfalso. enough (keq ka kb = true) by congruence. apply (keq_trans _ _ HL _ k); [done|]. by rewrite (keq_sym _ _ HL).
  Qed.
  Lemma hlaw_ok x y l rx lx ry ly : distinct_keys keq l → lengthN l ≤ cap → hm_law same (cap - lengthN l) x y →
    hm_run keq cap x l rx lx → hm_run keq cap y l ry ly → sg lx ly.
  Proof using HL.
    intros Hd Hc Hl Rx Ry.
    assert (∀ k, keq k k = true) as Hr by apply (keq_refl _ _ HL).
    assert (∀ k q l', lengthN l' ≤ cap → hfits (HRemove q) k l') as FR by (intros; left; cbn; lia).
    assert (∀ k q f l', lengthN l' ≤ cap → hfits (HGetMut q f) k l') as FM by (intros; left; cbn; lia).
    assert (∀ k k' (l : list (K * V)), keq k k' = true → get k l = get k' l) as Hg by (intros; by apply (hm_get_keq keq hash HL)).
    destruct Hl as [a b ka kb Ka Kb Hn Hroom|a Hrd|k k' v w Hs|k k' v Hs|k k' v Hs|k k' v f Hs|k k' Hs|k k' f Hs|k k' v f Hs|k k' f Hs|k k' f g Hs];
      try (apply run2 in Rx as (ra & la & rb & Sa & Sb & ->)); try (apply run1 in Ry as (rc & Sc)).
    - apply run2 in Ry as (? & ? & ? & ? & ? & ->). eapply (hswap a b ka kb l); try done. lia.
    - apply run1 in Rx as (ra & Sa). inversion Ry; subst. intros k. destruct a; try done; inversion Sa; subst; done.
    - destruct (hfits_or k v l) as [Hf|[Hnone Hfull]].
      + refine (hmerge _ _ _ k k' k l la lx ly ra rb rc _ _ _ _ _ Hd Sa Sb Sc _ _ _ _); try done. intros E _. right. by rewrite E.
      + destruct (hrefused _ _ _ _ _ Sa Hnone Hfull) as [-> _]. destruct (hrefused _ _ _ _ _ Sc Hnone Hfull) as [-> _].
        rewrite (Hg k k') in Hnone by done. by destruct (hrefused _ _ _ _ _ Sb Hnone Hfull) as [-> _].
    - destruct (hfits_or k v l) as [Hf|[Hnone Hfull]].
      + refine (hmerge _ _ _ k k' k' l la lx ly ra rb rc _ _ _ _ _ Hd Sa Sb Sc _ _ _ _); try done; [|apply FR; lia]. intros E _. right. by rewrite E.
      + destruct (hrefused _ _ _ _ _ Sa Hnone Hfull) as [-> _]. inversion Sb; subst. by inversion Sc; subst.
    - destruct (hfits_or k' v l) as [Hf|[Hnone Hfull]].
      + refine (hmerge _ _ _ k k' k' l la lx ly ra rb rc _ _ _ _ _ Hd Sa Sb Sc _ _ _ _); try done; [apply FR; lia|]. intros E Hle. left.
        inversion Sa; subst. destruct Hf as [Hf|Hf]; [cbn in *; lia|]. unfold hm_get in Hf. destruct (hm_find keq k' l) as [z|] eqn:Ez; [|done].
        destruct (hm_find keq k l) as [z'|] eqn:Ez'; [pose proof (hm_remove_len keq hash HL _ _ _ Hd Ez'); cbn; lia|].
        exfalso. specialize (Hg k k' l Hs). unfold hm_get in Hg. by rewrite Ez, Ez' in Hg.
      + destruct (hrefused _ _ _ _ _ Sc Hnone Hfull) as [-> _]. rewrite <- (Hg k k') in Hnone by done.
        inversion Sa; subst. assert (hm_remove keq k l = l) as Hrm.
        { apply get_find in Hnone. clear -Hnone. unfold hm_remove. induction l as [|z l IH]; [done|]. cbn in *. destruct (keq z.1 k); [done|]. cbn. by rewrite IH. }
        rewrite Hrm in Sb. rewrite (Hg k k') in Hnone by done. by destruct (hrefused _ _ _ _ _ Sb Hnone Hfull) as [-> _].
    - destruct (hfits_or k v l) as [Hf|[Hnone Hfull]].
      + refine (hmerge _ _ _ k k' k l la lx ly ra rb rc _ _ _ _ _ Hd Sa Sb Sc _ _ _ _); try done. intros E _. right. by rewrite E.
      + destruct (hrefused _ _ _ _ _ Sa Hnone Hfull) as [-> _]. destruct (hrefused _ _ _ _ _ Sc Hnone Hfull) as [-> _].
        inversion Sb; subst. intros q. rewrite (hm_get_alter keq hash HL). destruct (keq k' q) eqn:E; [|done].
        rewrite <- (Hg k' q), <- (Hg k k'), Hnone by done. done.
    - refine (hmerge _ _ _ k k' k l la lx ly ra rb rc _ _ _ _ _ Hd Sa Sb Sc _ _ _ _); try done; [apply FR; lia| |apply FR; lia]. intros _ Hle. apply FR. cbn in Hle. lia.
    - refine (hmerge _ _ _ k k' k l la lx ly ra rb rc _ _ _ _ _ Hd Sa Sb Sc _ _ _ _); try done; [apply FR; lia| |apply FR; lia]. intros _ Hle. apply FM. cbn in Hle. lia.
    - destruct (hfits_or k' v l) as [Hf|[Hnone Hfull]].
      + refine (hmerge _ _ _ k k' k' l la lx ly ra rb rc _ _ _ _ _ Hd Sa Sb Sc _ _ _ _); try done; [apply FM; lia|]. intros E Hle. destruct Hf as [Hf|Hf]; [left; cbn in *; lia|right].
        rewrite E. cbn [heff]. rewrite (Hg k k') by done. by destruct (get k' l).
      + destruct (hrefused _ _ _ _ _ Sc Hnone Hfull) as [-> _]. inversion Sa; subst.
        assert (get k' (hm_alter keq k f l) = None) as Hn2 by (rewrite (hm_get_alter keq hash HL), Hs, (Hg k k') by done; by rewrite Hnone).
        destruct (hrefused _ _ _ _ _ Sb Hn2) as [-> _]; [by rewrite hm_alter_len|].
        intros q. rewrite (hm_get_alter keq hash HL). destruct (keq k q) eqn:E; [|done].
        rewrite <- (Hg k q), (Hg k k'), Hnone by done. done.
    - refine (hmerge _ _ _ k k' k' l la lx ly ra rb rc _ _ _ _ _ Hd Sa Sb Sc _ _ _ _); try done; [apply FM; lia| |apply FR; lia]. intros _ Hle. apply FR. cbn in Hle. lia.
    - refine (hmerge _ _ _ k k' k l la lx ly ra rb rc _ _ _ _ _ Hd Sa Sb Sc _ _ _ _); try done; [apply FM; lia| |apply FM; lia|by intros [z|]]. intros _ Hle. apply FM. cbn in Hle. lia.
  Qed.
End hm.

(** Any number of calls on different keys *)
Section many.
  Context {K V : Type} (keq : K → K → bool) (hash : K → N) (HL : HashLaws keq hash) (cap : N).
  Implicit Types l : list (K * V).
  Notation same := (λ a b, keq a b = true).
  Notation get := (hm_get keq).
  Notation apart := (apart same (hm_key (K:=K) (V:=V))).
  Notation total := (total (hm_needs (K:=K) (V:=V))).
  Notation run := (hm_run keq cap).
  Notation dist := (hm_step_distinct keq hash HL cap).
  Lemma apart_key x b : apart x → b ∈ x → (∃ kb, hm_key b = Some kb) ∧ hm_needs b ≤ total x.
  Proof using Type.
    induction x as [|c x IH]; intros Hx Hb; [by apply elem_of_nil in Hb|]. destruct Hx as [(kc & Hc & _) Hx]. cbn [LawSpec.total].
    apply elem_of_cons in Hb as [->|Hb]; [split; [by exists kc|lia]|]. destruct (IH Hx Hb). split; [done|lia].
  Qed.
  Definition answer l (o : hm_op K V) : res (hm_out K V) := match hm_key o with Some k => hans o (get k l) | None => Err Panic end.
  Lemma halone x l rs l' : apart x → distinct_keys keq l → lengthN l + total x ≤ cap → run x l rs l' → rs = map (answer l) x.
  Proof using HL.
    revert l rs. induction x as [|a x IH]; intros l rs Hx Hd Hl Hr; [by inversion Hr|]. destruct Hx as [(k & Hk & Hf) Hx]. cbn [LawSpec.total] in Hl.
    inversion Hr as [|? ? ? ra la rs' ? Sa Rx]; subst. destruct (hkeyed keq hash HL cap a k l ra la Hk Hd Sa) as (-> & Ua & La); [left; lia|].
    cbn [map]. f_equal; [unfold answer; by rewrite Hk|]. rewrite (IH la rs' Hx (dist _ _ _ _ Sa Hd)); [|lia|done].
    apply map_ext_in. intros b Hb%elem_of_list_In. destruct (apart_key x b Hx Hb) as [[kb Kb] _]. unfold answer. rewrite Kb.
    rewrite Forall_forall in Hf. specialize (Hf b Hb kb Kb). apply not_true_is_false in Hf. by rewrite Ua, Hf.
  Qed.
  (** What the calls [x] leave of the values [g] *)
  Fixpoint leave (x : list (hm_op K V)) (g : K → option V) : K → option V :=
    match x with
    | [] => g
    | a :: x => leave x (λ k', match hm_key a with Some k => if keq k k' then heff a (g k) else g k' | None => g k' end)
    end.
  Lemma leave_ext x g g' : (∀ k, g k = g' k) → ∀ k, leave x g k = leave x g' k.
  Proof using Type. revert g g'. induction x as [|a x IH]; intros g g' Hg; [done|]. cbn. apply IH. intros k. destruct (hm_key a); [|done]. by rewrite !Hg. Qed.
  Lemma hleave x l rs l' : apart x → distinct_keys keq l → lengthN l + total x ≤ cap → run x l rs l' → ∀ k, get k l' = leave x (λ k, get k l) k.
  Proof using HL.
    revert l rs. induction x as [|a x IH]; intros l rs Hx Hd Hl Hr; [by inversion Hr|]. destruct Hx as [(k & Hk & Hf) Hx]. cbn [LawSpec.total] in Hl.
    inversion Hr as [|? ? ? ra la rs' ? Sa Rx]; subst. destruct (hkeyed keq hash HL cap a k l ra la Hk Hd Sa) as (-> & Ua & La); [left; lia|].
    intros q. rewrite (IH la rs' Hx (dist _ _ _ _ Sa Hd)); [|lia|done]. cbn [leave]. apply leave_ext. intros q'. rewrite Hk. apply Ua.
  Qed.
  Lemma happart_perm x y : x ≡ₚ y → apart x → apart y.
  Proof using HL.
    induction 1 as [|a x y Hp IH|a b x|x y z _ IH1 _ IH2]; [done| | |by auto].
    - intros [(k & Hk & Hf) Hx]. split; [|by auto]. exists k. split; [done|]. by rewrite <- Hp.
    - intros [(ka & Ka & Fa) [(kb & Kb & Fb) Hx]]. apply Forall_cons in Fa as [Fab Fa]. split; [exists kb|split; [exists ka|done]].
      + split; [done|]. constructor; [|done]. intros k' Hk' E. rewrite Ka in Hk'. injection Hk' as <-. apply (Fab kb Kb). by rewrite (keq_sym _ _ HL).
      + by split.
  Qed.
  Lemma htotal_perm x y : x ≡ₚ y → total x = total y.
  Proof using Type. induction 1; cbn [LawSpec.total]; lia. Qed.
  Lemma leave_perm x y g : x ≡ₚ y → apart x → ∀ k, leave x g k = leave y g k.
  Proof using HL.
    intros Hp. revert g. induction Hp as [|a x y Hp IH|a b x|x y z Hp IH1 _ IH2]; intros g Hx k; [done| | |].
    - destruct Hx as [_ Hx]. cbn [leave]. by apply IH.
    - destruct Hx as [(ka & Ka & Fa) [(kb & Kb & Fb) Hx]]. apply Forall_cons in Fa as [Fab Fa]. cbn [leave]. apply leave_ext. intros q. rewrite Ka, Kb.
      specialize (Fab kb Kb). apply not_true_is_false in Fab. assert (keq kb ka = false) as Fba by (by rewrite (keq_sym _ _ HL)). rewrite Fab, Fba.
      destruct (keq ka q) eqn:E, (keq kb q) eqn:E'; try done. exfalso. enough (keq ka kb = true) by congruence.
      apply (keq_trans _ _ HL _ q); [done|]. by rewrite (keq_sym _ _ HL).
    - rewrite IH1 by done. apply IH2. by eapply happart_perm.
  Qed.
End many.

Section ht.
  Context `{Profile} {K V : Type} (keq : K → K → bool) (hash : K → N) (HL : HashLaws keq hash).
  Context (nb ms : nat) (d : K * V) (h0 : htable K V) (Hnew : ht_new nb ms d = Some h0) (Hnb : (0 < nb)%nat) (Hw : N.of_nat ms + 1 < W32).
  Notation cap := (N.of_nat ms).
  Notation same := (λ a b, keq a b = true).
  Notation step := (ht_step keq hash).
  Context (o1 : list (hm_op K V)).
  Notation h := (history step o1 h0).2.
  Lemma ht_from2 : ∃ l : list (K * V), distinct_keys keq l ∧ ht_len h = lengthN l ∧ lengthN l ≤ cap ∧
    (∀ x, ∃ lx, hm_run keq cap x l (history step x h).1 lx ∧ distinct_keys keq lx ∧ ∀ o, ∃ l', hm_run keq cap o lx (history step o (history step x h).2).1 l').
  Proof using HL Hnew Hnb Hw.
    destruct (ht_history_ok keq hash HL cap o1 h0 [] (ht_new_ok _ _ _ _ d _ Hnew Hnb Hw)) as (E & HI & _). exists E.*2. split_and!.
    - by eapply HI_keys.
    - unfold lengthN. rewrite fmap_length. by eapply HI_len.
    - unfold lengthN. rewrite fmap_length. by eapply HI_len_le.
    - intros x. destruct (ht_history_ok keq hash HL cap x h E HI) as (E' & HI' & Hr & _). exists E'.*2. split_and!; [done|by eapply HI_keys|].
      intros o. destruct (ht_history_ok keq hash HL cap o _ E' HI') as (E2 & _ & Hr2 & _). by exists E2.*2.
  Qed.
  Lemma ht_gets_alike x y : (∀ l rx lx ry ly, distinct_keys keq l → lengthN l ≤ cap → ht_len h = lengthN l →
      hm_run keq cap x l rx lx → hm_run keq cap y l ry ly → same_gets keq lx ly) →
    alike (Forall no_iter) step step (history step x h).2 (history step y h).2.
  Proof using HL Hnew Hnb Hw.
    intros Hxy o Ho. destruct ht_from2 as (l & Hd & Hlen & Hc & Hr). destruct (Hr x) as (lx & Rx & Dx & Ax), (Hr y) as (ly & Ry & Dy & Ay).
    destruct (Ax o) as [? R1], (Ay o) as [? R2]. eapply (blind_run keq hash HL); [exact Ho|exact Dx|exact Dy| |exact R1|exact R2]. exact (Hxy l _ lx _ ly Hd Hc Hlen Rx Ry).
  Qed.
  Lemma ht_law_fact x y : hm_law same (cap - ht_len h) x y → alike (Forall no_iter) step step (history step x h).2 (history step y h).2.
  Proof using HL Hnew Hnb Hw. intros Hl. apply ht_gets_alike. intros l rx lx ry ly Hd Hc Hlen. rewrite Hlen in Hl. by apply (hlaw_ok keq hash HL). Qed.
  Lemma ht_perm_fact x y : x ≡ₚ y → apart same hm_key x → ht_len h + total hm_needs x ≤ cap → alike (Forall no_iter) step step (history step x h).2 (history step y h).2.
  Proof using HL Hnew Hnb Hw.
    intros Hp Hx Ht. apply ht_gets_alike. intros l rx lx ry ly Hd Hc Hlen Rx Ry k. rewrite Hlen in Ht.
    rewrite (hleave keq hash HL cap x l rx lx Hx Hd Ht Rx), (hleave keq hash HL cap y l ry ly); [by apply (leave_perm keq hash HL)|by eapply (happart_perm keq hash HL)|done| |done].
    by rewrite <- (htotal_perm _ _ Hp).
  Qed.
  Lemma ht_alone_fact x : apart same hm_key x → ht_len h + total hm_needs x ≤ cap → (history step x h).1 = map (λ o, (call (step o) h).1) x.
  Proof using HL Hnew Hnb Hw.
    intros Hx Ht. destruct ht_from2 as (l & Hd & Hlen & Hc & Hr). rewrite Hlen in Ht. destruct (Hr x) as (lx & Rx & _).
    rewrite (halone keq hash HL cap x l _ lx Hx Hd Ht Rx). apply map_ext_in. intros o Ho%elem_of_list_In. destruct (apart_key keq x o Hx Ho) as [[k Hk] Hn].
    destruct (Hr [o]) as (lo & Ro & _). apply (halone keq hash HL cap [o] l _ lo) in Ro; [|split; [|done]; exists k; split; [done|constructor]|done|cbn [total] in *; lia].
    cbn [history map] in Ro. destruct (call (step o) h). cbn in *. by injection Ro.
  Qed.
End ht.
