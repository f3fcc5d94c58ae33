(** * The laws on ordered lists of pairs *)
From Verif Require Import FuzzProof AlikeHash.
From Verif Require Export MapProof AlikeSpec LawSpec.

Section om.
  Context {K V : Type} (cmp : K → K → comparison) (HO : OrdLaws cmp).
  Implicit Types l : list (K * V).
  Notation same := (λ a b, cmp a b = Eq).
  Notation find := (om_find cmp).

  (** A list is determined by what is found in it *)
  Lemma find_head x l : find x.1 (x :: l) = Some x.
  Proof using HO. cbn. by rewrite (cmp_refl cmp HO). Qed.
  Lemma find_in k l x : find k l = Some x → x ∈ l ∧ cmp k x.1 = Eq.
  Proof using Type.
    induction l as [|y l IH]; [done|]. cbn. destruct (cmp k y.1) eqn:E; intros Hf.
    - injection Hf as <-. split; [apply elem_of_list_here|done].
    - destruct (IH Hf). split; [by apply elem_of_list_further|done].
    - destruct (IH Hf). split; [by apply elem_of_list_further|done].
  Qed.
  Lemma asc_ext l l' : ascending cmp l → ascending cmp l' → (∀ k, find k l = find k l') → l = l'.
  Proof using HO.
    revert l'. induction l as [|x l IH]; intros l' Ha Ha' Hf.
    - destruct l' as [|y l']; [done|]. specialize (Hf y.1). by rewrite find_head in Hf.
    - destruct l' as [|y l']; [specialize (Hf x.1); by rewrite find_head in Hf|].
      apply StronglySorted_inv in Ha as [Ha Hx]. apply StronglySorted_inv in Ha' as [Ha' Hy].
      rewrite Forall_forall in Hx, Hy.
      assert (x = y) as <-.
      { pose proof (Hf x.1) as H1. rewrite find_head in H1. symmetry in H1. apply find_in in H1 as [H1 _].
        pose proof (Hf y.1) as H2. rewrite find_head in H2. apply find_in in H2 as [H2 _].
        apply elem_of_cons in H1 as [H1|H1]; [done|]. apply elem_of_cons in H2 as [H2|H2]; [done|].
        pose proof (cmp_trans _ HO _ _ _ (Hx _ H2) (Hy _ H1)) as Hc. by rewrite (cmp_refl cmp HO) in Hc. }
      f_equal. apply IH; [done|done|]. intros k. specialize (Hf k). cbn in Hf. destruct (cmp k x.1) eqn:E; [|done|done].
      rewrite !(om_find_above cmp); [done| |]; apply Forall_forall; intros z Hz; rewrite (cmp_eq _ HO _ _ _ E); auto.
  Qed.

  (** What the operations do to what is found *)
  Notation upd k F l l' := (∀ k', find k' l' = if decide (cmp k k' = Eq) then F (find k l) else find k' l).
  Lemma find_same k k' l : cmp k k' = Eq → find k l = find k' l.
  Proof using HO. intros E. induction l as [|x l IH]; [done|]. cbn. by rewrite (cmp_eq _ HO _ _ _ E), IH. Qed.
  Lemma above_other k k' l : above cmp k l → cmp k k' = Eq → find k' l = None.
  Proof using HO. intros Ha E. rewrite <- (find_same k k' l E). by apply om_find_above. Qed.
  Lemma other_mid k k' l1 x l2 : cmp k x.1 = Eq → cmp k k' ≠ Eq → find k' (l1 ++ x :: l2) = find k' (l1 ++ l2).
  Proof using HO.
    intros Hx Hk. induction l1 as [|y l1 IH]; cbn; [|by rewrite IH]. destruct (cmp k' x.1) eqn:E; [|done|done].
    exfalso. apply Hk. apply (cmp_eq_sym cmp HO) in E. rewrite <- (cmp_eq_r cmp HO _ _ k E). done.
  Qed.
  Lemma find_mid k k' l1 x l2 : below cmp k l1 → cmp k x.1 = Eq → cmp k k' = Eq → find k' (l1 ++ x :: l2) = Some x.
  Proof using HO. intros Hb Hx E. rewrite <- (find_same k k' _ E). by apply om_find_found. Qed.
  Lemma find_none k k' l1 l2 : below cmp k l1 → above cmp k l2 → cmp k k' = Eq → find k' (l1 ++ l2) = None.
  Proof using HO. intros Hb Hx E. rewrite <- (find_same k k' _ E). by apply om_find_absent. Qed.

  Definition put (k : K) (v : V) (x : option (K * V)) : option (K * V) := Some (match x with Some y => (y.1, v) | None => (k, v) end).
  Definition alt (f : V → V) (x : option (K * V)) : option (K * V) := (λ y, (y.1, f y.2)) <$> x.
  Lemma ins_facts k v l : ascending cmp l →
    ascending cmp (om_insert cmp k v l) ∧ upd k (put k v) l (om_insert cmp k v l) ∧ lengthN (om_insert cmp k v l) ≤ lengthN l + 1.
  Proof using HO.
    intros Ha. destruct (asc_cases cmp HO k l Ha) as [(l1 & x & l2 & -> & Hb & Hx & Hab)|(l1 & l2 & -> & Hb & Hab)].
    - rewrite om_insert_found by done. split_and!.
      + eapply ascending_keys; [|exact Ha]. by rewrite !fmap_app, !fmap_cons.
      + intros k'. destruct (decide (cmp k k' = Eq)) as [E|E].
        * rewrite (find_mid k) by done. by rewrite om_find_found.
        * by rewrite !(other_mid k) by done.
      + unfold lengthN. rewrite !app_length. cbn. lia.
    - rewrite om_insert_absent by done. split_and!.
      + by apply ascending_insert.
      + intros k'. destruct (decide (cmp k k' = Eq)) as [E|E].
        * rewrite (find_mid k); [|done|apply (cmp_refl cmp HO)|done]. by rewrite om_find_absent.
        * rewrite (other_mid k); [done|apply (cmp_refl cmp HO)|done].
      + unfold lengthN. rewrite !app_length. cbn. lia.
  Qed.
  Lemma rem_facts k l : ascending cmp l →
    ascending cmp (om_remove cmp k l) ∧ upd k (λ _, None) l (om_remove cmp k l) ∧ lengthN (om_remove cmp k l) ≤ lengthN l.
  Proof using HO.
    intros Ha. destruct (asc_cases cmp HO k l Ha) as [(l1 & x & l2 & -> & Hb & Hx & Hab)|(l1 & l2 & -> & Hb & Hab)].
    - rewrite om_remove_found by done. split_and!.
      + by eapply ascending_delete.
      + intros k'. destruct (decide (cmp k k' = Eq)) as [E|E].
        * by rewrite (find_none k).
        * by rewrite (other_mid k) by done.
      + unfold lengthN. rewrite !app_length. cbn. lia.
    - rewrite om_remove_absent by done. split_and!; [done| |lia].
      intros k'. destruct (decide (cmp k k' = Eq)) as [E|E]; [by rewrite (find_none k)|done].
  Qed.
  Lemma alt_facts k f l : ascending cmp l →
    ascending cmp (om_alter cmp k f l) ∧ upd k (alt f) l (om_alter cmp k f l) ∧ lengthN (om_alter cmp k f l) = lengthN l.
  Proof using HO.
    intros Ha. destruct (asc_cases cmp HO k l Ha) as [(l1 & x & l2 & -> & Hb & Hx & Hab)|(l1 & l2 & -> & Hb & Hab)].
    - rewrite om_alter_found by done. split_and!.
      + eapply ascending_keys; [|exact Ha]. by rewrite !fmap_app, !fmap_cons.
      + intros k'. destruct (decide (cmp k k' = Eq)) as [E|E].
        * rewrite (find_mid k) by done. by rewrite om_find_found.
        * by rewrite !(other_mid k) by done.
      + unfold lengthN. rewrite !app_length. cbn. lia.
    - rewrite om_alter_absent by done. split_and!; [done| |lia].
      intros k'. destruct (decide (cmp k k' = Eq)) as [E|E]; [rewrite (find_none k), om_find_absent by done; done|done].
  Qed.

  (** Every call about one key, as an effect on what is found, and an answer *)
  Definition eff (o : om_op K V) (x : option (K * V)) : option (K * V) :=
    match o with MInsert k v => put k v x | MRemove _ => None | MGetMut _ f | MIndexMut _ f => alt f x | _ => x end.
  Definition ans (o : om_op K V) (x : option (K * V)) : res (om_out K V) :=
    match o with
    | MInsert _ _ => Val (MBool true)
    | MContains _ => Val (MBool (match x with Some _ => true | None => false end))
    | MIndex _ | MIndexMut _ _ => match snd <$> x with Some v => Val (MRef v) | None => Err Panic end
    | _ => Val (MVal (snd <$> x))
    end.
  Context (cap : N) (tight : bool) (sp : om_op K V → list (K * V) → res (om_out K V) * list (K * V)).
  Context (Hsp : ∀ o l, tight = false ∨ lengthN l + om_needs o ≤ cap → sp o l = om_spec cmp cap o l).
  Context (Hfull : ∀ k v l, tight = true → cap ≤ lengthN l → sp (MInsert k v) l = (Val (MBool false), l)).
  Definition fits (o : om_op K V) (k : K) l : Prop := lengthN l + om_needs o ≤ cap ∨ (tight = false ∧ find k l ≠ None).
  Lemma keyed o k l : om_key o = Some k → ascending cmp l → fits o k l →
    ∃ l', sp o l = (ans o (find k l), l') ∧ ascending cmp l' ∧ upd k (eff o) l l' ∧ lengthN l' ≤ lengthN l + om_needs o.
  Proof using HO Hsp.
    intros Hk Ha Hl. rewrite Hsp by (destruct Hl as [?|[? _]]; tauto).
    assert (upd k (λ x, x) l l) as Hid by (intros k'; destruct (decide (cmp k k' = Eq)) as [E|E]; [by rewrite (find_same k k')|done]).
    destruct o as [q v|q|q|q f|q| | | | | |q|q f|sc|sc]; try done; injection Hk as ->; cbn [om_spec om_needs ans eff] in *.
    - destruct (ins_facts k v l Ha) as (H1 & H2 & H3). exists (om_insert cmp k v l).
      split_and!; [|done|done|done]. destruct (find k l) as [x|] eqn:E; [done|].
      rewrite decide_True; [done|]. destruct Hl as [Hl|[_ Hl]]; [cbn in Hl; lia|done].
    - destruct (rem_facts k l Ha) as (H1 & H2 & H3). eexists. split_and!; [done|done|done|lia].
    - exists l. split_and!; [done|done|done|lia].
    - destruct (alt_facts k f l Ha) as (H1 & H2 & H3). eexists. split_and!; [done|done|done|lia].
    - exists l. split_and!; [done|done|done|lia].
    - exists l. split_and!; [done|done|done|lia].
    - destruct (alt_facts k f l Ha) as (H1 & H2 & H3). eexists. split_and!; [done|done|done|lia].
  Qed.
  (** An insertion fits or changes nothing *)
  Lemma fits_or k v l : fits (MInsert k v) k l ∨ (cap ≤ lengthN l ∧ (tight = true ∨ find k l = None) ∧ ∀ k' w, cmp k k' = Eq → sp (MInsert k' w) l = (Val (MBool false), l)).
  Proof using HO Hsp Hfull.
    unfold fits. cbn [om_needs]. destruct (decide (lengthN l < cap)) as [Hl|Hl]; [left; left; lia|]. destruct tight eqn:Et.
    - right. split_and!; [lia|by left|]. intros k' w _. apply Hfull; [done|lia].
    - destruct (find k l) as [x|] eqn:Ex; [by left; right|]. right. split_and!; [lia|by right|]. intros k' w E.
      rewrite Hsp by (by left). cbn [om_spec]. rewrite <- (find_same k k' l E), Ex. by rewrite decide_False.
  Qed.
  Notation hist o l := (spec_history sp o l).
  Lemma hist_1 a l : hist [a] l = ([(sp a l).1], (sp a l).2).
  Proof using Type. cbn. by destruct (sp a l). Qed.
  Lemma hist_2 a b l : hist [a; b] l = ([(sp a l).1; (sp b (sp a l).2).1], (sp b (sp a l).2).2).
  Proof using Type. cbn. destruct (sp a l) as [r l1]. cbn. by destruct (sp b l1). Qed.
  (** Two calls on different keys *)
  Lemma swap_ok a b ka kb l : om_key a = Some ka → om_key b = Some kb → cmp ka kb ≠ Eq → ascending cmp l → lengthN l + (om_needs a + om_needs b) ≤ cap →
    (hist [a; b] l).2 = (hist [b; a] l).2 ∧ (hist [a; b] l).1 = rev (hist [b; a] l).1.
  Proof using HO Hsp.
    intros Ka Kb Hn Ha Hl. rewrite !hist_2. cbn [fst snd rev app].
    destruct (keyed a ka l Ka Ha) as (la & -> & Aa & Fa & La); [left; lia|]. destruct (keyed b kb l Kb Ha) as (lb & -> & Ab & Fb & Lb); [left; lia|]. cbn [fst snd].
    destruct (keyed b kb la Kb Aa) as (lab & -> & Aab & Fab & _); [left; lia|]. destruct (keyed a ka lb Ka Ab) as (lba & -> & Aba & Fba & _); [left; lia|]. cbn [fst snd].
    assert (cmp kb ka ≠ Eq) as Hn' by (rewrite (cmp_eq_sym cmp HO); done).
    assert (find kb la = find kb l) as Eb by (rewrite Fa; by rewrite decide_False).
    assert (find ka lb = find ka l) as Ea by (rewrite Fb; by rewrite decide_False).
    split; [|by rewrite Ea, Eb]. apply asc_ext; [done|done|]. intros k. rewrite Fab, Fba, Ea, Eb, Fa, Fb.
    destruct (decide (cmp kb k = Eq)) as [E|E], (decide (cmp ka k = Eq)) as [E'|E']; try done.
    exfalso. apply Hn. apply (cmp_eq_sym cmp HO) in E. by rewrite (cmp_eq_r cmp HO _ _ ka E) in E'.
  Qed.
  (** Two calls on one key, and one *)
  Lemma merge_ok a b c ka kb kc l :
    om_key a = Some ka → om_key b = Some kb → om_key c = Some kc → cmp ka kb = Eq → cmp kc kb = Eq → ascending cmp l →
    fits a ka l → (∀ la, find kb la = eff a (find ka l) → lengthN la ≤ lengthN l + om_needs a → fits b kb la) → fits c kc l →
    (∀ x, eff b (eff a x) = eff c x) → (hist [a; b] l).2 = (hist [c] l).2.
  Proof using HO Hsp.
    intros Ka Kb Kc Hs Hs' Ha Hl Hl' Hl'' He. rewrite hist_2, hist_1. cbn [fst snd].
    destruct (keyed a ka l Ka Ha Hl) as (la & -> & Aa & Fa & La). cbn [fst snd].
    assert (find kb la = eff a (find ka l)) as E1 by (rewrite Fa; by rewrite decide_True).
    destruct (keyed b kb la Kb Aa (Hl' la E1 La)) as (lab & -> & Aab & Fab & _). destruct (keyed c kc l Kc Ha Hl'') as (lc & -> & Ac & Fc & _). cbn [fst snd].
    apply asc_ext; [done|done|]. intros k.
    rewrite Fab, Fc, E1, Fa. rewrite (cmp_eq _ HO _ _ k Hs), (cmp_eq _ HO _ _ k Hs'). destruct (decide (cmp kb k = Eq)) as [E|E]; [|done].
    rewrite He. f_equal. apply find_same. rewrite (cmp_eq _ HO _ _ kc Hs). by apply (cmp_eq_sym cmp HO).
  Qed.
  Lemma read_ok a l : om_reads a → lengthN l ≤ cap → (sp a l).2 = l.
  Proof using Hsp. intros Hr Hl. rewrite Hsp; [by destruct a|]. right. destruct a; try done; cbn; lia. Qed.

  Lemma law_ok x y l : ascending cmp l → lengthN l ≤ cap → om_law same tight (cap - lengthN l) x y → (hist x l).2 = (hist y l).2.
  Proof using HO Hsp Hfull.
    intros Ha Hc Hl.
    assert (∀ k, cmp k k = Eq) as Hr by exact (cmp_refl cmp HO).
    assert (∀ a b, cmp a b = Eq → cmp b a = Eq) as Hy by (intros a b; by apply (cmp_eq_sym cmp HO)).
    assert (∀ k q l', lengthN l' ≤ cap → fits (MRemove q) k l') as FR by (intros; left; cbn; lia).
    assert (∀ k q f l', lengthN l' ≤ cap → fits (MGetMut q f) k l') as FM by (intros; left; cbn; lia).
    assert (∀ k k' v w, cmp k k' = Eq → fits (MInsert k v) k l → fits (MInsert k' w) k' l) as FI.
    { intros k k' v w E. unfold fits. cbn [om_needs]. by rewrite (find_same k k' l E). }
    assert (∀ k f, find k l = None → sp (MGetMut k f) l = (Val (MVal None), l)) as GN.
    { intros k f E. rewrite Hsp by (right; cbn; lia). cbn [om_spec]. unfold om_get. rewrite E. f_equal. apply asc_ext; [by apply alt_facts|done|].
      intros k'. destruct (alt_facts k f l Ha) as (_ & -> & _). destruct (decide (cmp k k' = Eq)) as [E'|E']; [|done]. by rewrite <- (find_same k k' l E'), E. }
    destruct Hl as [a b ka kb Ka Kb Hn Hroom|a Hrd|k k' v w Hs Hroom|k k' v Hs|k k' v f Hs Hroom|k k' Hs|k k' f Hs|k k' v f Hs Hroom|k k' f Hs|k k' f g Hs].
    - apply (swap_ok a b ka kb); try done. lia.
    - rewrite hist_1. cbn. by apply read_ok.
    - destruct (fits_or k v l) as [Hf|(Hf & _ & Hn)].
      + apply (merge_ok _ _ _ k k' k); try done.
        * intros la Hla Hle. unfold fits. rewrite Hla. cbn in Hle |- *. destruct tight; [left; specialize (Hroom eq_refl); lia|by right].
        * by intros [x|].
      + rewrite hist_2, hist_1, (Hn k v) by done. cbn [fst snd]. by rewrite (Hn k' w), (Hn k w).
    - destruct (fits_or k v l) as [Hf|(Hf & _ & Hn)].
      + apply (merge_ok _ _ _ k k' k'); try done; [|apply FR; lia].
        intros la Hla Hle. unfold fits. rewrite Hla. cbn in Hle |- *. destruct Hf as [Hf|[Ht Hf]]; [left; cbn in Hf; lia|by right].
      + rewrite hist_2, hist_1, (Hn k v) by done. done.
    - destruct (fits_or k v l) as [Hf|(Hf & Hp & Hn)].
      + apply (merge_ok _ _ _ k k' k); try done.
        * intros la Hla Hle. unfold fits. rewrite Hla. cbn in Hle |- *. destruct Hf as [Hf|[Ht Hf]]; [left; cbn in Hf; lia|by right].
        * by intros [x|].
      + rewrite hist_2, hist_1, (Hn k v), (Hn k (f v)) by done. cbn [fst snd].
        destruct Hp as [Ht|Hp]; [specialize (Hroom Ht); lia|]. rewrite GN; [done|]. by rewrite <- (find_same k k' l Hs).
    - apply (merge_ok _ _ _ k k' k); try done; [apply FR; lia| |apply FR; lia]. intros la _ Hle. apply FR. cbn in Hle. lia.
    - apply (merge_ok _ _ _ k k' k); try done; [apply FR; lia| |apply FR; lia]. intros la _ Hle. apply FM. cbn in Hle. lia.
    - destruct (fits_or k' v l) as [Hf|(Hf & Hp & Hn)].
      + apply (merge_ok _ _ _ k k' k'); try done; [apply FM; lia| |].
        * intros la Hla Hle. cbn [eff] in Hla. unfold fits in *. rewrite Hla. cbn in Hf, Hle |- *. destruct Hf as [Hf|[Ht Hf]]; [left; lia|right; split; [done|]].
          rewrite (find_same k k' l Hs). by destruct (find k' l).
        * by intros [x|].
      + destruct Hp as [Ht|Hp]; [specialize (Hroom Ht); lia|].
        rewrite hist_2, hist_1, GN; [done|]. by rewrite (find_same k k' l Hs).
    - apply (merge_ok _ _ _ k k' k'); try done; [apply FM; lia| |apply FR; lia]. intros la _ Hle. apply FR. cbn in Hle. lia.
    - apply (merge_ok _ _ _ k k' k); try done; [apply FM; lia| |apply FM; lia|by intros [x|]]. intros la _ Hle. apply FM. cbn in Hle. lia.
  Qed.

  (** Any number of calls on different keys *)
  Notation apart := (apart same (om_key (K:=K) (V:=V))).
  Notation total := (total (om_needs (K:=K) (V:=V))).
  Lemma hist_cons a x l : hist (a :: x) l = ((sp a l).1 :: (hist x (sp a l).2).1, (hist x (sp a l).2).2).
  Proof using Type. cbn [spec_history]. destruct (sp a l) as [r l1]. cbn [fst snd]. by destruct (hist x l1). Qed.
  Lemma alone_ok x l : apart x → ascending cmp l → lengthN l + total x ≤ cap → (hist x l).1 = map (λ o, (sp o l).1) x.
  Proof using HO Hsp.
    revert l. induction x as [|a x IH]; intros l Hx Ha Hl; [done|]. destruct Hx as [(k & Hk & Hf) Hx]. cbn [LawSpec.total] in Hl. rewrite hist_cons. cbn [fst map].
    destruct (keyed a k l Hk Ha) as (la & Ea & Aa & Fa & La); [left; lia|]. rewrite Ea. cbn [fst snd]. f_equal.
    rewrite IH; [|done|done|lia]. assert (∀ b, b ∈ x → (∃ kb, om_key b = Some kb) ∧ om_needs b ≤ total x) as Hkb.
    { clear -Hx. induction x as [|c x IH]; intros b Hb; [by apply elem_of_nil in Hb|]. destruct Hx as [(kc & Hc & _) Hx]. cbn [LawSpec.total].
      apply elem_of_cons in Hb as [->|Hb]; [split; [by exists kc|lia]|]. destruct (IH Hx b Hb). split; [done|lia]. }
    apply map_ext_in. intros b Hb%elem_of_list_In. destruct (Hkb b Hb) as [[kb Kb] Hn].
    rewrite Forall_forall in Hf. specialize (Hf b Hb kb Kb).
    destruct (keyed b kb la Kb Aa) as (lb & -> & _); [left; lia|]. destruct (keyed b kb l Kb Ha) as (lb' & -> & _); [left; lia|]. cbn [fst].
    rewrite Fa. by rewrite decide_False.
  Qed.
  Lemma apart_perm x y : x ≡ₚ y → apart x → apart y.
  Proof using HO.
    induction 1 as [|a x y Hp IH|a b x|x y z _ IH1 _ IH2]; [done| | |by auto].
    - intros [(k & Hk & Hf) Hx]. split; [|by auto]. exists k. split; [done|]. by rewrite <- Hp.
    - intros [(ka & Ka & Fa) [(kb & Kb & Fb) Hx]]. apply Forall_cons in Fa as [Fab Fa]. split; [exists kb|split; [exists ka|done]].
      + split; [done|]. constructor; [|done]. intros k' Hk' E. rewrite Ka in Hk'. injection Hk' as <-. apply (Fab kb Kb). by apply (cmp_eq_sym cmp HO).
      + by split.
  Qed.
  Lemma total_perm x y : x ≡ₚ y → total x = total y.
  Proof using Type. induction 1; cbn [LawSpec.total]; lia. Qed.
  Lemma perm_ok x y l : x ≡ₚ y → apart x → ascending cmp l → lengthN l + total x ≤ cap → (hist x l).2 = (hist y l).2.
  Proof using HO Hsp.
    intros Hp. revert l. induction Hp as [|a x y Hp IH|a b x|x y z Hp IH1 _ IH2]; intros l Hx Ha Hl; [done| | |].
    - destruct Hx as [(k & Hk & Hf) Hx]. cbn [LawSpec.total] in Hl. rewrite !hist_cons. cbn [snd].
      destruct (keyed a k l Hk Ha) as (la & -> & Aa & Fa & La); [left; lia|]. cbn [snd]. apply IH; [done|done|lia].
    - destruct Hx as [(ka & Ka & Fa) [(kb & Kb & Fb) Hx]]. apply Forall_cons in Fa as [Fab Fa]. cbn [LawSpec.total] in Hl.
      destruct (swap_ok b a ka kb l) as [He _]; [done|done|by apply Fab|done|lia|]. rewrite !hist_2 in He. cbn [snd] in He.
      rewrite !hist_cons. cbn [fst snd]. by rewrite He.
    - rewrite IH1 by done. apply IH2; [by eapply apart_perm|done|]. by rewrite <- (total_perm _ _ Hp).
  Qed.
End om.

(** ** From specification to states *)
Section states.
  Context {S A O L : Type} (P : list O → Prop) (step : O → M S A) (sp : O → L → res A * L).
  Lemma sph_app o o' s : spec_history sp (o ++ o') s =
    ((spec_history sp o s).1 ++ (spec_history sp o' (spec_history sp o s).2).1, (spec_history sp o' (spec_history sp o s).2).2).
  Proof.
    revert s. induction o as [|x o IH]; intros s; cbn [app spec_history]; [apply surjective_pairing|].
    destruct (sp x s) as [r s1]. rewrite IH. by destruct (spec_history sp o s1) as [rs s2].
  Qed.
  Lemma sph_len o s : length (spec_history sp o s).1 = length o.
  Proof. revert s. induction o as [|x o IH]; intros s; [done|]. cbn [spec_history]. destruct (sp x s) as [r s1]. specialize (IH s1). destruct (spec_history sp o s1). cbn in *. by rewrite IH. Qed.
  Lemma states_after s l x o : (∀ o, P o → (history step o s).1 = (spec_history sp o l).1) → P (x ++ o) →
    (history step o (history step x s).2).1 = (spec_history sp o (spec_history sp x l).2).1.
  Proof.
    intros Hs Hp. specialize (Hs _ Hp). rewrite hist_app_1, sph_app in Hs. cbn [fst] in Hs.
    apply app_inj_1 in Hs as [_ Hs]; [done|]. by rewrite hist_len, sph_len.
  Qed.
  Lemma states_alike s l x y : (∀ o, P o → (history step o s).1 = (spec_history sp o l).1) → (∀ o, P o → P (x ++ o) ∧ P (y ++ o)) →
    (spec_history sp x l).2 = (spec_history sp y l).2 → alike P step step (history step x s).2 (history step y s).2.
  Proof. intros Hs Hp He o Ho. destruct (Hp o Ho). rewrite !(states_after s l) by done. by rewrite He. Qed.
  Lemma states_alone s l x : (∀ o, P o → (history step o s).1 = (spec_history sp o l).1) → P x → (∀ o, o ∈ x → P [o]) →
    (spec_history sp x l).1 = map (λ o, (sp o l).1) x → (history step x s).1 = map (λ o, (call (step o) s).1) x.
  Proof.
    intros Hs Hp Hp1 He. rewrite (Hs x Hp), He. apply map_ext_in. intros o Ho%elem_of_list_In. specialize (Hs [o] (Hp1 o Ho)). cbn [history spec_history] in Hs.
    destruct (sp o l), (call (step o) s). cbn in *. by injection Hs.
  Qed.
End states.
