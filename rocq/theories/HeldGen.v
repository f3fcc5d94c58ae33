(** * Keeping references is the same as using them at once: the generic argument *)
From Verif Require Import HeldSpec IterProof.

Section gen.
  Context {S I R A K V : Type} (mnext mback : (V → V) → M (S * I) (option A)) (ent : A → N * (K * V)).
  Context (next next_back : M (S * I) (option R)) (index : R → N) (key : R → S * I → res K) (use : R → (V → V) → M (S * I) V).
  Context (adv : fb → S → I → option (option R * I)) (rdv : R → S → option (K * V)) (wrv : R → V → S → S) (Inv : S → Prop).
  Hypothesis Hmut : ∀ e f s it o st, (match e with Fwd => mnext f | Bwd => mback f end) (s, it) = Ret o st →
    ∃ ro it', adv e s it = Some (ro, it') ∧
      match ro with
      | None => o = None ∧ st = (s, it')
      | Some r => ∃ kv, rdv r s = Some kv ∧ ent <$> o = Some (index r, kv) ∧ st = (wrv r (f kv.2) s, it')
      end.
  Hypothesis Hnx : ∀ e s it ro it', adv e s it = Some (ro, it') → (∀ r, ro = Some r → is_Some (rdv r s)) →
    (match e with Fwd => next | Bwd => next_back end) (s, it) = Ret ro (s, it').
  Hypothesis Hkey : ∀ r s it kv, rdv r s = Some kv → key r (s, it) = Val kv.1.
  Hypothesis Huse : ∀ r f s it kv, rdv r s = Some kv → use r f (s, it) = Ret kv.2 (wrv r (f kv.2) s, it).
  Hypothesis Hadv : ∀ e r v s it, is_Some (rdv r s) → adv e (wrv r v s) it = adv e s it.
  Hypothesis Hrw : ∀ r v s kv, Inv s → rdv r s = Some kv → rdv r (wrv r v s) = Some (kv.1, v).
  Hypothesis Hrne : ∀ r r' v s, Inv s → index r ≠ index r' → is_Some (rdv r s) → rdv r' (wrv r v s) = rdv r' s.
  Hypothesis Hww : ∀ r u v s, Inv s → is_Some (rdv r s) → wrv r v (wrv r u s) = wrv r v s.
  Hypothesis Hwc : ∀ r r' u v s, Inv s → index r ≠ index r' → is_Some (rdv r s) → is_Some (rdv r' s) →
    wrv r v (wrv r' u s) = wrv r' u (wrv r v s).
  Hypothesis Hwid : ∀ r s kv, rdv r s = Some kv → wrv r kv.2 s = s.
  Hypothesis HInv : ∀ r v s, Inv s → Inv (wrv r v s).

  Definition w1 (ro : option R) (g : V → V) (s : S) : S :=
    match ro with Some r => match rdv r s with Some kv => wrv r (g kv.2) s | None => s end | None => s end.
  Fixpoint wall (hs : list (option R)) (n : nat) (G : nat → V → V) (s : S) : S :=
    match hs with [] => s | ro :: hs => wall hs (Datatypes.S n) G (w1 ro (G n) s) end.
  Definition idx (hs : list (option R)) : list N := map index (omap id hs).

  Lemma w1_inv ro g s : Inv s → Inv (w1 ro g s).
  Proof using HInv. intros Hi. destruct ro as [r|]; simpl; [|done]. destruct (rdv r s); [by apply HInv|done]. Qed.
  Lemma wall_inv hs n G s : Inv s → Inv (wall hs n G s).
  Proof using HInv. revert n s. induction hs as [|ro hs IH]; intros n s Hi; simpl; [done|]. by apply IH, w1_inv. Qed.
  Lemma w1_adv e ro g s it : adv e (w1 ro g s) it = adv e s it.
  Proof using Hadv. destruct ro as [r|]; simpl; [|done]. destruct (rdv r s) eqn:E; [|done]. apply Hadv. by eexists. Qed.
  Lemma wall_adv e hs n G s it : adv e (wall hs n G s) it = adv e s it.
  Proof using Hadv. revert n s. induction hs as [|ro hs IH]; intros n s; simpl; [done|]. by rewrite IH, w1_adv. Qed.
  Lemma w1_rd r ro g s : Inv s → (∀ r', ro = Some r' → index r' ≠ index r) → rdv r (w1 ro g s) = rdv r s.
  Proof using Hrne.
    intros Hi Hn. destruct ro as [r'|]; simpl; [|done]. destruct (rdv r' s) eqn:E; [|done]. apply Hrne; [done|by apply Hn|by eexists].
  Qed.
  Lemma idx_cons ro hs : idx (ro :: hs) = match ro with Some r => index r :: idx hs | None => idx hs end.
  Proof using . by destruct ro. Qed.
  Lemma idx_lookup hs j r : hs !! j = Some (Some r) → index r ∈ idx hs.
  Proof using .
    intros Hj%elem_of_list_lookup_2. apply elem_of_list_fmap. exists r. split; [done|]. apply elem_of_list_omap. by exists (Some r).
  Qed.
  Lemma idx_inj hs i j r r' : NoDup (idx hs) → hs !! i = Some (Some r) → hs !! j = Some (Some r') → index r = index r' → i = j.
  Proof using .
    revert i j. induction hs as [|ro hs IH]; intros i j Hd Hi Hj He; [done|]. rewrite idx_cons in Hd.
    destruct i as [|i], j as [|j]; simpl in *; [done| | |].
    - injection Hi as ->. apply NoDup_cons in Hd as [Hd _]. destruct Hd. rewrite He. by apply idx_lookup in Hj.
    - injection Hj as ->. apply NoDup_cons in Hd as [Hd _]. destruct Hd. rewrite <- He. by apply idx_lookup in Hi.
    - f_equal. apply IH; [|done..]. destruct ro; [by apply NoDup_cons in Hd as [_ ?]|done].
  Qed.
  Lemma wall_rd r hs n G s : Inv s → index r ∉ idx hs → rdv r (wall hs n G s) = rdv r s.
  Proof using Hrne HInv.
    revert n s. induction hs as [|ro hs IH]; intros n s Hi Hn; simpl; [done|]. rewrite idx_cons in Hn.
    rewrite IH; [apply w1_rd; [done|]|by apply w1_inv|]; clear - Hn; destruct ro; set_solver.
  Qed.
  Lemma wall_app hs ro n G s : wall (hs ++ [ro]) n G s = w1 ro (G (n + length hs)%nat) (wall hs n G s).
  Proof using .
    revert n s. induction hs as [|ro' hs IH]; intros n s; simpl; [by rewrite Nat.add_0_r|]. rewrite IH. by rewrite Nat.add_succ_r.
  Qed.
  Lemma w1_ext ro g g' s : (∀ v, g v = g' v) → w1 ro g s = w1 ro g' s.
  Proof using . intros He. destruct ro as [r|]; simpl; [|done]. destruct (rdv r s); [|done]. by rewrite He. Qed.
  Lemma wall_ext hs n G G' s :
    (∀ j r, hs !! j = Some (Some r) → ∀ v, G (n + j)%nat v = G' (n + j)%nat v) → wall hs n G s = wall hs n G' s.
  Proof using .
    revert n s. induction hs as [|ro hs IH]; intros n s He; simpl in *; [done|].
    assert (w1 ro (G n) s = w1 ro (G' n) s) as ->.
    { destruct ro as [r|]; [|done]. apply w1_ext. intros v. specialize (He 0%nat r eq_refl v). by rewrite Nat.add_0_r in He. }
    apply IH. intros j r Hj v. specialize (He (Datatypes.S j) r Hj v). by rewrite Nat.add_succ_r in He.
  Qed.
  Lemma wall_use hs n G G' s j r f kv :
    Inv s → NoDup (idx hs) → hs !! j = Some (Some r) → rdv r s = Some kv → (∀ ro, ro ∈ hs → ∀ r, ro = Some r → is_Some (rdv r s)) →
    (∀ v, G (n + j)%nat v = G' (n + j)%nat (f v)) → (∀ i, i ≠ (n + j)%nat → ∀ v, G i v = G' i v) →
    wall hs n G s = wall hs n G' (wrv r (f kv.2) s).
  Proof using Hrw Hrne Hww Hwc HInv.
    revert n s j. induction hs as [|ro hs IH]; intros n s j Hi Hd Hj Hkv Hall Hg Hne; [done|]. simpl. rewrite idx_cons in Hd.
    destruct j as [|j]; simpl in Hj.
    - injection Hj as ->. rewrite Nat.add_0_r in *. simpl. rewrite Hkv, (Hrw r _ s kv Hi Hkv). simpl.
      rewrite Hww by (done || by eexists). rewrite Hg. apply wall_ext. intros i ? _. apply Hne. lia.
    - assert (∀ r0, ro = Some r0 → index r0 ≠ index r) as Hn0.
      { intros r0 ->. apply NoDup_cons in Hd as [Hd _]. intros He. apply Hd. rewrite He. by apply idx_lookup in Hj. }
      assert (rdv r (w1 ro (G n) s) = Some kv) as Hkv' by (by rewrite w1_rd).
      rewrite (IH (Datatypes.S n) _ j).
      + f_equal. rewrite (w1_ext ro (G n) (G' n)) by (apply Hne; lia). clear Hkv'.
        destruct ro as [r0|]; simpl; [|done].
        assert (is_Some (rdv r0 s)) as [kv0 E0]; [eapply Hall; [left|done]|]. rewrite E0.
        rewrite Hrne; [|done|by apply not_eq_sym, Hn0|by eexists]. rewrite E0.
        apply Hwc; [done|by apply not_eq_sym, Hn0|by eexists..].
      + by apply w1_inv.
      + destruct ro; [by apply NoDup_cons in Hd as [_ ?]|done].
      + done.
      + done.
      + intros ro' Hin r' ->.
        rewrite w1_rd; [eapply Hall; [by right|done]|done|].
          intros r0 ->. simpl in Hd. apply NoDup_cons in Hd as [Hd _]. intros He. apply Hd. rewrite He.
          apply elem_of_list_lookup in Hin as [j' Hj']. by apply idx_lookup in Hj'.
      + intros v. replace (Datatypes.S n + j)%nat with (n + Datatypes.S j)%nat by lia. apply Hg.
      + intros i Hi'. apply Hne. lia.
  Qed.

  Lemma wall_id hs n s : wall hs n (λ _ v, v) s = s.
  Proof using Hwid.
    revert n. induction hs as [|ro hs IH]; intros n; simpl; [done|]. replace (w1 ro (λ v, v) s) with s; [apply IH|].
    destruct ro as [r|]; simpl; [|done]. destruct (rdv r s) eqn:E; [|done]. by rewrite Hwid.
  Qed.
  Definition cell (s : S) (ro : option R) (c : option (K * V)) : Prop :=
    match ro, c with None, None => True | Some r, Some kv => rdv r s = Some kv | _, _ => False end.
  Notation drv := (drive_mut mnext mback).
  Notation run := (held next next_back index key use).

  Lemma held_gen script hs cells s it out st :
    Inv s → Forall2 (cell s) hs cells →
    drv (at_once (length hs) script) (wall hs 0 (λ j, uses j script) s, it) = Ret out st →
    NoDup (idx hs ++ map (λ a, (ent a).1) (omap id out)) →
    run script hs (s, it) = Ret (held_spec script (map (option_map ent) out) cells) st.
  Proof using All.
    revert hs cells s it out. induction script as [|[e|j|j f] script IH]; intros hs cells s it out Hi Hc Hd Hnd.
    - cbn [at_once drive_mut uses] in Hd. rewrite wall_id in Hd. injection Hd as <- <-. done.
    - cbn [at_once drive_mut] in Hd. unfold mbind, M_bind in Hd.
      change (λ j, uses j (HNext e :: script)) with (λ j, uses j script) in Hd.
      destruct ((match e with Fwd => mnext (uses (length hs) script) | Bwd => mback (uses (length hs) script) end) _) as [o [s1 it1]|] eqn:E; [|done].
      apply Hmut in E as (ro & it' & Ha & Hro). rewrite wall_adv in Ha.
      destruct (drv (at_once (Datatypes.S (length hs)) script) (s1, it1)) as [out' st'|] eqn:E'; [|done]. injection Hd as <- <-.
      destruct ro as [r|].
      + destruct Hro as (kv & Hr & Ho & [= -> ->]). destruct o as [a|]; [|done]. injection Ho as Ho.
        simpl in Hnd. rewrite Ho in Hnd. simpl in Hnd.
        assert (rdv r s = Some kv) as Hr'.
        { rewrite wall_rd in Hr; [done|done|]. intros Hin. apply NoDup_app in Hnd as (_ & Hnd & _). apply (Hnd _ Hin). left. }
        cbn [held]. unfold mbind, M_bind. rewrite (Hnx e s it (Some r) it' Ha) by (intros ? [= <-]; by eexists).
        rewrite (IH (hs ++ [Some r]) (cells ++ [Some kv]) s it' out').
        * cbn [held_spec map option_map]. rewrite Ho. done.
        * done.
        * apply Forall2_app; [done|]. by repeat constructor.
        * rewrite app_length, Nat.add_1_r, wall_app. simpl. by rewrite Hr.
        * unfold idx in *. rewrite omap_app, map_app. simpl. by rewrite <- app_assoc.
      + destruct Hro as [-> [= -> ->]]. simpl in Hnd.
        cbn [held]. unfold mbind, M_bind. rewrite (Hnx e s it None it' Ha) by done.
        rewrite (IH (hs ++ [None]) (cells ++ [None]) s it' out').
        * done.
        * done.
        * apply Forall2_app; [done|]. by repeat constructor.
        * rewrite app_length, Nat.add_1_r, wall_app. done.
        * unfold idx in *. rewrite omap_app, map_app. simpl. by rewrite app_nil_r.
    - change (at_once (length hs) (HKey j :: script)) with (at_once (length hs) script) in Hd.
      change (λ j', uses j' (HKey j :: script)) with (λ j', uses j' script) in Hd.
      cbn [held held_spec]. unfold mbind, M_bind, gets.
      destruct (hs !! j) as [ro|] eqn:Ej.
      + destruct (Forall2_lookup_l _ _ _ _ _ Hc Ej) as (c & Ec & Hcell). rewrite Ec.
        destruct ro as [r|], c as [kv|]; try done; simpl in Hcell.
        * rewrite (Hkey _ _ _ _ Hcell). simpl. by rewrite (IH hs cells s it out).
        * simpl. by rewrite (IH hs cells s it out).
      + assert (cells !! j = None) as ->.
        { apply lookup_ge_None. rewrite <- (Forall2_length _ _ _ Hc). by apply lookup_ge_None. }
        simpl. by rewrite (IH hs cells s it out).
    - change (at_once (length hs) (HUse j f :: script)) with (at_once (length hs) script) in Hd.
      cbn [held held_spec]. unfold mbind, M_bind.
      assert (∀ r kv, hs !! j = Some (Some r) → rdv r s = Some kv →
                wall hs 0 (λ j', uses j' (HUse j f :: script)) s = wall hs 0 (λ j', uses j' script) (wrv r (f kv.2) s)) as Hu.
      { intros r kv Hr Hkv. apply (wall_use hs 0 _ _ s j r f kv); [done| |done|done|..].
        - by apply NoDup_app in Hnd as [? _].
        - intros ro Hin r' ->. apply elem_of_list_lookup in Hin as [j' Hj'].
          destruct (Forall2_lookup_l _ _ _ _ _ Hc Hj') as ([kv'|] & _ & Hcell); [by eexists|done].
        - intros v. simpl. by rewrite decide_True.
        - intros i Hij v. simpl in *. by rewrite decide_False. }
      assert ((∀ r, hs !! j ≠ Some (Some r)) → wall hs 0 (λ j', uses j' (HUse j f :: script)) s = wall hs 0 (λ j', uses j' script) s) as Hu'.
      { intros Hno. apply wall_ext. intros i r Hi' v. simpl. rewrite decide_False; [done|]. intros ->. by apply (Hno r). }
      destruct (hs !! j) as [ro|] eqn:Ej.
      + destruct (Forall2_lookup_l _ _ _ _ _ Hc Ej) as (c & Ec & Hcell). rewrite Ec.
        destruct ro as [r|], c as [kv|]; try done; simpl in Hcell.
        * rewrite (Huse _ _ _ _ _ Hcell). simpl.
          rewrite (IH hs (alter (option_map (λ kv, (kv.1, f kv.2))) j cells) (wrv r (f kv.2) s) it out); [done|by apply HInv| | |done].
          -- apply Forall2_same_length_lookup. split; [rewrite alter_length; by apply Forall2_length in Hc|].
             intros i ro c Hro Hcc. destruct (decide (i = j)) as [->|Hij].
             ++ rewrite Ej in Hro. injection Hro as <-. rewrite list_lookup_alter, Ec in Hcc. injection Hcc as <-. simpl. by apply Hrw.
             ++ rewrite list_lookup_alter_ne in Hcc by done.
                pose proof (Forall2_lookup_lr _ _ _ _ _ _ Hc Hro Hcc) as Hcell'.
                destruct ro as [r'|], c as [kv'|]; try done. simpl in *. rewrite Hrne; [done|done| |by eexists].
                intros He. apply NoDup_app in Hnd as [Hnd _]. apply Hij.
                eapply (idx_inj hs); [exact Hnd|exact Hro|exact Ej|done].
          -- by rewrite <- (Hu r kv).
        * simpl. rewrite (IH hs (alter (option_map (λ kv, (kv.1, f kv.2))) j cells) s it out); [done|done| | |done].
          -- replace (alter _ j cells) with cells; [done|]. apply list_eq. intros i. destruct (decide (i = j)) as [->|Hij]; [by rewrite list_lookup_alter, Ec|by rewrite list_lookup_alter_ne].
          -- rewrite <- Hu'; [done|]. by intros r [= ?].
      + assert (cells !! j = None) as Ec.
        { apply lookup_ge_None. rewrite <- (Forall2_length _ _ _ Hc). by apply lookup_ge_None. }
        rewrite Ec. simpl. rewrite (IH hs (alter (option_map (λ kv, (kv.1, f kv.2))) j cells) s it out); [done|done| | |done].
        * replace (alter _ j cells) with cells; [done|]. apply list_eq. intros i. destruct (decide (i = j)) as [->|Hij]; [by rewrite list_lookup_alter, Ec|by rewrite list_lookup_alter_ne].
        * by rewrite <- Hu'.
  Qed.
End gen.
