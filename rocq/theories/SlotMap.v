(** * From the operations of a container to its slots *)
From Verif Require Export SlotProof MapSim TreeProof.
From Verif Require HashMain.

Lemma de_spec_inj {A} (l l' : list A) : (∀ sc, de_spec sc l = de_spec sc l') → l = l'.
Proof.
  intros He. specialize (He (replicate (length l + length l') Fwd)). rewrite <- !HashMain.fw_spec_fwd in He.
  rewrite HashMain.fw_spec_all in He. rewrite (Nat.add_comm (length l)), HashMain.fw_spec_all in He.
  apply (f_equal (omap id)) in He. rewrite !omap_app in He.
  assert (∀ l : list A, omap id (map Some l) = l) as H1 by (intros l0; induction l0 as [|x l0 IH]; [done|]; change (x :: omap id (map Some l0) = x :: l0); by rewrite IH).
  assert (∀ n, omap id (replicate n (@None A)) = []) as H2 by (intros n; induction n as [|n IH]; [done|exact IH]).
  by rewrite !H1, !H2, !app_nil_r in He.
Qed.

(** Containers whose invariant can be followed with any ghost knowledge of the allocator ([T]: what a slot holds of a pair) *)
Section family.
  Context `{Profile} {S K V T : Type} (π : K * V → T) (nr : nat) (cap : N) (d : T) (al : S → alloc T)
    (I : Ghost T → S → list (N * (K * V)) → Prop).
  Notation ents := (list (N * (K * V))).
  Implicit Types X L : ents.
  Definition pj (e : N * (K * V)) : N * T := (e.1, π e.2).
  Context (Hch : ∀ G s X, I G s X → ∃ cs, CH (G:=G) nr cap (al s) cs ∧ live cs ≡ₚ map pj X)
    (Hconv : ∀ G G' s X, I G s X → (∀ cs, CH (G:=G) nr cap (al s) cs → live cs ≡ₚ map pj X → CH (G:=G') nr cap (al s) cs) → I G' s X).
  Definition SI L B s X : Prop := I (ghost_is (map pj L) B d) s X.

  Lemma pj_fst X : (map pj X).*1 = X.*1.
  Proof using Type. clear. unfold pj. rewrite <- list_fmap_compose. done. Qed.
  Lemma SI_add L B s X : SI L B s X → I (ghost_add (map pj L) B d) s X.
  Proof using Hconv. intros HS. apply (Hconv _ _ _ _ HS). intros cs Hc _. by apply CH_is_add. Qed.
  Lemma SI_rem L B s X : SI L B s X → I (ghost_rem (map pj X) (map pj L) B d) s X.
  Proof using Hconv. intros HS. apply (Hconv _ _ _ _ HS). intros cs Hc Hl. by apply CH_is_rem. Qed.
  Lemma slots_perm cs cs' X X' : live cs ≡ₚ map pj X → live cs' ≡ₚ map pj X' → X'.*1 ≡ₚ X.*1 → (cs' : list (N * node T)).*1 ≡ₚ cs.*1.
  Proof using Type.
    clear. intros H1 H2 H3. rewrite <- !live_fst. rewrite H1, H2. by rewrite !pj_fst.
  Qed.
  Lemma sk_fst X : (map sk X).*1 = X.*1.
  Proof using Type. clear. unfold sk. rewrite <- list_fmap_compose. done. Qed.
  Lemma pin_same L B s X s' X' : SI L B s X → I (ghost_add (map pj L) B d) s' X' → map sk X' ≡ₚ map sk X → SI L B s' X'.
  Proof using Hch Hconv.
    intros HS HA Hp. destruct (Hch _ _ _ HS) as (cs & Hc & Hl). apply (Hconv _ _ _ _ HA). intros cs' Hc' Hl'.
    eapply pin_add; [exact Hc|exact Hc'|]. eapply slots_perm; [exact Hl|exact Hl'|]. rewrite <- !sk_fst. by rewrite Hp.
  Qed.
  Lemma pin_new L B s X s' X' i k :
    SI L B s X → I (ghost_add (map pj L) B d) s' X' → map sk X' ≡ₚ (i, k) :: map sk X →
    ∃ L' B', SI L' B' s' X' ∧ SR X L B X' L' B'.
  Proof using Hch Hconv.
    intros HS HA Hp. destruct (Hch _ _ _ HS) as (cs & Hc & Hl). destruct (Hch _ _ _ HA) as (cs' & Hc' & Hl').
    assert (∀ cs', live cs' ≡ₚ map pj X' → cs'.*1 ≡ₚ i :: cs.*1) as Hperm.
    { clear -Hl Hp. intros cs' Hl'. rewrite <- !live_fst, Hl, Hl', !pj_fst. rewrite <- (sk_fst X'), Hp. simpl. by rewrite sk_fst. }
    destruct L as [|e L].
    - assert (i = B) as ->. { by eapply (pin_add _ _ [] B d (al s) cs (al s') cs' Hc Hc'), Hperm. }
      exists [], (B + 1). split; [|by eapply SR_new]. apply (Hconv _ _ _ _ HA). intros cs2 Hc2 Hl2.
      eapply (pin_add _ _ [] B d (al s) cs (al s') cs2 Hc Hc2), Hperm. done.
    - assert (i = e.1) as ->. { by eapply (pin_add _ _ (pj e :: map pj L) B d (al s) cs (al s') cs' Hc Hc'), Hperm. }
      exists L, B. split; [|by eapply SR_reuse]. apply (Hconv _ _ _ _ HA). intros cs2 Hc2 Hl2.
      eapply (pin_add _ _ (pj e :: map pj L) B d (al s) cs (al s') cs2 Hc Hc2), Hperm. done.
  Qed.
  Lemma pin_kept L B s X s' X' : SI L B s X → I (ghost_rem (map pj X) (map pj L) B d) s' X' → map sk X' ≡ₚ map sk X → SI L B s' X'.
  Proof using Hch Hconv.
    intros HS HA Hp. destruct (Hch _ _ _ HS) as (cs & Hc & Hl). apply (Hconv _ _ _ _ HA). intros cs' Hc' Hl'.
    eapply pin_rem; [exact Hc|exact Hl|exact Hc'|]. eapply slots_perm; [exact Hl|exact Hl'|]. rewrite <- !sk_fst. by rewrite Hp.
  Qed.
  Lemma pin_gone L B s X s' X' X0 e :
    SI L B s X → I (ghost_rem (map pj X) (map pj L) B d) s' X' → X ≡ₚ e :: X0 → map sk X' ≡ₚ map sk X0 →
    SI (e :: L) B s' X' ∧ SR X L B X' (e :: L) B.
  Proof using Hch Hconv.
    intros HS HA HX Hp. split; [|by eapply SR_rem]. destruct (Hch _ _ _ HS) as (cs & Hc & Hl). apply (Hconv _ _ _ _ HA). intros cs' Hc' Hl'.
    destruct (pin_rem _ _ _ _ _ _ _ _ _ _ Hc Hl Hc') as [_ Hr]. simpl. apply (Hr e.1 (π e.2)).
    - change (e.1, π e.2) with (pj e). apply elem_of_list_fmap_1. rewrite HX. apply elem_of_list_here.
    - rewrite <- !live_fst, Hl, Hl', !pj_fst, HX. simpl. f_equiv. rewrite <- !sk_fst. by rewrite Hp.
  Qed.
  Lemma SI_count L B s X : SI L B s X → B = 1 + lengthN X + lengthN L.
  Proof using Hch.
    intros HS. destruct (Hch _ _ _ HS) as (cs & (fr & Ho & _ & ((l & Hl & _ & [-> HB]) & _) & _) & Hlv).
    rewrite <- HB, (ok_bump _ _ _ _ _ Ho). apply Permutation_length in Hlv. apply (f_equal length) in Hl.
    unfold lengthN. rewrite live_len, map_length in Hlv. rewrite !fmap_length in Hl. lia.
  Qed.
  Lemma SI_unused L B s X : SI L B s X → unused (al s) nr d (map pj L) B.
  Proof using Hch. intros HS. destruct (Hch _ _ _ HS) as (cs & Hc & _). by eapply CH_unused. Qed.
End family.

(** Ordered maps *)
Section omap.
  Context `{Profile} {S K V : Type} (api : oapi S K V) (cmp : K → K → comparison) (HO : OrdLaws cmp) (nr : nat) (cap : N) (d : K * V)
    (al : S → alloc (K * V)) (I : Ghost (K * V) → S → list (N * (K * V)) → Prop).
  Notation ents := (list (N * (K * V))).
  Notation pj := (pj (@id (K * V)%type)).
  Implicit Types X L : ents.
  Context (Hch : ∀ G s X, I G s X → ∃ cs, CH (G:=G) nr cap (al s) cs ∧ live cs ≡ₚ map pj X)
    (Hconv : ∀ G G' s X, I G s X → (∀ cs, CH (G:=G) nr cap (al s) cs → live cs ≡ₚ map pj X → CH (G:=G') nr cap (al s) cs) → I G' s X)
    (Hins : ∀ G, GAdd G → ∀ s E k v, I G s E → wp (a_insert api k v) s (λ o s', ∃ E', I G s' E' ∧ ins_rel cmp cap k v E o E'))
    (Hgm : ∀ G, GAdd G → ∀ s E k f, I G s E → wp (a_get_mut api k f) s (λ o s', ∃ E', I G s' E' ∧ upd_rel cmp k f E o E'))
    (Him : ∀ G, GAdd G → ∀ s E sc, I G s E → wp (a_iter_mut api sc) s (λ o s', I G s' (de_mut_spec upd_ent sc E).2))
    (Hrem : ∀ G, GRem G → ∀ s E k, I G s E → wp (a_remove api k) s (λ o s', ∃ E', I G s' E' ∧ rem_rel cmp k E o E'))
    (Hidx : ∀ s k f o s', a_get_mut api k f s = Ret o s' →
       a_index_mut api k f s = match o with Some v => Ret v s' | None => Fail Panic s' end).
  Notation SI := (SI (@id (K * V)%type) d I).

  Lemma ins_step L B s X k v o s' E' :
    SI L B s X → I (ghost_add (map pj L) B d) s' E' → ins_rel cmp cap k v X o E' → ∃ X' L' B', SI L' B' s' X' ∧ SR X L B X' L' B'.
  Proof using Hch Hconv.
    intros HS HA HR. exists E'.
    assert (map sk E' ≡ₚ map sk X → ∃ L' B', SI L' B' s' E' ∧ SR X L B E' L' B') as Hsame.
    { intros Hp. exists L, B. split; [|by apply SR_same]. by eapply (pin_same _ nr cap d al I Hch Hconv). }
    destruct HR as [A C i kv -> Hc _ _|A C i -> Hl _ _ _ _ _|A C -> Hl _ _].
    - apply Hsame. rewrite !map_app. done.
    - eapply (pin_new _ nr cap d al I Hch Hconv _ _ _ _ _ _ i k); [exact HS|exact HA|]. rewrite !map_app. symmetry. apply Permutation_middle.
    - by apply Hsame.
  Qed.
  Lemma upd_step L B s X k f o s' E' :
    SI L B s X → I (ghost_add (map pj L) B d) s' E' → upd_rel cmp k f X o E' → ∃ X' L' B', SI L' B' s' X' ∧ SR X L B X' L' B'.
  Proof using Hch Hconv.
    intros HS HA HR. exists E', L, B.
    assert (map sk E' ≡ₚ map sk X) as Hp by (destruct HR as [A C i kv -> Hc _ _|A C -> _ _]; [by rewrite !map_app|done]).
    split; [|by apply SR_same]. by eapply (pin_same _ nr cap d al I Hch Hconv).
  Qed.
  Lemma rem_step L B s X k o s' E' :
    SI L B s X → I (ghost_rem (map pj X) (map pj L) B d) s' E' → rem_rel cmp k X o E' → ∃ X' L' B', SI L' B' s' X' ∧ SR X L B X' L' B'.
  Proof using Hch Hconv.
    intros HS HA HR. exists E'. destruct HR as [A C i kv -> Hc _ _|A C -> _ _].
    - exists ((i, kv) :: L), B. eapply (pin_gone _ nr cap d al I Hch Hconv); [exact HS|exact HA| |done].
      symmetry. apply Permutation_middle.
    - exists L, B. split; [|by apply SR_same]. by eapply (pin_kept _ nr cap d al I Hch Hconv).
  Qed.
  Lemma read_step L B s X : SI L B s X → ∃ X' L' B', SI L' B' s X' ∧ SR X L B X' L' B'.
  Proof using Type. intros HS. exists X, L, B. split; [done|by apply SR_same]. Qed.

  Lemma om_slot_step L B s X o : SI L B s X → ∃ X' L' B', SI L' B' (call (om_step api o) s).2 X' ∧ SR X L B X' L' B'.
  Proof using Hch Hconv Hins Hgm Him Hrem Hidx.
    intros HS. pose proof (SI_add _ _ _ d al I Hconv _ _ _ _ HS) as HA. pose proof (SI_rem _ _ _ d al I Hconv _ _ _ _ HS) as HM.
    destruct o as [k v|k|k|k f|k| | | | | |k|k f|sc|sc]; unfold om_step.
    - destruct (wp_elim _ _ _ (Hins _ (ghost_add_add _ _ _) _ _ k v HA)) as (o & s' & He & E' & HA' & HR).
      unfold call, mbind, M_bind. rewrite He. simpl. by eapply ins_step.
    - destruct (wp_elim _ _ _ (Hrem _ (ghost_rem_rem _ _ _ _) _ _ k HM)) as (o & s' & He & E' & HA' & HR).
      unfold call, mbind, M_bind. rewrite He. simpl. by eapply rem_step.
    - unfold call, mbind, M_bind, gets. destruct (a_get api s k); by apply read_step.
    - destruct (wp_elim _ _ _ (Hgm _ (ghost_add_add _ _ _) _ _ k f HA)) as (o & s' & He & E' & HA' & HR).
      unfold call, mbind, M_bind. rewrite He. simpl. by eapply upd_step.
    - unfold call, mbind, M_bind, gets. destruct (a_contains api s k); by apply read_step.
    - by apply read_step.
    - by apply read_step.
    - by apply read_step.
    - unfold call, mbind, M_bind, gets. destruct (a_min api s); by apply read_step.
    - unfold call, mbind, M_bind, gets. destruct (a_max api s); by apply read_step.
    - unfold call, mbind, M_bind, gets. destruct (a_index api s k); by apply read_step.
    - destruct (wp_elim _ _ _ (Hgm _ (ghost_add_add _ _ _) _ _ k f HA)) as (o & s' & He & E' & HA' & HR).
      unfold call, mbind, M_bind. rewrite (Hidx _ _ _ _ _ He). destruct o; simpl; by eapply upd_step.
    - unfold call, mbind, M_bind, gets. destruct (a_iter api s sc); by apply read_step.
    - destruct (wp_elim _ _ _ (Him _ (ghost_add_add _ _ _) _ _ sc HA)) as (o & s' & He & HA').
      unfold call, mbind, M_bind. rewrite He. simpl. exists (de_mut_spec upd_ent sc X).2, L, B.
      assert (map sk (de_mut_spec upd_ent sc X).2 = map sk X) as Hk by (by apply de_mut_spec_keys).
      split; [|apply SR_same; by rewrite Hk]. eapply (pin_same _ nr cap d al I Hch Hconv); [exact HS|exact HA'|by rewrite Hk].
  Qed.

  (** equality of keys *)
  Notation cmp_same := (cmp_same cmp).
  Lemma cmp_same_laws : HashLaws cmp_same (λ _, 0).
  Proof using HO.
    split; unfold cmp_same.
    - intros a. by rewrite (cmp_refl cmp HO).
    - intros a b. rewrite (cmp_sym _ HO b a). by destruct (cmp b a).
    - intros a b c. destruct (cmp a b) eqn:E1; [|done..]. intros _. by rewrite (cmp_eq _ HO _ _ c E1).
    - done.
  Qed.
  Lemma asc_distinct (l : list (K * V)) : ascending cmp l → distinct_keys cmp_same l.
  Proof using Type.
    induction 1 as [|x l Hs IH Hf]; constructor; [|done]. eapply Forall_impl; [exact Hf|]. intros y Hy. simpl in Hy. unfold cmp_same. by rewrite Hy.
  Qed.
End omap.

Section tree.
  Context {K V : Type}.
  Lemma pj_id (X : list (N * (K * V))) : map (pj (@id (K * V)%type)) X = X.
  Proof. unfold pj. induction X as [|[i x] X IH]; [done|]. cbn [map fst snd]. unfold id at 1. by rewrite IH. Qed.
  Lemma live_cells rg p (U : tree (K * V)) : live (cells (K:=K) (V:=V) rg p U) ≡ₚ entries U.
  Proof.
    revert p. induction U as [|m l IHl i kv r IHr]; intros p; simpl; [done|]. unfold live in *. rewrite map_app, IHl, IHr.
    apply Permutation_middle.
  Qed.
End tree.
