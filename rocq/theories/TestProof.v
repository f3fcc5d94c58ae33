(** * The randomised test on maps that behave like maps (for C63) *)
From Verif Require Import FuzzProof TestModel.
From Verif Require Import MapProof IterProof.

(** ** What a double-ended iterator over a list answers *)
Section de.
  Context {A : Type}.
  Implicit Types l : list A.
  Lemma de_nil sc : de_spec sc (@nil A) = replicate (length sc) None.
  Proof using Type. induction sc as [|[] sc IH]; [done|..]; cbn [de_spec unsnoc length replicate]; by f_equal. Qed.
  Lemma de_fwd_app n sc l : (n ≤ length l)%nat → de_spec (replicate n Fwd ++ sc) l = map Some (take n l) ++ de_spec sc (drop n l).
  Proof using Type.
    revert l. induction n as [|n IH]; intros l Hl; [done|]. destruct l as [|x l]; [simpl in Hl; lia|]. cbn [replicate app de_spec take drop map].
    f_equal. apply IH. simpl in Hl. lia.
  Qed.
  Lemma de_bwd_app sc l : de_spec (replicate (length l) Bwd ++ sc) l = map Some (rev l) ++ de_spec sc [].
  Proof using Type.
    induction l as [|x l IH] using rev_ind; [done|]. rewrite app_length, Nat.add_comm. cbn [length Nat.add replicate app de_spec].
    rewrite unsnoc_snoc, rev_unit. cbn [map app]. f_equal. exact IH.
  Qed.
  Lemma de_split b sc l : (b ≤ length l)%nat →
    de_spec (replicate b Fwd ++ replicate (length l - b) Bwd ++ sc) l = map Some (take b l ++ rev (drop b l)) ++ replicate (length sc) None.
  Proof using Type.
    intros Hb. rewrite de_fwd_app by done. rewrite <- drop_length, de_bwd_app, de_nil, map_app. by rewrite <- app_assoc.
  Qed.
  Lemma de_fwd l : de_spec (replicate (length l) Fwd) l = map Some l.
  Proof using Type. pose proof (de_fwd_app (length l) [] l (le_n _)) as H. rewrite app_nil_r, take_ge, app_nil_r in H by done. exact H. Qed.
  Lemma de_bwd l : de_spec (replicate (length l) Bwd) l = map Some (rev l).
  Proof using Type. pose proof (de_bwd_app [] l) as H. by rewrite !app_nil_r in H. Qed.
  Lemma until_fwd m l : (length l < m)%nat → until_none (de_spec (replicate m Fwd) l) = Val l.
  Proof using Type.
    revert l. induction m as [|m IH]; intros l Hl; [lia|]. destruct l as [|x l]; [done|]. cbn [replicate de_spec until_none].
    rewrite IH by (simpl in Hl; lia). done.
  Qed.
  Lemma until_bwd m l : (length l < m)%nat → until_none (de_spec (replicate m Bwd) l) = Val (rev l).
  Proof using Type.
    revert l. induction m as [|m IH]; intros l Hl; [lia|]. destruct l as [|x l _] using rev_ind; [done|]. cbn [replicate de_spec].
    rewrite unsnoc_snoc, rev_unit. cbn [until_none]. rewrite IH by (rewrite app_length in Hl; simpl in Hl; lia). done.
  Qed.
End de.

(** ** Ascending lists *)
Section asc.
  Context {K V : Type} (cmp : K → K → comparison) (HO : OrdLaws cmp).
  Implicit Types l m : list (K * V).
  Notation apart l := (ForallOrdPairs (λ x y : K * V, cmp x.1 y.1 ≠ Eq) l).
  Lemma asc_perm_eq l l' : ascending cmp l → ascending cmp l' → l ≡ₚ l' → l = l'.
  Proof using HO.
    intros H1 H2 Hp. eapply StronglySorted_unique; [|exact H1|exact H2|done]. intros x y Hxy Hyx. apply (cmp_lt cmp HO) in Hyx. congruence.
  Qed.
  Lemma asc_apart l : ascending cmp l → apart l.
  Proof using Type.
    induction 1 as [|x l _ IH Hx]; constructor; [|done]. eapply Forall_impl; [exact Hx|]. simpl. congruence.
  Qed.
  Lemma apart_perm l l' : l ≡ₚ l' → apart l → apart l'.
  Proof using HO. intros Hp. apply fops_perm; [|done]. intros x y Hn He. apply Hn. by apply (cmp_eq_sym cmp HO). Qed.
  Lemma apart_keys l l' : l.*1 = l'.*1 → apart l → apart l'.
  Proof using Type.
    intros He Ha. revert l' He. induction Ha as [|x l Hx _ IH]; intros [|y l'] He; [constructor|done|done|]. rewrite !fmap_cons in He. injection He as He1 He2.
    constructor; [|by apply IH]. assert (Forall (λ k, cmp x.1 k ≠ Eq) l.*1) as Hx' by (by apply Forall_fmap). rewrite He2 in Hx'. apply (Forall_fmap fst (λ k, cmp x.1 k ≠ Eq)) in Hx'.
    rewrite <- He1. exact Hx'.
  Qed.
  Lemma find_none_absent k l : Forall (λ k', cmp k k' ≠ Eq) l.*1 → om_find cmp k l = None.
  Proof using Type.
    induction l as [|x l IH]; [done|]. rewrite fmap_cons. intros [Hx Hl]%Forall_cons. cbn [om_find]. destruct (cmp k x.1) eqn:E; [done|by apply IH..].
  Qed.
  Lemma insert_new k v l : ascending cmp l → Forall (λ k', cmp k k' ≠ Eq) l.*1 →
    om_insert cmp k v l ≡ₚ (k, v) :: l ∧ ascending cmp (om_insert cmp k v l).
  Proof using HO.
    intros Ha Hk. destruct (asc_cases cmp HO k l Ha) as [(l1 & x & l2 & -> & Hb & Hx & Hab)|(l1 & l2 & -> & Hb & Hab)].
    - rewrite fmap_app, fmap_cons in Hk. apply Forall_app in Hk as [_ [Hk _]%Forall_cons]. done.
    - rewrite om_insert_absent by done. split; [solve_Permutation|]. by apply ascending_insert.
  Qed.
  (** a key that is there *)
  Lemma mem_split k l : ascending cmp l → k ∈ l.*1 → ∃ l1 v l2, l = l1 ++ (k, v) :: l2 ∧ below cmp k l1 ∧ above cmp k l2.
  Proof using HO.
    intros Ha Hk. apply elem_of_list_fmap in Hk as ([k' v] & -> & Hin). apply elem_of_list_split in Hin as (l1 & l2 & ->).
    exists l1, v, l2. split; [done|]. by apply (ascending_mid cmp HO) in Ha as (_ & _ & Hb & Hab & _).
  Qed.
  Lemma sort_in_asc x l : ascending cmp l → Forall (λ y, cmp x.1 y.1 ≠ Eq) l → sort_in cmp x l ≡ₚ x :: l ∧ ascending cmp (sort_in cmp x l).
  Proof using HO.
    induction 1 as [|y l Ha IH Hy]; intros Hx; [split; [done|repeat constructor]|]. apply Forall_cons in Hx as [Hxy Hx]. cbn [sort_in].
    destruct (IH Hx) as [IH1 IH2]. destruct (cmp x.1 y.1) eqn:E; [done|..].
    - split; [done|]. constructor; [by constructor|]. constructor; [done|]. eapply Forall_impl; [exact Hy|]. simpl. intros z Hz. by eapply (cmp_trans cmp HO).
    - split; [rewrite IH1; solve_Permutation|]. constructor; [done|]. rewrite IH1. constructor; [by apply (cmp_gt cmp HO)|done].
  Qed.
  Lemma sorted_eq l m : ascending cmp m → l ≡ₚ m → sorted cmp l = m.
  Proof using HO.
    intros Hm Hp. assert (apart l) as Hl. { eapply apart_perm; [by symmetry|]. by apply asc_apart. }
    assert (sorted cmp l ≡ₚ l ∧ ascending cmp (sorted cmp l)) as [H1 H2].
    { clear Hp Hm. induction Hl as [|x l Hx _ [IH1 IH2]]; [split; [done|constructor]|]. cbn [sorted foldr].
      destruct (sort_in_asc x (sorted cmp l) IH2) as [H1 H2]; [by rewrite IH1|]. split; [|done]. unfold sorted in *. by rewrite H1, IH1. }
    apply asc_perm_eq; [done|done|]. by rewrite H1.
  Qed.
End asc.

(** ** Rewriting all values *)
Section rewriting.
  Context {K V : Type} (cmp : K → K → comparison) (HO : OrdLaws cmp) (R : rng K V).
  Implicit Types l m : list (K * V).
  Notation apart l := (ForallOrdPairs (λ x y : K * V, cmp x.1 y.1 ≠ Eq) l).
  Notation upd := (λ (f : V → V) (x : K * V), (x.1, f x.2)).
  Fixpoint vals (d : N) l : list (K * V) := match l with [] => [] | x :: l => (x.1, r_val R d) :: vals (d + 1) l end.
  Lemma vals_keys d l : (vals d l).*1 = l.*1.
  Proof using Type. revert d. induction l as [|x l IH]; intros d; [done|]. cbn [vals]. by rewrite !fmap_cons, IH. Qed.
  Lemma vals_snoc d l x : vals d (l ++ [x]) = vals d l ++ [(x.1, r_val R (d + lengthN l))].
  Proof using Type.
    revert d. induction l as [|y l IH]; intros d; cbn [app vals]; [by rewrite N.add_0_r|]. rewrite IH. do 3 f_equal. f_equal. rewrite lengthN_cons. f_equal. lia.
  Qed.
  Lemma new_values_S d n : new_values R d (S n) = (λ _, r_val R d) :: new_values R (d + 1) n.
  Proof using Type.
    unfold new_values. cbn [seq map]. rewrite N.add_0_r. f_equal. rewrite <- seq_shift, map_map. apply map_ext. intros i. 
    replace (d + N.of_nat (S i)) with (d + 1 + N.of_nat i) by lia. done.
  Qed.
  Lemma new_values_len d n : length (new_values R d n) = n.
  Proof using Type. unfold new_values. by rewrite map_length, seq_length. Qed.
  Lemma mut_nil {B} (u : (V → V) → B → B) sc : (de_mut_spec u sc []).2 = [].
  Proof using Type. induction sc as [|[[] f] sc IH]; [done|..]; cbn [de_mut_spec unsnoc]; by destruct (de_mut_spec u sc []). Qed.
  Lemma mut_fwd d n l : (length l ≤ n)%nat → (de_mut_spec upd (map (λ f, (Fwd, f)) (new_values R d n)) l).2 = vals d l.
  Proof using Type.
    revert d l. induction n as [|n IH]; intros d l Hl; [by destruct l; [|simpl in Hl; lia]|]. rewrite new_values_S. cbn [map de_mut_spec].
    destruct l as [|x l].
    - pose proof (mut_nil upd (map (λ f, (Fwd, f)) (new_values R (d + 1) n))) as Hn. destruct (de_mut_spec _ _ []). exact Hn.
    - specialize (IH (d + 1) l ltac:(simpl in Hl; lia)). destruct (de_mut_spec _ _ l) as [o r]. cbn [snd vals fst] in *. by rewrite IH.
  Qed.
  Lemma mut_bwd d n l : (length l ≤ n)%nat → (de_mut_spec upd (map (λ f, (Bwd, f)) (new_values R d n)) l).2 ≡ₚ vals d (rev l).
  Proof using Type.
    revert d l. induction n as [|n IH]; intros d l Hl; [by destruct l; [|simpl in Hl; lia]|]. rewrite new_values_S. cbn [map de_mut_spec].
    destruct l as [|x l _] using rev_ind.
    - cbn [unsnoc]. pose proof (mut_nil upd (map (λ f, (Bwd, f)) (new_values R (d + 1) n))) as Hn. destruct (de_mut_spec _ _ []). simpl in *. by rewrite Hn.
    - rewrite unsnoc_snoc, rev_unit. rewrite app_length in Hl. specialize (IH (d + 1) l ltac:(simpl in Hl; lia)).
      destruct (de_mut_spec _ _ l) as [o r]. cbn [snd vals fst] in *. rewrite IH. solve_Permutation.
  Qed.
  Lemma mut_out e d n l : (de_mut_spec upd (map (λ f, (e, f)) (new_values R d n)) l).1 = de_spec (replicate n e) l.
  Proof using Type.
    rewrite de_mut_spec_out. f_equal. unfold new_values. generalize 0%nat. induction n as [|n IH]; intros i; [done|]. cbn. f_equal. apply IH.
  Qed.
  (** [new_map] *)
  Lemma write_map_perm d (xs : list (N * (K * V))) m :
    apart (xs.*2 ++ m) → ascending cmp m → write_map cmp R d xs m ≡ₚ vals d xs.*2 ++ m ∧ ascending cmp (write_map cmp R d xs m).
  Proof using HO.
    revert d m. induction xs as [|x xs IH]; intros d m Hap Ha; [done|]. rewrite fmap_cons in *. cbn [write_map vals app] in *.
    inversion Hap as [|? ? Hx Hap']; subst. apply Forall_app in Hx as [Hx1 Hx2].
    destruct (insert_new cmp HO x.2.1 (r_val R d) m Ha) as [Hp1 Ha1]; [by apply Forall_fmap|].
    destruct (IH (d + 1) (om_insert cmp x.2.1 (r_val R d) m)) as [Hp2 Ha2]; [|done|].
    - eapply (apart_perm cmp HO); [apply Permutation_app_head; symmetry; exact Hp1|].
      eapply (apart_perm cmp HO); [apply Permutation_middle|].
      eapply (apart_keys cmp); [|exact Hap]. by rewrite !fmap_cons.
    - split; [|done]. rewrite Hp2, Hp1. solve_Permutation.
  Qed.
  (** the pairs [xs], read off an [iter_mut], are those of [m], in any order; [m'] is what the map holds afterwards *)
  Lemma write_map_eq d (xs : list (N * (K * V))) m m' :
    ascending cmp m → xs.*2 ≡ₚ m → ascending cmp m' → m' ≡ₚ vals d xs.*2 → write_map cmp R d xs [] = m'.
  Proof using HO.
    intros Ha Hp Ha' Hp'. destruct (write_map_perm d xs []) as [H1 H2].
    - rewrite app_nil_r. eapply (apart_perm cmp HO); [by symmetry|]. by apply asc_apart.
    - constructor.
    - rewrite app_nil_r in H1. apply (asc_perm_eq cmp HO); [done|done|]. by rewrite H1.
  Qed.
End rewriting.

(** ** What the test relies on *)
Section generic.
  Context `{Profile} {S K V : Type} `{EqDecision V} (api : nam S K V) (cmp : K → K → comparison) (HO : OrdLaws cmp) (dom : K → Prop) (cap : N)
    (R : rng K V) (es : bool).
  (** [Rep s l]: the map [s] holds the pairs [l], listed in key order *)
  Context (Rep : S → list (K * V) → Prop).
  Notation upd := (λ (f : V → V) (x : K * V), (x.1, f x.2)).
  Record sim_ok : Prop := {
    so_inv : ∀ s l, Rep s l → om_inv cmp dom cap l;
    so_len : ∀ s l, Rep s l → n_len api s = lengthN l;
    so_cap : ∀ s l, Rep s l → n_capacity api s = cap;
    so_insert : ∀ s l k v, Rep s l → dom k → om_find cmp k l = None →
      ∃ o s', n_insert api k v s = Ret o s' ∧
        if decide (lengthN l < cap) then is_some o = true ∧ Rep s' (om_insert cmp k v l) else o = None ∧ Rep s' l;
    so_insert_old : ∀ s l k v x, Rep s l → dom k → om_find cmp k l = Some x → lengthN l < cap →
      ∃ i s', n_insert api k v s = Ret (Some i) s' ∧ Rep s' (om_insert cmp k v l);
    so_remove : ∀ s l k v, Rep s l → dom k → om_get cmp k l = Some v → ∃ s', n_remove api k s = Ret (Some v) s' ∧ Rep s' (om_remove cmp k l);
    so_get_mut : ∀ s l k v f, Rep s l → dom k → om_get cmp k l = Some v →
      ∃ s', n_get_mut api k f s = Ret (Some v) s' ∧ Rep s' (om_alter cmp k f l);
    so_iter : es = true → ∀ s l sc, Rep s l → n_iter api s sc = Val (de_spec sc l);
    so_iter_mut : es = true → ∀ s l sc, Rep s l → ∃ out s', n_iter_mut api sc s = Ret out s' ∧
      no_index out = (de_mut_spec upd sc l).1 ∧ Rep s' (de_mut_spec upd sc l).2;
    so_uiter : es = false → ∀ s l n, Rep s l → ∃ l', l' ≡ₚ l ∧ n_iter api s (replicate n Fwd) = Val (de_spec (replicate n Fwd) l');
    so_uiter_mut : es = false → ∀ s l fs, Rep s l → ∃ l' out s' l'', l' ≡ₚ l ∧ n_iter_mut api (map (λ f, (Fwd, f)) fs) s = Ret out s' ∧
      no_index out = (de_mut_spec upd (map (λ f, (Fwd, f)) fs) l').1 ∧ Rep s' l'' ∧ l'' ≡ₚ (de_mut_spec upd (map (λ f, (Fwd, f)) fs) l').2;
    so_uiter_rev : es = false → ∀ s l fs, Rep s l → ∃ s', n_iter_mut api (map (λ f, (Bwd, f)) fs) s = Ret (replicate (length fs) None) s' ∧ Rep s' l }.
  Context (OK : sim_ok).
  Context (Hdom : ∀ n, dom (r_key R n)) (Hshuf : ∀ n l, r_shuffle R n l ≡ₚ l).
  (** the keys among the first [B] draws are different *)
  Definition fresh (B : N) : Prop := ∀ i j, i < B → j < B → cmp (r_key R i) (r_key R j) = Eq → i = j.

  Notation Ms := (M (sim S K V)).
  Implicit Types st : sim S K V.
  (** The invariant of the first two thirds of the test *)
  Definition inv st : Prop :=
    Rep (m_tree st) (m_map st) ∧ m_keys st ≡ₚ (m_map st).*1 ∧ m_s st = lengthN (m_map st) ∧
    Forall (λ k, ∃ i, i < m_draws st ∧ k = r_key R i) (m_map st).*1.
  Notation len st := (lengthN (m_map st)).

  Lemma asc st : inv st → ascending cmp (m_map st).
  Proof using OK. intros (HR & _). by apply (so_inv OK) in HR as (? & _). Qed.
  Lemma wp_draw {A} (f : N → A) st (Q : A → sim S K V → Prop) : Q (f (m_draws st)) (set_draws (m_draws st + 1) st) → wp (draw f) st Q.
  Proof using Type. intros HQ. unfold draw. apply wp_bind, wp_mget, wp_bind, wp_modify, wp_ret. exact HQ. Qed.
  Lemma wp_range lo hi st (Q : N → sim S K V → Prop) :
    lo < hi → (∀ r, lo ≤ r → r < hi → Q r (set_draws (m_draws st + 1) st)) → wp (gen_range R lo hi) st Q.
  Proof using Type.
    intros Hl HQ. unfold gen_range. apply wp_bind, wp_draw. rewrite decide_True by done. apply wp_ret.
    pose proof (N.mod_lt (r_num R (m_draws st)) (hi - lo) ltac:(lia)) as Hm. revert Hm. generalize (r_num R (m_draws st) mod (hi - lo)). intros r Hm. apply HQ; lia.
  Qed.
  Lemma wp_times n (body : Ms ()) (I : nat → sim S K V → Prop) st :
    (∀ m st, I (Datatypes.S m) st → wp body st (λ _ st', I m st')) → I n st → wp (times n body) st (λ _ st', I O st').
  Proof using Type.
    intros Hb. revert st. induction n as [|n IH]; intros st Hi; [by apply wp_ret|]. cbn [times]. apply wp_bind.
    eapply wp_mono; [by apply Hb|]. intros a st' Hi'. by apply IH.
  Qed.
  Lemma inv_draw st n : inv st → m_draws st ≤ n → inv (set_draws n st).
  Proof using Type.
    intros (HR & Hk & Hs & Hf) Hn. split_and!; [done|done|done|]. cbn. eapply Forall_impl; [exact Hf|]. simpl. intros k (i & Hi & ->). exists i. split; [lia|done].
  Qed.
  Lemma fresh_absent B (HF : fresh B) st : inv st → m_draws st < B → Forall (λ k', cmp (r_key R (m_draws st)) k' ≠ Eq) (m_map st).*1.
  Proof using Type.
    intros (_ & _ & _ & Hf) Hb. eapply Forall_impl; [exact Hf|]. simpl. intros k (i & Hi & ->) He. apply HF in He; lia.
  Qed.
  (** after an insertion of a key that was not there *)
  Notation here st := (r_key R (m_draws st)).
  Definition absent st : Prop := Forall (λ k', cmp (here st) k' ≠ Eq) (m_map st).*1.
  Lemma inv_insert st t' v : absent st → inv st → Rep t' (om_insert cmp (here st) v (m_map st)) →
    inv (Sim t' (m_draws st + 1 + 1) (m_keys st ++ [here st]) (om_insert cmp (here st) v (m_map st)) (m_s st + 1)) ∧
    om_insert cmp (here st) v (m_map st) ≡ₚ (here st, v) :: m_map st ∧
    lengthN (om_insert cmp (here st) v (m_map st)) = len st + 1.
  Proof using HO OK.
    intros Hab Hi HR. destruct (insert_new cmp HO (here st) v (m_map st) (asc st Hi) Hab) as [Hp _].
    destruct Hi as (_ & Hk & Hs & Hf).
    assert (lengthN (om_insert cmp (here st) v (m_map st)) = len st + 1) as Hl by (unfold lengthN; rewrite Hp; simpl; lia).
    split; [|done]. split_and!; cbn [m_tree m_map m_keys m_s m_draws].
    - done.
    - rewrite Hp, fmap_cons. cbn [fst]. rewrite Hk. solve_Permutation.
    - by rewrite Hl, Hs.
    - rewrite Hp, fmap_cons. constructor; [exists (m_draws st); split; [lia|done]|]. eapply Forall_impl; [exact Hf|]. simpl.
      intros k (i & ? & ->). exists i. split; [lia|done].
  Qed.
  Lemma fill_abs st : absent st → inv st → len st < cap →
    wp (t_fill api cmp R) st (λ _ st', inv st' ∧ len st' = len st + 1 ∧ m_draws st' = m_draws st + 2 ∧ (m_map st').*1 ≡ₚ here st :: (m_map st).*1).
  Proof using HO OK Hdom.
    intros Hab Hi Hl. unfold t_fill. apply wp_bind, wp_draw, wp_bind, wp_draw, wp_bind, wp_zoom.
    pose proof Hi as (HR & _ & Hs & _).
    destruct (so_insert OK _ _ (here st) (r_val R (m_draws st + 1)) HR (Hdom _)) as (o & t' & He & Ho).
    { by apply find_none_absent. }
    rewrite decide_True in Ho by done. destruct Ho as [Ho HR']. eapply wp_intro; [exact He|].
    apply wp_bind, wp_massert; [done|]. apply wp_bind, wp_modify, wp_bind, wp_mget.
    destruct (inv_insert st t' (r_val R (m_draws st + 1)) Hab Hi HR') as (Hi' & Hp' & Hl').
    apply wp_bind, wp_massert.
    { apply bool_decide_eq_true. cbn. by rewrite (so_len OK _ _ HR'), Hl', Hs. }
    apply wp_bind, wp_modify, wp_modify. split_and!; [done|done|cbn; lia|]. cbn [m_map set_keys set_map set_s set_tree set_draws]. by rewrite Hp', fmap_cons.
  Qed.
  (** a key drawn before *)
  Lemma fill_old st : ¬ absent st → inv st → len st < cap → ∃ st', t_fill api cmp R st = Fail Panic st'.
  Proof using HO OK Hdom.
    intros Hab Hi Hl. pose proof (asc st Hi) as Ha. pose proof Hi as (HR & _ & Hs & _).
    destruct (asc_cases cmp HO (here st) (m_map st) Ha) as [(l1 & x & l2 & He & Hb & Hx & Habv)|(l1 & l2 & He & Hb & Habv)].
    - destruct (so_insert_old OK _ _ (here st) (r_val R (m_draws st + 1)) x HR (Hdom _)) as (i & t' & Hins & HR').
      { rewrite He. by apply om_find_found. }
      { done. }
      unfold t_fill, on, zoom, draw, mbind, M_bind, mget, modify, mret, M_ret. cbn [m_tree set_draws m_draws]. rewrite Hins. cbn.
      rewrite (so_len OK _ _ HR'), Hs, He, om_insert_found by done. rewrite bool_decide_eq_false_2; [by eexists|].
      unfold lengthN. rewrite !app_length. simpl. lia.
    - destruct Hab. unfold absent. rewrite He, fmap_app. apply Forall_app. split; apply (Forall_fmap fst (λ k', cmp (here st) k' ≠ Eq)).
      + eapply Forall_impl; [exact Hb|]. simpl. intros y Hy Hc. congruence.
      + eapply Forall_impl; [exact Habv|]. simpl. intros y Hy Hc. congruence.
  Qed.
  Definition dup (n : nat) st : Prop := ∃ j, (j < n)%nat ∧
    (Exists (λ k, cmp (r_key R (m_draws st + 2 * N.of_nat j)) k = Eq) (m_map st).*1 ∨
     ∃ i, (i < j)%nat ∧ cmp (r_key R (m_draws st + 2 * N.of_nat i)) (r_key R (m_draws st + 2 * N.of_nat j)) = Eq).
  Lemma fill_dup n st : inv st → len st + N.of_nat n ≤ cap → dup n st → ∃ st', times n (t_fill api cmp R) st = Fail Panic st'.
  Proof using HO OK Hdom.
    revert st. induction n as [|n IH]; intros st Hi Hl (j & Hj & Hd); [lia|]. cbn [times]. unfold mbind, M_bind.
    destruct (decide (absent st)) as [Hab|Hab].
    - pose proof (fill_abs st Hab Hi ltac:(lia)) as Hf. unfold wp in Hf. destruct (t_fill api cmp R st) as [[] st'|]; [|done].
      destruct Hf as (Hi' & Hl' & Hd' & Hp'). apply IH; [done|lia|]. destruct j as [|j].
      + exfalso. rewrite N.add_0_r in Hd. destruct Hd as [Hd|(i & ? & _)]; [|lia]. unfold absent in Hab. rewrite Forall_forall in Hab. apply Exists_exists in Hd as (k & Hk & Hd). by apply (Hab k).
      + exists j. split; [lia|]. replace (m_draws st' + 2 * N.of_nat j) with (m_draws st + 2 * N.of_nat (Datatypes.S j)) by lia.
        destruct Hd as [Hd|(i & Hij & Hd)].
        * left. rewrite Hp'. by right.
        * destruct i as [|i].
          -- left. rewrite Hp'. left. rewrite N.add_0_r in Hd. by rewrite (cmp_sym cmp HO), Hd.
          -- right. exists i. split; [lia|]. by replace (m_draws st' + 2 * N.of_nat i) with (m_draws st + 2 * N.of_nat (Datatypes.S i)) by lia.
    - destruct (fill_old st Hab Hi ltac:(lia)) as (st' & ->). by eexists.
  Qed.
  Lemma insert_ok B (HF : fresh B) st : inv st → m_draws st < B → len st < cap →
    wp (t_insert api cmp R) st (λ _ st', inv st' ∧ len st' = len st + 1 ∧ m_draws st' = m_draws st + 2).
  Proof using HO OK Hdom.
    intros Hi HB Hl. unfold t_insert. pose proof Hi as (HR & _ & Hs & _). apply wp_bind, wp_mget, wp_bind, wp_massert.
    { apply bool_decide_eq_true. by rewrite (so_len OK _ _ HR), (so_cap OK _ _ HR). }
    apply wp_bind, wp_draw, wp_bind, wp_draw, wp_bind, wp_zoom.
    destruct (so_insert OK _ _ (r_key R (m_draws st)) (r_val R (m_draws st + 1)) HR (Hdom _)) as (o & t' & He & Ho).
    { apply find_none_absent. by apply (fresh_absent B). }
    rewrite decide_True in Ho by done. destruct Ho as [Ho HR']. eapply wp_intro; [exact He|].
    apply wp_bind, wp_massert; [done|]. apply wp_bind, wp_modify, wp_bind, wp_modify, wp_modify.
    destruct (inv_insert st t' (r_val R (m_draws st + 1)) (fresh_absent B HF st Hi HB) Hi HR') as (? & _ & ?). split_and!; [done|done|cbn; lia].
  Qed.
  (** keys that are there *)
  Lemma key_split st k : inv st → k ∈ m_keys st → ∃ l1 v l2, m_map st = l1 ++ (k, v) :: l2 ∧ below cmp k l1 ∧ above cmp k l2 ∧ dom k ∧ om_get cmp k (m_map st) = Some v.
  Proof using HO OK.
    intros Hi Hk. pose proof Hi as (HR & Hp & _). rewrite Hp in Hk. destruct (mem_split cmp HO k (m_map st) (asc st Hi) Hk) as (l1 & v & l2 & He & Hb & Ha).
    exists l1, v, l2. split_and!; [done..| |].
    - apply (so_inv OK) in HR as (_ & _ & Hd). by eapply Forall_forall.
    - unfold om_get. rewrite He, om_find_found; [done|done|]. by apply cmp_refl.
  Qed.
  Lemma inv_remove st t' k ks : inv st → k ∈ m_keys st → m_keys st ≡ₚ k :: ks → Rep t' (om_remove cmp k (m_map st)) →
    inv (Sim t' (m_draws st) ks (om_remove cmp k (m_map st)) (m_s st - 1)) ∧ len st = lengthN (om_remove cmp k (m_map st)) + 1.
  Proof using HO OK.
    intros Hi Hk Hp HR. destruct (key_split st k Hi Hk) as (l1 & v & l2 & He & Hb & Ha & _). destruct Hi as (_ & Hkeys & Hs & Hf).
    assert (om_remove cmp k (m_map st) = l1 ++ l2) as Hr. { rewrite He. apply om_remove_found; [done|]. by apply cmp_refl. }
    assert (len st = lengthN (om_remove cmp k (m_map st)) + 1) as Hl. { rewrite Hr, He. unfold lengthN. rewrite !app_length. simpl. lia. }
    split; [|done]. split_and!; cbn [m_tree m_map m_keys m_s m_draws].
    - done.
    - rewrite Hr. apply (Permutation_cons_inv (a := k)). rewrite <- Hp, Hkeys, He, !fmap_app, fmap_cons. solve_Permutation.
    - rewrite Hs, Hl. lia.
    - rewrite Hr. rewrite He in Hf. rewrite fmap_app in *. rewrite fmap_cons in Hf. apply Forall_app in Hf as [? [? ?]%Forall_cons]. by apply Forall_app.
  Qed.
  Lemma empty_ok ks st : inv st → m_keys st ≡ₚ ks → wp (t_empty api cmp ks) (st) (λ _ st', Rep (m_tree st') [] ∧ m_map st' = [] ∧ m_s st' = 0 ∧ m_draws st' = m_draws st).
  Proof using HO OK.
    assert (∀ ks st, inv (set_keys ks st) → wp (t_empty api cmp ks) st (λ _ st', Rep (m_tree st') [] ∧ m_map st' = [] ∧ m_s st' = 0 ∧ m_draws st' = m_draws st)) as Hgen.
    { clear ks st. induction ks as [|k ks IH]; intros st Hi.
      - apply wp_ret. destruct Hi as (HR & Hk & Hs & _). cbn in *. apply Permutation_nil in Hk. apply fmap_nil_inv in Hk. rewrite Hk in *. done.
      - destruct (key_split _ k Hi) as (l1 & v & l2 & He & Hb & Ha & Hd & Hg); [by left|]. cbn [t_empty]. pose proof Hi as (HR & _ & Hs & _).
        destruct (so_remove OK _ _ k v HR Hd Hg) as (t' & Hrm & HR'). apply wp_bind, wp_zoom. cbn in Hrm. eapply wp_intro; [exact Hrm|].
        apply wp_bind, wp_massert; [done|]. apply wp_bind, wp_mget.
        destruct (inv_remove _ t' k ks Hi ltac:(by left) ltac:(done) HR') as [Hi' Hl].
        apply wp_bind. eapply wp_lift; [apply u_sub_ok; cbn in *; lia|]. apply wp_bind, wp_modify, wp_bind, wp_modify.
        eapply wp_mono; [apply IH; exact Hi'|]. done. }
    intros Hi Hp. eapply wp_mono; [apply Hgen|done]. destruct Hi as (? & Hk & ? & ?). split_and!; [done| |done|done]. cbn. by rewrite <- Hp.
  Qed.
  Lemma pick_ok st (Q : nat * K → sim S K V → Prop) :
    inv st → 0 < len st → (∀ j k, m_keys st !! j = Some k → Q (j, k) (set_draws (m_draws st + 1) st)) → wp (t_pick R) st Q.
  Proof using Type.
    intros (_ & Hk & _) Hl HQ. unfold t_pick.
    assert (lengthN (m_keys st) = len st) as Hkl. { unfold lengthN. by rewrite Hk, fmap_length. }
    apply wp_bind, wp_mget, wp_bind, wp_massert.
    { apply bool_decide_eq_true. intros He. rewrite He in Hkl. unfold lengthN in *. simpl in *. lia. }
    apply wp_bind, wp_range; [lia|]. intros r _ Hr.
    assert (N.to_nat r < length (m_keys st))%nat as Hlt by (unfold lengthN in *; lia). apply lookup_lt_is_Some in Hlt as [k Hj].
    apply wp_bind. eapply wp_lift; [by rewrite Hj|]. apply wp_ret. by apply HQ.
  Qed.
  Lemma remove_ok st : inv st → 0 < len st → wp (t_remove api cmp R) st (λ _ st', inv st' ∧ len st = len st' + 1 ∧ m_draws st' = m_draws st + 1).
  Proof using HO OK.
    intros Hi Hl. unfold t_remove. apply wp_bind, pick_ok; [done..|]. intros j k Hj. cbn [fst snd].
    pose proof (elem_of_list_lookup_2 _ _ _ Hj) as Hk. pose proof Hi as (HR & _ & Hs & _).
    destruct (key_split st k Hi Hk) as (l1 & v & l2 & He & Hb & Ha & Hd & Hg).
    apply wp_bind, wp_modify, wp_bind, wp_zoom. destruct (so_remove OK _ _ k v HR Hd Hg) as (t' & Hrm & HR').
    eapply wp_intro; [exact Hrm|]. apply wp_bind, wp_massert; [done|]. apply wp_bind, wp_modify, wp_bind, wp_mget.
    destruct (inv_remove (set_draws (m_draws st + 1) st) t' k (swap_remove j (m_keys st)) (inv_draw st (m_draws st + 1) Hi ltac:(lia)) Hk (swap_remove_perm _ _ _ Hj) HR') as [Hi' Hl'].
    apply wp_bind. eapply wp_lift; [apply u_sub_ok; cbn in *; lia|]. apply wp_modify. done.
  Qed.
  Lemma update_ok st : inv st → 0 < len st → wp (t_update api cmp R) st (λ _ st', inv st' ∧ len st' = len st ∧ m_draws st' = m_draws st + 2).
  Proof using HO OK.
    intros Hi Hl. unfold t_update. apply wp_bind, pick_ok; [done..|]. intros j k Hj. cbn [fst snd].
    pose proof (elem_of_list_lookup_2 _ _ _ Hj) as Hk. pose proof Hi as (HR & Hkeys & Hs & Hf).
    destruct (key_split st k Hi Hk) as (l1 & v & l2 & He & Hb & Ha & Hd & Hg).
    apply wp_bind, wp_draw, wp_bind, wp_zoom. cbn [m_draws set_draws].
    destruct (so_get_mut OK _ _ k v (λ _, r_val R (m_draws st + 1)) HR Hd Hg) as (t' & Hrm & HR'). eapply wp_intro; [exact Hrm|].
    apply wp_bind. eapply wp_lift; [done|]. apply wp_modify. cbn [set_map set_tree set_draws m_tree m_map m_keys m_s m_draws].
    assert (om_insert cmp k (r_val R (m_draws st + 1)) (m_map st) = l1 ++ (k, r_val R (m_draws st + 1)) :: l2) as Hins.
    { rewrite He. rewrite om_insert_found; [done|done|]. by apply cmp_refl. }
    assert (om_alter cmp k (λ _, r_val R (m_draws st + 1)) (m_map st) = l1 ++ (k, r_val R (m_draws st + 1)) :: l2) as Halt.
    { rewrite He. rewrite om_alter_found; [done|done|]. by apply cmp_refl. }
    rewrite Halt in HR'. rewrite Hins.
    assert ((l1 ++ (k, r_val R (m_draws st + 1)) :: l2).*1 = (m_map st).*1) as Hks by (rewrite He, !fmap_app, !fmap_cons; done).
    assert (lengthN (l1 ++ (k, r_val R (m_draws st + 1)) :: l2) = len st) as Hln by (rewrite He; unfold lengthN; rewrite !app_length; done).
    split; [|split; [done|lia]]. split_and!; cbn [set_map set_tree set_draws m_tree m_map m_keys m_s m_draws].
    - done.
    - by rewrite Hks.
    - by rewrite Hln.
    - rewrite Hks. eapply Forall_impl; [exact Hf|]. simpl. intros k' (i & ? & ->). exists i. split; [lia|done].
  Qed.
  Lemma round_ok B (HF : fresh B) st : inv st → m_draws st + (2 + 2 * cap) ≤ B → wp (t_round api cmp R) st (λ _ st', inv st' ∧ m_draws st' ≤ m_draws st + (2 + 2 * cap)).
  Proof using HO OK Hdom.
    intros Hi HB. pose proof Hi as (HR & _ & Hs & _). destruct (so_inv OK _ _ HR) as (_ & Hle & _). unfold t_round.
    apply wp_bind, wp_mget, wp_bind, wp_massert. { apply bool_decide_eq_true. by rewrite (so_len OK _ _ HR). }
    apply wp_bind, wp_draw. rewrite (so_len OK _ _ HR), (so_cap OK _ _ HR).
    pose proof (inv_draw st (m_draws st + 1) Hi ltac:(lia)) as Hi1.
    assert (inv (set_draws (m_draws st + 1 + 1) (set_draws (m_draws st + 1) st))) as Hi2 by (apply inv_draw; [done|cbn; lia]).
    destruct (r_third R (m_draws st)).
    - apply wp_bind. eapply wp_lift; [apply u_sub_ok; lia|]. destruct (decide _) as [E|E]; [apply wp_ret; split; [done|cbn; lia]|].
      apply wp_bind, wp_range; [lia|]. intros r _ Hr.
      eapply wp_mono; [apply (wp_times _ _ (λ n st', inv st' ∧ len st' + N.of_nat n < cap ∧ m_draws st' + 2 * N.of_nat n ≤ m_draws st + 2 + 2 * r))|].
      + intros m st' (Hi' & Hl' & Hd'). eapply wp_mono; [apply (insert_ok B HF); [done|lia|lia]|]. cbv beta. intros _ st'' (? & -> & ->). split_and!; [done|lia|lia].
      + split; [done|]. cbn [m_map m_draws set_draws]. lia.
      + intros ? st' (? & _ & ?). split; [done|lia].
    - destruct (decide _) as [E|E]; [apply wp_ret; split; [done|cbn; lia]|]. apply wp_bind, wp_range; [apply N.div_str_pos; lia|]. intros r _ Hr.
      pose proof (N.div_le_upper_bound (len st) 2 (len st) ltac:(lia) ltac:(lia)) as Hdiv.
      eapply wp_mono; [apply (wp_times _ _ (λ n st', inv st' ∧ N.of_nat n ≤ len st' ∧ m_draws st' + 2 * N.of_nat n ≤ m_draws st + 2 + 2 * r))|].
      + intros m st' (Hi' & Hl' & Hd'). eapply wp_mono; [apply remove_ok; [done|lia]|]. cbv beta. intros _ st'' (? & Hl'' & ->). split; [done|lia].
      + split; [done|]. cbn [m_map m_draws set_draws]. lia.
      + intros ? st' (? & _ & ?). split; [done|lia].
    - destruct (decide _) as [E|E]; [apply wp_ret; split; [done|cbn; lia]|]. apply wp_bind, wp_range; [lia|]. intros r _ Hr.
      eapply wp_mono; [apply (wp_times _ _ (λ n st', inv st' ∧ len st' = len st ∧ m_draws st' + 2 * N.of_nat n ≤ m_draws st + 2 + 2 * r))|].
      + intros m st' (Hi' & Hl' & Hd'). eapply wp_mono; [apply update_ok; [done|lia]|]. cbv beta. intros _ st'' (? & -> & ->). split_and!; [done|done|lia].
      + split_and!; [done|done|cbn [m_map m_draws set_draws]; lia].
      + intros ? st' (? & _ & ?). split; [done|lia].
  Qed.
  (** Only updates in the rounds: the map stays empty *)
  Lemma round_high st : inv st → r_third R (m_draws st) = High → m_map st = [] →
    wp (t_round api cmp R) st (λ _ st', inv st' ∧ m_map st' = []).
  Proof using OK.
    intros Hi Hh Hm. pose proof Hi as (HR & _ & Hs & _). unfold t_round.
    apply wp_bind, wp_mget, wp_bind, wp_massert. { apply bool_decide_eq_true. by rewrite (so_len OK _ _ HR). }
    apply wp_bind, wp_draw. rewrite (so_len OK _ _ HR), Hh, Hm. rewrite decide_True by done. apply wp_ret.
    split; [|done]. apply inv_draw; [done|lia].
  Qed.

  (** ** The comparisons *)
  Lemma same_refl (x : K * V) : same_pair cmp x x = true.
  Proof using HO. unfold same_pair. rewrite (bool_decide_eq_true_2 (cmp x.1 x.1 = Eq)) by by apply cmp_refl. by rewrite bool_decide_eq_true_2. Qed.
  Lemma zip_same_refl (m : list (K * V)) : zip_same cmp m (map Some m) = true.
  Proof using HO. induction m as [|x m IH]; [done|]. cbn [map zip_same]. by rewrite same_refl. Qed.
  Lemma all_same_refl (m : list (K * V)) : all_same cmp (map Some m) (map Some m) = true.
  Proof using HO. induction m as [|x m IH]; [done|]. cbn [map all_same]. by rewrite same_refl. Qed.
  Lemma all_none_rep {A} n : all_none (replicate n (@None A)) = true.
  Proof using Type. unfold all_none. induction n; [done|]. done. Qed.
  Lemma all_some_map {A} (m : list A) : forallb is_some (map Some m) = true.
  Proof using Type. induction m; [done|]. done. Qed.
  Lemma same_ok st m : Rep (m_tree st) m → wp (t_same api cmp es m) st (λ _ st', st' = st).
  Proof using HO OK.
    intros HR. destruct (so_inv OK _ _ HR) as (Ha & Hl & _). unfold t_same. apply wp_bind, wp_mget. destruct es eqn:Ees.
    - apply wp_bind. eapply wp_lift; [by apply (so_iter OK Ees)|]. rewrite de_fwd. apply wp_bind, wp_massert; [by apply zip_same_refl|].
      apply wp_bind. eapply wp_lift; [by apply (so_iter OK Ees)|]. rewrite de_bwd. apply wp_massert; [by apply zip_same_refl|done].
    - unfold fz_calls. rewrite (so_cap OK _ _ HR). destruct (so_uiter OK Ees _ _ (N.to_nat (cap + 1)) HR) as (l' & Hp & Hit).
      apply wp_bind. eapply wp_lift; [exact Hit|]. apply wp_bind. eapply wp_lift.
      { apply until_fwd. rewrite Hp. unfold lengthN in Hl. lia. }
      apply wp_massert; [|done]. rewrite (sorted_eq cmp HO l' m Ha Hp). apply zip_same_refl.
  Qed.
  Lemma until_no_index {A} (l : list (option (N * A))) (ys : list A) : until_none (no_index l) = Val ys → ∃ xs, until_none l = Val xs ∧ xs.*2 = ys.
  Proof using Type.
    revert ys. induction l as [|[x|] l IH]; intros ys; cbn; [done| |].
    - unfold res_bind. unfold no_index in IH. destruct (until_none (map (option_map snd) l)) as [ys'|] eqn:E; [|done]. intros [= <-]. destruct (IH _ eq_refl) as (xs & -> & <-).
      by exists (x :: xs).
    - intros [= <-]. by exists [].
  Qed.
  Lemma rewrite_ok e st m : Rep (m_tree st) m → es = true ∨ e = Fwd →
    wp (t_rewrite api cmp R e) st (λ m' st', Rep (m_tree st') m' ∧ lengthN m' = lengthN m).
  Proof using HO OK.
    intros HR He. destruct (so_inv OK _ _ HR) as (Ha & Hl & _). unfold t_rewrite. apply wp_bind, wp_mget. unfold fz_calls. rewrite (so_cap OK _ _ HR).
    set (n := N.to_nat (cap + 1)). assert (length m < n)%nat as Hn by (unfold lengthN in Hl; lia).
    assert (∃ out s' m' l', n_iter_mut api (map (λ f, (e, f)) (new_values R (m_draws st) n)) (m_tree st) = Ret out s' ∧ l' ≡ₚ m ∧
      until_none (no_index out) = Val l' ∧ Rep s' m' ∧ m' ≡ₚ vals R (m_draws st) l') as (out & s' & m' & l' & Hm & Hp & Hu & HR' & Hp').
    { destruct es eqn:Ees.
      - destruct (so_iter_mut OK Ees _ _ (map (λ f, (e, f)) (new_values R (m_draws st) n)) HR) as (out & s' & Hm & Ho & HR').
        rewrite mut_out in Ho. destruct e.
        + exists out, s', (vals R (m_draws st) m), m. rewrite mut_fwd in HR' by lia. split_and!; [done|done|by rewrite Ho, until_fwd|done|done].
        + eexists out, s', _, (rev m). split_and!; [exact Hm|by rewrite <- Permutation_rev|by rewrite Ho, until_bwd|exact HR'|apply mut_bwd; lia].
      - destruct He as [?| ->]; [done|]. destruct (so_uiter_mut OK Ees _ _ (new_values R (m_draws st) n) HR) as (l' & out & s' & l'' & Hp & Hm & Ho & HR' & Hp').
        rewrite mut_out in Ho. assert (length l' < n)%nat as Hn' by by rewrite Hp. rewrite mut_fwd in Hp' by lia.
        exists out, s', l'', l'. split_and!; [exact Hm|done|by rewrite Ho, until_fwd|done|done]. }
    apply until_no_index in Hu as (xs & Hu & <-). apply wp_bind, wp_zoom. eapply wp_intro; [exact Hm|]. apply wp_bind. eapply wp_lift; [exact Hu|].
    apply wp_bind, wp_modify, wp_ret. destruct (so_inv OK _ _ HR') as (Ha' & _).
    rewrite (write_map_eq cmp HO R (m_draws st) xs m m' Ha Hp Ha' Hp'). split; [done|].
    unfold lengthN. by rewrite Hp', <- (fmap_length fst (vals _ _ _)), vals_keys, fmap_length, Hp.
  Qed.
  (** HashTable: [iter_mut().rev()] ends at once *)
  Lemma rewrite_rev st m : Rep (m_tree st) m → es = false → wp (t_rewrite api cmp R Bwd) st (λ m' st', m' = [] ∧ Rep (m_tree st') m).
  Proof using OK.
    intros HR Hes. unfold t_rewrite. apply wp_bind, wp_mget.
    destruct (so_uiter_rev OK Hes _ _ (new_values R (m_draws st) (fz_calls api (m_tree st))) HR) as (s' & Hm & HR').
    apply wp_bind, wp_zoom. eapply wp_intro; [exact Hm|]. rewrite new_values_len. unfold fz_calls. rewrite N.add_1_r, N2Nat.inj_succ. cbn [replicate].
    apply wp_bind. eapply wp_lift; [done|]. apply wp_bind, wp_modify, wp_ret. done.
  Qed.
  Lemma same_nil st m : Rep (m_tree st) m → es = false → wp (t_same api cmp es []) st (λ _ st', st' = st).
  Proof using OK.
    intros HR Hes. destruct (so_inv OK _ _ HR) as (Ha & Hl & _). unfold t_same. rewrite Hes. apply wp_bind, wp_mget.
    unfold fz_calls. rewrite (so_cap OK _ _ HR). destruct (so_uiter OK Hes _ _ (N.to_nat (cap + 1)) HR) as (l' & Hp & Hit).
    apply wp_bind. eapply wp_lift; [exact Hit|]. apply wp_bind. eapply wp_lift.
    { apply until_fwd. rewrite Hp. unfold lengthN in Hl. lia. }
    by apply wp_massert.
  Qed.

  (** ** Both ends *)
  Lemma de_script_ok b (m : list (K * V)) : (b ≤ length m)%nat → de_same cmp b (length m) (de_spec (de_script b (length m)) m) (de_spec (de_script b (length m)) m) = true.
  Proof using HO.
    intros Hb. unfold de_same, de_script. rewrite de_split by done.
    assert (length (map Some (take b m ++ rev (drop b m))) = (b + (length m - b))%nat) as Hl.
    { rewrite map_length, app_length, rev_length, take_length, drop_length. lia. }
    rewrite take_app_alt, drop_app_alt by done. rewrite all_same_refl, all_none_rep. done.
  Qed.
  Lemma double_ended_ok st m : es = true → Rep (m_tree st) m → 3 ≤ lengthN m → wp (t_double_ended api cmp R m) st (λ _ st', m_tree st' = m_tree st).
  Proof using HO OK.
    intros Hes HR Hl. unfold t_double_ended. apply wp_bind, wp_mget, wp_bind. eapply wp_lift; [apply u_sub_ok; lia|].
    apply wp_bind, wp_range; [lia|]. intros b Hb1 Hb2. apply wp_bind. eapply wp_lift; [by apply (so_iter OK Hes)|].
    apply wp_massert; [|done]. apply de_script_ok. unfold lengthN in *. lia.
  Qed.
  Lemma consumed_ok st m : es = true → Rep (m_tree st) m → wp (t_consumed api) st (λ _ st', st' = st).
  Proof using OK.
    intros Hes HR. unfold t_consumed. apply wp_bind, wp_mget. rewrite (so_len OK _ _ HR). unfold lengthN. rewrite Nat2N.id.
    apply wp_bind. eapply wp_lift; [by apply (so_iter OK Hes)|]. rewrite de_fwd_app, (take_ge m), (drop_ge m), de_nil by done.
    apply wp_bind, wp_massert. { rewrite take_app_alt, drop_app_alt by by rewrite map_length. by rewrite all_some_map. }
    apply wp_bind. eapply wp_lift; [by apply (so_iter OK Hes)|]. rewrite de_bwd_app, de_nil.
    apply wp_massert; [|done]. rewrite take_app_alt, drop_app_alt by by rewrite map_length, rev_length. by rewrite all_some_map.
  Qed.
  Lemma double_ended_mut_ok st m : es = true → Rep (m_tree st) m → 3 ≤ lengthN m →
    wp (t_double_ended_mut api cmp R m) st (λ _ st', ∃ m', Rep (m_tree st') m' ∧ lengthN m' = lengthN m).
  Proof using HO OK.
    intros Hes HR Hl. unfold t_double_ended_mut. apply wp_bind. eapply wp_lift; [apply u_sub_ok; lia|].
    apply wp_bind, wp_range; [lia|]. intros b Hb1 Hb2. apply wp_bind, wp_mget. cbn zeta.
    set (sc := zip _ _).
    assert (sc.*1 = de_script (N.to_nat b) (length m)) as Hsc.
    { apply fst_zip. rewrite new_values_len. unfold de_script. rewrite !app_length, !replicate_length. simpl. lia. }
    destruct (so_iter_mut OK Hes _ _ sc HR) as (out & s' & Hm & Ho & HR').
    apply wp_bind, wp_zoom. eapply wp_intro; [exact Hm|]. apply wp_bind, wp_modify. apply wp_massert.
    - rewrite Ho, de_mut_spec_out, Hsc. apply de_script_ok. unfold lengthN in *. lia.
    - cbn. eexists. split; [exact HR'|]. pose proof (de_mut_spec_keys upd fst sc m (λ _ _, eq_refl)) as Hk. unfold lengthN.
      by rewrite <- (map_length fst), Hk, map_length.
  Qed.
  (** Fewer than three entries: [gen_range(1, len - 1)] has nothing to choose from *)
  Lemma double_ended_fails st m : es = true → Rep (m_tree st) m → lengthN m < 3 →
    ∃ st', t_double_ended api cmp R m st = Fail Panic st' ∧ m_tree st' = m_tree st.
  Proof using OK.
    intros Hes HR Hl. clear Hdom Hshuf. unfold t_double_ended, mbind, M_bind, mget, lift, gets.
    destruct (u64_sub (lengthN m) 1) as [hi|e] eqn:Eh.
    - unfold gen_range, draw, mbind, M_bind, mget, modify, mret, M_ret. destruct (decide (1 < hi)) as [E|E]; [|by eexists].
      assert (m = []) as ->.
      { unfold u64_sub, u_sub in Eh. destruct (decide (1 ≤ lengthN m)) as [E1|E1]; [injection Eh as <-; lia|]. destruct m; [done|]. rewrite lengthN_cons in E1. lia. }
      set (b := 1 + _). cbn [m_tree set_draws]. rewrite (so_iter OK Hes _ _ _ HR). unfold de_same, de_script.
      assert (1 ≤ b) as Hb by (unfold b; generalize (r_num R (m_draws st) mod (hi - 1)); lia). clearbody b.
      destruct (N.to_nat b) as [|b'] eqn:Eb; [lia|]. cbn. by eexists.
    - unfold u64_sub, u_sub in Eh. destruct (decide _); [done|]. destruct overflow_checks; [|done]. injection Eh as <-. by eexists.
  Qed.

  (** ** The test *)
  Definition wpf {T A} (m : M T A) (s : T) (Q : A → T → Prop) (E : err → T → Prop) : Prop :=
    match m s with Ret a s' => Q a s' | Fail e s' => E e s' end.
  Lemma wpf_bind {T A B} (m : M T A) (f : A → M T B) s Q E : wp m s (λ a s', wpf (f a) s' Q E) → wpf (m ≫= f) s Q E.
  Proof using Type. unfold wp, wpf, mbind, M_bind. by destruct (m s). Qed.
  Lemma wpf_bind_fail {T A B} (m : M T A) (f : A → M T B) s Q (E : err → T → Prop) e s' : m s = Fail e s' → E e s' → wpf (m ≫= f) s Q E.
  Proof using Type. unfold wpf, mbind, M_bind. by intros ->. Qed.
  Lemma wpf_wp {T A} (m : M T A) s Q E : wp m s Q → wpf m s Q E.
  Proof using Type. unfold wp, wpf. by destruct (m s). Qed.
  Lemma wpf_mono {T A} (m : M T A) s (Q Q' : A → T → Prop) (E E' : err → T → Prop) :
    wpf m s Q E → (∀ a s', Q a s' → Q' a s') → (∀ e s', E e s' → E' e s') → wpf m s Q' E'.
  Proof using Type. unfold wpf. destruct (m s); auto. Qed.

  Definition verdict_ok (_ : ()) st : Prop := es = true → 3 ≤ n_len api (m_tree st).
  Definition verdict_fail (e : err) st : Prop := e = Panic ∧ es = true ∧ n_len api (m_tree st) < 3.
  (** from the hundred rounds on *)
  Lemma tail_ok st : inv st → wpf (
    st ← mget; t_same api cmp es (m_map st);;
    new_map ← t_rewrite api cmp R Fwd; t_same api cmp es new_map;;
    (if es then t_double_ended api cmp R new_map;; t_consumed api;; t_double_ended_mut api cmp R new_map else mret ());;
    new_map ← t_rewrite api cmp R Bwd; t_same api cmp es new_map) st
    (λ a st', verdict_ok a st' ∧ n_len api (m_tree st') = len st) (λ e st', verdict_fail e st' ∧ n_len api (m_tree st') = len st).
  Proof using HO OK.
    intros (HR & _). apply wpf_bind, wp_mget, wpf_bind. eapply wp_mono; [by apply same_ok|]. simpl. intros _ ? ->.
    apply wpf_bind. eapply wp_mono; [apply rewrite_ok; [done|by right]|]. simpl. intros m st1 [HR1 Hl1].
    apply wpf_bind. eapply wp_mono; [by apply same_ok|]. simpl. intros _ ? ->. destruct es eqn:Ees.
    - destruct (decide (3 ≤ lengthN m)) as [H3|H3].
      + apply wpf_bind. apply wp_bind. eapply wp_mono; [by apply (double_ended_ok st1 m)|]. simpl. intros _ st2 Ht2. rewrite <- Ht2 in HR1.
        apply wp_bind. eapply wp_mono; [by apply (consumed_ok st2 m)|]. simpl. intros _ ? ->.
        eapply wp_mono; [by apply (double_ended_mut_ok st2 m)|]. simpl. intros _ st3 (m3 & HR3 & Hl3).
        apply wpf_bind. eapply wp_mono; [apply (rewrite_ok Bwd st3 m3); [done|by left]|]. simpl. intros m4 st4 [HR4 Hl4].
        apply wpf_wp. eapply wp_mono; [pose proof (same_ok st4 m4 HR4) as Hs; rewrite Ees in Hs; exact Hs|]. simpl. intros [] ? ->. unfold verdict_ok. rewrite (so_len OK _ _ HR4).
        split; [intros _|]; lia.
      + destruct (double_ended_fails st1 m Ees HR1 ltac:(lia)) as (st2 & Hf & Ht). eapply wpf_bind_fail.
        * unfold mbind, M_bind. rewrite Hf. done.
        * unfold verdict_fail. rewrite Ht, (so_len OK _ _ HR1). split_and!; [done|done|lia|lia].
    - apply wpf_bind, wp_ret. apply wpf_bind. eapply wp_mono; [by apply (rewrite_rev st1 m)|]. simpl. intros ? st2 [-> HR2].
      apply wpf_wp. eapply wp_mono; [pose proof (same_nil st2 m HR2) as Hs; rewrite Ees in Hs; by apply Hs|]. simpl. intros [] ? ->. unfold verdict_ok.
      rewrite (so_len OK _ _ HR2). split; [by rewrite Ees|lia].
  Qed.

  Lemma start_inv t0 : Rep t0 [] → inv (sim_start t0).
  Proof using Type. intros HR. split_and!; [done|done|done|]. constructor. Qed.
  (** everything before the hundred rounds *)
  Lemma head_ok B (HF : fresh B) t0 (Q : () → sim S K V → Prop) E (rest : M (sim S K V) ()) ms : Rep t0 [] → N.of_nat ms = cap → 2 * cap + 3 ≤ B →
    (∀ st, inv st → m_map st = [] → m_draws st = 2 * cap + 3 → wpf rest st Q E) →
    wpf (times ms (t_fill api cmp R);;
      k ← draw (r_key R); v ← draw (r_val R);
      o ← on (n_insert api k v); massert (negb (is_some o));;
      rand_keys ← draw (r_shuffle R); st ← mget;
      t_empty api cmp (rand_keys (m_keys st));;
      st ← mget; massert (bool_decide (n_len api (m_tree st) = 0));;
      modify (set_keys []);; rest) (sim_start t0) Q E.
  Proof using HO OK Hdom Hshuf.
    intros HR0 Hms HB Hrest. apply wpf_bind. eapply wp_mono.
    { apply (wp_times ms (t_fill api cmp R) (λ m st, inv st ∧ len st + N.of_nat m = cap ∧ m_draws st + 2 * N.of_nat m = 2 * cap)).
      - intros m st (Hi & Hl & Hd). eapply wp_mono; [apply fill_abs; [apply (fresh_absent B); [done|done|lia]|done|lia]|].
        cbv beta. intros _ st' (Hi' & Hl' & Hd' & _). split_and!; [done|lia|lia].
      - split; [by apply start_inv|]. cbn [m_map m_draws sim_start]. unfold lengthN; cbn [length]. lia. }
    cbv beta. intros _ st (Hi & Hl & Hd). apply wpf_bind, wp_draw, wpf_bind, wp_draw, wpf_bind, wp_zoom.
    pose proof Hi as (HR & _). destruct (so_insert OK _ _ (r_key R (m_draws st)) (r_val R (m_draws st + 1)) HR (Hdom _)) as (o & t' & He & Ho).
    { apply find_none_absent. apply (fresh_absent B); [done|done|lia]. }
    rewrite decide_False in Ho by lia. destruct Ho as [-> HR']. eapply wp_intro; [exact He|].
    apply wpf_bind, wp_massert; [done|]. apply wpf_bind, wp_draw, wpf_bind, wp_mget.
    assert (inv (Sim t' (m_draws st + 1 + 1 + 1) (m_keys st) (m_map st) (m_s st))) as Hi1.
    { destruct Hi as (_ & Hk & Hs & Hf). split_and!; [done..|]. cbn. eapply Forall_impl; [exact Hf|]. simpl. intros k (i & ? & ->). exists i. split; [lia|done]. }
    apply wpf_bind. eapply wp_mono; [apply (empty_ok _ (Sim t' (m_draws st + 1 + 1 + 1) (m_keys st) (m_map st) (m_s st)) Hi1); by rewrite Hshuf|].
    cbv beta. intros _ st2 (HR2 & Hm2 & Hs2 & Hd2). apply wpf_bind, wp_mget, wpf_bind, wp_massert.
    { apply bool_decide_eq_true. by rewrite (so_len OK _ _ HR2). }
    apply wpf_bind, wp_modify. apply Hrest; [|done|cbn in *; lia]. unfold inv. cbn. rewrite Hm2, Hs2. split_and!; [done|done|done|constructor].
  Qed.
  Lemma simulate_ok t0 ms : fresh (202 * N.of_nat ms + 203) → Rep t0 [] → N.of_nat ms = cap →
    wpf (simulate api cmp R ms es) (sim_start t0) verdict_ok verdict_fail.
  Proof using HO OK Hdom Hshuf.
    intros HF HR0 Hms. unfold simulate. eapply head_ok; [exact HF|done|done|lia|]. intros st Hi _ Hd. apply wpf_bind. eapply wp_mono.
    { apply (wp_times 100 (t_round api cmp R) (λ n st, inv st ∧ m_draws st + N.of_nat n * (2 + 2 * cap) ≤ 202 * cap + 203)).
      - intros n st' [Hi' Hd']. eapply wp_mono; [apply (round_ok _ HF); [done|lia]|]. cbv beta. intros _ st'' [Hi'' Hd'']. split; [done|lia].
      - split; [done|]. rewrite Hd. lia. }
    cbv beta. intros _ st' [Hi' _]. eapply wpf_mono; [exact (tail_ok st' Hi')|..]; simpl; by intros ? ? [? _].
  Qed.
  Lemma simulate_high t0 ms : fresh (2 * N.of_nat ms + 3) → Rep t0 [] → N.of_nat ms = cap → es = true → (∀ n, r_third R n = High) →
    wpf (simulate api cmp R ms es) (sim_start t0) (λ _ _, False) verdict_fail.
  Proof using HO OK Hdom Hshuf.
    intros HF HR0 Hms Hes Hh. unfold simulate. eapply head_ok; [exact HF|done|done|lia|]. intros st Hi Hm _. apply wpf_bind. eapply wp_mono.
    { apply (wp_times 100 (t_round api cmp R) (λ _ st, inv st ∧ m_map st = [])); [|done]. intros _ st' [Hi' Hm']. by apply round_high. }
    cbv beta. intros _ st' [Hi' Hm']. eapply wpf_mono; [exact (tail_ok st' Hi')|..]; simpl; [|by intros ? ? [? _]].
    intros a st2 [Hv Hl]. specialize (Hv Hes). rewrite Hl, Hm' in Hv. cbn in Hv. lia.
  Qed.
  Lemma simulate_dup t0 ms i j : Rep t0 [] → N.of_nat ms = cap → (i < j < ms)%nat →
    cmp (r_key R (2 * N.of_nat i)) (r_key R (2 * N.of_nat j)) = Eq → ∃ st', simulate api cmp R ms es (sim_start t0) = Fail Panic st'.
  Proof using HO OK Hdom.
    intros HR0 Hms Hij Hc. destruct (fill_dup ms (sim_start t0) (start_inv t0 HR0)) as (st' & Hf).
    - cbn. lia.
    - exists j. split; [lia|]. right. exists i. split; [lia|exact Hc].
    - exists st'. unfold simulate. unfold mbind at 1, M_bind at 1. by rewrite Hf.
  Qed.
End generic.
