(** * Keeping references: the five structures *)
From Verif Require Import DequeApi HashApi RBApi AVLApi CritApi HeldSpec IterProof HeldGen AllocProof.

Section mem.
  Context `{Profile} {T : Type}.
  Implicit Types a : alloc T.
  Definition ard (p : N) a : option T :=
    match u32_sub p 1 with Val j => val <$> lookupN (nodes a) j | Err _ => None end.
  Definition awr (p : N) (v : T) a : alloc T :=
    match u32_sub p 1 with
    | Val j => match lookupN (nodes a) j with Some n => set_nodes (insertN (nodes a) j (Node (regs n) v)) a | None => a end
    | Err _ => a
    end.
  Lemma raw_update_eq p f a :
    match ard p a with
    | Some v => na_raw_update p f a = Ret v (awr p (f v) a)
    | None => ∃ e, na_raw_update p f a = Fail e a
    end.
  Proof.
    unfold ard, awr, na_raw_update, lift, gets, modify, mbind, M_bind. destruct (u32_sub p 1) as [j|e]; [|by eexists].
    destruct (lookupN (nodes a) j) as [n|]; simpl; [done|by eexists].
  Qed.
  Lemma ref_eq p a : na_ref p a = match ard p a with Some _ => Val p | None => na_ref p a end ∧ (∀ q, na_ref p a = Val q → q = p ∧ is_Some (ard p a)).
  Proof.
    unfold na_ref, ard, mbind, res_bind. destruct (u32_sub p 1) as [j|e]; [|done].
    destruct (lookupN (nodes a) j) as [n|]; simpl; [|done]. split; [done|]. intros q [= <-]. split; [done|by eexists].
  Qed.
  Lemma deref_eq p a v : ard p a = Some v → na_deref p a = Val v.
  Proof.
    unfold na_deref, ard, mbind, res_bind. destruct (u32_sub p 1) as [j|e]; [|done].
    destruct (lookupN (nodes a) j) as [n|]; simpl; [|done]. by intros [= ->].
  Qed.
  Definition small a : Prop := MAX_SIZE a < W32.
  Lemma ard_in p a v : small a → ard p a = Some v → 1 ≤ p ∧ u32_sub p 1 = Val (p - 1) ∧ p - 1 < lengthN (nodes a).
  Proof.
    unfold small, MAX_SIZE, ard, u32_sub, u_sub, lengthN. intros Hs.
    destruct (decide (1 ≤ p)) as [Hp|Hp].
    - unfold lookupN. destruct (decide _) as [Hl|Hl]; [|done]. intros _. done.
    - destruct overflow_checks; [done|]. assert (p = 0) as -> by lia.
      unfold lookupN. destruct (decide _) as [Hl|Hl]; [|done]. exfalso. revert Hl. change ((0 + W32 - 1) mod W32) with (W32 - 1). lia.
  Qed.
  Lemma ard_awr p v a u : ard p a = Some u → ard p (awr p v a) = Some v.
  Proof.
    unfold ard, awr. destruct (u32_sub p 1) as [j|e]; [|done]. destruct (lookupN (nodes a) j) as [n|] eqn:E; [|done]. intros _. simpl.
    rewrite lookupN_insertN; [done|]. unfold lookupN in E. unfold lengthN. by destruct (decide _).
  Qed.
  Lemma u32_sub_inj p q j : p ≠ q → u32_sub p 1 = Val j → u32_sub q 1 = Val j → 1 ≤ p → j + 1 < W32 → False.
  Proof.
    unfold u32_sub, u_sub. intros Hn Hp Hq H1 Hj. rewrite decide_True in Hp by done. injection Hp as <-.
    destruct (decide (1 ≤ q)) as [Hq'|Hq']; [injection Hq; lia|]. destruct overflow_checks; [done|].
    assert (q = 0) as -> by lia. change ((0 + W32 - 1) mod W32) with (W32 - 1) in Hq. cbn in Hq. injection Hq. unfold W32 in *. lia.
  Qed.
  Lemma ard_awr_ne p q v a : small a → p ≠ q → is_Some (ard p a) → ard q (awr p v a) = ard q a.
  Proof.
    intros Hs Hn [u Hu]. destruct (ard_in _ _ _ Hs Hu) as (H1 & Hp & Hl). unfold ard, awr in *. rewrite Hp in *.
    destruct (lookupN (nodes a) (p - 1)) as [n|] eqn:E; [|done]. destruct (u32_sub q 1) as [j|e] eqn:Hq; [|done]. simpl.
    rewrite lookupN_insertN_ne; [done|]. intros <-. eapply (u32_sub_inj p q); [done..|]. unfold small, MAX_SIZE in *. lia.
  Qed.
  Lemma awr_awr p u v a : awr p v (awr p u a) = awr p v a.
  Proof.
    unfold awr. destruct (u32_sub p 1) as [j|e]; [|done]. destruct (lookupN (nodes a) j) as [n|] eqn:E; [|by rewrite E]. simpl.
    rewrite lookupN_insertN by (unfold lookupN in E; unfold lengthN; by destruct (decide _)). simpl. unfold set_nodes, insertN. simpl.
    by rewrite list_insert_insert.
  Qed.
  Lemma awr_comm p q u v a : small a → p ≠ q → is_Some (ard p a) → is_Some (ard q a) → awr p v (awr q u a) = awr q u (awr p v a).
  Proof.
    intros Hs Hn [x Hx] [y Hy]. destruct (ard_in _ _ _ Hs Hx) as (H1 & Hp & Hl). destruct (ard_in _ _ _ Hs Hy) as (H2 & Hq & Hl').
    unfold ard in *. unfold awr. rewrite Hp, Hq in *.
    destruct (lookupN (nodes a) (p - 1)) as [n|] eqn:E; [|done]. destruct (lookupN (nodes a) (q - 1)) as [n'|] eqn:E'; [|done]. simpl.
    rewrite !lookupN_insertN_ne, E, E' by lia. unfold set_nodes, insertN. simpl. rewrite list_insert_commute by lia. done.
  Qed.
  Lemma awr_id p a v : ard p a = Some v → awr p v a = a.
  Proof.
    unfold ard, awr. destruct (u32_sub p 1) as [j|e]; [|done]. destruct (lookupN (nodes a) j) as [n|] eqn:E; [|done]. simpl. intros [= <-].
    unfold set_nodes, insertN. destruct n as [rs x]. simpl. rewrite list_insert_id by (by apply lookupN_Some). by destruct a.
  Qed.
  Lemma awr_len p v a : MAX_SIZE (awr p v a) = MAX_SIZE a.
  Proof.
    unfold awr. destruct (u32_sub p 1) as [j|e]; [|done]. destruct (lookupN (nodes a) j) as [n|]; [|done]. unfold MAX_SIZE. simpl. apply lengthN_insertN.
  Qed.
  Lemma awr_length p v a : length (nodes (awr p v a)) = length (nodes a).
  Proof. pose proof (awr_len p v a) as Hl. unfold MAX_SIZE, lengthN in Hl. lia. Qed.
  Lemma awr_reg p v a i r : na_get_register (awr p v a) i r = na_get_register a i r.
  Proof.
    unfold na_get_register, na_get, awr. destruct (u32_sub p 1) as [j|e]; [|done]. destruct (lookupN (nodes a) j) as [n|] eqn:E; [|done]. simpl.
    destruct (decide (i = SENTINEL)); [done|]. unfold mbind, res_bind. destruct (u32_sub i 1) as [j'|e]; [|done].
    destruct (decide (j = j')) as [<-|Hj].
    - rewrite E, lookupN_insertN by (unfold lookupN in E; unfold lengthN; by destruct (decide _)). done.
    - by rewrite lookupN_insertN_ne.
  Qed.
  Lemma awr_ref p v a q : na_ref q (awr p v a) = na_ref q a.
  Proof.
    unfold na_ref, awr. destruct (u32_sub p 1) as [j|e]; [|done]. destruct (lookupN (nodes a) j) as [n|] eqn:E; [|done]. simpl.
    unfold mbind, res_bind. destruct (u32_sub q 1) as [j'|e]; [|done]. destruct (decide (j = j')) as [<-|Hj].
    - rewrite E, lookupN_insertN by (unfold lookupN in E; unfold lengthN; by destruct (decide _)). done.
    - by rewrite lookupN_insertN_ne.
  Qed.
End mem.

Section inst.
  Context `{Profile} {S I R A K V T : Type} (mnext mback : (V → V) → M (S * I) (option A)) (ent : A → N * (K * V)).
  Context (next next_back : M (S * I) (option R)) (index : R → N) (key : R → S * I → res K) (use : R → (V → V) → M (S * I) V).
  Context (gal : S → alloc T) (sal : alloc T → S → S) (tv : T → V) (tu : V → T → T) (kview : R → S → T → option K).
  Hypothesis gs : ∀ a s, gal (sal a s) = a.
  Hypothesis sg : ∀ s, sal (gal s) s = s.
  Hypothesis ss : ∀ a b s, sal a (sal b s) = sal a s.
  Hypothesis tvu : ∀ v t, tv (tu v t) = v.
  Hypothesis tuu : ∀ v u t, tu v (tu u t) = tu v t.
  Hypothesis tuv : ∀ t, tu (tv t) t = t.
  Hypothesis kvs : ∀ r a s t, kview r (sal a s) t = kview r s t.
  Hypothesis kvu : ∀ r s v t, kview r s (tu v t) = kview r s t.
  Notation nx e := (match e with Fwd => next | Bwd => next_back end).
  Definition ientry (r : R) (s : S) : option (K * V) :=
    match ard (index r) (gal s) with Some t => (λ k, (k, tv t)) <$> kview r s t | None => None end.
  Definition iwrite (r : R) (v : V) (s : S) : S :=
    match ard (index r) (gal s) with Some t => sal (awr (index r) (tu v t) (gal s)) s | None => s end.
  Definition iadv (e : fb) (s : S) (it : I) : option (option R * I) :=
    match nx e (s, it) with Ret o (_, it') => Some (o, it') | Fail _ _ => None end.
  Hypothesis HA : ∀ e s it o st, nx e (s, it) = Ret o st → st.1 = s ∧ ∀ r, o = Some r → is_Some (ientry r s).
  Hypothesis HB : ∀ e s it p t, iadv e (sal (awr p t (gal s)) s) it = iadv e s it.
  Hypothesis HC : ∀ e f s it o st, (match e with Fwd => mnext f | Bwd => mback f end) (s, it) = Ret o st →
    ∃ ro it', nx e (s, it) = Ret ro (s, it') ∧
      match ro with
      | None => o = None ∧ st = (s, it')
      | Some r => ∃ kv, ientry r s = Some kv ∧ ent <$> o = Some (index r, kv) ∧ st = (iwrite r (f kv.2) s, it')
      end.
  Hypothesis HD : ∀ r s it kv, ientry r s = Some kv → key r (s, it) = Val kv.1.
  Hypothesis HE : ∀ r f s it kv, ientry r s = Some kv → use r f (s, it) = Ret kv.2 (iwrite r (f kv.2) s, it).

  Lemma ientry_ard r s kv : ientry r s = Some kv → ∃ t, ard (index r) (gal s) = Some t ∧ kv.2 = tv t ∧ kview r s t = Some kv.1.
  Proof using .
    unfold ientry. destruct (ard _ _) as [t|]; [|done]. destruct (kview r s t) as [k|] eqn:E; [|done]. intros [= <-]. by exists t.
  Qed.

  Lemma held_inst script s it out st :
    small (gal s) → drive_mut mnext mback (at_once 0 script) (s, it) = Ret out st → NoDup (map (λ a, (ent a).1) (omap id out)) →
    held next next_back index key use script [] (s, it) = Ret (held_spec script (map (option_map ent) out) []) st.
  Proof using All.
    intros Hs Hd Hnd.
    eapply (held_gen mnext mback ent next next_back index key use iadv ientry iwrite (λ s, small (gal s))) with (hs := []); [..|exact Hs|constructor|exact Hd|exact Hnd].
    - intros e f s0 it0 o st0 E. destruct (HC _ _ _ _ _ _ E) as (ro & it' & Hn & Hro). exists ro, it'. split; [|done].
      unfold iadv. by rewrite Hn.
    - intros e s0 it0 ro it' Ha _. unfold iadv in Ha. destruct (nx e (s0, it0)) as [o [s1 it1]|] eqn:E; [|done]. injection Ha as -> ->.
      apply HA in E as [E _]. simpl in E. by subst.
    - exact HD.
    - exact HE.
    - intros e r v s0 it0 [kv Hkv]. apply ientry_ard in Hkv as (t & Ht & _). unfold iwrite. rewrite Ht. apply HB.
    - intros r v s0 kv Hi Hkv. destruct (ientry_ard _ _ _ Hkv) as (t & Ht & Hv & Hk). unfold iwrite, ientry. rewrite Ht, gs.
      rewrite (ard_awr _ _ _ t Ht). rewrite kvs, kvu, Hk, tvu. done.
    - intros r r' v s0 Hi Hn [kv Hkv]. destruct (ientry_ard _ _ _ Hkv) as (t & Ht & Hv & Hk). unfold iwrite, ientry. rewrite Ht, gs.
      rewrite ard_awr_ne by (done || by eexists). destruct (ard (index r') (gal s0)) as [t'|]; [|done]. by rewrite kvs.
    - intros r u v s0 Hi [kv Hkv]. destruct (ientry_ard _ _ _ Hkv) as (t & Ht & Hv & Hk). unfold iwrite. rewrite Ht, gs.
      rewrite (ard_awr _ _ _ t Ht), ss, tuu, awr_awr. done.
    - intros r r' u v s0 Hi Hn [kv Hkv] [kv' Hkv']. destruct (ientry_ard _ _ _ Hkv) as (t & Ht & Hv & Hk).
      destruct (ientry_ard _ _ _ Hkv') as (t' & Ht' & Hv' & Hk'). unfold iwrite. rewrite Ht, Ht', !gs.
      rewrite !ard_awr_ne by (done || by eexists). rewrite Ht, Ht', !ss. rewrite awr_comm by (done || by eexists). done.
    - intros r s0 kv Hkv. destruct (ientry_ard _ _ _ Hkv) as (t & Ht & Hv & Hk). unfold iwrite. rewrite Ht, Hv, tuv, (awr_id _ _ _ Ht). apply sg.
    - intros r v s0 Hi. unfold iwrite. destruct (ard _ _); [|done]. rewrite gs. unfold small in *. by rewrite awr_len.
  Qed.
End inst.

Lemma map_option_id {A} (l : list (option A)) : map (option_map id) l = l.
Proof. induction l as [|[] l IH]; simpl; [done| |]; by rewrite IH. Qed.

Section deque.
  Context `{Profile} {T : Type}.
  Lemma dq_held_ok script (d : deque T) out d' :
    small (dq_al d) → dq_iterate_mut (at_once 0 script) d = Ret out d' → NoDup (map fst (omap id out)) →
    dq_held script d = Ret (held_spec script (map (option_map (λ e, (e.1, ((), e.2)))) out) []) d'.
  Proof.
    intros Hs Hd Hnd. unfold dq_iterate_mut in Hd. unfold dq_held.
    destruct (drive_mut _ _ _ _) as [o [d1 it1]|] eqn:E; [|by destruct s]. injection Hd as -> ->.
    rewrite (held_inst dq_iter_mut_next dq_iter_mut_next_back (λ e, (e.1, ((), e.2))) dq_ref_next dq_ref_next_back id (λ _ _, Val ()) dq_ref_use
               dq_al set_dal id (λ v _, v) (λ _ _ _, Some ())) with (out := out) (st := (d', it1)); try done.
    all: clear.
    - by intros [].
    - intros e [sq hd tl al] [fp rp tm] o st E. unfold ientry. simpl.
      destruct e; unfold dq_ref_next, dq_ref_next_back, mbind, M_bind, mget, lift, gets, modify in E; simpl in E;
        (destruct tm; [by injection E as <- <-|]);
        (destruct (decide (_ = SENTINEL)); [by injection E as <- <-|]);
        (destruct (dq_get_next _ _) as [p|] || destruct (dq_get_prev _ _) as [p|]); try done; simpl in E;
        (destruct (na_ref _ _) as [q|] eqn:Er; [|done]); injection E as <- <-;
        destruct (proj2 (ref_eq _ _) _ Er) as [-> [v Hv]]; (split; [done|]); intros r [= <-]; rewrite Hv; by eexists.
    - intros e [sq hd tl al] [fp rp tm] p t. unfold iadv.
      destruct e; unfold dq_ref_next, dq_ref_next_back, mbind, M_bind, mget, lift, gets, modify, dq_get_next, dq_get_prev; simpl;
        (destruct tm; [done|]); (destruct (decide (_ = SENTINEL)); [done|]); rewrite awr_reg;
        (destruct (na_get_register _ _ _) as [q|]; [|done]); simpl; rewrite awr_ref; by destruct (na_ref _ _).
    - intros e f [sq hd tl al] [fp rp tm] o st E.
      destruct e; unfold dq_iter_mut_next, dq_iter_mut_next_back, dq_ref_next, dq_ref_next_back, mbind, M_bind, mget, lift, gets, modify, zoom, dq_on in *; simpl in *;
        (destruct tm; [injection E as <- <-; by eexists _, _|]);
        (destruct (decide (_ = SENTINEL)); [injection E as <- <-; by eexists _, _|]);
        (destruct (dq_get_next _ _) as [p|] || destruct (dq_get_prev _ _) as [p|]); try done; simpl in *;
        unfold zoom in E; simpl in E; unfold ientry, iwrite; simpl;
        match type of E with context [na_raw_update ?p f ?a] =>
          pose proof (raw_update_eq p f a) as Hu; destruct (ard p a) as [v|] eqn:Ha; [|by destruct Hu as [? Hu]; rewrite Hu in E];
          rewrite Hu in E; rewrite (proj1 (ref_eq p a)), Ha end;
        injection E as <- <-; eexists _, _; (split; [done|]); simpl; rewrite Ha; by eexists.
    - intros r s it [[] v] _. done.
    - intros r f [sq hd tl al] it [[] v] E. unfold ientry, iwrite, dq_ref_use, dq_on, zoom in *. simpl in *.
      pose proof (raw_update_eq r f al) as Hu. destruct (ard r al) as [w|] eqn:Ha; [|done]. rewrite Hu. injection E as <-. done.
  Qed.
End deque.

Section hash.
  Context `{Profile} {K V : Type}.
  Lemma ht_skip_al fuel (h : htable K V) a it : ht_skip fuel (set_hal a h) it = ht_skip fuel h it.
  Proof.
    revert it. induction fuel as [|fuel IH]; intros it; simpl; [done|]. destruct (decide _); [|done].
    destruct (decide _); [done|]. unfold ht_bucket. simpl. unfold mbind, res_bind. destruct (lookupN _ _); [|done]. apply IH.
  Qed.
  Lemma ht_held_ok script (h : htable K V) out h' :
    small (ht_al h) → ht_iterate_mut (at_once 0 script) h = Ret out h' → NoDup (map fst (omap id out)) →
    ht_held script h = Ret (held_spec script out []) h'.
  Proof.
    intros Hs Hd Hnd. unfold ht_iterate_mut in Hd. unfold ht_held. destruct (ht_mk_iter h) as [it0|]; [|done].
    destruct (drive_mut _ _ _ _) as [o [d1 it1]|] eqn:E; [|by destruct s]. injection Hd as -> ->.
    rewrite (held_inst ht_iter_mut_next ht_iter_mut_next_back id ht_ref_next ht_ref_next_back id ht_ref_key ht_ref_use
               ht_al set_hal snd (λ v n, (n.1, v)) (λ _ _ n, Some n.1)) with (out := out) (st := (h', it1)); try done.
    { by rewrite map_option_id. }
    all: clear.
    - by intros [].
    - by intros [].
    - intros e [bk al] it o st E. unfold ientry. simpl.
      destruct e; [|by injection E as <- <-]. unfold ht_ref_next, mbind, M_bind, mget, lift, gets, modify in E; cbn [fst snd buckets] in E.
      destruct (decide _); [|by injection E as <- <-].
      destruct (ht_skip _ _ _) as [[[ptr|] it']|]; [| |done]; simpl in E; [|by injection E as <- <-].
      destruct (ht_get_next _ _) as [p|]; [|done]. simpl in E.
      destruct (na_ref _ _) as [q|] eqn:Er; [|done]; injection E as <- <-.
      destruct (proj2 (ref_eq _ _) _ Er) as [-> [v Hv]]. split; [done|]; intros r [= <-]; rewrite Hv; by eexists.
    - intros e [bk al] it p t. unfold iadv.
      destruct e; [|done]. unfold ht_ref_next, mbind, M_bind, mget, lift, gets, modify. cbn [fst snd buckets set_hal].
      destruct (decide _); [|done]. rewrite ht_skip_al.
      destruct (ht_skip _ _ _) as [[[ptr|] it']|]; [|done..]. unfold ht_get_next. simpl. rewrite awr_reg.
      destruct (na_get_register _ _ _) as [q|]; [|done]; simpl; rewrite awr_ref; by destruct (na_ref _ _).
    - intros e f [bk al] it o st E.
      destruct e; [|injection E as <- <-; by eexists _, _].
      unfold ht_iter_mut_next, ht_ref_next, mbind, M_bind, mget, lift, gets, modify, ht_on in *; cbn [fst snd buckets] in *.
      destruct (decide _); [|injection E as <- <-; by eexists _, _].
      destruct (ht_skip _ _ _) as [[[ptr|] it']|]; [| |done]; [|injection E as <- <-; by eexists _, _].
      destruct (ht_get_next _ _) as [p|]; [|done]. simpl in *.
      unfold zoom in E; simpl in E; unfold zoom in E; unfold ientry, iwrite; simpl. simpl in E.
      match type of E with context [na_raw_update ?p ?g ?a] =>
          pose proof (raw_update_eq p g a) as Hu; destruct (ard p a) as [v|] eqn:Ha; [|by destruct Hu as [? Hu]; rewrite Hu in E];
          rewrite Hu in E; rewrite (proj1 (ref_eq p a)), Ha end.
      injection E as <- <-; eexists _, _; split; [done|]; simpl; rewrite Ha. eexists. split; [done|]. simpl. split; [|done]. by destruct v.
    - intros r [bk al] it [k v] E. unfold ientry, ht_ref_key in *. simpl in *. destruct (ard r al) as [w|] eqn:Ha; [|done].
      rewrite (deref_eq _ _ _ Ha). injection E as <- <-. done.
    - intros r f [bk al] it [k v] E. unfold ientry, iwrite, ht_ref_use, ht_on, mbind, M_bind, zoom in *. simpl in *.
      pose proof (raw_update_eq r (λ n, (n.1, f n.2)) al) as Hu. destruct (ard r al) as [w|] eqn:Ha; [|done]. rewrite Hu. injection E as <- <-. done.
  Qed.
End hash.

Section tree.
  Context `{Profile} {S K V : Type} (gal : S → alloc (K * V)) (sal : alloc (K * V) → S → S).
  Hypothesis gs : ∀ a s, gal (sal a s) = a.
  Hypothesis sg : ∀ s, sal (gal s) s = s.
  Hypothesis ss : ∀ a b s, sal a (sal b s) = sal a s.
  Definition ton {A} (m : M (alloc (K * V) * titer) A) : M (S * titer) A :=
    zoom (λ st, (gal st.1, st.2)) (λ at_ st, (sal at_.1 st.1, at_.2)) m.
  Lemma ti_fwd_awr fuel p v (a : alloc (K * V)) it : ti_fwd fuel (awr p v a) it = ti_fwd fuel a it.
  Proof using .
    revert it. induction fuel as [|fuel IH]; intros [fs fp fn rs rp rn tm]; simpl; [done|]. destruct tm; [done|].
    destruct (decide _).
    - destruct fs; [done|]. destruct (decide _); [done|]. by rewrite awr_reg.
    - rewrite awr_reg. unfold mbind, res_bind. destruct (na_get_register _ _ _); [|done]. apply IH.
  Qed.
  Lemma ti_rev_awr fuel p v (a : alloc (K * V)) it : ti_rev fuel (awr p v a) it = ti_rev fuel a it.
  Proof using .
    revert it. induction fuel as [|fuel IH]; intros [fs fp fn rs rp rn tm]; simpl; [done|]. destruct tm; [done|].
    destruct (decide _).
    - destruct rs; [done|]. destruct (decide _); [done|]. by rewrite awr_reg.
    - rewrite awr_reg. unfold mbind, res_bind. destruct (na_get_register _ _ _); [|done]. apply IH.
  Qed.
  Lemma ti_held_ok script s it out st :
    small (gal s) → drive_mut (λ f, ton (ti_mut_next f)) (λ f, ton (ti_mut_next_back f)) (at_once 0 script) (s, it) = Ret out st →
    NoDup (map fst (omap id out)) →
    held (ton ti_ref_next) (ton ti_ref_next_back) id (λ r st, ti_ref_key r (gal st.1, st.2)) (λ r f, ton (ti_ref_use r f)) script [] (s, it) =
      Ret (held_spec script out []) st.
  Proof using All.
    intros Hs Hd Hnd.
    rewrite (held_inst (λ f, ton (ti_mut_next f)) (λ f, ton (ti_mut_next_back f)) id (ton ti_ref_next) (ton ti_ref_next_back) id (λ r st, ti_ref_key r (gal st.1, st.2)) (λ r f, ton (ti_ref_use r f))
               gal sal snd (λ v n, (n.1, v)) (λ _ _ n, Some n.1)) with (out := out) (st := st); try done.
    { by rewrite map_option_id. }
    all: clear Hs Hd Hnd s it out st.
    - by intros [].
    - intros e s it o st E. unfold ientry. simpl.
      destruct e; unfold ton, zoom, ti_ref_next, ti_ref_next_back, mbind, M_bind, mget, lift, gets, modify in E; cbn [fst snd] in E.
      + destruct (ti_fwd _ _ _) as [[[c|] it']|]; simpl in E; [| |done]; [|injection E as <- <-; by rewrite sg].
        destruct (na_ref _ _) as [q|] eqn:Er; [|done]; injection E as <- <-.
        destruct (proj2 (ref_eq _ _) _ Er) as [-> [v Hv]]. simpl. split; [by rewrite sg|]; intros r [= <-]; rewrite Hv; by eexists.
      + destruct (ti_rev _ _ _) as [[[c|] it']|]; simpl in E; [| |done]; [|injection E as <- <-; by rewrite sg].
        destruct (na_ref _ _) as [q|] eqn:Er; [|done]; injection E as <- <-.
        destruct (proj2 (ref_eq _ _) _ Er) as [-> [v Hv]]. simpl. split; [by rewrite sg|]; intros r [= <-]; rewrite Hv; by eexists.
    - intros e s it p t. unfold iadv.
      destruct e; unfold ton, zoom, ti_ref_next, ti_ref_next_back, mbind, M_bind, mget, lift, gets, modify; cbn [fst snd];
        unfold ti_fuel; rewrite gs, awr_length, ?ti_fwd_awr, ?ti_rev_awr.
      + destruct (ti_fwd _ _ _) as [[[c|] it']|]; simpl; [|done..]. rewrite awr_ref. by destruct (na_ref _ _).
      + destruct (ti_rev _ _ _) as [[[c|] it']|]; simpl; [|done..]. rewrite awr_ref. by destruct (na_ref _ _).
    - intros e f s it o st E.
      destruct e; unfold ton, zoom, ti_mut_next, ti_mut_next_back, ti_ref_next, ti_ref_next_back, mbind, M_bind, mget, lift, gets, modify in *; cbn [fst snd] in *;
       (destruct (ti_fwd _ _ _) as [[[c|] it']|] || destruct (ti_rev _ _ _) as [[[c|] it']|]); simpl in *; try done;
       try (injection E as <- <-; rewrite sg; by eexists _, _);
       unfold zoom in E; simpl in E; unfold ientry, iwrite; simpl;
       match type of E with context [na_raw_update ?p ?g ?a] =>
          pose proof (raw_update_eq p g a) as Hu; destruct (ard p a) as [v|] eqn:Ha; [|by destruct Hu as [? Hu]; rewrite Hu in E];
          rewrite Hu in E; rewrite (proj1 (ref_eq p a)), Ha end;
       injection E as <- <-; eexists _, _; (split; [cbn; by rewrite sg|]); simpl; rewrite Ha; eexists; (split; [done|]); simpl; (split; [|done]); by destruct v.
    - intros r s it [k v] E. unfold ientry, ti_ref_key in *. simpl in *. destruct (ard r (gal s)) as [w|] eqn:Ha; [|done].
      rewrite (deref_eq _ _ _ Ha). injection E as <- <-. done.
    - intros r f s it [k v] E. unfold ientry, iwrite, ti_ref_use, ton, zoom, mbind, M_bind in *. simpl in *.
      pose proof (raw_update_eq r (λ n, (n.1, f n.2)) (gal s)) as Hu. destruct (ard r (gal s)) as [w|] eqn:Ha; [|done]. rewrite Hu. injection E as <- <-. done.
  Qed.
End tree.

Section trees.
  Context `{Profile} {K V : Type}.
  Lemma rb_held_ok script (t : rbt K V) out t' :
    small (rb_al t) → rb_iterate_mut (at_once 0 script) t = Ret out t' → NoDup (map fst (omap id out)) →
    rb_held script t = Ret (held_spec script out []) t'.
  Proof.
    intros Hs Hd Hnd. unfold rb_iterate_mut in Hd. unfold rb_held.
    destruct (drive_mut _ _ _ _) as [o [d1 it1]|] eqn:E; [|by destruct s]. injection Hd as -> ->.
    pose proof (ti_held_ok rb_al set_ral ltac:(done) ltac:(by intros []) ltac:(done) script t (rb_iter t) out (t', it1) Hs E Hnd) as He.
    unfold ton in He. unfold rb_on_iter. by rewrite He.
  Qed.
  Lemma av_held_ok script (t : avlt K V) out t' :
    small (av_al t) → av_iterate_mut (at_once 0 script) t = Ret out t' → NoDup (map fst (omap id out)) →
    av_held script t = Ret (held_spec script out []) t'.
  Proof.
    intros Hs Hd Hnd. unfold av_iterate_mut in Hd. unfold av_held.
    destruct (drive_mut _ _ _ _) as [o [d1 it1]|] eqn:E; [|by destruct s]. injection Hd as -> ->.
    pose proof (ti_held_ok av_al set_aal ltac:(done) ltac:(by intros []) ltac:(done) script t (av_iter t) out (t', it1) Hs E Hnd) as He.
    unfold ton in He. unfold av_on_iter. by rewrite He.
  Qed.
End trees.

Section crit.
  Context `{Profile} {V : Type}.
  Lemma ci_fwd_lv fuel (t : critbit V) a it : ci_fwd fuel (set_cleaves a t) it = ci_fwd fuel t it.
  Proof.
    revert it. induction fuel as [|fuel IH]; intros [fs fn rs rn tm]; simpl; [done|]. destruct tm; [done|]. destruct fs as [|n fs]; [done|].
    unfold cb_is_inner_node, cb_get_leaf_index, cb_get_right, cb_get_left, mbind, res_bind. simpl.
    destruct (na_get_register _ _ FValue); [|done]. case_bool_decide; [|done]. simpl.
    destruct (na_get_register _ _ Right); [|done]. destruct (na_get_register _ _ Left); [|done]. apply IH.
  Qed.
  Lemma ci_rev_lv fuel (t : critbit V) a it : ci_rev fuel (set_cleaves a t) it = ci_rev fuel t it.
  Proof.
    revert it. induction fuel as [|fuel IH]; intros [fs fn rs rn tm]; simpl; [done|]. destruct tm; [done|]. destruct rs as [|n rs]; [done|].
    unfold cb_is_inner_node, cb_get_leaf_index, cb_get_right, cb_get_left, mbind, res_bind. simpl.
    destruct (na_get_register _ _ FValue); [|done]. case_bool_decide; [|done]. simpl.
    destruct (na_get_register _ _ Left); [|done]. destruct (na_get_register _ _ Right); [|done]. apply IH.
  Qed.
  Lemma raw_key_eq (t : critbit V) n k : cb_raw_key t n = Val k → cn_key <$> ard n (cb_nodes t) = Some k.
  Proof.
    unfold cb_raw_key, ard, mbind, res_bind. destruct (u32_sub n 1); [|done]. destruct (lookupN _ _); [|done]. simpl. by intros [= ->].
  Qed.
  Lemma cb_held_ok script (t : critbit V) out t' :
    small (cb_leaves t) → cb_iterate_mut (at_once 0 script) t = Ret out t' → NoDup (map fst (omap id out)) →
    cb_held script t = Ret (held_spec script out []) t'.
  Proof.
    intros Hs Hd Hnd. unfold cb_iterate_mut in Hd. unfold cb_held.
    destruct (drive_mut _ _ _ _) as [o [d1 it1]|] eqn:E; [|by destruct s]. injection Hd as -> ->.
    rewrite (held_inst cb_iter_mut_next cb_iter_mut_next_back id cb_ref_next cb_ref_next_back snd cb_ref_key cb_ref_use
               cb_leaves set_cleaves id (λ v _, v) (λ r t _, cn_key <$> ard r.1 (cb_nodes t))) with (out := out) (st := (t', it1)); try done.
    { by rewrite map_option_id. }
    all: clear.
    - by intros [].
    - intros e [rt nd lv] it o st E. unfold ientry. simpl.
      destruct e; unfold cb_ref_next, cb_ref_next_back, mbind, M_bind, mget, lift, gets, modify in E; cbn [fst snd] in E;
        (destruct (ci_fwd _ _ _) as [[[[n i]|] it']|] || destruct (ci_rev _ _ _) as [[[[n i]|] it']|]); simpl in E; try done; try (by injection E as <- <-);
        (destruct (na_ref n _) as [q|] eqn:Er; [|done]); simpl in E; (destruct (na_ref i _) as [q'|] eqn:Er'; [|done]); simpl in E; injection E as <- <-;
        destruct (proj2 (ref_eq _ _) _ Er) as [-> [v Hv]]; destruct (proj2 (ref_eq _ _) _ Er') as [-> [v' Hv']];
        (split; [done|]); intros r [= <-]; simpl; rewrite Hv', Hv; by eexists.
    - intros e [rt nd lv] it p x. unfold iadv.
      destruct e; unfold cb_ref_next, cb_ref_next_back, mbind, M_bind, mget, lift, gets, modify; cbn [fst snd];
        rewrite ?ci_fwd_lv, ?ci_rev_lv; unfold cb_fuel; cbn [cb_nodes cb_leaves set_cleaves].
      + destruct (ci_fwd _ _ _) as [[[[n i]|] it']|]; simpl; [|done..]. destruct (na_ref n _); [|done]. simpl. rewrite awr_ref. by destruct (na_ref i _).
      + destruct (ci_rev _ _ _) as [[[[n i]|] it']|]; simpl; [|done..]. destruct (na_ref n _); [|done]. simpl. rewrite awr_ref. by destruct (na_ref i _).
    - intros e f [rt nd lv] it o st E.
      destruct e; unfold cb_iter_mut_next, cb_iter_mut_next_back, cb_ref_next, cb_ref_next_back, mbind, M_bind, mget, lift, gets, modify in *; cbn [fst snd] in *;
       (destruct (ci_fwd _ _ _) as [[[[n i]|] it']|] || destruct (ci_rev _ _ _) as [[[[n i]|] it']|]); cbn [fst snd] in *; try done;
       try (injection E as <- <-; by eexists _, _);
       (destruct (cb_raw_key _ _) as [k|] eqn:Ek; [|done]); apply raw_key_eq in Ek; simpl in Ek;
       unfold zoom, cb_onl in E; simpl in E; unfold zoom in E; simpl in E; unfold ientry, iwrite; simpl;
       (destruct (ard n nd) as [c|] eqn:Hc; [|done]); rewrite (proj1 (ref_eq n nd)), Hc; injection Ek as <-; simpl;
       match type of E with context [na_raw_update ?p ?g ?a] =>
          pose proof (raw_update_eq p g a) as Hu; destruct (ard p a) as [v|] eqn:Ha; [|by destruct Hu as [? Hu]; rewrite Hu in E];
          rewrite Hu in E; rewrite (proj1 (ref_eq p a)), Ha end;
       injection E as <- <-; eexists _, _; (split; [done|]); simpl; rewrite Ha, Hc; by eexists.
    - intros [n i] [rt nd lv] it [k v] E. unfold ientry, cb_ref_key in *. simpl in *. destruct (ard i lv) as [w|]; [|done].
      destruct (ard n nd) as [c|] eqn:Ha; [|done]. rewrite (deref_eq _ _ _ Ha). injection E as <- <-. done.
    - intros [n i] f [rt nd lv] it [k v] E. unfold ientry, iwrite, cb_ref_use, cb_onl, zoom in *. simpl in *.
      pose proof (raw_update_eq i f lv) as Hu. destruct (ard i lv) as [w|] eqn:Ha; [|done]. rewrite Hu.
      destruct (ard n nd) as [c|] eqn:Hc; [|done]. injection E as <- <-. done.
  Qed.
End crit.
