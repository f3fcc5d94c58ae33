(** * Facts about the number of rounds of the AVL tree's loops *)
From Verif Require Import AVLMain CostProof.

(** every answer of [m] satisfies [P] *)
Definition rets {S A} (P : A → Prop) (m : M S A) : Prop := ∀ s a s', m s = Ret a s' → P a.
Lemma rets_ret {S A} (P : A → Prop) (a : A) : P a → rets P (mret a : M S A).
Proof. intros HP s b s' [= <- <-]. done. Qed.
Lemma rets_fail {S A} (P : A → Prop) e : rets P (mfail e : M S A).
Proof. intros s b s' [=]. Qed.
Lemma rets_bind {S A B} (P : B → Prop) (m : M S A) (f : A → M S B) : (∀ a, rets P (f a)) → rets P (m ≫= f).
Proof. intros Hf s b s'. unfold mbind, M_bind. destruct (m s) as [a s1|e s1]; [apply Hf|done]. Qed.
Lemma bind_ext {S A B} (m : M S A) (f g : A → M S B) s :
  (∀ a s', m s = Ret a s' → f a s' = g a s') → (m ≫= f) s = (m ≫= g) s.
Proof. intros Hf. unfold mbind, M_bind. destruct (m s) as [a s1|e s1]; [by apply Hf|done]. Qed.
Lemma gets_ext {S A B} (r1 r2 : S → res A) (f g : A → M S B) s x :
  r1 s = Val x → r2 s = Val x → f x s = g x s → (gets r1 ≫= f) s = (gets r2 ≫= g) s.
Proof. intros H1 H2 Hf. unfold mbind, M_bind, gets. by rewrite H1, H2. Qed.

Section facts.
  Context `{Profile} {K V : Type} (pcmp : K → K → option comparison) (HO : OrdLaws (av_cmp pcmp)) (cap : N) (n : nat).
  Notation cmp := (av_cmp pcmp).
  Notation rep := (rep (K := K) (V := V) cap).
  Implicit Types t : avlt K V.

  Lemma insert_loop_cut fuel k v rpath i t :
    (length rpath + fuel ≤ S n)%nat → avn_insert_loop pcmp n fuel k v rpath i t = av_insert_loop pcmp fuel k v rpath i t.
  Proof using Type.
    clear HO. revert rpath i t. induction fuel as [|fuel IH]; intros rpath i t Hl; [done|]. cbn [avn_insert_loop av_insert_loop].
    apply bind_ext. intros a s' _. cbv zeta.
    assert (∀ branch s', (reference_node ← gets (λ t, av_get_field t i branch);
          if decide (reference_node = SENTINEL) then
            t ← mget;
            if decide (av_capacity t ≤ av_len t) then mret None
            else
              reference_node ← av_on (na_add_node (k, v));
              av_set_field i branch reference_node;;
              avn_rebalance n rpath;;
              mret (Some reference_node)
          else avn_insert_loop pcmp n fuel k v ((Some (i, branch), reference_node) :: rpath) reference_node) s' =
       (reference_node ← gets (λ t, av_get_field t i branch);
          if decide (reference_node = SENTINEL) then
            t ← mget;
            if decide (av_capacity t ≤ av_len t) then mret None
            else
              reference_node ← av_on (na_add_node (k, v));
              av_set_field i branch reference_node;;
              av_rebalance rpath;;
              mret (Some reference_node)
          else av_insert_loop pcmp fuel k v ((Some (i, branch), reference_node) :: rpath) reference_node) s') as Hgo.
    { intros branch s1. apply bind_ext. intros c s2 _. destruct (decide (c = SENTINEL)).
      - apply bind_ext. intros t3 s3 _. destruct (decide (av_capacity t3 ≤ av_len t3)); [done|].
        apply bind_ext. intros j s4 _. apply bind_ext. intros [] s5 _. unfold avn_rebalance. rewrite decide_True by lia. done.
      - apply IH. simpl. lia. }
    destruct (av_cmp pcmp k a.1); [done|apply Hgo..].
  Qed.
  Lemma av_insert_loop_fle' f F k v p i :
    (f ≤ F)%nat → fle (av_insert_loop pcmp f k v p i) (av_insert_loop (V := V) pcmp F k v p i).
  Proof using Type.
    clear HO. revert F p i. induction f as [|f IH]; intros F p i Hf; [apply fle_fail|]. destruct F as [|F]; [lia|]. simpl.
    flet; apply IH; lia.
  Qed.
  Lemma leftmost_rle f F t a b p : (f ≤ F)%nat → rle (av_leftmost_walk f t a b p) (av_leftmost_walk F t a b p).
  Proof using Type.
    clear HO. revert F a b p. induction f as [|f IH]; intros F a b p Hf; [apply rle_fail|]. destruct F as [|F]; [lia|]. simpl.
    flet; apply IH; lia.
  Qed.
  Lemma get_loop_rle f F t k i : (f ≤ F)%nat → rle (av_get_loop pcmp f t k i) (av_get_loop pcmp F t k i).
  Proof using Type.
    clear HO. revert F i. induction f as [|f IH]; intros F i Hf; [apply rle_fail|]. destruct F as [|F]; [lia|]. simpl.
    flet; apply IH; lia.
  Qed.
  Lemma get_mut_loop_fle f F k g i : (f ≤ F)%nat → fle (av_get_mut_loop (V := V) pcmp f k g i) (av_get_mut_loop pcmp F k g i).
  Proof using Type.
    clear HO. revert F i. induction f as [|f IH]; intros F i Hf; [apply fle_fail|]. destruct F as [|F]; [lia|]. simpl.
    flet; apply IH; lia.
  Qed.
  Lemma insert_rounds t U k v : avok pcmp cap t U → (height U < n)%nat → avn_insert pcmp n k v t = av_insert pcmp k v t.
  Proof using HO.
    intros Hok Hn. pose proof Hok as [HR _ _]. unfold avn_insert, av_insert. apply bind_ext. intros t' s' [= <- <-]. cbv zeta.
    rewrite (rep_root _ _ _ HR). destruct (decide (root U = SENTINEL)) as [|Hnz]; [done|].
    destruct U as [|m l i kv r]; [done|]. cbn [root] in *.
    pose proof (rep_tsize _ _ _ HR). pose proof (height_tsize (Nd m l i kv r)).
    rewrite insert_loop_cut by (simpl; lia).
    eapply (fle_wp _ _ _ (λ _ _, True)); [apply av_insert_loop_fle'; lia|].
    eapply (wp_insert_loop pcmp HO cap _ t [] m l i kv r); [exact Hok|apply onpath_nil| |done].
    erewrite R_fuel by exact HR. lia.
  Qed.

  Lemma apath_length ctx i : length (apath (K := K) (V := V) ctx i) = S (length ctx).
  Proof using Type. clear HO. revert i. induction ctx as [|[] ctx IH]; intros i; simpl; [done|]. by rewrite IH. Qed.
  Lemma lpath_length C i : length (lpath (K := K) (V := V) C i) = length C.
  Proof using Type. clear HO. revert i. induction C as [|[] C IH]; intros i; simpl; [done|]. by rewrite IH. Qed.
  Lemma height_plug_len ctx (s : tree (K * V)) : (length ctx + height s ≤ height (plug ctx s))%nat.
  Proof using Type.
    clear HO. revert s. induction ctx as [|[d m a kv o] ctx IH]; intros s; simpl; [lia|].
    etrans; [|apply IH]. destruct d; simpl; lia.
  Qed.
  Lemma gets_inv {S A} (f : S → res A) s a s' : gets f s = Ret a s' → f s = Val a ∧ s' = s.
  Proof using Type. unfold gets. destruct (f s); [|done]. by intros [= -> ->]. Qed.
  Lemma bind_ext2 {S A B} (m1 m2 : M S A) (f g : A → M S B) s :
    m1 s = m2 s → (∀ a s', m1 s = Ret a s' → f a s' = g a s') → (m1 ≫= f) s = (m2 ≫= g) s.
  Proof using Type. intros He Hf. unfold mbind, M_bind. rewrite He in *. destruct (m2 s) as [a s1|e s1]; [by apply Hf|done]. Qed.

  Lemma remove_rounds t U k : avok pcmp cap t U → (height U < n)%nat → avn_remove pcmp n k t = av_remove pcmp k t.
  Proof using HO.
    intros Hok Hn. pose proof Hok as [HR _ Hasc]. unfold avn_remove, av_remove. apply bind_ext. intros t' s' [= <- <-]. cbv zeta.
    rewrite (rep_root _ _ _ HR). destruct (decide (root U = SENTINEL)) as [|Hnz]; [done|].
    pose proof (rep_tsize _ _ _ HR) as Hts. pose proof (height_tsize U).
    eapply gets_ext.
    { apply (remove_walk_ok pcmp cap _ t k [] U); [exact HR|]. erewrite R_fuel by exact HR. lia. }
    { apply (remove_walk_ok pcmp cap _ t k [] U); [exact HR|]. erewrite R_fuel by exact HR. lia. }
    pose proof (tdesc_plug cmp k [] U) as Hp. destruct (tdesc_ok cmp HO k [] U Hasc (onpath_nil cmp k)) as [_ Hd].
    destruct (tdesc cmp k [] U) as [ctx s]. simpl in Hp, Hd. cbn [fst snd]. subst U.
    destruct Hd as [->|(m & l & i & kv & r & -> & Hk)]; [done|].
    destruct (decide (root (Nd m l i kv r) = SENTINEL)) as [|Hi]; [done|]. cbn [root] in *.
    apply bind_ext. intros nd s1 [Hnd ->]%gets_inv.
    apply bind_ext. intros left s1 [Hle ->]%gets_inv. apply bind_ext. intros right s1 [Hri ->]%gets_inv.
    rewrite (rep_left _ _ _ _ _ _ _ _ HR) in Hle. rewrite (rep_right _ _ _ _ _ _ _ _ HR) in Hri. injection Hle as <-. injection Hri as <-.
    pose proof (height_plug_len ctx (Nd m l i kv r)) as Hhp. simpl in Hhp.
    apply bind_ext2.
    - destruct (decide (root l ≠ SENTINEL ∧ root r ≠ SENTINEL)) as [[Hl0 Hr0]|]; [|done].
      destruct (leftmost_ok cap (Nat.min n (av_fuel t)) t (F true m i kv l :: ctx) r) as (C & m1 & lm & kvm & x & Er & HC & Hwk).
      { exact HR. } { by intros ->. } { erewrite R_fuel by exact HR. lia. }
      eapply gets_ext; [apply Hwk| |done].
      rewrite <- (Hwk SENTINEL []). symmetry. eapply rle_val; [apply leftmost_rle; lia|apply Hwk].
    - intros [repl p] s1 Hm. assert (length p ≤ n)%nat as Hlen.
      { destruct (decide (root l ≠ SENTINEL ∧ root r ≠ SENTINEL)) as [[Hl0 Hr0]|].
        - destruct (leftmost_ok cap (Nat.min n (av_fuel t)) t (F true m i kv l :: ctx) r) as (C & m1 & lm & kvm & x & Er & HC & Hwk).
          { exact HR. } { by intros ->. } { erewrite R_fuel by exact HR. lia. }
          revert Hm. unfold mbind at 1, M_bind. unfold gets at 1. rewrite Hwk. intros Hm.
          match type of Hm with ?f _ = _ => assert (rets (λ a : N * list ancestor, (length a.2 ≤ n)%nat) f) as Hrets; [|exact (Hrets _ _ _ Hm)] end.
          clear Hm. apply rets_bind. intros _. apply rets_bind. intros _. apply rets_bind. intros _.
          rewrite apath_eq. apply rets_bind. intros _. cbv zeta. apply rets_ret. cbn [snd].
          rewrite app_nil_r, app_length. pose proof (height_plug_len C (Nd m1 Lf lm kvm x)) as HhC. rewrite <- Er in HhC. simpl in HhC.
          pose proof (apath_length ctx i) as Hap. rewrite apath_eq in Hap. simpl in Hap.
          destruct C as [|c C].
          + simpl. simpl in Er. subst r. cbn [root]. rewrite decide_False by naive_solver. simpl. lia.
          + assert (length (tail (lpath (c :: C) lm)) = length C) as Htl.
            { pose proof (lpath_length (c :: C) lm) as Hlp. destruct (lpath (c :: C) lm); simpl in *; lia. }
            rewrite Htl. simpl in HhC. destruct (decide _); simpl; lia.
        - match type of Hm with ?f _ = _ => assert (rets (λ a : N * list ancestor, (length a.2 ≤ n)%nat) f) as Hrets; [|exact (Hrets _ _ _ Hm)] end.
          clear Hm. cbv zeta. pose proof (apath_length ctx i) as Hap. rewrite apath_eq in Hap |- *. simpl in Hap.
          destruct (pbof ctx) as [[p0 b0]|]; [apply rets_bind; intros _|]; apply rets_ret; cbn [snd]; [destruct (decide _); simpl; lia|lia]. }
      apply bind_ext. intros t2 s2 _. apply bind_ext. intros [] s3 _. apply bind_ext. intros [] s4 _.
      unfold avn_rebalance. rewrite decide_True by done. done.
  Qed.

  (** [get] and [get_mut] follow the path of [get_addr] *)
  Lemma get_along f F t k i x :
    bst_walk cmp f (av_al t) k i = Val x → (f ≤ F)%nat → av_get_loop pcmp f t k i = av_get_loop pcmp F t k i.
  Proof using Type.
    clear HO. revert F i. induction f as [|f IH]; intros F i Hw Hf; [done|]. destruct F as [|F]; [lia|]. simpl in Hw |- *.
    unfold av_get_node, av_get_field in *. destruct (na_get (av_al t) i) as [nd|]; [|done]. simpl in *.
    destruct (av_cmp pcmp k (val nd).1); [done|..].
    - destruct (na_get_register (av_al t) i Left) as [c|]; [|done]. simpl in *. destruct (decide (c = SENTINEL)); [done|]. apply IH; [done|lia].
    - destruct (na_get_register (av_al t) i Right) as [c|]; [|done]. simpl in *. destruct (decide (c = SENTINEL)); [done|]. apply IH; [done|lia].
  Qed.
  Lemma get_mut_along f F t k g i x :
    bst_walk cmp f (av_al t) k i = Val x → (f ≤ F)%nat → av_get_mut_loop pcmp f k g i t = av_get_mut_loop pcmp F k g i t.
  Proof using Type.
    clear HO. revert F i. induction f as [|f IH]; intros F i Hw Hf; [done|]. destruct F as [|F]; [lia|]. simpl in Hw |- *.
    apply bind_ext. intros kv s [Hkv ->]%gets_inv. unfold av_get_node, av_get_field in *.
    destruct (na_get (av_al t) i) as [nd|]; [|done]. simpl in *. injection Hkv as <-.
    destruct (av_cmp pcmp k (val nd).1); [done|..].
    - apply bind_ext. intros c s [Hc ->]%gets_inv. rewrite Hc in Hw. simpl in Hw. destruct (decide (c = SENTINEL)); [done|]. apply IH; [done|lia].
    - apply bind_ext. intros c s [Hc ->]%gets_inv. rewrite Hc in Hw. simpl in Hw. destruct (decide (c = SENTINEL)); [done|]. apply IH; [done|lia].
  Qed.

  Lemma av_rounds t U :
    avok pcmp cap t U → (height U < n)%nat →
    (∀ k v, avn_insert pcmp n k v t = av_insert pcmp k v t) ∧ (∀ k, avn_remove pcmp n k t = av_remove pcmp k t) ∧
    (∀ k, avn_get_addr pcmp n t k = av_get_addr pcmp t k) ∧ (∀ k, avn_get pcmp n t k = av_get pcmp t k) ∧
    (∀ k, avn_contains pcmp n t k = av_contains pcmp t k) ∧ (∀ k f, avn_get_mut pcmp n k f t = av_get_mut pcmp k f t) ∧
    avn_find_min_index n t = av_find_min_index t ∧ avn_find_max_index n t = av_find_max_index t ∧
    avn_get_min n t = av_get_min t ∧ avn_get_max n t = av_get_max t.
  Proof using HO.
    intros Hok Hn. pose proof Hok as [HR _ _]. pose proof (rep_tsize _ _ _ HR) as Hts. pose proof (height_tsize U) as Hhs.
    assert (shp (av_al t) U) as Hshp by by apply (rep_shp cap).
    assert (vals (av_al t) (entries U)) as Hv. { destruct HR as [Hch _]. by eapply CH_vals. }
    assert (∀ k, bst_get_addr cmp (Nat.min n (av_fuel t)) (av_al t) (root U) k = Val (root (tdesc cmp k [] U).2)) as Hb.
    { intros k. apply bst_get_addr_ok; [done|done|]. erewrite R_fuel by exact HR. lia. }
    assert (∀ k, avn_get_addr pcmp n t k = av_get_addr pcmp t k) as Hga.
    { intros k. unfold avn_get_addr, av_get_addr. rewrite (rep_root _ _ _ HR), Hb. symmetry. apply bst_get_addr_ok; [done|done|].
      erewrite R_fuel by exact HR. lia. }
    assert (root U ≠ SENTINEL → ∀ k, ∃ x, bst_walk cmp (Nat.min n (av_fuel t)) (av_al t) k (root U) = Val x) as Hwk.
    { intros Hnz k. specialize (Hb k). unfold bst_get_addr in Hb. rewrite decide_False in Hb by done. eauto. }
    assert (∀ k, avn_get pcmp n t k = av_get pcmp t k) as Hg.
    { intros k. unfold avn_get, av_get. rewrite (rep_root _ _ _ HR). destruct (decide (root U = SENTINEL)); [done|].
      destruct (Hwk ltac:(done) k) as [x Hx]. eapply get_along; [exact Hx|lia]. }
    assert (avn_find_min_index n t = av_find_min_index t) as Hmin.
    { unfold avn_find_min_index, av_find_min_index. rewrite (rep_root _ _ _ HR). destruct (decide (root U = SENTINEL)); [done|].
      rewrite !na_find_min; [done|done|erewrite R_fuel by exact HR; lia|done|erewrite R_fuel by exact HR; lia]. }
    assert (avn_find_max_index n t = av_find_max_index t) as Hmax.
    { unfold avn_find_max_index, av_find_max_index. rewrite (rep_root _ _ _ HR). destruct (decide (root U = SENTINEL)); [done|].
      rewrite !na_find_max; [done|done|erewrite R_fuel by exact HR; lia|done|erewrite R_fuel by exact HR; lia]. }
    split_and!; try done.
    - intros. by eapply insert_rounds.
    - intros. by eapply remove_rounds.
    - intros k. unfold avn_contains, av_contains. by rewrite Hg.
    - intros k f. unfold avn_get_mut, av_get_mut. apply bind_ext. intros t' s' [= <- <-]. rewrite (rep_root _ _ _ HR).
      destruct (decide (root U = SENTINEL)); [done|]. destruct (Hwk ltac:(done) k) as [x Hx]. eapply get_mut_along; [exact Hx|lia].
    - unfold avn_get_min, av_get_min. by rewrite Hmin.
    - unfold avn_get_max, av_get_max. by rewrite Hmax.
  Qed.
End facts.

Section reach.
  Context `{Profile} {K V : Type} (pcmp : K → K → option comparison) (HO : OrdLaws (av_cmp pcmp)) (ms : nat) (d : K * V).
  Context (H0 : (0 < ms)%nat) (Hw : N.of_nat ms + 1 < W32).
  Lemma av_rounds_height (o : list (om_op K V)) n :
    (av_len (av_after pcmp ms d o) + 1) ^ 2 < 2 ^ N.of_nat n →
    ∃ U, avok pcmp (N.of_nat ms) (av_after pcmp ms d o) U ∧ (height U < n)%nat.
  Proof using HO H0 Hw.
    intros Hn. destruct (av_reach pcmp HO ms d H0 Hw o) as (U & Hok & _). exists U. split; [done|].
    pose proof (av_height pcmp (N.of_nat ms) _ U Hok) as [Hh _].
    assert (2 ^ N.of_nat (height U) < 2 ^ N.of_nat n) as Hlt by lia. apply N.pow_lt_mono_r_iff in Hlt; lia.
  Qed.
End reach.
