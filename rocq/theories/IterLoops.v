(** * [is_valid_red_black_tree] and [pretty_print]: room on the stack and rounds of the loop *)
From Verif Require Import IterRoom.

Section loops.
  Context `{Profile} {K V : Type} (room : nat) (show : K → list N).
  Implicit Types t : rbt K V.
  Notation tree := (tree (K * V)).

  Lemma valid_mle rds fuel t stack counts : (rds < fuel)%nat →
    rbm_valid_loop room rds t stack counts = Err OutOfFuel ∨ rbm_valid_loop room rds t stack counts = rb_valid_loop fuel t stack counts.
  Proof using Type.
    revert fuel stack counts. induction rds as [|rds IH]; intros fuel stack counts Hf; (destruct fuel as [|fuel]; [lia|]);
      cbn [rbm_valid_loop rb_valid_loop]; (destruct stack as [|[i count] stack]; [by right|]); [by left|].
    destruct (rb_is_black t i) as [b|]; cbn [mbind res_bind]; [|by right]. destruct (u32_add count _) as [c|]; cbn [mbind res_bind]; [|by right].
    destruct (rb_is_leaf t i) as [leaf|]; cbn [mbind res_bind]; [|by right]. destruct leaf; [apply IH; lia|].
    destruct (rb_get_left t i) as [l|]; cbn [mbind res_bind]; [|by right]. destruct (rb_get_right t i) as [r|]; cbn [mbind res_bind]; [|by right].
    assert (∀ x (st : list (N * N)) (f g : option (list (N * N)) → res (option (list N))),
      (∀ o, f o = Err OutOfFuel ∨ f o = g o) →
      let b := (if decide (x = SENTINEL) then Val (Some st) else
                ri ← rb_is_red t i; rc ← (if (ri : bool) then rb_is_red t x else Val false);
                if (rc : bool) then Val None else if decide (length st < room)%nat then Val (Some ((x, c) :: st)) else Err OutOfFuel) ≫= f in
      let u := (if decide (x = SENTINEL) then Val (Some st) else
                ri ← rb_is_red t i; rc ← (if (ri : bool) then rb_is_red t x else Val false);
                if (rc : bool) then Val None else Val (Some ((x, c) :: st))) ≫= g in
      b = Err OutOfFuel ∨ b = u) as Hch.
    { intros x st f g Hfg. simpl. destruct (decide (x = SENTINEL)); cbn [mbind res_bind]; [apply Hfg|].
      destruct (rb_is_red t i) as [ri|]; cbn [mbind res_bind]; [|by right].
      destruct (if ri then rb_is_red t x else Val false) as [rc|]; cbn [mbind res_bind]; [|by right].
      destruct rc; cbn [mbind res_bind]; [apply Hfg|]. destruct (decide (length st < room)%nat); cbn [mbind res_bind]; [apply Hfg|by left]. }
    apply Hch. intros [st|]; [|by right]. apply Hch. intros [st'|]; [|by right]. apply IH. lia.
  Qed.
  Lemma print_mle rds fuel t stack s : (rds < fuel)%nat →
    rbm_print_loop room show rds t stack s = Err OutOfFuel ∨ rbm_print_loop room show rds t stack s = rb_print_loop show fuel t stack s.
  Proof using Type.
    revert fuel stack s. induction rds as [|rds IH]; intros fuel stack s Hf; (destruct fuel as [|fuel]; [lia|]);
      cbn [rbm_print_loop rb_print_loop]; (destruct stack as [|[[i pad] ptr] stack]; [by right|]); [by left|].
    destruct (decide (i = SENTINEL)); [apply IH; lia|].
    destruct (rb_get_node t i) as [kv|]; cbn [mbind res_bind]; [|by right]. destruct (rb_is_red t i) as [red|]; cbn [mbind res_bind]; [|by right].
    destruct (rb_get_right t i) as [r|]; cbn [mbind res_bind]; [|by right]. destruct (rb_get_left t i) as [l|]; cbn [mbind res_bind]; [|by right].
    destruct (decide (S (length stack) < room)%nat); [apply IH; lia|by left].
  Qed.

  Lemma rb_red_nof t i : rb_is_red t i ≠ Err OutOfFuel.
  Proof using Type. unfold rb_is_red. pose proof (na_get_register_nof (rb_al t) i COLOR) as Hn. unfold nof in Hn. destruct (na_get_register _ _ _); simpl; congruence. Qed.
  Lemma rb_black_nof t i : rb_is_black t i ≠ Err OutOfFuel.
  Proof using Type. unfold rb_is_black. pose proof (na_get_register_nof (rb_al t) i COLOR) as Hn. unfold nof in Hn. destruct (na_get_register _ _ _); simpl; congruence. Qed.
  Lemma u32_add_nof x y : u32_add x y ≠ Err OutOfFuel.
  Proof using Type. unfold u32_add, u_add. repeat case_match; done. Qed.

  Fixpoint spot (gs : list tree) : nat := match gs with [] => O | g :: gs => tsize g + spot gs end.
  Lemma valid_within R rds t (gs : list tree) (cs : list N) counts :
    length cs = length gs → Forall (λ g, shp (rb_al t) g ∧ g ≠ Lf) gs → fits R gs → (spot gs ≤ rds)%nat → (R ≤ room)%nat →
    rbm_valid_loop room rds t (zip (map root gs) cs) counts ≠ Err OutOfFuel.
  Proof using Type.
    intros Hl Hgs Hfi Hp HR. revert gs cs counts Hl Hgs Hfi Hp.
    induction rds as [|rds IH]; intros gs cs counts Hl Hgs Hfi Hp; (destruct gs as [|g gs]; destruct cs as [|c0 cs]; [done..|]);
      apply Forall_cons in Hgs as [[Hg Hg0] Hgs]; (destruct g as [|m l i kv r]; [done|]); [simpl in Hp; lia|].
    destruct Hfi as [Hh Hfi]. cbn [height spot tsize length map zip root zip_with] in *. cbn [rbm_valid_loop].
    pose proof (rb_black_nof t i) as Hb. destruct (rb_is_black t i) as [b|]; cbn [mbind res_bind]; [|congruence].
    pose proof (u32_add_nof c0 (if b then 1 else 0)) as Ha. destruct (u32_add c0 _) as [c|]; cbn [mbind res_bind]; [|congruence].
    destruct Hg as (Hi & Hgl & Hgr & Hsl & Hsr). unfold rb_is_leaf, rb_get_left, rb_get_right. rewrite Hgl, Hgr. cbn [mbind res_bind].
    destruct (if decide (root l = SENTINEL) then Val (bool_decide (root r = SENTINEL)) else Val false) as [leaf|] eqn:E; cbn [mbind res_bind];
      [|by destruct (decide (root l = SENTINEL))].
    destruct leaf; [apply IH; [lia|done|done|lia]|]. clear E.
    assert (∀ (x : tree) gs' cs', length cs' = length gs' → Forall (λ g, shp (rb_al t) g ∧ g ≠ Lf) gs' → fits R gs' →
      shp (rb_al t) x → (length gs' + height x ≤ R)%nat → ∀ f : option (list (N * N)) → res (option (list N)), f None ≠ Err OutOfFuel →
      f (Some (zip (map root gs') cs')) ≠ Err OutOfFuel ∨ x ≠ Lf →
      (x ≠ Lf → f (Some (zip (map root (x :: gs')) (c :: cs'))) ≠ Err OutOfFuel) →
      (if decide (root x = SENTINEL) then Val (Some (zip (map root gs') cs')) else
                ri ← rb_is_red t i; rc ← (if (ri : bool) then rb_is_red t (root x) else Val false);
                if (rc : bool) then Val None else if decide (length (zip (map root gs') cs') < room)%nat
                then Val (Some ((root x, c) :: zip (map root gs') cs')) else Err OutOfFuel) ≫= f ≠ Err OutOfFuel) as Hch.
    { intros x gs' cs' Hl' Hgs' Hfi' Hsx Hhx f HfN Hf0 Hf1. destruct x as [|mx lx ix kvx rx]; cbn [root].
      { rewrite decide_True by done. cbn [mbind res_bind]. by destruct Hf0. }
      destruct Hsx as (Hix & _). rewrite decide_False by done. pose proof (rb_red_nof t i) as Hri. pose proof (rb_red_nof t ix) as Hrx.
      destruct (rb_is_red t i) as [ri|]; cbn [mbind res_bind]; [|congruence].
      assert ((if ri then rb_is_red t ix else Val false) ≠ Err OutOfFuel) as Hrc by (by destruct ri).
      destruct (if ri then rb_is_red t ix else Val false) as [rc|]; cbn [mbind res_bind]; [|congruence].
      destruct rc; cbn [mbind res_bind]; [done|]. rewrite decide_True.
      2:{ rewrite zip_with_length_l_eq by (rewrite map_length; lia). rewrite map_length. simpl in Hhx. lia. }
      cbn [mbind res_bind]. apply (Hf1 ltac:(done)). }
    apply (Hch l gs cs); [lia|done|done|done|lia|done|..].
    - destruct l; [left|by right]. apply (Hch r gs cs); [lia|done|done|done|lia|done|..].
      + destruct r; [left|by right]. apply IH; [lia|done|done|lia].
      + intros Hr. apply (IH (r :: gs) (c :: cs)); [simpl; lia|by constructor| |simpl in *; lia]. split; [lia|done].
    - intros Hl0. assert (0 < height l)%nat by (destruct l; [done|simpl; lia]).
      assert (length (c :: cs) = length (l :: gs)) as Hl1 by (simpl; lia).
      assert (Forall (λ g, shp (rb_al t) g ∧ g ≠ Lf) (l :: gs)) as Hgs1 by (by constructor).
      assert (fits R (l :: gs)) as Hfi1 by (split; [lia|done]).
      apply (Hch r (l :: gs) (c :: cs)); [done|done|done|done| |done|..].
      + simpl. lia.
      + destruct r; [left|by right]. apply (IH (l :: gs) (c :: cs)); [done|done|done|simpl in *; lia].
      + intros Hr. apply (IH (r :: l :: gs) (c :: c :: cs)); [simpl; lia|by constructor| |simpl in *; lia]. split; [simpl; lia|done].
  Qed.
  Lemma print_within R rds t (gs : list tree) (cs : list (list N * list N)) s :
    length cs = length gs → Forall (shp (rb_al t)) gs → fits R gs → (2 * spot gs + length gs ≤ rds)%nat → (R < room)%nat →
    rbm_print_loop room show rds t (zip_with (λ i p, (i, p.1, p.2)) (map root gs) cs) s ≠ Err OutOfFuel.
  Proof using Type.
    intros Hl Hgs Hfi Hp HR. revert gs cs s Hl Hgs Hfi Hp.
    induction rds as [|rds IH]; intros gs cs s Hl Hgs Hfi Hp; (destruct gs as [|g gs]; destruct cs as [|[pad ptr] cs]; [done..|]); [simpl in Hp; lia|].
    apply Forall_cons in Hgs as [Hg Hgs]. destruct Hfi as [Hh Hfi]. cbn [length spot map zip_with fst snd] in *. cbn [rbm_print_loop].
    destruct g as [|m l i kv r]; cbn [root tsize height] in *.
    - rewrite decide_True by done. apply IH; [lia|done|done|lia].
    - destruct Hg as (Hi & Hgl & Hgr & Hsl & Hsr). rewrite decide_False by done.
      unfold rb_get_node. pose proof (na_get_nof (rb_al t) i) as Hn. unfold nof in Hn. destruct (na_get (rb_al t) i); cbn [mbind res_bind]; [|congruence].
      pose proof (rb_red_nof t i). destruct (rb_is_red t i) as [red|]; cbn [mbind res_bind]; [|congruence].
      unfold rb_get_left, rb_get_right. rewrite Hgl, Hgr. cbn [mbind res_bind].
      rewrite decide_True. 2:{ rewrite zip_with_length_l_eq by (rewrite map_length; lia). rewrite map_length. lia. }
      match goal with |- context [(_, ?p, ?lp) :: (_, ?p, ?cp) :: _] =>
        apply (IH (l :: r :: gs) ((p, lp) :: (p, cp) :: cs)); [simpl; lia|by repeat constructor| |simpl in *; lia] end.
      simpl. split_and!; [lia|lia|done].
  Qed.

  Lemma rbm_loops_mle rds t :
    (rbm_is_valid room rds t = Err OutOfFuel ∨ rbm_is_valid room rds t = rb_is_valid t) ∧
    (rbm_pretty_print room show rds t = Err OutOfFuel ∨ rbm_pretty_print room show rds t = rb_pretty_print show t).
  Proof using Type.
    split.
    - unfold rbm_is_valid, rb_is_valid. destruct (decide (rb_len t = 0)); [by right|].
      destruct (rb_is_red t (rb_root t)) as [rr|]; cbn [mbind res_bind]; [|by right]. destruct rr; [by right|].
      destruct (valid_mle (Nat.min rds (rb_fuel t)) (S (rb_fuel t)) t [(rb_root t, 0)] []) as [->| ->]; [lia|by left|by right].
    - unfold rbm_pretty_print, rb_pretty_print. destruct (decide (rb_len t = 0)); [by right|].
      destruct (print_mle (Nat.min rds (2 * rb_fuel t - 1)) (2 * rb_fuel t) t [(rb_root t, [], [])] []) as [->| ->];
        [unfold rb_fuel; lia|by left|by right].
  Qed.
  Lemma rbm_loops_within t U :
    rb_root t = root U → shp (rb_al t) U → (tsize U ≤ length (nodes (rb_al t)))%nat → (rb_len t = N.of_nat (tsize U)) →
    ((height U ≤ room)%nat → rbm_is_valid room (tsize U) t = rb_is_valid t) ∧
    ((height U < room)%nat → rbm_pretty_print room show (2 * tsize U + 1) t = rb_pretty_print show t).
  Proof using Type.
    intros Hr Hs Ht Hlen. split; intros HR.
    - destruct (rbm_loops_mle (tsize U) t) as [[Hx|] _]; [exfalso|done]. unfold rbm_is_valid in Hx.
      destruct (decide (rb_len t = 0)) as [|Hne]; [done|]. pose proof (rb_red_nof t (rb_root t)) as Hn.
      destruct (rb_is_red t (rb_root t)) as [rr|]; cbn [mbind res_bind] in Hx; [|congruence]. destruct rr; [done|].
      assert (U ≠ Lf) as HU by (intros ->; done).
      pose proof (valid_within (height U) (Nat.min (tsize U) (rb_fuel t)) t [U] [0] [] eq_refl) as Hv. simpl in Hv. rewrite <- Hr in Hv.
      destruct (rbm_valid_loop _ _ _ _ _) as [o|]; cbn [mbind res_bind] in Hx.
      + destruct o as [cs|]; [|done]. by destruct (reverse cs).
      + injection Hx as ->. apply Hv; [by repeat constructor|by split|unfold rb_fuel; lia|done|done].
    - destruct (rbm_loops_mle (2 * tsize U + 1) t) as [_ [Hx|]]; [exfalso|done]. unfold rbm_pretty_print in Hx.
      destruct (decide (rb_len t = 0)) as [|Hne]; [done|].
      pose proof (print_within (height U) (Nat.min (2 * tsize U + 1) (2 * rb_fuel t - 1)) t [U] [([], [])] [] eq_refl) as Hv.
      cbn [map zip_with fst snd] in Hv. rewrite <- Hr in Hv.
      destruct (rbm_print_loop _ _ _ _ _ _) as [o|]; cbn [mbind res_bind] in Hx; [done|].
      injection Hx as ->. apply Hv; [by repeat constructor|by split|simpl; unfold rb_fuel; lia|done|done].
  Qed.
End loops.
