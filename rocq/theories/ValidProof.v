(** * [is_valid_red_black_tree]: proofs *)
From Verif Require Export ValidSpec.

Global Instance ctree_eq : EqDecision ctree.
Proof. solve_decision. Defined.

Section valid.
  Context `{Profile} {K V : Type}.
  Implicit Types t : rbt K V.

  Lemma reads_color t i s : rb_reads t i s → rb_get_color t i = Val (ccolor s).
  Proof. intros []; done. Qed.
  Lemma reads_red t i s : rb_reads t i s → rb_is_red t i = Val (bool_decide (ccolor s = Red)).
  Proof. intros Hr. unfold rb_is_red. apply reads_color in Hr. unfold rb_get_color in Hr. by rewrite Hr. Qed.
  Lemma reads_black t i s : rb_reads t i s → rb_is_black t i = Val (bool_decide (ccolor s = Black)).
  Proof. intros Hr. unfold rb_is_black. apply reads_color in Hr. unfold rb_get_color in Hr. by rewrite Hr. Qed.
  Lemma reads_sentinel t i s : rb_reads t i s → (i = SENTINEL ↔ s = CL).
  Proof. intros []; done. Qed.
  Lemma blacks_cons c p : blacks (c :: p) = ((if bool_decide (c = Black) then 1 else 0) + blacks p)%nat.
  Proof. unfold blacks. rewrite filter_cons. case_decide; case_bool_decide; done. Qed.

  Definition sts := list (N * N * ctree).
  Definition sts_ok t (x : N * N * ctree) : Prop := rb_reads t x.1.1 x.2 ∧ x.2 ≠ CL.
  Definition sts_size (st : sts) : nat := list_sum (map (λ x, csize x.2) st).

  Lemma valid_loop_spec t (st : sts) fuel counts :
    Forall (sts_ok t) st → (sts_size st < fuel)%nat →
    Forall (λ x, x.1.2 + N.of_nat (csize x.2) < W32) st →
    ∃ o, rb_valid_loop fuel t (map fst st) counts = Val o ∧
      match o with
      | None => ∃ x, x ∈ st ∧ red_red x.2
      | Some cs => (∀ x, x ∈ st → ¬ red_red x.2) ∧
          ∀ c, c ∈ cs ↔ c ∈ counts ∨ ∃ x p, x ∈ st ∧ leaf_path x.2 p ∧ c = x.1.2 + N.of_nat (blacks p)
      end.
  Proof.
    revert st counts. induction fuel as [|fuel IH]; intros st counts Hst Hf Hw; [lia|].
    destruct st as [|[[i count] s] st].
    { simpl. exists (Some counts). split; [done|]. split; [intros x Hx; by apply elem_of_nil in Hx|].
      intros c. split; [by left|]. intros [?|(x & p & Hx & _)]; [done|by apply elem_of_nil in Hx]. }
    apply Forall_cons in Hst as [[Hr Hne] Hst]. apply Forall_cons in Hw as [Hw0 Hw]. simpl in Hr, Hne, Hw0.
    unfold sts_size in Hf. simpl in Hf. fold (sts_size st) in Hf.
    pose proof (reads_black t i s Hr) as Hb. pose proof (reads_red t i s Hr) as Hrd.
    inversion Hr as [|? c l r sl sr Hi Hc Hl Hr' Hsl Hsr]; subst; [done|]. cbn [csize ccolor] in Hf, Hw0, Hb, Hrd.
    cbn [map fst rb_valid_loop]. rewrite Hb. cbn.
    set (inc := if bool_decide (c = Black) then 1 else 0).
    assert (u32_add count inc = Val (count + inc)) as ->.
    { unfold u32_add, u_add. rewrite decide_True; [done|]. unfold inc. case_bool_decide; lia. }
    cbn. unfold rb_is_leaf. rewrite Hl. cbn.
    pose proof (reads_sentinel t l sl Hsl) as HSl. pose proof (reads_sentinel t r sr Hsr) as HSr.
    pose proof (reads_red t l sl Hsl) as Hrl. pose proof (reads_red t r sr Hsr) as Hrr.
    assert (∀ p, count + N.of_nat (blacks (c :: p)) = count + inc + N.of_nat (blacks p)) as Hbl.
    { intros p. rewrite blacks_cons. unfold inc. destruct (bool_decide (c = Black)); lia. }
    destruct (decide (sl = CL ∧ sr = CL)) as [[-> ->]|Hlr].
    { (* no children *)
      destruct (decide (l = SENTINEL)) as [_|?]; [|tauto]. rewrite Hr'. cbn. rewrite bool_decide_true by tauto. cbn.
      destruct (IH st ((count + inc) :: counts)) as (o & -> & Ho); [done|lia|done|].
      exists o. split; [done|]. destruct o as [cs|].
      - destruct Ho as [Hno Hcs]. split.
        + intros x Hx. apply elem_of_cons in Hx as [->|Hx]; [|by apply Hno]. simpl. inversion 1 as [? ? E|? ? E|? ? ? E|? ? ? E]; [by simpl in E..|inversion E|inversion E].
        + intros d. rewrite Hcs, elem_of_cons. split.
          * intros [[->|Hd]|(x & p & Hx & Hp & ->)].
            -- right. exists (i, count, CN c CL CL), [c]. split_and!; [by left|constructor|]. simpl. rewrite Hbl. change (blacks []) with 0%nat. lia.
            -- by left.
            -- right. exists x, p. split_and!; [by right|done|done].
          * intros [Hd|(x & p & Hx & Hp & ->)]; [by left; right|].
            apply elem_of_cons in Hx as [->|Hx]; [|right; by exists x, p].
            left; left. simpl in *. inversion Hp as [|? ? ? ? E|? ? ? ? E]; subst; [|inversion E|inversion E].
            rewrite Hbl. change (blacks []) with 0%nat. lia.
      - destruct Ho as (x & Hx & Hxr). exists x. split; [by right|done]. }
    (* at least one child *)
    assert (∀ X Y : res (option (list N)),
       (leaf ← (if decide (l = SENTINEL) then r0 ← rb_get_right t i; Val (bool_decide (r0 = SENTINEL)) else Val false);
        if (leaf : bool) then X else Y) = Y) as Hleaf.
    { intros X Y. destruct (decide (l = SENTINEL)) as [E|E]; [|done]. rewrite Hr'. cbn. rewrite bool_decide_false; [done|]. tauto. }
    rewrite Hleaf. clear Hleaf. rewrite Hr'. cbn.
    assert (∀ ci sc st0, rb_reads t ci sc → rb_is_red t ci = Val (bool_decide (ccolor sc = Red)) →
      (if decide (ci = SENTINEL) then Val (Some (map fst st0))
       else ri ← rb_is_red t i; rc ← (if (ri : bool) then rb_is_red t ci else Val false);
            if (rc : bool) then Val None else Val (Some ((ci, count + inc) :: map fst st0))) =
        if decide (sc = CL) then Val (Some (map fst st0))
        else if decide (c = Red ∧ ccolor sc = Red) then Val None
        else Val (Some (map fst ((ci, count + inc, sc) :: st0)))) as Hchild.
    { intros ci sc st0 Hrc Hrdc. pose proof (reads_sentinel t ci sc Hrc) as HS.
      destruct (decide (ci = SENTINEL)) as [E1|E1]; [by rewrite decide_True by tauto|]. rewrite (decide_False (P := sc = CL)) by tauto.
      rewrite Hrd. cbn. destruct (decide (c = Red)) as [->|Hnr].
      - rewrite bool_decide_true by done. rewrite Hrdc. cbn. case_bool_decide as E2; [rewrite decide_True by done; done|].
        rewrite decide_False by (intros [_ ?]; done). done.
      - rewrite bool_decide_false by done. cbn. rewrite decide_False by (intros [? _]; done). done. }
    rewrite (Hchild l sl st Hsl Hrl). 
    destruct (decide (sl ≠ CL ∧ c = Red ∧ ccolor sl = Red)) as [(Hl1 & -> & Hl2)|HnL].
    { rewrite decide_False by done. rewrite decide_True by done. cbn. exists None. split; [done|].
      exists (i, count, CN Red sl sr). split; [by left|]. by apply rr_left. }
    set (st1 := if decide (sl = CL) then st else (l, count + inc, sl) :: st).
    assert ((if decide (sl = CL) then Val (Some (map fst st)) else if decide (c = Red ∧ ccolor sl = Red) then Val None
             else Val (Some (map fst ((l, count + inc, sl) :: st)))) = Val (Some (map fst st1))) as ->.
    { unfold st1. destruct (decide (sl = CL)) as [?|?]; [done|]. rewrite decide_False by tauto. done. }
    cbn. rewrite (Hchild r sr st1 Hsr Hrr).
    destruct (decide (sr ≠ CL ∧ c = Red ∧ ccolor sr = Red)) as [(Hr1 & -> & Hr2)|HnR].
    { rewrite decide_False by done. rewrite decide_True by done. cbn. exists None. split; [done|].
      exists (i, count, CN Red sl sr). split; [by left|]. by apply rr_right. }
    set (st2 := if decide (sr = CL) then st1 else (r, count + inc, sr) :: st1).
    assert ((if decide (sr = CL) then Val (Some (map fst st1)) else if decide (c = Red ∧ ccolor sr = Red) then Val None
             else Val (Some (map fst ((r, count + inc, sr) :: st1)))) = Val (Some (map fst st2))) as ->.
    { unfold st2. destruct (decide (sr = CL)) as [?|?]; [done|]. rewrite decide_False by tauto. done. }
    cbn.
    assert (inc ≤ 1) as Hinc by (unfold inc; destruct (bool_decide (c = Black)); lia).
    destruct (IH st2 counts) as (o & -> & Ho).
    { unfold st2, st1. destruct (decide (sl = CL)), (decide (sr = CL)); repeat constructor; simpl; done. }
    { unfold st2, st1, sts_size in *. destruct (decide (sl = CL)), (decide (sr = CL)); simpl; subst; simpl in *; try tauto; lia. }
    { unfold st2, st1. destruct (decide (sl = CL)), (decide (sr = CL)); repeat constructor; simpl; try done; simpl in *; lia. }
    assert (∀ x, x ∈ st2 ↔ (sr ≠ CL ∧ x = (r, count + inc, sr)) ∨ (sl ≠ CL ∧ x = (l, count + inc, sl)) ∨ x ∈ st) as Hin.
    { intros x. unfold st2, st1. destruct (decide (sl = CL)), (decide (sr = CL)); rewrite ?elem_of_cons; tauto. }
    exists o. split; [done|]. destruct o as [cs|].
    - destruct Ho as [Hno Hcs]. split.
      + intros x Hx. apply elem_of_cons in Hx as [->|Hx]; [|apply Hno, Hin; tauto]. simpl.
        inversion 1 as [? ? E|? ? E|? ? ? E|? ? ? E]; subst.
        * apply HnL. split_and!; [|done|done]. by intros ->.
        * apply HnR. split_and!; [|done|done]. by intros ->.
        * apply (Hno (l, count + inc, sl)); [|done]. apply Hin. right; left. split; [|done]. intros ->. inversion E.
        * apply (Hno (r, count + inc, sr)); [|done]. apply Hin. left. split; [|done]. intros ->. inversion E.
      + intros d. rewrite Hcs. apply or_iff_compat_l. split.
        * intros (x & p & Hx & Hp & ->). apply Hin in Hx as [[Hne' ->]|[[Hne' ->]|Hx]]; simpl in *.
          -- exists (i, count, CN c sl sr), (c :: p). split_and!; [by left|by apply lp_right|]. simpl. by rewrite Hbl.
          -- exists (i, count, CN c sl sr), (c :: p). split_and!; [by left|by apply lp_left|]. simpl. by rewrite Hbl.
          -- exists x, p. split_and!; [by right|done|done].
        * intros (x & p & Hx & Hp & ->). apply elem_of_cons in Hx as [->|Hx].
          -- simpl in *. inversion Hp as [|? ? ? p' E|? ? ? p' E]; subst; [exfalso; tauto| |].
             ++ exists (l, count + inc, sl), p'. split_and!; [|done|simpl; by rewrite Hbl].
                apply Hin. right; left. split; [|done]. intros ->. inversion E.
             ++ exists (r, count + inc, sr), p'. split_and!; [|done|simpl; by rewrite Hbl].
                apply Hin. left. split; [|done]. intros ->. inversion E.
          -- exists x, p. split_and!; [apply Hin; tauto|done|done].
    - destruct Ho as (x & Hx & Hxr). apply Hin in Hx as [[_ ->]|[[_ ->]|Hx]]; simpl in *.
      + exists (i, count, CN c sl sr). split; [by left|]. by apply rr_in_right.
      + exists (i, count, CN c sl sr). split; [by left|]. by apply rr_in_left.
      + exists x. split; [by right|done].
  Qed.

  Lemma is_valid_spec t s :
    rb_reads t (rb_root t) s → (csize s ≤ length (nodes (rb_al t)))%nat → N.of_nat (csize s) < W32 →
    ∃ b, rb_is_valid t = Val b ∧
      (b = true ↔ rb_len t = 0 ∨
         (ccolor s ≠ Red ∧ ¬ red_red s ∧ ∀ p q, leaf_path s p → leaf_path s q → blacks p = blacks q)).
  Proof.
    intros Hr Hsz Hw. unfold rb_is_valid. case_decide as Hl.
    { exists true. split; [done|]. tauto. }
    rewrite (reads_red _ _ _ Hr). cbn -[rb_valid_loop]. case_bool_decide as Hred.
    { exists false. split; [done|]. split; [done|]. intros [?|[? _]]; done. }
    destruct (decide (s = CL)) as [->|Hne].
    { inversion Hr as [E|]. exists true. 
      assert (∀ p, ¬ leaf_path CL p) as HCL by (intros p Hp; inversion Hp).
      assert (¬ red_red CL) by (intros Hp; inversion Hp).
      split; [|split; [intros _; right; split_and!; naive_solver|done]].
      unfold rb_fuel. cbn. change SENTINEL with 0. vm_compute. reflexivity. }
    destruct (valid_loop_spec t [(rb_root t, 0, s)] (S (rb_fuel t)) []) as (o & Ho & Hs).
    { repeat constructor; done. }
    { unfold sts_size, rb_fuel. simpl. lia. }
    { repeat constructor. simpl. lia. }
    simpl map in Ho. rewrite Ho. cbn -[reverse]. destruct o as [cs|].
    - destruct Hs as [Hno Hcs]. specialize (Hno _ (elem_of_list_here _ _)). simpl in Hno.
      assert (∀ c, c ∈ reverse cs ↔ ∃ p, leaf_path s p ∧ c = N.of_nat (blacks p)) as Hcs'.
      { intros c. rewrite elem_of_reverse, Hcs. split.
        - intros [Hc|(x & p & Hx & Hp & ->)]; [by apply elem_of_nil in Hc|]. apply elem_of_list_singleton in Hx as ->. by exists p.
        - intros (p & Hp & ->). right. exists (rb_root t, 0, s), p. split_and!; [by left|done|done]. }
      destruct (reverse cs) as [|c0 cs'] eqn:Ecs.
      + exists true. split; [done|]. split; [|done]. intros _. right. split_and!; [done|done|]. intros p q Hp _.
        exfalso. apply (elem_of_nil (N.of_nat (blacks p))), Hcs'. by exists p.
      + eexists. split; [done|]. split.
        * intros Hall. right. split_and!; [done|done|]. intros p q Hp Hq.
          assert (∀ x, x ∈ c0 :: cs' → x = c0) as Heq.
          { intros x Hx. rewrite forallb_forall in Hall. apply elem_of_list_In, Hall in Hx. by apply bool_decide_eq_true in Hx. }
          apply Nat2N.inj. rewrite (Heq (N.of_nat (blacks p))), (Heq (N.of_nat (blacks q))); [done|apply Hcs'; by exists q|apply Hcs'; by exists p].
        * intros [?|(_ & _ & Hall)]; [done|]. apply forallb_forall. intros x Hx%elem_of_list_In. apply bool_decide_eq_true.
          apply Hcs' in Hx as (p & Hp & ->).
          destruct (proj1 (Hcs' c0) (elem_of_list_here _ _)) as (q & Hq & ->). f_equal. by apply Hall.
    - destruct Hs as (x & Hx & Hxr). apply elem_of_list_singleton in Hx as ->. simpl in Hxr.
      exists false. split; [done|]. split; [done|]. intros [?|(_ & Hn & _)]; done.
  Qed.

  (** A red-black tree passes *)
  Lemma reads_sub t i s n : rb_reads t i s → rb_sub t i n → ¬ red_red s ∧ ∀ p, leaf_path s p → blacks p = n.
  Proof.
    intros Hr. revert n. induction Hr as [|i c l r sl sr Hi Hc Hl Hr Hsl IHl Hsr IHr]; intros n Hn.
    { split; [intros E; inversion E|intros p E; inversion E]. }
    inversion Hn as [|? l' r' n' Hc' Hl' Hr' Hcl Hcr Sl Sr|? l' r' n' Hi' Hc' Hl' Hr' Sl Sr]; subst; [done| |];
      rewrite Hc in Hc'; rewrite Hl in Hl'; rewrite Hr in Hr'; injection Hc' as ->; injection Hl' as <-; injection Hr' as <-.
    - destruct (IHl _ Sl) as [Ll Lp], (IHr _ Sr) as [Rl Rp].
      rewrite (reads_color _ _ _ Hsl) in Hcl. rewrite (reads_color _ _ _ Hsr) in Hcr. injection Hcl as Hcl. injection Hcr as Hcr.
      split.
      + inversion 1 as [? ? E|? ? E|? ? ? E|? ? ? E]; subst; [by rewrite Hcl in E|by rewrite Hcr in E|done|done].
      + intros p Hp. inversion Hp as [|? ? ? p' E|? ? ? p' E]; subst; rewrite blacks_cons; simpl.
        * inversion Hsl; subst. by inversion Sl; subst.
        * by apply Lp.
        * by apply Rp.
    - destruct (IHl _ Sl) as [Ll Lp], (IHr _ Sr) as [Rl Rp]. split.
      + inversion 1 as [? ? E|? ? E|? ? ? E|? ? ? E]; subst; done.
      + intros p Hp. inversion Hp as [|? ? ? p' E|? ? ? p' E]; subst; rewrite blacks_cons; simpl.
        * inversion Hsl; subst. inversion Sl; subst; [done| |]; done.
        * f_equal. by apply Lp.
        * f_equal. by apply Rp.
  Qed.
  Lemma leaf_path_ex s : s ≠ CL → ∃ p, leaf_path s p.
  Proof.
    induction s as [|c l IHl r IHr]; [done|]. intros _. destruct l as [|c1 l1 l2].
    - destruct r as [|c2 r1 r2]; [eexists; constructor|]. destruct IHr as [p Hp]; [done|]. exists (c :: p). by apply lp_right.
    - destruct IHl as [p Hp]; [done|]. exists (c :: p). by apply lp_left.
  Qed.
  (** A full tree that passes is a red-black tree *)
  Lemma full_sub t i s n :
    rb_reads t i s → full s → ¬ red_red s → (s ≠ CL ∨ n = 0%nat) → (∀ p, leaf_path s p → blacks p = n) → rb_sub t i n.
  Proof.
    intros Hr. revert n. induction Hr as [|i c l r sl sr Hi Hc Hl Hr Hsl IHl Hsr IHr]; intros n Hfull Hrr Hn Hp.
    { destruct Hn as [? | ->]; [done|constructor]. }
    destruct Hfull as (Hcol & Hch & Hf1 & Hf2).
    assert (∀ m, (if bool_decide (c = Black) then 1 else 0) + m = n → rb_sub t l m ∧ rb_sub t r m)%nat as Hsub.
    { intros m Hm. split; [apply IHl|apply IHr]; try done.
      - intros E. by apply Hrr, rr_in_left.
      - destruct (decide (sl = CL)) as [E|]; [right|by left].
        pose proof (proj1 Hch E) as E'. subst. specialize (Hp [c] (lp_leaf c)). rewrite blacks_cons in Hp. change (blacks []) with 0%nat in Hp. lia.
      - intros p Hpp. specialize (Hp (c :: p) (lp_left c sl sr p Hpp)). rewrite blacks_cons in Hp. lia.
      - intros E. by apply Hrr, rr_in_right.
      - destruct (decide (sr = CL)) as [E|]; [right|by left].
        pose proof (proj2 Hch E) as E'. subst. specialize (Hp [c] (lp_leaf c)). rewrite blacks_cons in Hp. change (blacks []) with 0%nat in Hp. lia.
      - intros p Hpp. specialize (Hp (c :: p) (lp_right c sl sr p Hpp)). rewrite blacks_cons in Hp. lia. }
    assert (∀ s', full s' → ccolor s' ≠ Red → ccolor s' = Black) as Hbl.
    { intros [|c' ? ?]; simpl; [done|]. intros [[->| ->] _] ?; done. }
    destruct Hcol as [-> | ->].
    - destruct (Hsub n) as [S1 S2]; [done|]. eapply rb_sub_red; try done.
      + rewrite (reads_color _ _ _ Hsl). f_equal. apply Hbl; [done|]. intros E. by apply Hrr, rr_left.
      + rewrite (reads_color _ _ _ Hsr). f_equal. apply Hbl; [done|]. intros E. by apply Hrr, rr_right.
    - destruct n as [|n].
      { destruct (leaf_path_ex (CN Black sl sr)) as [p Hpp]; [done|]. pose proof (Hp p Hpp) as E.
        inversion Hpp; subst; rewrite blacks_cons in E; done. }
      destruct (Hsub n) as [S1 S2]; [done|]. by eapply rb_sub_black.
  Qed.
End valid.
