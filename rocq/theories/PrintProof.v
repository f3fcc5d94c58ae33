(** * The text printed by [pretty_print] *)
From Verif Require Import IterProof RBMain.
From Verif Require Export PrintApi.

Section proof.
  Context `{Profile} {K V : Type} (show : K → list N).
  Implicit Types (t : rbt K V) (s : ptree K).

  Fixpoint psize s : nat := match s with PL => 0 | PN _ _ l r => S (psize l + psize r) end.
  Lemma pkeys_length s : length (pkeys s) = psize s.
  Proof. induction s as [|red k l IHl r IHr]; simpl; [done|]. rewrite app_length. simpl. lia. Qed.
  Lemma lines_length s dp c : length (lines_from dp c s) = psize s.
  Proof. revert dp c. induction s as [|red k l IHl r IHr]; intros; simpl; [done|]. rewrite app_length, IHl, IHr. lia. Qed.
  Lemma lines_keys s dp c : ln_key <$> lines_from dp c s ≡ₚ pkeys s.
  Proof.
    revert dp c. induction s as [|red k l IHl r IHr]; intros; simpl; [done|]. rewrite fmap_app, IHl, IHr. by rewrite Permutation_middle.
  Qed.

  Definition link_text (c : link) : list N := match c with Root => [] | Tee => pp_tee | Corner => pp_corner end.
  Definition text_of (x : nat * link * ptree K) : list N := concat (map (line_text show) (lines_from x.1.1 x.1.2 x.2)).
  Lemma concat_replicate_S {A} n (l : list A) : concat (replicate n l) ++ l = concat (replicate (S n) l).
  Proof. induction n as [|n IH]; simpl; [by rewrite app_nil_r|]. rewrite <- (assoc (++)), IH. done. Qed.

  Definition cost (x : N * (nat * link * ptree K)) : nat := S (psize x.2.2 + psize x.2.2).
  Lemma loop_text t (st : list (N * (nat * link * ptree K))) fuel out :
    Forall (λ x, rb_shows t x.1 x.2.2) st → (list_sum (map cost st) < fuel)%nat →
    rb_print_loop show fuel t (map (λ x, (x.1, concat (replicate x.2.1.1 pp_bar), link_text x.2.1.2)) st) out =
      Val (out ++ concat (map (λ x, text_of x.2) st)).
  Proof.
    revert st out. induction fuel as [|fuel IH]; intros st out Hst Hf; [lia|].
    destruct st as [|[i [[dp c] s]] st]; simpl; [by rewrite app_nil_r|].
    inversion Hst as [|? ? Hs Hst']; subst. change (cost (i, (dp, c, s)) + list_sum (map cost st) < S fuel)%nat in Hf. unfold cost at 1 in Hf. simpl in Hs, Hf. inversion Hs as [|? red kv l r sl sr Hi Hn Hr Hl Hrr Sl Sr]; subst.
    - rewrite decide_True by done. simpl in Hf. rewrite IH; [done|done|lia].
    - rewrite decide_False by done. rewrite Hn. cbn [mbind res_bind]. rewrite Hr. cbn [mbind res_bind]. rewrite Hrr. cbn [mbind res_bind].
      rewrite Hl. cbn [mbind res_bind]. simpl in Hf.
      set (cl := match sr with PL => Corner | PN _ _ _ _ => Tee end).
      assert ((if decide (r ≠ SENTINEL) then pp_tee else pp_corner) = link_text cl) as ->.
      { inversion Sr; subst; subst cl; [by rewrite decide_False by (intros Hx; by apply Hx)|by rewrite decide_True]. }
      rewrite concat_replicate_S.
      specialize (IH ((l, (S dp, cl, sl)) :: (r, (S dp, Corner, sr)) :: st)). simpl in IH. simpl. rewrite IH; clear IH.
      + f_equal. unfold text_of. simpl. fold cl. rewrite map_app, concat_app, <- !(assoc (++)). f_equal.
        assert (∀ x, line_text show x = concat (replicate (ln_depth x) pp_bar) ++ link_text (ln_link x) ++
          (if ln_red x then 27 :: 91 :: 51 :: 49 :: 109 :: show (ln_key x) ++ pp_reset else show (ln_key x)) ++ [10]) as -> by done.
        simpl. by rewrite <- !(assoc (++)).
      + by repeat constructor.
      + change (cost (l, (S dp, cl, sl)) + (cost (r, (S dp, Corner, sr)) + list_sum (map cost st)) < fuel)%nat. unfold cost at 1 2. simpl. lia.
  Qed.
  Lemma print_text t s :
    rb_shows t (rb_root t) s → (psize s ≤ length (nodes (rb_al t)))%nat → rb_len t ≠ 0 →
    rb_pretty_print show t = Val (Some (concat (map (line_text show) (lines s)) ++ [10])).
  Proof.
    intros Hs Hn Hl. unfold rb_pretty_print. rewrite decide_False by done.
    pose proof (loop_text t [(rb_root t, (0%nat, Root, s))] (2 * rb_fuel t) []) as Hx. simpl in Hx |- *. rewrite Hx.
    - unfold text_of. simpl. by rewrite app_nil_r.
    - by repeat constructor.
    - unfold rb_fuel, cost. simpl. lia.
  Qed.

  (** What a reachable tree shows *)
  Fixpoint ptree_of (U : tree (K * V)) : ptree K :=
    match U with Lf => PL | Nd m l i kv r => PN (bool_decide (m = 1)) kv.1 (ptree_of l) (ptree_of r) end.
  Lemma ptree_keys U : pkeys (ptree_of U) = (entries U).*2.*1.
  Proof. induction U as [|m l IHl i kv r IHr]; simpl; [done|]. rewrite IHl, IHr, !fmap_app. done. Qed.
  Lemma rep_shows cap t ctx U : rep cap t (plug ctx U) → rb_shows t (root U) (ptree_of U).
  Proof.
    revert ctx. induction U as [|m l IHl i kv r IHr]; intros ctx HR; [constructor|]. simpl. econstructor.
    - exact (rep_nz cap t _ ctx _ _ _ _ _ HR eq_refl).
    - exact (rep_node cap t _ ctx _ _ _ _ _ HR eq_refl).
    - exact (rep_red cap t _ ctx (Nd m l i kv r) HR eq_refl).
    - exact (rep_left cap t _ ctx _ _ _ _ _ HR eq_refl).
    - exact (rep_right cap t _ ctx _ _ _ _ _ HR eq_refl).
    - by apply (IHl (F false m i kv r :: ctx)).
    - by apply (IHr (F true m i kv l :: ctx)).
  Qed.
  Lemma rep_print cap t U : rep cap t U → ∃ s, rb_shows t (rb_root t) s ∧ pkeys s = (entries U).*2.*1 ∧
    rb_pretty_print show t = Val (if decide (rb_len t = 0) then None else Some (concat (map (line_text show) (lines s)) ++ [10])).
  Proof.
    intros HR. assert (rb_shows t (rb_root t) (ptree_of U)) as Hs.
    { rewrite (rep_root _ _ _ HR). by apply (rep_shows cap t []). }
    exists (ptree_of U). split_and!; [done|apply ptree_keys|]. destruct (decide (rb_len t = 0)) as [Hl|Hl].
    - unfold rb_pretty_print. by rewrite decide_True.
    - apply print_text; [done| |done]. rewrite <- pkeys_length, ptree_keys, !fmap_length.
      pose proof (rep_len_le _ _ _ HR) as Hle. pose proof (rep_cap _ _ _ HR) as Hc. unfold rb_capacity, MAX_SIZE, lengthN in *. lia.
  Qed.
End proof.
