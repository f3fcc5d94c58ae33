(** * Following the free list through one call *)
From Verif Require Export AllocProof SlotSpec.

(** What is known between calls: the free list [L], [bump_index] and that the slots never used hold [d] *)
Definition ghost_is {T} (L : list (N * T)) (B : N) (d : T) : Ghost T :=
  {| g_live := λ _ _, True; g_free := λ l b, l = L ∧ b = B; g_fresh := λ _ v, v = d |}.
(** Known during a call that adds or updates entries *)
Definition ghost_add {T} (L : list (N * T)) (B : N) (d : T) : Ghost T :=
  {| g_live := λ _ _, True; g_free := λ l b, (l `suffix_of` L ∧ b = B) ∨ (l = [] ∧ B ≤ b); g_fresh := λ _ v, v = d |}.
(** Known during a call that removes entries of [X] *)
Definition ghost_rem {T} (X : list (N * T)) (L : list (N * T)) (B : N) (d : T) : Ghost T :=
  {| g_live := λ i v, (i, v) ∈ X; g_free := λ l b, b = B ∧ ∃ P, l = P ++ L ∧ ∀ e, e ∈ P → e ∈ X; g_fresh := λ _ v, v = d |}.
Lemma ghost_add_add {T} (L : list (N * T)) B d : GAdd (ghost_add L B d).
Proof.
  split; [done| |].
  - intros e l b [[[P ->] ->]|[? _]]; [|done]. left. split; [|done]. exists (P ++ [e]). by rewrite <- app_assoc.
  - intros b [[_ ->]|[_ Hb]]; right; (split; [done|lia]).
Qed.
Lemma ghost_rem_rem {T} (X : list (N * T)) L B d : GRem (ghost_rem X L B d).
Proof.
  intros i v l b Hin [-> (P & -> & HP)]. split; [done|]. exists ((i, v) :: P). split; [done|].
  intros e [->|He]%elem_of_cons; [exact Hin|by apply HP].
Qed.

Definition live {T} (cs : list (N * node T)) : list (N * T) := map (λ c, (c.1, val c.2)) cs.
Lemma live_fst {T} (cs : list (N * node T)) : (live cs).*1 = cs.*1.
Proof. unfold live. by rewrite <- list_fmap_compose. Qed.
Lemma live_len {T} (cs : list (N * node T)) : length (live cs) = length cs.
Proof. apply map_length. Qed.

Section pin.
  Context `{Profile} {T : Type} (nr : nat) (cap : N).
  Implicit Types a : alloc T.
  Implicit Types cs : list (N * node T).

  Lemma CH_change (G G' : Ghost T) a cs :
    CH (G:=G) nr cap a cs →
    (∀ l, @g_free _ G l (bump_index a) → @g_free _ G' l (bump_index a)) →
    (∀ i v, @g_fresh _ G i v → @g_fresh _ G' i v) →
    (∀ i v, (i, v) ∈ live cs → @g_live _ G' i v) → CH (G:=G') nr cap a cs.
  Proof.
    intros (fr & Ho & Hf & ((l & Hl & Hv & Hg) & Hfr) & Hlv) H1 H2 H3. exists fr. split_and!; [done|done| |].
    - split; [exists l; split_and!; [done|done|by apply H1]|]. intros i v Hi Hr. by apply H2, Hfr.
    - apply Forall_forall. intros [i n] Hin. apply H3. apply elem_of_list_fmap. by exists (i, n).
  Qed.
  Lemma CH_is_add L B d a cs : CH (G:=ghost_is L B d) nr cap a cs → CH (G:=ghost_add L B d) nr cap a cs.
  Proof. intros Hc. apply (CH_change (ghost_is L B d) _ _ _ Hc); [|done|done]. intros l [-> Hb]. left. by split. Qed.
  Lemma CH_is_rem L B d a cs X : CH (G:=ghost_is L B d) nr cap a cs → live cs ≡ₚ X → CH (G:=ghost_rem X L B d) nr cap a cs.
  Proof.
    intros Hc HX. apply (CH_change (ghost_is L B d) _ _ _ Hc); [|done|].
    - intros l [-> Hb]. split; [done|]. exists []. split; [done|]. intros e He. by apply elem_of_nil in He.
    - intros i v Hin. simpl. by rewrite <- HX.
  Qed.

  (** The slots below [bump_index] are the live and the free ones *)
  Lemma AOK_cover a cs fr i : AOK nr cap a cs fr → 1 ≤ i < bump_index a → i ∈ cs.*1 ++ fr.*1.
  Proof.
    intros Ho Hi. pose proof (ok_nodup _ _ _ _ _ Ho) as Hnd. pose proof (ok_rng _ _ _ _ _ Ho) as Hr. pose proof (ok_bump _ _ _ _ _ Ho) as Hb.
    set (rng := map N.of_nat (seq 1 (length (cs.*1 ++ fr.*1)))).
    assert (incl rng (cs.*1 ++ fr.*1)) as Hincl.
    { apply NoDup_length_incl; [by apply NoDup_ListNoDup|unfold rng; by rewrite map_length, seq_length|].
      intros j Hj%elem_of_list_In. apply Hr in Hj. unfold rng. apply in_map_iff. exists (N.to_nat j). split; [lia|].
      apply in_seq. rewrite app_length, !fmap_length. unfold lengthN in Hb. lia. }
    apply elem_of_list_In, Hincl. unfold rng. apply in_map_iff. exists (N.to_nat i). split; [lia|].
    apply in_seq. rewrite app_length, !fmap_length. unfold lengthN in Hb. lia.
  Qed.
  Lemma suffix_len {A} (l l' : list A) : l `suffix_of` l' → (length l' ≤ length l)%nat → l = l'.
  Proof. intros [[|x P] ->] Hl; [done|]. exfalso. simpl in Hl. rewrite app_length in Hl. lia. Qed.

  Lemma pin_add L B d a cs a' cs' :
    CH (G:=ghost_is L B d) nr cap a cs → CH (G:=ghost_add L B d) nr cap a' cs' →
    (cs'.*1 ≡ₚ cs.*1 → CH (G:=ghost_is L B d) nr cap a' cs') ∧
    (∀ i, cs'.*1 ≡ₚ i :: cs.*1 →
       match L with
       | [] => i = B ∧ CH (G:=ghost_is [] (B + 1) d) nr cap a' cs'
       | e :: L' => i = e.1 ∧ CH (G:=ghost_is L' B d) nr cap a' cs'
       end).
  Proof.
    intros (fr & Ho & Hf & ((l & Hl & Hv & [-> HB]) & Hfr) & Hlv) (fr' & Ho' & Hf' & ((l' & Hl' & Hv' & Hg) & Hfr') & Hlv').
    pose proof (ok_bump _ _ _ _ _ Ho) as Hb. pose proof (ok_bump _ _ _ _ _ Ho') as Hb'.
    assert (length fr = length L) as Hlen by (rewrite <- (fmap_length fst fr), <- Hl; apply fmap_length).
    assert (length fr' = length l') as Hlen' by (rewrite <- (fmap_length fst fr'), <- Hl'; apply fmap_length).
    unfold lengthN in *. rewrite Hlen in Hb. rewrite Hlen' in Hb'. simpl in Hg, Hfr'.
    assert (∀ L1 B1, l' = L1 → bump_index a' = B1 → CH (G:=ghost_is L1 B1 d) nr cap a' cs') as Hout.
    { intros L1 B1 E1 E2. exists fr'. split_and!; [done|done| |by apply Forall_true].
      split; [exists l'; by split_and!|]. intros i v Hi Hr. by eapply Hfr'. }
    split.
    - intros Hp. apply Permutation_length in Hp. rewrite !fmap_length in Hp. apply Hout.
      + destruct Hg as [[Hs Hb1]|[-> Hb1]]; [apply suffix_len; [done|lia]|]. destruct L; [done|simpl in *; lia].
      + destruct Hg as [[Hs Hb1]|[-> Hb1]]; [lia|]. simpl in *. lia.
    - intros i Hp. pose proof (Permutation_length Hp) as Hpl. cbn [length] in Hpl. rewrite !fmap_length in Hpl.
      destruct L as [|e L0].
      + assert (l' = []) as ->. { destruct Hg as [[Hs _]|[? _]]; [by apply suffix_nil_inv in Hs|done]. }
        destruct Hg as [[_ Hb1]|[_ Hb1]]; [simpl in *; lia|]. assert (bump_index a' = B + 1) as Hb2 by (simpl in *; lia).
        split; [|by apply Hout].
        assert (i ∈ cs'.*1) as Hi by (rewrite Hp; apply elem_of_list_here).
        assert (1 ≤ i < bump_index a') as Hri by (eapply ok_rng; [exact Ho'|apply elem_of_app; by left]).
        destruct (decide (i < B)) as [Hlt|Hge]; [|lia]. exfalso.
        assert (i ∈ cs.*1 ++ fr.*1) as Hin by (eapply AOK_cover; [exact Ho|lia]).
        rewrite <- Hl in Hin. simpl in Hin. rewrite app_nil_r in Hin.
        pose proof (ok_nodup _ _ _ _ _ Ho') as Hnd. apply NoDup_app in Hnd as (Hnd & _ & _). rewrite Hp in Hnd. by apply NoDup_cons in Hnd as [? _].
      + assert (l' = L0 ∧ bump_index a' = B) as [-> Hb2].
        { destruct Hg as [[Hs Hb1]|[-> Hb1]].
          - split; [|done]. destruct Hs as [[|y P] HP]; simpl in HP; [subst l'; simpl in *; lia|]. injection HP as <- HP.
            subst L0. simpl in *. rewrite app_length in *. destruct P; [done|simpl in *; lia].
          - simpl in *. assert (length L0 = 0%nat) as HL0 by lia. apply nil_length_inv in HL0 as ->. split; [done|]. simpl in *. lia. }
        split; [|by apply Hout].
        pose proof (ok_nodup _ _ _ _ _ Ho) as Hnd. rewrite <- Hl in Hnd. simpl in Hnd.
        assert (1 ≤ e.1 < bump_index a) as Hre. { eapply ok_rng; [exact Ho|]. rewrite <- Hl. set_solver. }
        assert (e.1 ∈ cs'.*1 ++ fr'.*1) as Hin by (eapply AOK_cover; [exact Ho'|lia]). rewrite <- Hl', Hp in Hin.
        apply NoDup_app in Hnd as (_ & Hnd & Hnl). apply NoDup_cons in Hnl as [Hnl _].
        apply elem_of_app in Hin as [Hin|Hin]; [|done]. apply elem_of_cons in Hin as [Hin|Hin]; [done|].
        exfalso. apply (Hnd _ Hin). apply elem_of_list_here.
  Qed.

  Lemma pin_rem L B d a cs a' cs' X :
    CH (G:=ghost_is L B d) nr cap a cs → live cs ≡ₚ X → CH (G:=ghost_rem X L B d) nr cap a' cs' →
    (cs'.*1 ≡ₚ cs.*1 → CH (G:=ghost_is L B d) nr cap a' cs') ∧
    (∀ i v, (i, v) ∈ X → cs.*1 ≡ₚ i :: cs'.*1 → CH (G:=ghost_is ((i, v) :: L) B d) nr cap a' cs').
  Proof.
    intros (fr & Ho & Hf & ((l & Hl & Hv & [-> HB]) & Hfr) & Hlv) HX (fr' & Ho' & Hf' & ((l' & Hl' & Hv' & [Hb2 (P & -> & HP)]) & Hfr') & Hlv').
    pose proof (ok_bump _ _ _ _ _ Ho) as Hb. pose proof (ok_bump _ _ _ _ _ Ho') as Hb'.
    assert (length fr = length L) as Hlen by (rewrite <- (fmap_length fst fr), <- Hl; apply fmap_length).
    assert (length fr' = length (P ++ L)) as Hlen' by (rewrite <- (fmap_length fst fr'), <- Hl'; apply fmap_length).
    unfold lengthN in *. rewrite Hlen in Hb. rewrite Hlen', app_length in Hb'. simpl in Hfr'.
    assert (∀ L1, P ++ L = L1 → CH (G:=ghost_is L1 B d) nr cap a' cs') as Hout.
    { intros L1 E1. exists fr'. split_and!; [done|done| |by apply Forall_true].
      split; [exists (P ++ L); by split_and!|]. intros i v Hi Hr. by eapply Hfr'. }
    split.
    - intros Hp. apply Permutation_length in Hp. rewrite !fmap_length in Hp. apply Hout.
      assert (length P = 0%nat) as HP0 by lia. by apply nil_length_inv in HP0 as ->.
    - intros i v Hin Hp. pose proof (Permutation_length Hp) as Hpl. cbn [length] in Hpl. rewrite !fmap_length in Hpl.
      destruct P as [|[j w] [|]]; [simpl in *; lia| |simpl in *; lia]. apply Hout. simpl. f_equal.
      assert ((j, w) ∈ X) as Hjw by (apply HP, elem_of_list_here).
      assert (NoDup X.*1) as HndX. { rewrite <- HX, live_fst. pose proof (ok_nodup _ _ _ _ _ Ho) as Hnd. by apply NoDup_app in Hnd as (? & _). }
      assert (j = i) as ->.
      { assert (j ∈ cs.*1) as Hj. { rewrite <- live_fst, HX. apply elem_of_list_fmap. by exists (j, w). }
        rewrite Hp in Hj. apply elem_of_cons in Hj as [Hj|Hj]; [done|]. exfalso.
        pose proof (ok_nodup _ _ _ _ _ Ho') as Hnd. apply NoDup_app in Hnd as (_ & Hnd & _). apply (Hnd _ Hj). rewrite <- Hl'. simpl. apply elem_of_list_here. }
      f_equal. clear -HndX Hjw Hin. induction X as [|[x y] X IH]; [by apply elem_of_nil in Hin|]. simpl in HndX. apply NoDup_cons in HndX as [Hn Hnd].
      apply elem_of_cons in Hjw as [Hjw|Hjw]; apply elem_of_cons in Hin as [Hin|Hin]; simplify_eq; [done| | |by apply IH].
      + exfalso. apply Hn. apply elem_of_list_fmap. by exists (x, v).
      + exfalso. apply Hn. apply elem_of_list_fmap. by exists (x, w).
  Qed.

  (** What the theorems say of the slots not in use *)
  Lemma CH_unused L B d a cs : CH (G:=ghost_is L B d) nr cap a cs → unused a nr d L B.
  Proof.
    intros (fr & Ho & Hf & ((l & Hl & Hv & [-> HB]) & Hfr) & Hlv). pose proof (ok_free _ _ _ _ _ Ho) as Hch.
    assert (∀ h l (fr : list (N * list N)), fchain a h fr → l.*1 = fr.*1 → Forall (λ e, val <$> rd a e.1 = Some e.2) l →
      Forall (λ f, f.2 = replicate (nr - 1) 0) fr →
      h = top_of B l ∧ ∀ pre i v post, l = pre ++ (i, v) :: post → na_get a i = Val (Node (top_of B post :: replicate (nr - 1) 0) v)) as Hgen.
    { clear -HB. intros h l fr. revert h l. induction fr as [|[j tl] fr IH]; intros h [|[j' w] l]; try done; simpl.
      - intros -> _ _ _. split; [done|]. by intros [].
      - intros (-> & nx & v & Hrd & Hc) [= -> Hl] [Hw Hv]%Forall_cons [Ht Hf]%Forall_cons. simpl in *. subst tl.
        destruct (IH nx l Hc Hl Hv Hf) as [-> Hrest]. split; [done|]. rewrite Hrd in Hw. simpl in Hw. injection Hw as ->.
        intros [|e pre] i x post; simpl; [intros Heq; injection Heq as <- <- <-|intros Heq; injection Heq as <- ->; by eapply Hrest].
        by apply na_get_rd. }
    destruct (Hgen _ _ _ Hch Hl Hv Hf) as [Hh Hc]. split_and!; [done|done|done|].
    intros i Hi Hm. rewrite <- HB in Hi. destruct (ok_fresh _ _ _ _ _ Ho i Hi) as [v Hrd]; [by rewrite <- (ok_cap _ _ _ _ _ Ho)|].
    apply na_get_rd. rewrite Hrd. do 2 f_equal. apply (Hfr i); [done|]. by rewrite Hrd.
  Qed.
  Lemma CH_new_is ms (d : T) : cap = N.of_nat ms → cap + 1 < W32 → (1 ≤ nr)%nat →
    CH (G:=ghost_is [] 1 d) nr cap (Alloc 0 1 1 (replicate ms (node_default nr d))) [].
  Proof.
    intros. exists []. split_and!; [by apply na_new_ok|constructor| |constructor]. split; [by exists []|].
    simpl. intros i v _. unfold rd. case_decide; [done|]. simpl. destruct (lookupN _ _) as [n|] eqn:Hn; [|done].
    apply lookupN_Some in Hn. apply lookup_replicate in Hn as [-> _]. simpl. by intros [= <-].
  Qed.
End pin.
