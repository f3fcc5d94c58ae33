(** * Loops on memory with any contents: a loop that visits a node twice never ends *)
From Verif Require Import HashModel RBModel AVLModel CritModel SettleSpec.
Local Open Scope nat_scope.

Lemma dup_split {A} `{EqDecision A} (l : list A) : ¬ NoDup l → ∃ l1 x l2 l3, l = l1 ++ x :: l2 ++ x :: l3.
Proof.
  induction l as [|x l IH]; intros Hn; [destruct Hn; constructor|].
  destruct (decide (x ∈ l)) as [(l2 & l3 & ->)%elem_of_list_split|Hx].
  - by exists [], x, l2, l3.
  - destruct IH as (l1 & y & l2 & l3 & ->); [intros H; apply Hn; by constructor|]. by exists (x :: l1), y, l2, l3.
Qed.
Lemma pigeon (l : list N) (L : nat) : Forall (λ k, 1 ≤ k ≤ N.of_nat L)%N l → L < length l → ¬ NoDup l.
Proof.
  intros Hf Hl Hn. assert (length l ≤ length (N.of_nat <$> seq 1 L)).
  { apply NoDup_incl_length; [by apply NoDup_ListNoDup|]. intros x Hx%elem_of_list_In. apply elem_of_list_In.
    apply elem_of_list_fmap. rewrite Forall_forall in Hf. specialize (Hf x Hx). exists (N.to_nat x). split; [lia|]. apply elem_of_seq. lia. }
  rewrite fmap_length, seq_length in *. lia.
Qed.

Section settle.
  Context {S R : Type} (f : nat → S → R) (key : S → N) (L : nat) (r0 : R).
  (** From any state with key [k] the loop goes round once more, to a state with key [k'] *)
  Definition nxt (k k' : N) : Prop := ∀ s, key s = k → ∃ s', key s' = k' ∧ ∀ m, f (Datatypes.S m) s = f m s'.
  Definition over (k : N) : Prop := ∀ s, key s = k → ∀ m m', f (Datatypes.S m) s = f (Datatypes.S m') s.
  Definition live (k : N) : Prop := (1 ≤ k ≤ N.of_nat L)%N ∨ nxt k k.
  Inductive path : N → list N → N → Prop :=
  | path_nil k : path k [] k
  | path_cons k k1 ks k' : live k → nxt k k1 → path k1 ks k' → path k (k :: ks) k'.
  Lemma path_app k ks1 ks2 k' : path k (ks1 ++ ks2) k' → ∃ k1, path k ks1 k1 ∧ path k1 ks2 k'.
  Proof.
    revert k. induction ks1 as [|x ks1 IH]; intros k Hp; [exists k; split; [constructor|done]|].
    cbn in Hp. inversion Hp as [|? k2 ? ? Hl Hn Hp']; subst. destruct (IH _ Hp') as (k1 & ? & ?). exists k1. split; [|done]. by econstructor.
  Qed.
  Lemma path_head k x ks k' : path k (x :: ks) k' → x = k.
  Proof. by inversion 1. Qed.
  Lemma path_live k ks k' : path k ks k' → Forall live ks.
  Proof. induction 1; by constructor. Qed.
  Context (H0 : ∀ s, f 0 s = r0).
  Lemma path_run k ks k' : path k ks k' → ∀ s, key s = k → (∀ m, m ≤ length ks → f m s = r0) ∧ ∃ s', key s' = k' ∧ ∀ m, f (length ks + m) s = f m s'.
  Proof using H0.
    induction 1 as [k|k k1 ks k' Hl Hn Hp IH]; intros s Hs.
    - split; [|by exists s]. intros m Hm. cbn in Hm. by replace m with 0 by lia.
    - destruct (Hn s Hs) as (s1 & Hs1 & H1). destruct (IH s1 Hs1) as (Ha & s' & Hs' & Hb). split; cbn [length].
      + intros [|m] Hm; [done|]. rewrite H1. apply Ha. lia.
      + exists s'. split; [done|]. intros m. cbn. by rewrite H1, Hb.
  Qed.
  Definition never (k : N) : Prop := ∀ s, key s = k → ∀ m, f m s = r0.
  Lemma cycle_never k x ks : path k (x :: ks) k → never k.
  Proof using H0.
    intros Hp s Hs m. revert s Hs. induction (lt_wf m) as [m _ IH]. intros s Hs. destruct (path_run _ _ _ Hp s Hs) as (Ha & s' & Hs' & Hb).
    destruct (decide (m ≤ length (x :: ks))) as [?|?]; [by apply Ha|]. replace m with (length (x :: ks) + (m - length (x :: ks))) by lia.
    rewrite Hb. apply IH; [cbn in *; lia|done].
  Qed.
  Lemma path_never k ks k' : path k ks k' → never k' → never k.
  Proof using H0.
    intros Hp Hn s Hs m. destruct (path_run _ _ _ Hp s Hs) as (Ha & s' & Hs' & Hb). destruct (decide (m ≤ length ks)) as [?|?]; [by apply Ha|].
    replace m with (length ks + (m - length ks)) by lia. rewrite Hb. by apply Hn.
  Qed.
  Context (Hd : ∀ k, over k ∨ ∃ k', live k ∧ nxt k k').
  Lemma walk_dich j k : (∃ ks k', path k ks k' ∧ length ks = j) ∨ (∀ s, key s = k → ∀ m m', j ≤ m → j ≤ m' → f m s = f m' s).
  Proof using Hd.
    revert k. induction j as [|j IH]; intros k; [left; exists [], k; split; [constructor|done]|].
    destruct (Hd k) as [Ho|(k1 & Hl & Hn)]; [right|destruct (IH k1) as [(ks & k' & Hp & <-)|Hr]; [left|right]].
    - intros s Hs [|m] [|m'] ? ?; [lia..|]. by apply Ho.
    - exists (k :: ks), k'. split; [by econstructor|done].
    - intros s Hs m m' Hm Hm'. destruct (Hn s Hs) as (s' & Hs' & H1). destruct m as [|m], m' as [|m']; [lia..|]. rewrite !H1. apply Hr; [done|lia..].
  Qed.
  Lemma walk_mono m : ∀ s, f m s = r0 ∨ ∀ m', m ≤ m' → f m' s = f m s.
  Proof using H0 Hd.
    induction m as [|m IH]; intros s; [by left|]. destruct (Hd (key s)) as [Ho|(k1 & _ & Hn)].
    - right. intros [|m'] Hm; [lia|]. by apply Ho.
    - destruct (Hn s eq_refl) as (s' & _ & H1). rewrite H1. destruct (IH s') as [Hr|Hr]; [by left|right].
      intros [|m'] Hm; [lia|]. rewrite H1. apply Hr. lia.
  Qed.
  Lemma walk_settles_up s n m : L < n → n ≤ m → f m s = f n s.
  Proof using H0 Hd.
    intros Hn Hm. destruct (walk_dich n (key s)) as [(ks & k' & Hp & Hl)|Hr]; [|apply Hr; [done|lia..]].
    assert (never (key s)) as Hv; [|by rewrite !(Hv s eq_refl)].
    pose proof (path_live _ _ _ Hp) as Hf.
    assert (Forall (λ k, 1 ≤ k ≤ N.of_nat L)%N ks ∨ ∃ l1 k l2, ks = l1 ++ k :: l2 ∧ nxt k k) as [Hr|(l1 & k & l2 & -> & Hk)].
    { clear -Hf. induction Hf as [|k ks [Hk|Hk] Hf IH]; [left; constructor| |right; by exists [], k, ks].
      destruct IH as [?|(l1 & k' & l2 & -> & ?)]; [left; by constructor|right]. by exists (k :: l1), k', l2. }
    - destruct (dup_split ks) as (l1 & x & l2 & l3 & ->); [apply (pigeon ks L); [done|lia]|].
      apply path_app in Hp as (k1 & Hp1 & Hp). pose proof (path_head _ _ _ _ Hp) as <-.
      apply (path_app x (x :: l2)) in Hp as (k2 & Hp2 & Hp). pose proof (path_head _ _ _ _ Hp) as <-.
      eapply path_never, cycle_never; done.
    - apply path_app in Hp as (k1 & Hp1 & Hp). pose proof (path_head _ _ _ _ Hp) as <-. eapply path_never; [exact Hp1|].
      eapply cycle_never. econstructor; [by right|done|constructor].
  Qed.
  Lemma walk_settled s n : L < n → settled (λ m, f m s) n.
  Proof using H0 Hd.
    intros Hn m. cbn beta. rewrite H0. destruct (decide (n ≤ m)) as [Hm|Hm]; [left; by apply walk_settles_up|].
    destruct (walk_mono m s) as [Hr|Hr]; [right; split; [lia|done]|left]. symmetry. apply Hr. lia.
  Qed.
End settle.

Section reads.
  Context `{Profile} {T : Type}.
  Implicit Types a : alloc T.
  Lemma get_range a i n : (lengthN (nodes a) < W32)%N → na_get a i = Val n → (1 ≤ i ≤ N.of_nat (length (nodes a)))%N.
  Proof.
    unfold na_get, u32_sub, u_sub, lengthN. intros Hl. destruct (decide (1 ≤ i)%N) as [Hi|Hi].
    - cbn. unfold lookupN. destruct (decide (i - 1 < N.of_nat (length (nodes a)))%N); [lia|done].
    - destruct overflow_checks; [done|]. cbn [mbind res_bind]. unfold lookupN. rewrite decide_False; [done|]. 
      assert (i = 0%N) as -> by lia. rewrite N.mod_small by (unfold W32; lia). lia.
  Qed.
  Lemma reg_range a i r c : (lengthN (nodes a) < W32)%N → na_get_register a i r = Val c → c ≠ 0%N → (1 ≤ i ≤ N.of_nat (length (nodes a)))%N.
  Proof.
    intros Hl. unfold na_get_register. destruct (decide (i = SENTINEL)) as [->|Hi]; [by intros [= <-]|].
    destruct (na_get a i) as [n|e] eqn:E; [|done]. intros _ _. by eapply get_range.
  Qed.
End reads.

Ltac rw := repeat match goal with E : ?x = Val _ |- context [?x] => rewrite E | E : ?x = Err _ |- context [?x] => rewrite E | E : ?x = true |- context [?x] => rewrite E
  | E : ?x = false |- context [?x] => rewrite E | E : ?x = Some _ |- context [?x] => rewrite E | E : ?x = None |- context [?x] => rewrite E
  | E : ?x = Lt |- context [?x] => rewrite E | E : ?x = Eq |- context [?x] => rewrite E | E : ?x = Gt |- context [?x] => rewrite E end.
(** The round is the last *)
Ltac last_round := left; intros ? Hk ? ?; cbn in Hk; subst; cbn; unfold mbind, M_bind, gets, mget; rw; cbn; rw; rewrite ?decide_True by done; done.

Section walks.
  Context `{Profile} {T : Type}.
  Lemma find_dir_settled (a : alloc T) r i n : (lengthN (nodes a) < W32)%N → length (nodes a) < n → settled (λ m, na_find_dir m a r i) n.
  Proof.
    intros Hl Hn. apply (walk_settled (λ m i, na_find_dir m a r i) (λ i, i) (length (nodes a)) (Err OutOfFuel)); [done| |done]. clear i n Hn. intros i.
    destruct (na_get_register a i r) as [c|e] eqn:E; [|last_round].
    destruct (decide (c = SENTINEL)) as [->|Hc]; [last_round|]. right. exists c. split; [left; by eapply reg_range|].
    intros s <-. exists c. split; [done|]. intros m. cbn. rw. cbn. by rewrite decide_False.
  Qed.
End walks.

(** The round continues with [c] *)
Ltac rounds c := right; exists c; split; [left|intros ? Hk; cbn in Hk; subst; eexists; split; [|intros ?; cbn; unfold mbind, M_bind, gets, mget; rw; cbn; rw; rewrite ?decide_False by done; reflexivity]; done].
Section tree.
  Context `{Profile} {K V : Type} (cmp : K → K → comparison).
  Implicit Types a : alloc (K * V).
  Lemma walk_settles a k i n : (lengthN (nodes a) < W32)%N → length (nodes a) < n → settled (λ m, bst_walk cmp m a k i) n.
  Proof.
    intros Hl Hn. apply (walk_settled (λ m i, bst_walk cmp m a k i) (λ i, i) (length (nodes a)) (Err OutOfFuel)); [done| |done]. clear i n Hn. intros i.
    destruct (na_get a i) as [nd|e] eqn:E; [|last_round]. destruct (cmp k (val nd).1) eqn:Ec; [last_round|..].
    - destruct (na_get_register a i Left) as [c|e] eqn:E2; [|last_round]. destruct (decide (c = SENTINEL)) as [->|Hc]; [last_round|].
      rounds c. by eapply get_range.
    - destruct (na_get_register a i Right) as [c|e] eqn:E2; [|last_round]. destruct (decide (c = SENTINEL)) as [->|Hc]; [last_round|].
      rounds c. by eapply get_range.
  Qed.
  Lemma fwd_settles a it n : (lengthN (nodes a) < W32)%N → length (nodes a) < n → settled (λ m, ti_fwd m a it) n.
  Proof.
    intros Hl Hn. apply (walk_settled (λ m it, ti_fwd m a it) (λ it, if ti_terminated it then 0%N else ti_fwd_ptr it) (length (nodes a)) (Err OutOfFuel)); [done| |done].
    clear it n Hn. intros i. destruct (decide (i = 0%N)) as [->|Hi].
    - left. intros [fs fp fn rs rp rn []] Hk m m'; [done|]. cbn in Hk. subst. cbn. done.
    - destruct (na_get_register a i Left) as [c|e] eqn:E.
      + right. exists c. split.
        { unfold na_get_register in E. rewrite decide_False in E by done. destruct (na_get a i) as [x|?] eqn:E'; [|done]. left. by eapply get_range. }
        intros [fs fp fn rs rp rn []] Hk; cbn in Hk; subst; [done|]. exists (TIter (i :: fs) c fn rs rp rn false). split; [done|]. intros m. cbn. rewrite decide_False by done. rw. done.
      + left. intros [fs fp fn rs rp rn []] Hk m m'; cbn in Hk; subst; [done|]. cbn. rewrite !decide_False by done. by rw.
  Qed.
  Lemma rev_settles a it n : (lengthN (nodes a) < W32)%N → length (nodes a) < n → settled (λ m, ti_rev m a it) n.
  Proof.
    intros Hl Hn. apply (walk_settled (λ m it, ti_rev m a it) (λ it, if ti_terminated it then 0%N else ti_rev_ptr it) (length (nodes a)) (Err OutOfFuel)); [done| |done].
    clear it n Hn. intros i. destruct (decide (i = 0%N)) as [->|Hi].
    - left. intros [fs fp fn rs rp rn []] Hk m m'; [done|]. cbn in Hk. subst. cbn. done.
    - destruct (na_get_register a i Right) as [c|e] eqn:E.
      + right. exists c. split.
        { unfold na_get_register in E. rewrite decide_False in E by done. destruct (na_get a i) as [x|?] eqn:E'; [|done]. left. by eapply get_range. }
        intros [fs fp fn rs rp rn []] Hk; cbn in Hk; subst; [done|]. exists (TIter fs fp fn (i :: rs) c rn false). split; [done|]. intros m. cbn. rewrite decide_False by done. rw. done.
      + left. intros [fs fp fn rs rp rn []] Hk m m'; cbn in Hk; subst; [done|]. cbn. rewrite !decide_False by done. by rw.
  Qed.
End tree.
Section rb.
  Context `{Profile} {K V : Type} (cmp : K → K → comparison).
  Implicit Types t : rbt K V.
  Lemma rb_insert_settles t k v i n : (lengthN (nodes (rb_al t)) < W32)%N → length (nodes (rb_al t)) < n → settled (λ m, rb_insert_loop cmp m k v i t) n.
  Proof.
    intros Hl Hn. apply (walk_settled (λ m i, rb_insert_loop cmp m k v i t) (λ i, i) (length (nodes (rb_al t))) (Fail OutOfFuel t)); [done| |done]. clear i n Hn. intros i.
    destruct (na_get (rb_al t) i) as [nd|e] eqn:E; [|left; intros ? Hk ? ?; cbn in Hk; subst; cbn; unfold mbind, M_bind, gets, rb_get_node; by rw].
    assert (rb_get_node t i = Val (val nd)) as En by (unfold rb_get_node; by rw). destruct (cmp k (val nd).1) eqn:Ec.
    - left; intros ? Hk ? ?; cbn in Hk; subst; cbn; unfold mbind, M_bind, gets. by rw.
    - destruct (rb_get_left t i) as [c|e] eqn:E2; [|left; intros ? Hk ? ?; cbn in Hk; subst; cbn; unfold mbind, M_bind, gets; by rw].
      destruct (decide (c = SENTINEL)) as [->|Hc]; [left; intros ? Hk ? ?; cbn in Hk; subst; cbn; unfold mbind, M_bind, gets; by rw|].
      rounds c. by eapply get_range.
    - destruct (rb_get_right t i) as [c|e] eqn:E2; [|left; intros ? Hk ? ?; cbn in Hk; subst; cbn; unfold mbind, M_bind, gets; by rw].
      destruct (decide (c = SENTINEL)) as [->|Hc]; [left; intros ? Hk ? ?; cbn in Hk; subst; cbn; unfold mbind, M_bind, gets; by rw|].
      rounds c. by eapply get_range.
  Qed.
  Lemma rb_remove_settles t k i n : (lengthN (nodes (rb_al t)) < W32)%N → length (nodes (rb_al t)) < n → settled (λ m, rb_remove_loop cmp m k i t) n.
  Proof.
    intros Hl Hn. apply (walk_settled (λ m i, rb_remove_loop cmp m k i t) (λ i, i) (length (nodes (rb_al t))) (Fail OutOfFuel t)); [done| |done]. clear i n Hn. intros i.
    destruct (na_get (rb_al t) i) as [nd|e] eqn:E; [|left; intros ? Hk ? ?; cbn in Hk; subst; cbn; unfold mbind, M_bind, gets, rb_get_node; by rw].
    assert (rb_get_node t i = Val (val nd)) as En by (unfold rb_get_node; by rw). destruct (cmp k (val nd).1) eqn:Ec.
    - left; intros ? Hk ? ?; cbn in Hk; subst; cbn; unfold mbind, M_bind, gets. by rw.
    - destruct (rb_get_left t i) as [c|e] eqn:E2; [|left; intros ? Hk ? ?; cbn in Hk; subst; cbn; unfold mbind, M_bind, gets; by rw].
      destruct (decide (c = SENTINEL)) as [->|Hc]; [left; intros ? Hk ? ?; cbn in Hk; subst; cbn; unfold mbind, M_bind, gets; by rw|].
      rounds c. by eapply get_range.
    - destruct (rb_get_right t i) as [c|e] eqn:E2; [|left; intros ? Hk ? ?; cbn in Hk; subst; cbn; unfold mbind, M_bind, gets; by rw].
      destruct (decide (c = SENTINEL)) as [->|Hc]; [left; intros ? Hk ? ?; cbn in Hk; subst; cbn; unfold mbind, M_bind, gets; by rw|].
      rounds c. by eapply get_range.
  Qed.
End rb.
Ltac over := left; intros ? Hk ? ?; cbn in Hk; subst; cbn; unfold mbind, M_bind, gets; rw; cbn; rw; cbn; rw; rewrite ?decide_True by done; done.
Section av.
  Context `{Profile} {K V : Type} (pcmp : K → K → option comparison).
  Implicit Types t : avlt K V.
  Notation len t := (length (nodes (av_al t))).
  Lemma av_get_range t i x : (lengthN (nodes (av_al t)) < W32)%N → av_get_node t i = Val x → (1 ≤ i ≤ N.of_nat (len t))%N.
  Proof. intros Hl. unfold av_get_node. destruct (na_get (av_al t) i) eqn:E; [|done]. intros _. by eapply get_range. Qed.
  Lemma av_get_settles t k i n : (lengthN (nodes (av_al t)) < W32)%N → len t < n → settled (λ m, av_get_loop pcmp m t k i) n.
  Proof.
    intros Hl Hn. apply (walk_settled (λ m i, av_get_loop pcmp m t k i) (λ i, i) (len t) (Err OutOfFuel)); [done| |done]. clear i n Hn. intros i.
    destruct (av_get_node t i) as [nd|e] eqn:E; [|over]; destruct (av_cmp pcmp k nd.1) eqn:Ec; [over|..].
    - destruct (av_get_field t i Left) as [c|e] eqn:E2; [|over]. destruct (decide (c = SENTINEL)) as [->|Hc]; [over|]. rounds c. by eapply av_get_range.
    - destruct (av_get_field t i Right) as [c|e] eqn:E2; [|over]. destruct (decide (c = SENTINEL)) as [->|Hc]; [over|]. rounds c. by eapply av_get_range.
  Qed.
  Lemma av_get_mut_settles t k g i n : (lengthN (nodes (av_al t)) < W32)%N → len t < n → settled (λ m, av_get_mut_loop pcmp m k g i t) n.
  Proof.
    intros Hl Hn. apply (walk_settled (λ m i, av_get_mut_loop pcmp m k g i t) (λ i, i) (len t) (Fail OutOfFuel t)); [done| |done]. clear i n Hn. intros i.
    destruct (av_get_node t i) as [nd|e] eqn:E; [|over]; destruct (av_cmp pcmp k nd.1) eqn:Ec; [over|..].
    - destruct (av_get_field t i Left) as [c|e] eqn:E2; [|over]. destruct (decide (c = SENTINEL)) as [->|Hc]; [over|]. rounds c. by eapply av_get_range.
    - destruct (av_get_field t i Right) as [c|e] eqn:E2; [|over]. destruct (decide (c = SENTINEL)) as [->|Hc]; [over|]. rounds c. by eapply av_get_range.
  Qed.
  Lemma av_leftmost_settles t i p inner n : (lengthN (nodes (av_al t)) < W32)%N → len t < n → settled (λ m, av_leftmost_walk m t i p inner) n.
  Proof.
    intros Hl Hn. apply (walk_settled (λ m s, av_leftmost_walk m t s.1.1 s.1.2 s.2) (λ s : N * N * list ancestor, s.1.1) (len t) (Err OutOfFuel) ltac:(done)) with (s := (i, p, inner)); [|done].
    clear i p inner n Hn. intros i.
    destruct (av_get_field t i Left) as [c|e] eqn:E; [|left; intros [[? ?] ?] Hk ? ?; cbn in Hk; subst; cbn; by rw].
    destruct (decide (c = SENTINEL)) as [->|Hc]; [left; intros [[? ?] ?] Hk ? ?; cbn in Hk; subst; cbn; by rw|].
    right. exists c. split; [left; by eapply reg_range|]. intros [[? p] inner] Hk; cbn in Hk; subst. exists (c, i, (Some (i, Left), c) :: inner). split; [done|].
    intros m. cbn. rw. cbn. by rewrite decide_False.
  Qed.
  Lemma av_remove_settles t k i rp n : (lengthN (nodes (av_al t)) < W32)%N → len t < n → settled (λ m, av_remove_walk pcmp m t k rp i) n.
  Proof.
    intros Hl Hn. apply (walk_settled (λ m s, av_remove_walk pcmp m t k s.1 s.2) (λ s : list ancestor * N, s.2) (len t) (Err OutOfFuel) ltac:(done)) with (s := (rp, i)); [|done].
    clear i rp n Hn. intros i. destruct (decide (i = SENTINEL)) as [->|Hi]; [left; intros [? ?] Hk ? ?; cbn in Hk; subst; done|].
    destruct (av_get_node t i) as [nd|e] eqn:E; [|left; intros [? ?] Hk ? ?; cbn in Hk; subst; cbn; rewrite !decide_False by done; by rw].
    destruct (av_cmp pcmp k nd.1) eqn:Ec.
    - left; intros [? ?] Hk ? ?; cbn in Hk; subst; cbn; rewrite !decide_False by done; rw; cbn; by rw.
    - destruct (av_get_field t i Left) as [c|e] eqn:E2; [|left; intros [? ?] Hk ? ?; cbn in Hk; subst; cbn; rewrite !decide_False by done; rw; cbn; by rw].
      right. exists c. split; [left; by eapply av_get_range|]. intros [rp ?] Hk; cbn in Hk; subst. exists ((Some (i, Left), c) :: rp, c). split; [done|].
      intros m. cbn. rewrite decide_False by done. rw. cbn. by rw.
    - destruct (av_get_field t i Right) as [c|e] eqn:E2; [|left; intros [? ?] Hk ? ?; cbn in Hk; subst; cbn; rewrite !decide_False by done; rw; cbn; by rw].
      right. exists c. split; [left; by eapply av_get_range|]. intros [rp ?] Hk; cbn in Hk; subst. exists ((Some (i, Right), c) :: rp, c). split; [done|].
      intros m. cbn. rewrite decide_False by done. rw. cbn. by rw.
  Qed.
  Lemma av_insert_settles t k v i rp n : (lengthN (nodes (av_al t)) < W32)%N → len t < n → settled (λ m, av_insert_loop pcmp m k v rp i t) n.
  Proof.
    intros Hl Hn. apply (walk_settled (λ m s, av_insert_loop pcmp m k v s.1 s.2 t) (λ s : list ancestor * N, s.2) (len t) (Fail OutOfFuel t) ltac:(done)) with (s := (rp, i)); [|done].
    clear i rp n Hn. intros i.
    destruct (av_get_node t i) as [nd|e] eqn:E; [|left; intros [? ?] Hk ? ?; cbn in Hk; subst; cbn; unfold mbind, M_bind, gets; by rw].
    destruct (av_cmp pcmp k nd.1) eqn:Ec.
    - left; intros [? ?] Hk ? ?; cbn in Hk; subst; cbn; unfold mbind, M_bind, gets; by rw.
    - destruct (av_get_field t i Left) as [c|e] eqn:E2; [|left; intros [? ?] Hk ? ?; cbn in Hk; subst; cbn; unfold mbind, M_bind, gets; by rw].
      destruct (decide (c = SENTINEL)) as [->|Hc]; [left; intros [? ?] Hk ? ?; cbn in Hk; subst; cbn; unfold mbind, M_bind, gets; by rw|].
      right. exists c. split; [left; by eapply av_get_range|]. intros [rp ?] Hk; cbn in Hk; subst. exists ((Some (i, Left), c) :: rp, c). split; [done|].
      intros m. cbn. unfold mbind, M_bind, gets. rw. by rewrite decide_False.
    - destruct (av_get_field t i Right) as [c|e] eqn:E2; [|left; intros [? ?] Hk ? ?; cbn in Hk; subst; cbn; unfold mbind, M_bind, gets; by rw].
      destruct (decide (c = SENTINEL)) as [->|Hc]; [left; intros [? ?] Hk ? ?; cbn in Hk; subst; cbn; unfold mbind, M_bind, gets; by rw|].
      right. exists c. split; [left; by eapply av_get_range|]. intros [rp ?] Hk; cbn in Hk; subst. exists ((Some (i, Right), c) :: rp, c). split; [done|].
      intros m. cbn. unfold mbind, M_bind, gets. rw. by rewrite decide_False.
  Qed.
End av.
Section ht.
  Context `{Profile} {K V : Type} (keq : K → K → bool).
  Implicit Types h : htable K V.
  Notation len h := (length (nodes (ht_al h))).
  Lemma ht_get_range h i x : (lengthN (nodes (ht_al h)) < W32)%N → ht_get_node h i = Val x → (1 ≤ i ≤ N.of_nat (len h))%N.
  Proof. intros Hl. unfold ht_get_node. destruct (na_get (ht_al h) i) eqn:E; [|done]. intros _. by eapply get_range. Qed.
  Ltac fin := left; intros ? Hk ? ?; cbn in Hk; subst; cbn; rewrite !decide_False by done; unfold mbind, M_bind, gets; rw; cbn; rw; cbn; by rw.
  Lemma ht_get_settles h k i n : (lengthN (nodes (ht_al h)) < W32)%N → len h < n → settled (λ m, ht_get_loop keq m h k i) n.
  Proof.
    intros Hl Hn. apply (walk_settled (λ m i, ht_get_loop keq m h k i) (λ i, i) (len h) (Err OutOfFuel)); [done| |done]. clear i n Hn. intros i.
    destruct (decide (i = SENTINEL)) as [->|Hi]; [left; intros ? Hk ? ?; cbn in Hk; by subst|].
    destruct (ht_get_node h i) as [nd|e] eqn:E; [|fin]. destruct (keq nd.1 k) eqn:Ek; [fin|].
    destruct (ht_get_next h i) as [c|e] eqn:E2; [|fin].
    right. exists c. split; [left; by eapply ht_get_range|]. intros ? Hk; cbn in Hk; subst. exists c. split; [done|].
    intros m. cbn. rewrite !decide_False by done. unfold mbind, M_bind, gets. rw. cbn. rw. cbn. by rw.
  Qed.
  Lemma ht_contains_settles h k i n : (lengthN (nodes (ht_al h)) < W32)%N → len h < n → settled (λ m, ht_contains_loop keq m h k i) n.
  Proof.
    intros Hl Hn. apply (walk_settled (λ m i, ht_contains_loop keq m h k i) (λ i, i) (len h) (Err OutOfFuel)); [done| |done]. clear i n Hn. intros i.
    destruct (decide (i = SENTINEL)) as [->|Hi]; [left; intros ? Hk ? ?; cbn in Hk; by subst|].
    destruct (ht_get_node h i) as [nd|e] eqn:E; [|fin]. destruct (keq nd.1 k) eqn:Ek; [fin|].
    destruct (ht_get_next h i) as [c|e] eqn:E2; [|fin].
    right. exists c. split; [left; by eapply ht_get_range|]. intros ? Hk; cbn in Hk; subst. exists c. split; [done|].
    intros m. cbn. rewrite !decide_False by done. unfold mbind, M_bind, gets. rw. cbn. rw. cbn. by rw.
  Qed.
  Lemma ht_get_addr_settles h k i n : (lengthN (nodes (ht_al h)) < W32)%N → len h < n → settled (λ m, ht_get_addr_loop keq m h k i) n.
  Proof.
    intros Hl Hn. apply (walk_settled (λ m i, ht_get_addr_loop keq m h k i) (λ i, i) (len h) (Err OutOfFuel)); [done| |done]. clear i n Hn. intros i.
    destruct (decide (i = SENTINEL)) as [->|Hi]; [left; intros ? Hk ? ?; cbn in Hk; by subst|].
    destruct (ht_get_node h i) as [nd|e] eqn:E; [|fin]. destruct (keq nd.1 k) eqn:Ek; [fin|].
    destruct (ht_get_next h i) as [c|e] eqn:E2; [|fin].
    right. exists c. split; [left; by eapply ht_get_range|]. intros ? Hk; cbn in Hk; subst. exists c. split; [done|].
    intros m. cbn. rewrite !decide_False by done. unfold mbind, M_bind, gets. rw. cbn. rw. cbn. by rw.
  Qed.
  Lemma ht_get_mut_settles h k (g : V → V) b hd i n : (lengthN (nodes (ht_al h)) < W32)%N → len h < n → settled (λ m, ht_get_mut_loop keq m k g b hd i h) n.
  Proof.
    intros Hl Hn. apply (walk_settled (λ m i, ht_get_mut_loop keq m k g b hd i h) (λ i, i) (len h) (Fail OutOfFuel h)); [done| |done]. clear i n Hn. intros i.
    destruct (decide (i = SENTINEL)) as [->|Hi]; [left; intros ? Hk ? ?; cbn in Hk; by subst|].
    destruct (ht_get_node h i) as [nd|e] eqn:E; [|fin]. destruct (keq nd.1 k) eqn:Ek; [fin|].
    destruct (ht_get_next h i) as [c|e] eqn:E2; [|fin].
    right. exists c. split; [left; by eapply ht_get_range|]. intros ? Hk; cbn in Hk; subst. exists c. split; [done|].
    intros m. cbn. rewrite !decide_False by done. unfold mbind, M_bind, gets. rw. cbn. rw. cbn. by rw.
  Qed.
  Lemma ht_insert_settles h k (v : V) b hd i n : (lengthN (nodes (ht_al h)) < W32)%N → len h < n → settled (λ m, ht_insert_loop keq m k v b hd i h) n.
  Proof.
    intros Hl Hn. apply (walk_settled (λ m i, ht_insert_loop keq m k v b hd i h) (λ i, i) (len h) (Fail OutOfFuel h)); [done| |done]. clear i n Hn. intros i.
    destruct (decide (i = SENTINEL)) as [->|Hi]; [left; intros ? Hk ? ?; cbn in Hk; by subst|].
    destruct (ht_get_node h i) as [nd|e] eqn:E; [|fin]. destruct (keq nd.1 k) eqn:Ek; [fin|].
    destruct (ht_get_next h i) as [c|e] eqn:E2; [|fin].
    right. exists c. split; [left; by eapply ht_get_range|]. intros ? Hk; cbn in Hk; subst. exists c. split; [done|].
    intros m. cbn. rewrite !decide_False by done. unfold mbind, M_bind, gets. rw. cbn. rw. cbn. by rw.
  Qed.
  Lemma ht_remove_settles h k b hd i n : (lengthN (nodes (ht_al h)) < W32)%N → len h < n → settled (λ m, ht_remove_loop keq m k b hd i h) n.
  Proof.
    intros Hl Hn. apply (walk_settled (λ m i, ht_remove_loop keq m k b hd i h) (λ i, i) (len h) (Fail OutOfFuel h)); [done| |done]. clear i n Hn. intros i.
    destruct (decide (i = SENTINEL)) as [->|Hi]; [left; intros ? Hk ? ?; cbn in Hk; by subst|].
    destruct (ht_get_node h i) as [nd|e] eqn:E; [|fin]. destruct (keq nd.1 k) eqn:Ek; [fin|].
    destruct (ht_get_next h i) as [c|e] eqn:E2; [|fin].
    right. exists c. split; [left; by eapply ht_get_range|]. intros ? Hk; cbn in Hk; subst. exists c. split; [done|].
    intros m. cbn. rewrite !decide_False by done. unfold mbind, M_bind, gets. rw. cbn. rw. cbn. by rw.
  Qed.
  Lemma ht_skip_over h it n : (length (buckets h) < n) → (hti_bucket it < lengthN (buckets h))%N → ht_skip n h it ≠ Err OutOfFuel.
  Proof.
    unfold lengthN. intros Hn Hb. assert (length (buckets h) - N.to_nat (hti_bucket it) < n) as Hn' by lia. clear Hn. revert it Hn' Hb. induction n as [|n IH]; intros it Hn' Hb; [lia|].
    cbn. destruct (decide (hti_node it = SENTINEL)) as [Hs|]; [|done]. destruct (decide (hti_bucket it + 1 = lengthN (buckets h))%N) as [|Hne]; [done|].
    destruct (ht_bucket h (hti_bucket it + 1)) as [x|e] eqn:E; cbn; [unfold lengthN in *; apply IH; cbn; lia|].
    unfold ht_bucket in E. destruct (lookupN (buckets h) _); congruence.
  Qed.
  Lemma ht_skip_mono h m : ∀ it m', m ≤ m' → ht_skip m h it = Err OutOfFuel ∨ ht_skip m' h it = ht_skip m h it.
  Proof.
    induction m as [|m IH]; intros it m' Hm; [by left|]. destruct m' as [|m']; [lia|]. cbn. destruct (decide (hti_node it = SENTINEL)) as [Hs|]; [|by right].
    destruct (decide (hti_bucket it + 1 = lengthN (buckets h))%N) as [|Hne]; [by right|]. destruct (ht_bucket h (hti_bucket it + 1)) as [x|e]; [|by right]. cbn. apply IH. lia.
  Qed.
  Lemma ht_skip_settles h it n : (length (buckets h) < n) → (hti_bucket it < lengthN (buckets h))%N → settled (λ m, ht_skip m h it) n.
  Proof.
    intros Hn Hb m. cbn beta. destruct (decide (n ≤ m)) as [Hm|Hm].
    - left. destruct (ht_skip_mono h n it m Hm) as [He|He]; [|done]. by apply ht_skip_over in He.
    - destruct (ht_skip_mono h m it n) as [He|He]; [lia|right; split; [lia|done]|by left].
  Qed.
End ht.
Section cb.
  Context `{Profile} {V : Type}.
  Implicit Types t : critbit V.
  Notation len t := (length (nodes (cb_nodes t))).
  Lemma cb_get_range t i x : (lengthN (nodes (cb_nodes t)) < W32)%N → cb_get_node t i = Val x → (1 ≤ i ≤ N.of_nat (len t))%N.
  Proof. intros Hl. unfold cb_get_node. destruct (na_get (cb_nodes t) i) eqn:E; [|done]. intros _. by eapply get_range. Qed.
  Ltac fin := left; intros ? Hk ? ?; cbn in Hk; subst; cbn; unfold mbind, M_bind, gets; rw; cbn; rw; cbn; by rw.
  Lemma cb_walk_settles t k i n : (lengthN (nodes (cb_nodes t)) < W32)%N → len t < n → settled (λ m, cb_walk m t k i) n.
  Proof.
    intros Hl Hn. apply (walk_settled (λ m i, cb_walk m t k i) (λ i, i) (len t) (Err OutOfFuel)); [done| |done]. clear i n Hn. intros i.
    destruct (cb_get_node t i) as [nd|e] eqn:E; [|fin]. destruct (cb_is_inner_node t i) as [[]|e] eqn:Ei; [|fin|fin].
    destruct (decide (cn_prefix_len nd ≤ leading_zeros128 (N.lxor (cn_key nd) k))%N) as [Hp|Hp]; [|left; intros ? Hk ? ?; cbn in Hk; subst; cbn; unfold mbind, M_bind, gets; rw; cbn; rw; cbn; by rewrite !decide_False].
    destruct (cb_get_child t (cn_prefix_len nd) i k) as [[c x]|e] eqn:E2; [|left; intros ? Hk ? ?; cbn in Hk; subst; cbn; unfold mbind, M_bind, gets; rw; cbn; rw; cbn; rewrite !decide_True by done; by rw].
    right. exists c. split; [left; by eapply cb_get_range|]. intros ? Hk; cbn in Hk; subst. exists c. split; [done|].
    intros m. cbn. unfold mbind, M_bind, gets. rw. cbn. rw. cbn. rewrite !decide_True by done. by rw.
  Qed.
  Lemma cb_get_settles t k i n : (lengthN (nodes (cb_nodes t)) < W32)%N → len t < n → settled (λ m, cb_get_loop m t k i) n.
  Proof.
    intros Hl Hn. apply (walk_settled (λ m i, cb_get_loop m t k i) (λ i, i) (len t) (Err OutOfFuel)); [done| |done]. clear i n Hn. intros i.
    destruct (cb_get_node t i) as [nd|e] eqn:E; [|fin]. destruct (cb_is_inner_node t i) as [[]|e] eqn:Ei; [|fin|fin].
    destruct (decide (cn_prefix_len nd ≤ leading_zeros128 (N.lxor (cn_key nd) k))%N) as [Hp|Hp]; [|left; intros ? Hk ? ?; cbn in Hk; subst; cbn; unfold mbind, M_bind, gets; rw; cbn; rw; cbn; by rewrite !decide_False].
    destruct (cb_get_child t (cn_prefix_len nd) i k) as [[c x]|e] eqn:E2; [|left; intros ? Hk ? ?; cbn in Hk; subst; cbn; unfold mbind, M_bind, gets; rw; cbn; rw; cbn; rewrite !decide_True by done; by rw].
    right. exists c. split; [left; by eapply cb_get_range|]. intros ? Hk; cbn in Hk; subst. exists c. split; [done|].
    intros m. cbn. unfold mbind, M_bind, gets. rw. cbn. rw. cbn. rewrite !decide_True by done. by rw.
  Qed.
  Lemma cb_get_mut_settles t k (g : V → V) i n : (lengthN (nodes (cb_nodes t)) < W32)%N → len t < n → settled (λ m, cb_get_mut_loop m k g i t) n.
  Proof.
    intros Hl Hn. apply (walk_settled (λ m i, cb_get_mut_loop m k g i t) (λ i, i) (len t) (Fail OutOfFuel t)); [done| |done]. clear i n Hn. intros i.
    destruct (cb_get_node t i) as [nd|e] eqn:E; [|fin]. destruct (cb_is_inner_node t i) as [[]|e] eqn:Ei; [|fin|fin].
    destruct (decide (cn_prefix_len nd ≤ leading_zeros128 (N.lxor (cn_key nd) k))%N) as [Hp|Hp]; [|left; intros ? Hk ? ?; cbn in Hk; subst; cbn; unfold mbind, M_bind, gets; rw; cbn; rw; cbn; by rewrite !decide_False].
    destruct (cb_get_child t (cn_prefix_len nd) i k) as [[c x]|e] eqn:E2; [|left; intros ? Hk ? ?; cbn in Hk; subst; cbn; unfold mbind, M_bind, gets; rw; cbn; rw; cbn; rewrite !decide_True by done; by rw].
    right. exists c. split; [left; by eapply cb_get_range|]. intros ? Hk; cbn in Hk; subst. exists c. split; [done|].
    intros m. cbn. unfold mbind, M_bind, gets. rw. cbn. rw. cbn. rewrite !decide_True by done. by rw.
  Qed.
  Lemma cb_remove_settles t k p i b n : (lengthN (nodes (cb_nodes t)) < W32)%N → len t < n → settled (λ m, cb_remove_walk m t k p i b) n.
  Proof.
    intros Hl Hn. apply (walk_settled (λ m s, cb_remove_walk m t k s.1.1 s.1.2 s.2) (λ s : N * N * bool, s.1.2) (len t) (Err OutOfFuel) ltac:(done)) with (s := (p, i, b)); [|done].
    clear p i b n Hn. intros i.
    destruct (cb_get_node t i) as [nd|e] eqn:E; [|left; intros [[? ?] ?] Hk ? ?; cbn in Hk; subst; cbn; by rw].
    destruct (cb_is_inner_node t i) as [[]|e] eqn:Ei; [|left; intros [[? ?] ?] Hk ? ?; cbn in Hk; subst; cbn; rw; cbn; rw; done..].
    destruct (cb_get_child t (cn_prefix_len nd) i k) as [[c x]|e] eqn:E2; [|left; intros [[? ?] ?] Hk ? ?; cbn in Hk; subst; cbn; rw; cbn; rw; cbn; by rw].
    right. exists c. split; [left; by eapply cb_get_range|]. intros [[? ?] ?] Hk; cbn in Hk; subst. exists (i, c, x). split; [done|].
    intros m. cbn. rw. cbn. rw. cbn. by rw.
  Qed.
  Lemma cb_insert_settles t k v i n : (lengthN (nodes (cb_nodes t)) < W32)%N → len t < n → settled (λ m, cb_insert_loop m k v i t) n.
  Proof.
    intros Hl Hn. apply (walk_settled (λ m i, cb_insert_loop m k v i t) (λ i, i) (len t) (Fail OutOfFuel t)); [done| |done]. clear i n Hn. intros i.
    destruct (cb_get_node t i) as [nd|e] eqn:E; [|fin].
    destruct (if decide (cn_key nd = k) then inner ← cb_is_inner_node t i; Val (negb inner) else Val false) as [same|e] eqn:Es.
    2:{ destruct (decide (cn_key nd = k)) as [Hk'|Hk'] eqn:Ed; [|done]. destruct (cb_is_inner_node t i) as [inner|e'] eqn:Ei; [done|].
        left; intros ? Hk ? ?; cbn in Hk; subst i; cbn; unfold mbind, M_bind, gets. rewrite E, Ed. by rw. }
    assert (∀ m, cb_insert_loop (S m) k v i t = (if same then leaf_index ← gets (λ t, cb_get_leaf_index t i); cb_replace_leaf leaf_index v;; mret (Some i)
      else if decide (cn_prefix_len nd ≤ leading_zeros128 (N.lxor (cn_key nd) k))%N then c ← gets (λ t, cb_get_child t (cn_prefix_len nd) i k); cb_insert_loop m k v c.1
      else mask ← lift (crit_bit_mask (leading_zeros128 (N.lxor (cn_key nd) k))); nl ← cb_add_leaf k v; moved_node_index ← cb_duplicate i;
        (if bool_decide (N.land mask k ≠ 0%N) then cb_replace_node i (CNode k (leading_zeros128 (N.lxor (cn_key nd) k))) moved_node_index nl.1
         else cb_replace_node i (CNode k (leading_zeros128 (N.lxor (cn_key nd) k))) nl.1 moved_node_index);; mret (Some nl.1)) t) as Hu.
    { intros m. cbn [cb_insert_loop]. unfold mbind at 1, M_bind at 1, gets at 1. rewrite E. unfold mbind at 1, M_bind at 1.
      destruct (decide (cn_key nd = k)) as [Hk'|Hk'] eqn:Ed; [|by injection Es as <-].
      destruct (cb_is_inner_node t i) as [inner|e'] eqn:Ei; [|done]. injection Es as <-. unfold mbind at 1, M_bind at 1, gets at 1. rewrite Ei. done. }
    destruct same; [left; intros ? Hk ? ?; cbn in Hk; subst; by rewrite !Hu|].
    destruct (decide (cn_prefix_len nd ≤ leading_zeros128 (N.lxor (cn_key nd) k))%N) as [Hp|Hp]; [|left; intros ? Hk ? ?; cbn in Hk; subst; by rewrite !Hu].
    destruct (cb_get_child t (cn_prefix_len nd) i k) as [[c x]|e] eqn:E2; [|left; intros ? Hk ? ?; cbn in Hk; subst; rewrite !Hu; unfold mbind, M_bind, gets; by rw].
    right. exists c. split; [left; by eapply cb_get_range|]. intros ? Hk; cbn in Hk; subst. exists c. split; [done|]. intros m. rewrite Hu. unfold mbind, M_bind, gets. by rw.
  Qed.
  (** An iterator that has reached SENTINEL takes it for an inner node with children SENTINEL, for ever *)
  Lemma ci_inner_range t i : (lengthN (nodes (cb_nodes t)) < W32)%N → cb_is_inner_node t i = Val true → (1 ≤ i ≤ N.of_nat (len t))%N ∨ i = 0%N.
  Proof.
    intros Hl. unfold cb_is_inner_node, na_get_register. destruct (decide (i = SENTINEL)) as [->|Hi]; [by right|].
    destruct (na_get (cb_nodes t) i) eqn:E; [|done]. intros _. left. by eapply get_range.
  Qed.
  Lemma ci_fwd_settles t it n : (lengthN (nodes (cb_nodes t)) < W32)%N → len t < n → settled (λ m, ci_fwd m t it) n.
  Proof.
    intros Hl Hn. set (out := (N.of_nat (len t) + 1)%N).
    apply (walk_settled (λ m it, ci_fwd m t it) (λ it, if ci_terminated it then out else match ci_fwd_stack it with [] => out | i :: _ => i end) (len t) (Err OutOfFuel)); [done| |done].
    clear it n Hn. intros i.
    assert (cb_is_inner_node t i = Val true → i ≠ out) as Hout.
    { intros Hi ->. destruct (ci_inner_range t out Hl Hi); unfold out in *; lia. }
    assert (∀ r, cb_is_inner_node t i = r → (match r with Val true => False | _ => True end) →
      over (λ m it, ci_fwd m t it) (λ it, if ci_terminated it then out else match ci_fwd_stack it with [] => out | i :: _ => i end) i) as Hover.
    { intros r Hr Hx [fs fn rs rn []] Hk m m'; [done|]. destruct fs as [|j fs]; [done|]. cbn in Hk. subst j. cbn. rewrite Hr. destruct r as [[]|e]; done. }
    destruct (cb_is_inner_node t i) as [[]|e] eqn:Ei; [|left; by apply (Hover _ eq_refl)..].
    specialize (Hout eq_refl).
    destruct (cb_get_right t i) as [r|e] eqn:Er.
    2:{ left. intros [fs fn rs rn []] Hk m m'; [done|]. destruct fs as [|j fs]; [done|]. cbn in Hk. subst j. cbn. rw. cbn. by rw. }
    destruct (cb_get_left t i) as [l|e] eqn:El.
    2:{ left. intros [fs fn rs rn []] Hk m m'; [done|]. destruct fs as [|j fs]; [done|]. cbn in Hk. subst j. cbn. rw. cbn. rw. cbn. by rw. }
    assert (nxt (λ m it, ci_fwd m t it) (λ it, if ci_terminated it then out else match ci_fwd_stack it with [] => out | i :: _ => i end) i l) as Hnx.
    { intros [fs fn rs rn []] Hk; [by cbn in Hk; subst|]. destruct fs as [|j fs]; [by cbn in Hk; subst|]. cbn in Hk. subst j.
      exists (CIter (l :: r :: fs) fn rs rn false). split; [done|]. intros m. cbn. rw. cbn. rw. cbn. by rw. }
    right. exists l. split; [|done]. destruct (ci_inner_range t i Hl Ei) as [?|Hi0]; [by left|right]. subst i. assert (l = 0%N) as ->; [|done]. by injection El as <-.
  Qed.
  Lemma ci_rev_settles t it n : (lengthN (nodes (cb_nodes t)) < W32)%N → len t < n → settled (λ m, ci_rev m t it) n.
  Proof.
    intros Hl Hn. set (out := (N.of_nat (len t) + 1)%N).
    apply (walk_settled (λ m it, ci_rev m t it) (λ it, if ci_terminated it then out else match ci_rev_stack it with [] => out | i :: _ => i end) (len t) (Err OutOfFuel)); [done| |done].
    clear it n Hn. intros i.
    assert (cb_is_inner_node t i = Val true → i ≠ out) as Hout.
    { intros Hi ->. destruct (ci_inner_range t out Hl Hi); unfold out in *; lia. }
    assert (∀ r, cb_is_inner_node t i = r → (match r with Val true => False | _ => True end) →
      over (λ m it, ci_rev m t it) (λ it, if ci_terminated it then out else match ci_rev_stack it with [] => out | i :: _ => i end) i) as Hover.
    { intros r Hr Hx [fs fn rs rn []] Hk m m'; [done|]. destruct rs as [|j rs]; [done|]. cbn in Hk. subst j. cbn. rewrite Hr. destruct r as [[]|e]; done. }
    destruct (cb_is_inner_node t i) as [[]|e] eqn:Ei; [|left; by apply (Hover _ eq_refl)..].
    specialize (Hout eq_refl).
    destruct (cb_get_left t i) as [l|e] eqn:El.
    2:{ left. intros [fs fn rs rn []] Hk m m'; [done|]. destruct rs as [|j rs]; [done|]. cbn in Hk. subst j. cbn. rw. cbn. by rw. }
    destruct (cb_get_right t i) as [r|e] eqn:Er.
    2:{ left. intros [fs fn rs rn []] Hk m m'; [done|]. destruct rs as [|j rs]; [done|]. cbn in Hk. subst j. cbn. rw. cbn. rw. cbn. by rw. }
    assert (nxt (λ m it, ci_rev m t it) (λ it, if ci_terminated it then out else match ci_rev_stack it with [] => out | i :: _ => i end) i r) as Hnx.
    { intros [fs fn rs rn []] Hk; [by cbn in Hk; subst|]. destruct rs as [|j rs]; [by cbn in Hk; subst|]. cbn in Hk. subst j.
      exists (CIter fs fn (r :: l :: rs) rn false). split; [done|]. intros m. cbn. rw. cbn. rw. cbn. by rw. }
    right. exists r. split; [|done]. destruct (ci_inner_range t i Hl Ei) as [?|Hi0]; [by left|right]. subst i. assert (r = 0%N) as ->; [|done]. by injection Er as <-.
  Qed.
End cb.

(** The depth-first search of [is_valid_red_black_tree] takes every way down the tree *)
Section ladder.
  Context `{Profile} (n : nat) (Hn : (N.of_nat n < W32)%N).
  Notation t := (ladder n).
  Lemma ladder_at i : 1 ≤ i ≤ n → na_get (rb_al t) (N.of_nat i) = Val (let next := if decide (i < n) then (N.of_nat i + 1)%N else 0%N in Node [next; next; 0%N; 0%N] (0%N, 0%N)).
  Proof.
    intros Hi. unfold na_get, u32_sub, u_sub. rewrite decide_True by lia. cbn [mbind res_bind]. unfold lookupN. cbn [rb_al ladder nodes].
    rewrite decide_True by (rewrite fmap_length, seq_length; lia). rewrite list_lookup_fmap, lookup_seq_lt by lia. cbn [fmap option_fmap option_map].
    by replace (1 + N.to_nat (N.of_nat i - 1)) with i by lia.
  Qed.
  Lemma ladder_reg i r : 1 ≤ i ≤ n → (r < 2)%N → na_get_register (rb_al t) (N.of_nat i) r = Val (if decide (i < n)%nat then N.of_nat i + 1 else 0)%N.
  Proof.
    intros Hi Hr. unfold na_get_register. rewrite decide_False by (unfold SENTINEL; lia). rewrite ladder_at by done. cbn [mbind res_bind].
    assert (r = 0%N ∨ r = 1%N) as [-> | ->] by lia; done.
  Qed.
  Lemma ladder_color i : 1 ≤ i ≤ n → na_get_register (rb_al t) (N.of_nat i) COLOR = Val 0%N.
  Proof. intros Hi. unfold na_get_register. rewrite decide_False by (unfold SENTINEL; lia). by rewrite ladder_at by done. Qed.
  Lemma ladder_walk d : ∀ i c st counts, 1 ≤ i → i + d = n → (c + N.of_nat d + 1 < W32)%N →
    (∀ m, rb_valid_loop (2 ^ S d - 1 + m) t ((N.of_nat i, c) :: st) counts = rb_valid_loop m t st (replicate (2 ^ d) (c + N.of_nat d + 1)%N ++ counts)) ∧
    (∀ m, m ≤ 2 ^ S d - 1 → rb_valid_loop m t ((N.of_nat i, c) :: st) counts = Err OutOfFuel).
  Proof.
    induction d as [|d IH]; intros i c st counts Hi Hd Hc.
    - assert (∀ m, rb_valid_loop (S m) t ((N.of_nat i, c) :: st) counts = rb_valid_loop m t st ((c + 1)%N :: counts)) as H1.
      { intros m. cbn [rb_valid_loop]. unfold rb_is_black. rewrite ladder_color by lia. cbn [mbind res_bind].
        rewrite bool_decide_true by done. unfold u32_add, u_add. rewrite decide_True by lia. cbn [mbind res_bind].
        unfold rb_is_leaf, rb_get_left, rb_get_right. rewrite !ladder_reg by (unfold Left, Right; lia). cbn [mbind res_bind].
        by rewrite !decide_False by lia. }
      split; [intros m; cbn -[rb_valid_loop]; rewrite H1; do 2 f_equal; by rewrite N.add_0_r|].
      intros [|[|m]] Hm; [done|by rewrite H1|cbn in Hm; lia].
    - assert (∀ m, rb_valid_loop (S m) t ((N.of_nat i, c) :: st) counts = rb_valid_loop m t ((N.of_nat (S i), c + 1)%N :: (N.of_nat (S i), c + 1)%N :: st) counts) as H1.
      { intros m. cbn [rb_valid_loop]. unfold rb_is_black. rewrite ladder_color by lia. cbn [mbind res_bind].
        rewrite bool_decide_true by done. unfold u32_add, u_add. rewrite decide_True by lia. cbn [mbind res_bind].
        unfold rb_is_leaf, rb_get_left, rb_get_right. rewrite !ladder_reg by (unfold Left, Right; lia). cbn [mbind res_bind].
        rewrite !(decide_True (P := i < n)) by lia. rewrite !(decide_False (P := (N.of_nat i + 1)%N = SENTINEL)) by (unfold SENTINEL; lia). cbn [mbind res_bind].
        unfold rb_is_red. rewrite ladder_color by lia. cbn [mbind res_bind]. rewrite bool_decide_false by done. cbn [mbind res_bind].
        by replace (N.of_nat i + 1)%N with (N.of_nat (S i)) by lia. }
      pose proof (λ st counts, IH (S i) (c + 1)%N st counts ltac:(lia) ltac:(lia) ltac:(lia)) as IH'. clear IH.
      assert (1 ≤ 2 ^ S d) by (pose proof (Nat.pow_nonzero 2 (S d)); lia).
      replace (2 ^ S (S d) - 1) with (S (2 ^ S d - 1 + (2 ^ S d - 1))) by (change (2 ^ S (S d)) with (2 ^ S d + (2 ^ S d + 0)); lia).
      split.
      + intros m. cbn [Nat.add]. rewrite H1. rewrite <- Nat.add_assoc, (proj1 (IH' _ _)), (proj1 (IH' _ _)).
        rewrite app_assoc, <- replicate_add. replace (2 ^ d + 2 ^ d) with (2 ^ S d) by (cbn; lia).
        by replace (c + 1 + N.of_nat d + 1)%N with (c + N.of_nat (S d) + 1)%N by lia.
      + intros [|m] Hm; [done|]. rewrite H1. destruct (decide (m ≤ 2 ^ S d - 1)) as [Hm'|Hm']; [by apply IH'|].
        replace m with (2 ^ S d - 1 + (m - (2 ^ S d - 1))) by lia. rewrite (proj1 (IH' _ _)). apply IH'. lia.
  Qed.
  Lemma ladder_valid m : 1 ≤ n → rb_valid_loop m t [(1, 0)%N] [] = if decide (m < 2 ^ n) then Err OutOfFuel else Val (Some (replicate (2 ^ (n - 1)) (N.of_nat n))).
  Proof using Hn.
    intros H1. destruct (ladder_walk (n - 1) 1 0%N [] [] ltac:(lia) ltac:(lia) ltac:(lia)) as [Ha Hb]. change (N.of_nat 1) with 1%N in *.
    replace (S (n - 1)) with n in * by lia. assert (1 ≤ 2 ^ n) by (pose proof (Nat.pow_nonzero 2 n); lia).
    destruct (decide (m < 2 ^ n)) as [Hm|Hm]; [apply Hb; lia|]. replace m with (2 ^ n - 1 + S (m - 2 ^ n)) by lia. rewrite Ha. cbn [rb_valid_loop].
    rewrite app_nil_r. by replace (0 + N.of_nat (n - 1) + 1)%N with (N.of_nat n) by lia.
  Qed.
End ladder.
