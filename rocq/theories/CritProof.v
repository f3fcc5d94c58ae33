(** * Ghost trees for Critbit, and the lookups *)
From Verif Require Export IterProof MapProof AllocProof CritBits.

Section tree.
  Context {V : Type}.

  (** [CL i k j v]: leaf node in slot [i] with key [k], its value [v] in slot [j] of the leaf pool; [CI i k p l r]: inner node in slot [i]
      with (representative) key [k] and prefix length [p] *)
  Inductive ctree := CL (i k j : N) (v : V) | CI (i k p : N) (l r : ctree).

  Definition croot (U : ctree) : N := match U with CL i _ _ _ | CI i _ _ _ _ => i end.
  (** node slot, leaf slot, key, value of the leaves from left to right *)
  Fixpoint ents (U : ctree) : list (N * (N * (N * V))) :=
    match U with CL i k j v => [(i, (j, (k, v)))] | CI _ _ _ l r => ents l ++ ents r end.
  Definition kvs (U : ctree) : list (N * V) := (ents U).*2.*2.
  Definition keys (U : ctree) : list N := (kvs U).*1.
  Fixpoint cells (U : ctree) (par : N) : list (N * node cnode) :=
    match U with
    | CL i k j _ => [(i, Node [0; 0; par; j] (CNode k 128))]
    | CI i k p l r => (i, Node [croot l; croot r; par; 0] (CNode k p)) :: cells l i ++ cells r i
    end.
  Definition lcell (e : N * (N * (N * V))) : N * node V := (e.2.1, Node [0; 0; 0; 0] e.2.2.2).
  Definition lcells (U : ctree) : list (N * node V) := map lcell (ents U).
  Fixpoint csize (U : ctree) : nat := match U with CL _ _ _ _ => 1 | CI _ _ _ l r => S (csize l + csize r) end.
  Fixpoint cheight (U : ctree) : nat := match U with CL _ _ _ _ => 1 | CI _ _ _ l r => S (Nat.max (cheight l) (cheight r)) end.

  (** every key below an inner node shares its first [p] bits; bit [p] decides the side *)
  Fixpoint wf (U : ctree) : Prop :=
    match U with
    | CL _ k _ _ => k < W128
    | CI _ k p l r =>
        p < 128 ∧ k < W128 ∧ Forall (λ x, pre p k x ∧ bit x p = false) (keys l) ∧
        Forall (λ x, pre p k x ∧ bit x p = true) (keys r) ∧ wf l ∧ wf r
    end.

  Lemma kvs_CI i k p l r : kvs (CI i k p l r) = kvs l ++ kvs r.
  Proof. unfold kvs. simpl. by rewrite !fmap_app. Qed.
  Lemma keys_CI i k p l r : keys (CI i k p l r) = keys l ++ keys r.
  Proof. unfold keys. by rewrite kvs_CI, fmap_app. Qed.
  Lemma lcells_CI i k p l r : lcells (CI i k p l r) = lcells l ++ lcells r.
  Proof. unfold lcells. simpl. by rewrite map_app. Qed.
  Lemma ents_ne U : ents U ≠ [].
  Proof. induction U as [|i k p l IHl r IHr]; simpl; [done|]. by destruct (ents l). Qed.
  Lemma kvs_ne U : kvs U ≠ [].
  Proof. unfold kvs. intros H%fmap_nil_inv%fmap_nil_inv. by eapply ents_ne. Qed.
  Lemma cells_length U par : length (cells U par) = csize U.
  Proof. revert par. induction U as [|i k p l IHl r IHr]; intros par; simpl; [done|]. by rewrite app_length, IHl, IHr. Qed.
  Lemma csize_ents U : (csize U + 1 = 2 * length (ents U))%nat.
  Proof. induction U as [|i k p l IHl r IHr]; simpl; [done|]. rewrite app_length. lia. Qed.
  Lemma cheight_csize U : (cheight U ≤ csize U)%nat.
  Proof. induction U; simpl; lia. Qed.
  Lemma keys_wf U : wf U → Forall (λ x, x < W128) (keys U).
  Proof.
    induction U as [|i k p l IHl r IHr]; simpl; [by repeat constructor|]. intros (_ & _ & _ & _ & ? & ?).
    rewrite keys_CI. apply Forall_app. auto.
  Qed.
  Lemma keys_kvs U kv : kv ∈ kvs U → kv.1 ∈ keys U.
  Proof. apply (elem_of_list_fmap_1 fst). Qed.

  Lemma wf_asc U : wf U → ascending N.compare (kvs U).
  Proof.
    induction U as [|i k p l IHl r IHr]; simpl.
    - intros _. repeat constructor.
    - intros (Hp & Hk & Hl & Hr & Hwl & Hwr). rewrite kvs_CI. apply ascending_app.
      split_and!; [by apply IHl|by apply IHr|]. intros x y Hx%keys_kvs Hy%keys_kvs. apply N.compare_lt_iff.
      pose proof (keys_wf _ Hwl) as H1. pose proof (keys_wf _ Hwr) as H2. rewrite Forall_forall in *.
      destruct (Hl _ Hx) as [Hl1 Hl2]. destruct (Hr _ Hy) as [Hr1 Hr2].
      eapply pre_lt; [exact Hp|by apply H1|by apply H2| |done|done]. eapply pre_trans; [by apply pre_sym|done].
  Qed.

  (** ** Contexts *)
  Inductive frame := Fr (b : bool) (i k p : N) (s : ctree).
  Implicit Types ctx : list frame.
  Fixpoint plug ctx (U : ctree) : ctree :=
    match ctx with
    | [] => U
    | Fr b i k p s :: ctx => plug ctx (if b then CI i k p s U else CI i k p U s)
    end.
  Definition cpar ctx : N := match ctx with [] => 0 | Fr _ i _ _ _ :: _ => i end.
  Fixpoint ccells ctx (c : N) : list (N * node cnode) :=
    match ctx with
    | [] => []
    | Fr b i k p s :: ctx =>
        (i, Node [if b then croot s else c; if b then c else croot s; cpar ctx; 0] (CNode k p)) :: cells s i ++ ccells ctx i
    end.
  Fixpoint entsL ctx : list (N * (N * (N * V))) :=
    match ctx with [] => [] | Fr b _ _ _ s :: ctx => entsL ctx ++ (if b then ents s else []) end.
  Fixpoint entsR ctx : list (N * (N * (N * V))) :=
    match ctx with [] => [] | Fr b _ _ _ s :: ctx => (if b then [] else ents s) ++ entsR ctx end.

  Lemma cells_plug ctx U : cells (plug ctx U) 0 ≡ₚ cells U (cpar ctx) ++ ccells ctx (croot U).
  Proof.
    revert U. induction ctx as [|[b i k p s] ctx IH]; intros U; simpl; [by rewrite app_nil_r|].
    rewrite IH. destruct b; simpl.
    - generalize (cells s i) (cells U i) (ccells ctx i). intros A B C.
      rewrite <- Permutation_middle. apply Permutation_cons; [done|]. rewrite !app_assoc. apply Permutation_app_tail, Permutation_app_comm.
    - generalize (cells s i) (cells U i) (ccells ctx i). intros A B C.
      rewrite <- Permutation_middle. apply Permutation_cons; [done|]. by rewrite !app_assoc.
  Qed.
  Lemma ents_plug ctx U : ents (plug ctx U) = entsL ctx ++ ents U ++ entsR ctx.
  Proof.
    revert U. induction ctx as [|[b i k p s] ctx IH]; intros U; simpl; [by rewrite app_nil_r|].
    rewrite IH. destruct b; simpl; rewrite ?app_nil_r, <- ?app_assoc; done.
  Qed.
  Lemma kvs_plug ctx U : kvs (plug ctx U) = (entsL ctx).*2.*2 ++ kvs U ++ (entsR ctx).*2.*2.
  Proof. unfold kvs. by rewrite ents_plug, !fmap_app. Qed.
  Lemma croot_plug ctx U U' : croot U = croot U' → croot (plug ctx U) = croot (plug ctx U').
  Proof. revert U U'. induction ctx as [|[b i k p s] ctx IH]; intros U U' Hr; simpl; [done|]. apply IH. by destruct b. Qed.
  Lemma plug_app c1 c2 U : plug (c1 ++ c2) U = plug c2 (plug c1 U).
  Proof. revert U. induction c1 as [|[b i k p s] c1 IH]; intros U; simpl; [done|]. apply IH. Qed.
  Lemma csize_plug ctx U : (csize U + length ctx ≤ csize (plug ctx U))%nat.
  Proof.
    revert U. induction ctx as [|[b i k p s] ctx IH]; intros U; simpl; [lia|].
    specialize (IH (if b then CI i k p s U else CI i k p U s)). destruct b; simpl in *; lia.
  Qed.

  (** keys that may live below the hole *)
  Definition adm ctx (x : N) : Prop := Forall (λ f, let '(Fr b i k p s) := f in pre p k x ∧ bit x p = b) ctx.
  Fixpoint wfc ctx : Prop :=
    match ctx with
    | [] => True
    | Fr b i k p s :: ctx =>
        p < 128 ∧ k < W128 ∧ Forall (λ x, pre p k x ∧ bit x p = negb b) (keys s) ∧ wf s ∧ Forall (adm ctx) (keys s) ∧ wfc ctx
    end.
  Lemma wf_plug ctx U : wf (plug ctx U) ↔ wf U ∧ wfc ctx ∧ Forall (adm ctx) (keys U).
  Proof.
    revert U. induction ctx as [|[b i k p s] ctx IH]; intros U; simpl.
    { split; [|naive_solver]. intros Hw. split_and!; [done|done|]. apply Forall_forall. intros. constructor. }
    rewrite IH.
    assert (∀ l, Forall (adm (Fr b i k p s :: ctx)) l ↔ Forall (λ x, pre p k x ∧ bit x p = b) l ∧ Forall (adm ctx) l) as ->.
    { intros l. rewrite !Forall_forall. unfold adm. setoid_rewrite Forall_cons. clear. firstorder. }
    destruct b; simpl; rewrite keys_CI, Forall_app; tauto.
  Qed.

  Lemma adm_lt ctx x e : wfc ctx → adm ctx x → x < W128 → e ∈ entsL ctx → e.2.2.1 < x.
  Proof.
    induction ctx as [|[b i k p s] ctx IH]; simpl; intros Hw Ha Hx He; [by apply elem_of_nil in He|].
    destruct Hw as (Hp & Hk & Hs & Hws & Has & Hw). apply Forall_cons in Ha as [[Hp1 Hb] Ha].
    apply elem_of_app in He as [He|He]; [by apply IH|]. destruct b; [|by apply elem_of_nil in He].
    assert (e.2.2.1 ∈ keys s) as Hin. { apply keys_kvs. unfold kvs. do 2 apply elem_of_list_fmap_1. done. }
    pose proof (keys_wf _ Hws) as Hlt. rewrite Forall_forall in Hs, Hlt. destruct (Hs _ Hin) as [H1 H2].
    eapply pre_lt; [exact Hp|by apply Hlt|done| |done|done]. eapply pre_trans; [by apply pre_sym|done].
  Qed.
  Lemma adm_gt ctx x e : wfc ctx → adm ctx x → x < W128 → e ∈ entsR ctx → x < e.2.2.1.
  Proof.
    induction ctx as [|[b i k p s] ctx IH]; simpl; intros Hw Ha Hx He; [by apply elem_of_nil in He|].
    destruct Hw as (Hp & Hk & Hs & Hws & Has & Hw). apply Forall_cons in Ha as [[Hp1 Hb] Ha].
    apply elem_of_app in He as [He|He]; [|by apply IH]. destruct b; [by apply elem_of_nil in He|].
    assert (e.2.2.1 ∈ keys s) as Hin. { apply keys_kvs. unfold kvs. do 2 apply elem_of_list_fmap_1. done. }
    pose proof (keys_wf _ Hws) as Hlt. rewrite Forall_forall in Hs, Hlt. destruct (Hs _ Hin) as [H1 H2].
    eapply pre_lt; [exact Hp|done|by apply Hlt| |done|done]. eapply pre_trans; [by apply pre_sym|done].
  Qed.
  Lemma adm_below ctx x : wfc ctx → adm ctx x → x < W128 → below N.compare x (entsL ctx).*2.*2.
  Proof.
    intros Hw Ha Hx. apply Forall_forall. intros kv (e1 & -> & (e & -> & He)%elem_of_list_fmap)%elem_of_list_fmap.
    apply N.compare_gt_iff. eapply adm_lt in He; eauto.
  Qed.
  Lemma adm_above ctx x : wfc ctx → adm ctx x → x < W128 → above N.compare x (entsR ctx).*2.*2.
  Proof.
    intros Hw Ha Hx. apply Forall_forall. intros kv (e1 & -> & (e & -> & He)%elem_of_list_fmap)%elem_of_list_fmap.
    apply N.compare_lt_iff. eapply adm_gt in He; eauto.
  Qed.

  (** Key of the root node: all keys of the tree agree with it on the prefix; for a leaf it is the key *)
  Definition rkey (U : ctree) : N := match U with CL _ k _ _ | CI _ k _ _ _ => k end.
  Definition rplen (U : ctree) : N := match U with CL _ _ _ _ => 128 | CI _ _ p _ _ => p end.
  Lemma keys_pre U x : wf U → x ∈ keys U → pre (rplen U) (rkey U) x.
  Proof.
    destruct U as [i k j v|i k p l r]; simpl.
    - intros _ ->%elem_of_list_singleton. apply pre_refl.
    - intros (_ & _ & Hl & Hr & _). rewrite keys_CI, Forall_forall in *. intros [Hx|Hx]%elem_of_app; [by apply Hl|by apply Hr].
  Qed.
  Lemma rkey_lt U : wf U → rkey U < W128.
  Proof. destruct U; simpl; [done|tauto]. Qed.
  Lemma rplen_le U : wf U → rplen U ≤ 128.
  Proof. destruct U; simpl; [lia|]. intros (? & _). lia. Qed.

  (** a key that leaves the tree at a prefix mismatch: it splits off at bit [s] *)
  Lemma split_bits U x :
    wf U → x < W128 → leading_zeros128 (N.lxor (rkey U) x) < rplen U →
    let s := leading_zeros128 (N.lxor (rkey U) x) in
    s < 128 ∧ Forall (λ y, pre s x y ∧ bit y s = negb (bit x s)) (keys U).
  Proof.
    intros Hw Hx Hlt s. fold s in Hlt. pose proof (rplen_le _ Hw). split; [lia|].
    assert (rkey U ≠ x) as Hne. { intros He. unfold s in Hlt. rewrite He, lz_same in Hlt. lia. }
    destruct (lz_diff _ _ (rkey_lt _ Hw) Hx Hne) as [H1 H2]. fold s in H1, H2.
    apply Forall_forall. intros y Hy%(keys_pre _ _ Hw). split.
    - eapply pre_trans; [by apply pre_sym|]. eapply pre_le; [|exact Hy]. lia.
    - rewrite <- Hy by lia. done.
  Qed.
  Lemma split_order U x s :
    wf U → x < W128 → s < 128 → Forall (λ y, pre s x y ∧ bit y s = negb (bit x s)) (keys U) →
    if bit x s then below N.compare x (kvs U) else above N.compare x (kvs U).
  Proof.
    intros Hw Hx Hs Hf. pose proof (keys_wf _ Hw) as Hlt. rewrite Forall_forall in Hf, Hlt.
    destruct (bit x s) eqn:E; apply Forall_forall; intros kv Hkv%keys_kvs; destruct (Hf _ Hkv) as [H1 H2].
    - apply N.compare_gt_iff. eapply pre_lt; [exact Hs|by apply Hlt|done|by apply pre_sym|done|done].
    - apply N.compare_lt_iff. eapply pre_lt; [exact Hs|done|by apply Hlt|done|done|done].
  Qed.
End tree.
Global Arguments ctree : clear implicits.
Global Arguments frame : clear implicits.
