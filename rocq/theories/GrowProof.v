(** * The invariants survive growing *)
From Verif Require Import IterProof Spec.
From Verif Require Export AllocProof GrowSpec.
From Verif Require Import DequeProof HashProof.
From Verif Require RBOps AVLOps CritMain.

Section alloc.
  Context {T : Type} (ex : list (node T)).
  Lemma rd_grow a i n : rd a i = Some n → rd (al_grow ex a) i = Some n.
  Proof.
    unfold rd. destruct (decide (i = 0)); [done|]. rewrite !lookupN_Some. cbn [nodes al_grow set_nodes]. apply lookup_app_l_Some.
  Qed.
  Lemma rd_grow_new a i : MAX_SIZE a < i → i ≤ MAX_SIZE a + lengthN ex → ∃ n, rd (al_grow ex a) i = Some n ∧ n ∈ ex.
  Proof.
    unfold MAX_SIZE, lengthN. intros H1 H2. destruct (lookup_lt_is_Some_2 ex (N.to_nat (i - 1) - length (nodes a))) as [n Hn]; [lia|].
    exists n. split; [|by apply elem_of_list_lookup_2 in Hn]. unfold rd. rewrite decide_False by lia. rewrite lookupN_Some. cbn [nodes al_grow set_nodes].
    rewrite lookup_app_r by lia. done.
  Qed.
  Lemma fchain_grow a h fr : fchain a h fr → fchain (al_grow ex a) h fr.
  Proof.
    revert h. induction fr as [|[i tl] fr IH]; intros h; simpl; [done|].
    intros (-> & nx & v & Hr & Hc). split; [done|]. exists nx, v. split; [by apply rd_grow|by apply IH].
  Qed.
  Lemma AOK_grow nr cap a cs fr :
    Forall (blank nr) ex → cap + lengthN ex + 1 < W32 → AOK nr cap a cs fr → AOK nr (cap + lengthN ex) (al_grow ex a) cs fr.
  Proof.
    intros Hex Hw []. constructor; cbn [bump_index free_list_head size al_grow set_nodes]; try done.
    - unfold MAX_SIZE in *. cbn [nodes al_grow set_nodes]. by rewrite lengthN_app, ok_cap.
    - intros i n Hin. by apply rd_grow, ok_cells.
    - by apply fchain_grow.
    - intros i H1 H2. destruct (decide (i ≤ cap)) as [Hc|Hc].
      + destruct (ok_fresh i H1 Hc) as [v Hv]. exists v. by apply rd_grow.
      + destruct (rd_grow_new a i) as ([rg v] & Hr & Hin); [lia..|]. rewrite Forall_forall in Hex. specialize (Hex _ Hin).
        unfold blank in Hex. simpl in Hex. subst rg. by exists v.
    - lia.
  Qed.
  Lemma CH_grow nr cap a cs :
    Forall (blank nr) ex → cap + lengthN ex + 1 < W32 → CH nr cap a cs → CH nr (cap + lengthN ex) (al_grow ex a) cs.
  Proof.
    intros Hex Hw (fr & Ho & Hfr & [(l & Hl & Hv & _) _] & Hlv). exists fr. split_and!; [by apply AOK_grow|done| |done].
    split; [|done]. exists l. split_and!; [done| |done]. eapply Forall_impl; [exact Hv|]. intros [i v] Hr. cbn [fst snd] in *.
    destruct (rd a i) as [n|] eqn:E; [|done]. by rewrite (rd_grow _ _ _ E).
  Qed.
End alloc.

Section grow.
  Lemma DOK_grow {T} (ex : list (node T)) cap d es :
    Forall (blank 2) ex → cap + lengthN ex + 1 < W32 → DOK cap d es → DOK (cap + lengthN ex) (dq_grow ex d) es.
  Proof. intros Hex Hw []. constructor; [by apply CH_grow|done..]. Qed.
  Lemma HI_grow {K V} keq hash (ex : list (node (K * V))) cap h E :
    Forall (blank 4) ex → cap + lengthN ex + 1 < W32 → HI keq hash cap h E → HI keq hash (cap + lengthN ex) (ht_grow ex h) E.
  Proof. intros Hex Hw (bs & [] & Hp). exists bs. split; [|done]. constructor; [by apply CH_grow|done..]. Qed.
  Lemma rbok_grow {K V} cmp (ex : list (node (K * V))) cap t U :
    Forall (blank 4) ex → cap + lengthN ex + 1 < W32 → RBOps.rbok cmp cap t U → RBOps.rbok cmp (cap + lengthN ex) (rb_grow ex t) U.
  Proof. intros Hex Hw [[Hc Hr] Hb Ha]. split; [split; [by apply CH_grow|done]|done..]. Qed.
  Lemma avok_grow {K V} pcmp (ex : list (node (K * V))) cap t U :
    Forall (blank 4) ex → cap + lengthN ex + 1 < W32 → AVLOps.avok pcmp cap t U → AVLOps.avok pcmp (cap + lengthN ex) (av_grow ex t) U.
  Proof. intros Hex Hw [[Hc Hr] Hb Ha]. split; [split; [by apply CH_grow|done]|done..]. Qed.
  Lemma cbok_grow {V} (exn : list (node cnode)) (exl : list (node V)) nn cap t E :
    Forall (blank 4) exn → Forall (blank 4) exl → nn + lengthN exn + 1 < W32 → cap + lengthN exl + 1 < W32 →
    CritMain.cbok nn cap t E → CritMain.cbok (nn + lengthN exn) (cap + lengthN exl) (cb_grow exn exl t) E.
  Proof.
    intros Hn Hl Hwn Hwl [[Ht ->]|(U & HR & Hw & ->)].
    - left. split; [|done]. destruct Ht as [H1 (fr & H2 & H2') H3]. constructor; [done| |by apply CH_grow].
      exists fr. split; [by apply AOK_grow|done].
    - right. exists U. split; [|done]. destruct HR as [H1 (fr & H2 & H2') H3]. constructor; [done| |by apply CH_grow].
      exists fr. split; [by apply AOK_grow|done].
  Qed.
End grow.
