(** * Facts about ordered association lists *)
From Verif Require Export IterProof MapSpec.

Section omap.
  Context {K V : Type} (cmp : K → K → comparison) (HO : OrdLaws cmp).
  Implicit Types l : list (K * V).
  Implicit Types k : K.

  (** Everything in [l] is below / above [k] *)
  Definition below k l : Prop := Forall (λ x, cmp k x.1 = Gt) l.
  Definition above k l : Prop := Forall (λ x, cmp k x.1 = Lt) l.

  Lemma cmp_refl k : cmp k k = Eq.
  Proof using HO. pose proof (cmp_sym _ HO k k). by destruct (cmp k k). Qed.
  Lemma cmp_gt k x : cmp k x = Gt ↔ cmp x k = Lt.
  Proof using HO. rewrite (cmp_sym _ HO x k). destruct (cmp x k); split; done. Qed.
  Lemma cmp_lt k x : cmp k x = Lt ↔ cmp x k = Gt.
  Proof using HO. rewrite (cmp_sym _ HO x k). destruct (cmp x k); split; done. Qed.
  Lemma cmp_eq_sym k x : cmp k x = Eq ↔ cmp x k = Eq.
  Proof using HO. rewrite (cmp_sym _ HO x k). destruct (cmp x k); split; done. Qed.
  Lemma cmp_eq_r a b k : cmp a b = Eq → cmp k a = cmp k b.
  Proof using HO. intros He. rewrite (cmp_sym _ HO a k), (cmp_sym _ HO b k). f_equal. by apply (cmp_eq _ HO). Qed.

  Lemma ascending_app l1 l2 :
    ascending cmp (l1 ++ l2) ↔
    ascending cmp l1 ∧ ascending cmp l2 ∧ ∀ x y, x ∈ l1 → y ∈ l2 → cmp x.1 y.1 = Lt.
  Proof using Type.
    clear HO. unfold ascending. induction l1 as [|x l1 IH]; simpl.
    - split; [intros; split_and!; [constructor|done|set_solver]|naive_solver].
    - split.
      + intros [Hs Hf]%StronglySorted_inv. apply IH in Hs as (H1 & H2 & H3). apply Forall_app in Hf as [Hf1 Hf2].
        split_and!; [by constructor|done|]. intros a b [->|Ha]%elem_of_cons Hb; [|by apply H3].
        rewrite Forall_forall in Hf2. by apply Hf2.
      + intros ([Hs Hf]%StronglySorted_inv & H2 & H3). constructor.
        * apply IH. split_and!; [done|done|]. intros. apply H3; [by apply elem_of_list_further|done].
        * apply Forall_app. split; [done|]. apply Forall_forall. intros y Hy. apply H3; [apply elem_of_list_here|done].
  Qed.
  Lemma ascending_nil : ascending (V := V) cmp [].
  Proof using Type. constructor. Qed.
  Lemma ascending_mid l1 x l2 :
    ascending cmp (l1 ++ x :: l2) ↔ ascending cmp l1 ∧ ascending cmp l2 ∧ below x.1 l1 ∧ above x.1 l2 ∧
      ∀ a b, a ∈ l1 → b ∈ l2 → cmp a.1 b.1 = Lt.
  Proof using HO.
    rewrite ascending_app. split.
    - intros (H1 & [H2 H2']%StronglySorted_inv & H3). split_and!; [done|done| |done|].
      + apply Forall_forall. intros y Hy. apply cmp_gt. apply H3; [done|apply elem_of_list_here].
      + intros. apply H3; [done|by apply elem_of_list_further].
    - intros (H1 & H2 & H3 & H4 & H5). split_and!; [done|by constructor|].
      intros a b Ha [->|Hb]%elem_of_cons; [|by apply H5].
      rewrite <- cmp_gt. unfold below in H3. rewrite Forall_forall in H3. by apply H3.
  Qed.
  (** inserting a new key between *)
  Lemma ascending_insert k v l1 l2 :
    ascending cmp (l1 ++ l2) → below k l1 → above k l2 → ascending cmp (l1 ++ (k, v) :: l2).
  Proof using HO.
    intros (H1 & H2 & H3)%ascending_app Hb Ha. apply ascending_mid. done.
  Qed.
  Lemma ascending_delete l1 x l2 : ascending cmp (l1 ++ x :: l2) → ascending cmp (l1 ++ l2).
  Proof using HO. rewrite ascending_mid, ascending_app. naive_solver. Qed.
  Lemma ascending_keys l l' : l.*1 = l'.*1 → ascending cmp l → ascending cmp l'.
  Proof using Type.
    unfold ascending. intros Hk Hs. revert l' Hk. induction Hs as [|x l Hs IH Hf]; intros [|y l']; try done; [constructor|].
    simpl. intros [= Hxy Hk]. constructor; [by apply IH|].
    clear -Hf Hk Hxy. revert l' Hk. induction Hf as [|z l Hz Hf IH]; intros [|w l']; try done. simpl.
    intros [= Hzw Hk]. constructor; [|by apply IH]. by rewrite <- Hxy, <- Hzw.
  Qed.

  Lemma below_app k l1 l2 : below k (l1 ++ l2) ↔ below k l1 ∧ below k l2.
  Proof using Type. apply Forall_app. Qed.
  Lemma above_app k l1 l2 : above k (l1 ++ l2) ↔ above k l1 ∧ above k l2.
  Proof using Type. apply Forall_app. Qed.
  Lemma above_trans k x l : cmp k x = Lt → above x l → above k l.
  Proof using HO. intros Hk Hl. eapply Forall_impl; [exact Hl|]. simpl. intros y Hy. by eapply (cmp_trans _ HO). Qed.
  Lemma below_trans k x l : cmp k x = Gt → below x l → below k l.
  Proof using HO.
    intros Hk Hl. eapply Forall_impl; [exact Hl|]. simpl. intros y. rewrite !cmp_gt. intros Hy. apply cmp_gt in Hk.
    by eapply (cmp_trans _ HO).
  Qed.
  Lemma above_eq k x l : cmp k x = Eq → above x l → above k l.
  Proof using HO. intros Hk Hl. eapply Forall_impl; [exact Hl|]. simpl. intros y Hy. by rewrite (cmp_eq _ HO _ _ _ Hk). Qed.
  Lemma below_eq k x l : cmp k x = Eq → below x l → below k l.
  Proof using HO. intros Hk Hl. eapply Forall_impl; [exact Hl|]. simpl. intros y Hy. by rewrite (cmp_eq _ HO _ _ _ Hk). Qed.

  (** The operations of the specification at a known position *)
  Lemma om_find_below k l1 l2 : below k l1 → om_find cmp k (l1 ++ l2) = om_find cmp k l2.
  Proof using Type. induction 1 as [|x l Hx _ IH]; simpl; [done|]. by rewrite Hx. Qed.
  Lemma om_find_above k l : above k l → om_find cmp k l = None.
  Proof using Type. induction 1 as [|x l Hx _ IH]; simpl; [done|]. by rewrite Hx. Qed.
  Lemma om_insert_below k v l1 l2 : below k l1 → om_insert cmp k v (l1 ++ l2) = l1 ++ om_insert cmp k v l2.
  Proof using Type. induction 1 as [|x l Hx _ IH]; simpl; [done|]. by rewrite Hx, IH. Qed.
  Lemma om_remove_below k l1 l2 : below k l1 → om_remove cmp k (l1 ++ l2) = l1 ++ om_remove cmp k l2.
  Proof using Type. induction 1 as [|x l Hx _ IH]; simpl; [done|]. by rewrite Hx, IH. Qed.
  Lemma om_alter_below k f l1 l2 : below k l1 → om_alter cmp k f (l1 ++ l2) = l1 ++ om_alter cmp k f l2.
  Proof using Type. induction 1 as [|x l Hx _ IH]; simpl; [done|]. by rewrite Hx, IH. Qed.
  Lemma om_remove_above k l : above k l → om_remove cmp k l = l.
  Proof using Type. induction 1 as [|x l Hx _ IH]; simpl; [done|]. by rewrite Hx, IH. Qed.
  Lemma om_alter_above k f l : above k l → om_alter cmp k f l = l.
  Proof using Type. induction 1 as [|x l Hx _ IH]; simpl; [done|]. by rewrite Hx, IH. Qed.
  Lemma om_insert_above k v l : above k l → om_insert cmp k v l = (k, v) :: l.
  Proof using Type. destruct 1 as [|x l Hx _]; simpl; [done|]. by rewrite Hx. Qed.

  Lemma om_find_found k l1 x l2 : below k l1 → cmp k x.1 = Eq → om_find cmp k (l1 ++ x :: l2) = Some x.
  Proof using Type. intros Hb Hx. rewrite om_find_below by done. simpl. by rewrite Hx. Qed.
  Lemma om_find_absent k l1 l2 : below k l1 → above k l2 → om_find cmp k (l1 ++ l2) = None.
  Proof using Type. intros Hb Ha. rewrite om_find_below by done. by apply om_find_above. Qed.
  Lemma om_insert_found k v l1 x l2 :
    below k l1 → cmp k x.1 = Eq → om_insert cmp k v (l1 ++ x :: l2) = l1 ++ (x.1, v) :: l2.
  Proof using Type. intros Hb Hx. rewrite om_insert_below by done. simpl. by rewrite Hx. Qed.
  Lemma om_insert_absent k v l1 l2 :
    below k l1 → above k l2 → om_insert cmp k v (l1 ++ l2) = l1 ++ (k, v) :: l2.
  Proof using Type. intros Hb Ha. by rewrite om_insert_below, om_insert_above. Qed.
  Lemma om_remove_found k l1 x l2 :
    below k l1 → cmp k x.1 = Eq → om_remove cmp k (l1 ++ x :: l2) = l1 ++ l2.
  Proof using Type. intros Hb Hx. rewrite om_remove_below by done. simpl. by rewrite Hx. Qed.
  Lemma om_remove_absent k l1 l2 : below k l1 → above k l2 → om_remove cmp k (l1 ++ l2) = l1 ++ l2.
  Proof using Type. intros Hb Ha. by rewrite om_remove_below, om_remove_above. Qed.
  Lemma om_alter_found k f l1 x l2 :
    below k l1 → cmp k x.1 = Eq → om_alter cmp k f (l1 ++ x :: l2) = l1 ++ (x.1, f x.2) :: l2.
  Proof using Type. intros Hb Hx. rewrite om_alter_below by done. simpl. by rewrite Hx. Qed.
  Lemma om_alter_absent k f l1 l2 : below k l1 → above k l2 → om_alter cmp k f (l1 ++ l2) = l1 ++ l2.
  Proof using Type. intros Hb Ha. by rewrite om_alter_below, om_alter_above. Qed.
End omap.

(** An instance of the order laws, for the examples *)
Lemma N_laws : OrdLaws N.compare.
Proof.
  split.
  - intros a b. apply N.compare_antisym.
  - intros a b c. rewrite !N.compare_lt_iff. lia.
  - intros a b c ->%N.compare_eq_iff. done.
Qed.
