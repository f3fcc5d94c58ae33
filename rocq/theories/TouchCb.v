(** * The slots written by the operations of the Critbit *)
From Verif Require Import TouchProof CritModel.

Section nodes.
  Context `{Profile} {V : Type}.
  Notation tpr := (tp (cb_nodes (V:=V))).
  Notation wrr := (wr (cb_nodes (V:=V))).
  Lemma cbn_gu (a : alloc cnode) (t : critbit V) : cb_nodes (set_cnodes a t) = a.
  Proof. done. Qed.
  Lemma wrn_on {A} L (m : M (alloc cnode) A) : wr id L m → wrr L (cb_onn m).
  Proof. apply wr_zoom, cbn_gu. Qed.
  Lemma wrn_onl {A} L (m : M (alloc V) A) : wrr L (cb_onl m).
  Proof. by apply wr_zoom_other. Qed.
  Ltac wp_ := idtac; first
    [ apply (wrn_onl []) | apply (wrn_onl (A:=()) [])
    | apply wrn_on; first [apply wr_get_mut | apply wr_set_register | apply wr_clear_register | apply wr_connect | apply wr_disconnect | apply wr_remove_node]
    | apply wr_modify; intros; reflexivity ].
  Ltac ad_ := idtac; lazymatch goal with |- tp _ _ _ (cb_onn (na_add_node _) ≫= _) => eapply (tr_add_bind cb_nodes set_cnodes); [apply cbn_gu|..] end.
  Ltac tl0 := idtac; fail.
  Ltac st tl := t_step wp_ tl ad_.
  Lemma tpn_insert k v : tpr [] 5 (cb_insert k v).
  Proof.
    assert (∀ fuel i, tpr [] 5 (cb_insert_loop fuel k v i)) as Hl.
    { induction fuel as [|fuel IH]; intros i; [by apply tp_pure|]. cbn [cb_insert_loop].
      unfold cb_replace_leaf, cb_add_leaf, cb_duplicate, cb_replace_node. repeat st ltac:(idtac; apply IH). }
    unfold cb_insert, cb_add_leaf. repeat st ltac:(idtac; apply Hl).
  Qed.
  Lemma tpn_remove k : tpr [] 6 (cb_remove k).
  Proof. unfold cb_remove, cb_remove_leaf, cb_migrate. repeat st tl0. Qed.
  Lemma tpn_get_mut k f : tpr [] 0 (cb_get_mut k f).
  Proof.
    assert (∀ fuel i, tpr [] 0 (cb_get_mut_loop fuel k f i)) as Hl.
    { induction fuel as [|fuel IH]; intros i; [by apply tp_pure|]. cbn [cb_get_mut_loop]. unfold cb_replace_leaf. repeat st ltac:(idtac; apply IH). }
    unfold cb_get_mut. repeat st ltac:(idtac; apply Hl).
  Qed.
End nodes.

Section leaves.
  Context `{Profile} {V : Type}.
  Notation tpr := (tp (cb_leaves (V:=V))).
  Notation wrr := (wr (cb_leaves (V:=V))).
  Lemma cbl_gu (a : alloc V) (t : critbit V) : cb_leaves (set_cleaves a t) = a.
  Proof. done. Qed.
  Lemma wrl_on {A} L (m : M (alloc V) A) : wr id L m → wrr L (cb_onl m).
  Proof. apply wr_zoom, cbl_gu. Qed.
  Lemma wrl_onn {A} L (m : M (alloc cnode) A) : wrr L (cb_onn m).
  Proof. by apply wr_zoom_other. Qed.
  Ltac wp_ := idtac; first
    [ apply (wrl_onn []) | apply (wrl_onn (A:=()) [])
    | apply wrl_on; first [apply wr_get_mut | apply wr_set_register | apply wr_clear_register | apply wr_connect | apply wr_disconnect | apply wr_remove_node]
    | apply wr_modify; intros; reflexivity ].
  Ltac ad_ := idtac; lazymatch goal with |- tp _ _ _ (cb_onl (na_add_node _) ≫= _) => eapply (tr_add_bind cb_leaves set_cleaves); [apply cbl_gu|..] end.
  Ltac tl0 := idtac; fail.
  Ltac st tl := t_step wp_ tl ad_.
  Lemma tpl_insert k v : tpr [] 1 (cb_insert k v).
  Proof.
    assert (∀ fuel i, tpr [] 1 (cb_insert_loop fuel k v i)) as Hl.
    { induction fuel as [|fuel IH]; intros i; [by apply tp_pure|]. cbn [cb_insert_loop].
      unfold cb_replace_leaf, cb_add_leaf, cb_duplicate, cb_replace_node. repeat st ltac:(idtac; apply IH). }
    unfold cb_insert, cb_add_leaf. repeat st ltac:(idtac; apply Hl).
  Qed.
  Lemma tpl_remove k : tpr [] 1 (cb_remove k).
  Proof. unfold cb_remove, cb_remove_leaf, cb_migrate. repeat st tl0. Qed.
  Lemma tpl_get_mut k f : tpr [] 1 (cb_get_mut k f).
  Proof.
    assert (∀ fuel i, tpr [] 1 (cb_get_mut_loop fuel k f i)) as Hl.
    { induction fuel as [|fuel IH]; intros i; [by apply tp_pure|]. cbn [cb_get_mut_loop]. unfold cb_replace_leaf. repeat st ltac:(idtac; apply IH). }
    unfold cb_get_mut. repeat st ltac:(idtac; apply Hl).
  Qed.
End leaves.
