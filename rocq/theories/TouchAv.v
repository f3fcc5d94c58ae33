(** * The slots written by the operations of the AVL tree *)
From Verif Require Import TouchProof AVLModel CostModel.

Section av.
  Context `{Profile} {K V : Type} (pcmp : K → K → option comparison).
  Notation tpr := (tp (av_al (K:=K) (V:=V))).
  Notation wrr := (wr (av_al (K:=K) (V:=V))).

  Lemma av_gu (a : alloc (K * V)) (t : avlt K V) : av_al (set_aal a t) = a.
  Proof. done. Qed.
  Lemma wrr_on {A} L (m : M (alloc (K * V)) A) : wr id L m → wrr L (av_on m).
  Proof. apply wr_zoom, av_gu. Qed.
  Ltac wpure := intros; first [apply wr_ret | apply wr_pure; t_pure].
  Lemma wrr_update_height i : wrr [wi i] (av_update_height i).
  Proof.
    unfold av_update_height. do 2 (apply wr_bind; [wpure|intros ?]).
    apply wr_bind.
    { destruct (decide _); [wpure|]. apply wr_bind; [destruct (decide _); wpure|intros ?].
      apply wr_bind; [destruct (decide _); wpure|intros ?]. wpure. }
    intros ?. destruct (decide _); [apply wrr_on, wr_set_register|wpure].
  Qed.
  Lemma wrr_set_field i r v : wrr [wi i] (av_set_field i r v).
  Proof.
    unfold av_set_field. destruct (decide _); [|wpure]. apply wr_bind; [apply wrr_on, wr_set_register|intros ?].
    destruct (decide _); [apply wrr_update_height|wpure].
  Qed.
  Lemma wrr_set_value i v : wrr [wi i] (av_set_node_value i v).
  Proof. apply wrr_on, wr_get_mut. Qed.
  Lemma wrr_delete i : wrr [wi i] (av_delete i).
  Proof.
    unfold av_delete. do 3 (apply wr_bind; [apply wrr_on, wr_clear_register|intros ?]).
    apply wr_bind; [apply wrr_on, wr_remove_node|intros ?]. wpure.
  Qed.

  Ltac wp_ := idtac; first
    [ apply wrr_set_field | apply wrr_update_height | apply wrr_set_value | apply wrr_delete
    | apply wrr_on; first [apply wr_get_mut | apply wr_set_register | apply wr_clear_register | apply wr_connect | apply wr_remove_node]
    | apply wr_modify; intros; reflexivity ].
  Ltac ad_ := idtac; lazymatch goal with |- tp _ _ _ (av_on (na_add_node _) ≫= _) => eapply (tr_add_bind av_al set_aal); [apply av_gu|..] end.
  Ltac tl0 := idtac; fail.
  Ltac st tl := t_step wp_ tl ad_.

  Lemma tp_rebalance_step L e : tpr L 5 (av_rebalance_step e).
  Proof. unfold av_rebalance_step, av_left_rotate, av_right_rotate. repeat st tl0. Qed.
  Lemma tp_rebalance p : ∀ L, tpr L (5 * length p) (av_rebalance p).
  Proof.
    induction p as [|e p IH]; intros L; [by apply tp_pure|]. cbn [av_rebalance length].
    repeat st ltac:(idtac; first [apply tp_rebalance_step|apply IH]).
  Qed.
  Lemma tp_avn_rebalance rounds L p : tpr L (5 * rounds) (avn_rebalance rounds p).
  Proof. unfold avn_rebalance. destruct (decide _); [|by apply tp_pure]. eapply tp_mono; [apply tp_rebalance|lia]. Qed.
  Lemma tp_avn_insert_loop rounds fuel k v : ∀ p i, tpr [] (5 * rounds + 2) (avn_insert_loop pcmp rounds fuel k v p i).
  Proof.
    induction fuel as [|fuel IH]; intros p i; [by apply tp_pure|]. cbn [avn_insert_loop].
    repeat st ltac:(idtac; first [apply IH|apply tp_avn_rebalance]).
  Qed.
  Lemma tp_avn_insert rounds k v : tpr [] (5 * rounds + 2) (avn_insert pcmp rounds k v).
  Proof. unfold avn_insert. repeat st ltac:(idtac; apply tp_avn_insert_loop). Qed.
  Lemma tp_avn_remove rounds k : tpr [] (5 * rounds + 4) (avn_remove pcmp rounds k).
  Proof. unfold avn_remove. repeat st ltac:(idtac; apply tp_avn_rebalance). Qed.
  Lemma tp_av_get_mut_loop fuel k f : ∀ i, tpr [] 1 (av_get_mut_loop pcmp fuel k f i).
  Proof.
    induction fuel as [|fuel IH]; intros i; [by apply tp_pure|]. cbn [av_get_mut_loop]. repeat st ltac:(idtac; apply IH).
  Qed.
  Lemma tp_av_get_mut k f : tpr [] 1 (av_get_mut pcmp k f).
  Proof. unfold av_get_mut. repeat st ltac:(idtac; apply tp_av_get_mut_loop). Qed.
End av.
