(** * The slots written by the operations of the red-black tree *)
From Verif Require Import TouchProof RBModel CostModel.

Section rb.
  Context `{Profile} {K V : Type} (cmp : K → K → comparison).
  Notation tpr := (tp (rb_al (K:=K) (V:=V))).
  Notation wrr := (wr (rb_al (K:=K) (V:=V))).

  Lemma rb_gu (a : alloc (K * V)) (t : rbt K V) : rb_al (set_ral a t) = a.
  Proof. done. Qed.
  Lemma wrr_on {A} L (m : M (alloc (K * V)) A) : wr id L m → wrr L (rb_on m).
  Proof. apply wr_zoom, rb_gu. Qed.

  Lemma wrr_color_red i : wrr [wi i] (rb_color_red i).
  Proof. unfold rb_color_red. destruct (decide _); [apply wr_ret|apply wrr_on, wr_set_register]. Qed.
  Lemma wrr_color_black i : wrr [wi i] (rb_color_black i).
  Proof. apply wrr_on, wr_set_register. Qed.
  Lemma wrr_color_node i c : wrr [wi i] (rb_color_node i c).
  Proof. apply wrr_on, wr_set_register. Qed.
  Lemma wrr_connect p c d : wrr [wi p; wi c] (rb_connect p c d).
  Proof. apply wrr_on, wr_connect. Qed.
  Lemma wrr_set_value i v : wrr [wi i] (rb_set_node_value i v).
  Proof. apply wrr_on, wr_get_mut. Qed.
  Lemma wrr_remove_alloc i : wrr [wi i] (rb_remove_allocator_node i).
  Proof.
    unfold rb_remove_allocator_node. do 4 (apply wr_bind; [apply wrr_on, wr_clear_register|intros ?]).
    apply wr_bind; [apply wrr_on, wr_remove_node|intros ?]. apply wr_ret.
  Qed.

  Ltac wp_ := idtac; first
    [ apply wrr_color_red | apply wrr_color_black | apply wrr_color_node | apply wrr_connect | apply wrr_set_value | apply wrr_remove_alloc
    | apply wrr_on; first [apply wr_get_mut | apply wr_set_register | apply wr_clear_register | apply wr_connect | apply wr_remove_node]
    | apply wr_modify; intros; reflexivity ].
  Ltac ad_ := idtac; lazymatch goal with |- tp _ _ _ (rb_on (na_add_node _) ≫= _) => eapply (tr_add_bind rb_al set_ral); [apply rb_gu|..] end.
  Ltac tl0 := idtac; fail.
  Ltac st tl := t_step wp_ tl ad_.

  Lemma tp_rotate L p d : wi p ∈ L → tpr L 3 (rb_rotate_dir p d).
  Proof.
    intros Hp. eapply (tp_weak _ [wi p]); [|set_solver]. unfold rb_rotate_dir. repeat st tl0.
  Qed.
  Lemma tp_rotate' L p d : tpr L 4 (rb_rotate_dir p d).
  Proof. unfold rb_rotate_dir. repeat st tl0. Qed.
  Ltac tl1 := idtac; first [apply tp_rotate; solve [t_mem] | apply tp_rotate'].

  Lemma tp_fix_insert_loop fuel : ∀ L i, tpr L (9 * fuel) (rb_fix_insert_loop fuel i).
  Proof.
    induction fuel as [|fuel IH]; intros L i; [by apply tp_pure|]. cbn [rb_fix_insert_loop].
    repeat st ltac:(idtac; first [tl1|apply IH]).
  Qed.

  Lemma tp_rbn_fix_insert rounds L i : tpr L (9 * rounds + 1) (rbn_fix_insert rounds i).
  Proof.
    unfold rbn_fix_insert. eapply tp_pure_bind; [t_pure|intros t].
    eapply (tr_bind _ (9 * rounds)); [eapply tp_mono; [apply tp_fix_insert_loop|nia]|lia|intros _]. repeat st tl0.
  Qed.
  Lemma tp_rbn_insert_loop rounds fuel k v : ∀ i, tpr [] (9 * rounds + 3) (rbn_insert_loop cmp rounds fuel k v i).
  Proof.
    induction fuel as [|fuel IH]; intros i; [by apply tp_pure|]. cbn [rbn_insert_loop].
    repeat st ltac:(idtac; first [apply IH|apply tp_rbn_fix_insert]).
  Qed.
  Lemma tp_rbn_insert rounds k v : tpr [] (9 * rounds + 3) (rbn_insert cmp rounds k v).
  Proof. unfold rbn_insert. repeat st ltac:(idtac; apply tp_rbn_insert_loop). Qed.

  Lemma tp_transplant L a b : wi b ∈ L → tpr L 1 (rb_transplant a b).
  Proof. intros Hb. eapply (tp_weak _ [wi b]); [|set_solver]. unfold rb_transplant. repeat st tl0. Qed.
  Lemma tp_transplant' L a b : tpr L 2 (rb_transplant a b).
  Proof. unfold rb_transplant. repeat st tl0. Qed.
  Lemma tp_fix_remove_loop fuel : ∀ L p d, tpr L (15 * fuel + 1) (rb_fix_remove_loop fuel p d).
  Proof.
    induction fuel as [|fuel IH]; intros L p d; [by apply tp_pure|]. cbn [rb_fix_remove_loop].
    repeat st ltac:(idtac; first [tl1|apply IH]).
  Qed.
  Lemma tp_rbn_fix_remove rounds L i pd : tpr L (15 * rounds + 1) (rbn_fix_remove rounds i pd).
  Proof.
    unfold rbn_fix_remove. do 2 (eapply tp_pure_bind; [t_pure|intros ?]). cbv zeta. eapply tp_pure_bind; [t_pure|intros ?].
    eapply tp_mono; [apply tp_fix_remove_loop|nia].
  Qed.
  Lemma tp_rbn_remove_tree_node rounds L i : tpr L (15 * rounds + 8) (rbn_remove_tree_node rounds i).
  Proof.
    unfold rbn_remove_tree_node.
    repeat st ltac:(idtac; first [apply tp_transplant; solve [t_mem]|apply tp_transplant'|apply tp_rbn_fix_remove]).
  Qed.
  Lemma tp_rbn_remove_loop rounds fuel k : ∀ i, tpr [] (15 * rounds + 8) (rbn_remove_loop cmp rounds fuel k i).
  Proof.
    induction fuel as [|fuel IH]; intros i; [by apply tp_pure|]. cbn [rbn_remove_loop].
    repeat st ltac:(idtac; first [apply IH|apply tp_rbn_remove_tree_node]).
  Qed.
  Lemma tp_rbn_remove rounds k : tpr [] (15 * rounds + 8) (rbn_remove cmp rounds k).
  Proof. unfold rbn_remove. repeat st ltac:(idtac; apply tp_rbn_remove_loop). Qed.
  Lemma tp_rbn_remove_root rounds : tpr [] (15 * rounds + 8) (rbn_remove_root rounds).
  Proof. unfold rbn_remove_root. repeat st ltac:(idtac; apply tp_rbn_remove_tree_node). Qed.
  Lemma tp_rb_get_mut k f : tpr [] 1 (rb_get_mut cmp k f).
  Proof. unfold rb_get_mut. repeat st tl0. Qed.
End rb.
