(** * The AVL tree: two rotations are enough for an insertion, as many as the tree is high for a removal *)
From Verif Require Export RotModel AVLOps.

(** the two end alike *)
Definition feq {S A B} (R : A → B → Prop) (m1 : M S A) (m2 : M S B) : Prop :=
  ∀ s, (∃ e s', m1 s = Fail e s' ∧ m2 s = Fail e s') ∨ ∃ a b s', m1 s = Ret a s' ∧ m2 s = Ret b s' ∧ R a b.
Lemma feq_bind {S A B A' B'} (R : A → B → Prop) (R' : A' → B' → Prop) (m1 : M S A) (m2 : M S B) f1 f2 :
  feq R m1 m2 → (∀ a b, R a b → feq R' (f1 a) (f2 b)) → feq R' (m1 ≫= f1) (m2 ≫= f2).
Proof.
  intros Hm Hf s. unfold mbind, M_bind. destruct (Hm s) as [(e & s' & -> & ->)|(a & b & s' & -> & -> & Hab)].
  - left. by exists e, s'.
  - by apply Hf.
Qed.
Lemma feq_ret {S A B} (R : A → B → Prop) (a : A) (b : B) : R a b → feq R (mret a : M S A) (mret b).
Proof. intros HR s. right. by exists a, b, s. Qed.
Lemma feq_same {S A A' B'} (R' : A' → B' → Prop) (m : M S A) f1 f2 :
  (∀ a, feq R' (f1 a) (f2 a)) → feq R' (m ≫= f1) (m ≫= f2).
Proof.
  intros Hf s. unfold mbind, M_bind. destruct (m s) as [a s'|e s']; [apply Hf|]. left. by exists e, s'.
Qed.
Lemma feq_tail {S A B} (R : A → B → Prop) (m : M S B) (a : A) : (∀ b, R a b) → feq R (m ≫= λ _, mret a) m.
Proof.
  intros HR s. unfold mbind, M_bind. destruct (m s) as [b s'|e s']; [right; by exists a, b, s'|left; by exists e, s'].
Qed.
Lemma feq_wp {S A B} (R : A → B → Prop) (m1 : M S A) (m2 : M S B) s (Q : A → S → Prop) :
  feq R m1 m2 → wp m2 s (λ b s', ∀ a, R a b → Q a s') → wp m1 s Q.
Proof.
  intros Hm (b & s' & Hb & HQ)%wp_elim. destruct (Hm s) as [(e & s1 & _ & E)|(a & b1 & s1 & Ha & E & Hab)]; [congruence|].
  rewrite Hb in E. injection E as <- <-. eapply wp_intro; [exact Ha|by apply HQ].
Qed.

Section step.
  Context `{Profile} {K V : Type}.
  Lemma left_rotate_feq n i : feq (λ a b, a = (b, n)) (avr_left_rotate (K := K) (V := V) (S n) i) (av_left_rotate i).
  Proof using Type.
    intros s. unfold avr_left_rotate, mbind, M_bind. destruct (av_left_rotate i s) as [b s'|e s']; [right|left]; by repeat eexists.
  Qed.
  Lemma right_rotate_feq n i : feq (λ a b, a = (b, n)) (avr_right_rotate (K := K) (V := V) (S n) i) (av_right_rotate i).
  Proof using Type.
    intros s. unfold avr_right_rotate, mbind, M_bind. destruct (av_right_rotate i s) as [b s'|e s']; [right|left]; by repeat eexists.
  Qed.
  (** one round takes two rotations at most *)
  Lemma step_feq n e : feq (λ r _, n ≤ r ≤ S (S n))%nat (avr_rebalance_step (K := K) (V := V) (S (S n)) e) (av_rebalance_step e).
  Proof using Type.
    destruct e as [pb c]. unfold avr_rebalance_step, av_rebalance_step. do 3 (apply feq_same; intros ?).
    apply (feq_bind (λ a b, a.1 = b ∧ (n ≤ a.2 ≤ S (S n))%nat)).
    - destruct (decide _); [|destruct (decide _)].
      + do 3 (apply feq_same; intros ?). apply (feq_bind (λ r _, r = S n ∨ r = S (S n))).
        { destruct (decide _); [|apply feq_ret; auto]. eapply feq_bind; [apply left_rotate_feq|]. intros [i m] ? [= -> ->]. cbn [fst snd].
          apply feq_tail. auto. }
        intros m ? [-> | ->]; (eapply feq_bind; [apply right_rotate_feq|]); intros [i m'] ? [= -> ->]; apply feq_ret; cbn [fst snd]; split; (done || lia).
      + do 3 (apply feq_same; intros ?). apply (feq_bind (λ r _, r = S n ∨ r = S (S n))).
        { destruct (decide _); [|apply feq_ret; auto]. eapply feq_bind; [apply right_rotate_feq|]. intros [i m] ? [= -> ->]. cbn [fst snd].
          apply feq_tail. auto. }
        intros m ? [-> | ->]; (eapply feq_bind; [apply left_rotate_feq|]); intros [i m'] ? [= -> ->]; apply feq_ret; cbn [fst snd]; split; (done || lia).
      + apply feq_same. intros. apply feq_ret. cbn [fst snd]. split; [done|lia].
    - intros [o m] ? [<- Hm]. cbn [fst snd] in *. apply feq_tail. auto.
  Qed.
End step.

Section av.
  Context `{Profile} {K V : Type} {G : Ghost (K * V)} (cap : N).
  Notation tree := (tree (K * V)).
  Notation frame := (frame (K * V)).
  Notation avlt := (avlt K V).
  Notation rep := (rep (K := K) (V := V) cap).
  Notation R := (R (K := K) (V := V) cap).
  Implicit Types t : avlt.
  Implicit Types s x y z o l r U : tree.
  Implicit Types ctx : list frame.
  Implicit Types cs : list (N * node (K * V)).
  Local Arguments cl : simpl never.
  Local Arguments cc : simpl never.

  Definition leaning (hl hr : nat) : Prop := (hl = hr + 2 ∨ hr = hl + 2)%nat.
  (** the rotations [rot'] left over from [rot] *)
  Definition left_of l r (rot rot' : nat) : Prop :=
    (leaning (height l) (height r) → rot ≤ rot' + 2)%nat ∧ (¬ leaning (height l) (height r) → rot' = rot).

  Lemma wpr_step t cs rt m l c kv r pb h0 rot (Q : nat → avlt → Prop) :
    R t (cl (Nd m l c kv r) ++ cs) rt → avl l → avl r → near (height l) (height r) h0 →
    (leaning (height l) (height r) → 2 ≤ rot)%nat →
    (∀ t' s', R t' (cl s' ++ cs) rt → avl s' → entries s' = entries (Nd m l c kv r) → tsize s' = tsize (Nd m l c kv r) →
       s' ≠ Lf → (height s' ≤ S h0)%nat → (h0 ≤ S (height s'))%nat → stepped l c kv r s' →
       wp (av_attach pb (root s')) t' (λ _ t', ∀ rot', left_of l r rot rot' → Q rot' t') ∧
       (root s' = c → ∀ rot', left_of l r rot rot' → Q rot' t')) →
    wp (avr_rebalance_step rot (pb, c)) t Q.
  Proof using Type.
    intros HR Hl Hr Hn Hrot HQ.
    pose proof (wp_step cap t cs rt m l c kv r pb h0 (λ _ t', ∀ rot', left_of l r rot rot' → Q rot' t') HR Hl Hr Hn HQ) as Hwp.
    assert (leaning (height l) (height r) ∨ ¬ leaning (height l) (height r)) as [Hle|Hle] by (unfold leaning; lia).
    - specialize (Hrot Hle). destruct rot as [|[|rot]]; [lia|lia|]. eapply feq_wp; [apply step_feq|].
      eapply wp_mono; [exact Hwp|]. intros ? t' HQ' rot' Hrot'. apply HQ'. split; [intros; lia|done].
    - destruct Hn as (Hn1 & Hn2 & _). clear HQ.
      pose proof HR as HR1. rewrite cl_Nd in HR1. simpl in HR1. rewrite <- app_assoc in HR1.
      assert (lengthN (cl (Nd m l c kv r) ++ cs) = N.of_nat (tsize l + tsize r + 1) + lengthN cs) as Hlen.
      { unfold lengthN. rewrite app_length. pose proof (cl_length (Nd m l c kv r)) as E. unfold lengthN in E. cbn [tsize] in E. lia. }
      assert (height l < 64)%nat as H64l by (eapply avl_h64; [exact HR|done|lia]).
      assert (height r < 64)%nat as H64r by (eapply avl_h64; [exact HR|done|lia]).
      assert (av_balance_factor t (root l) (root r) = Val (Z.of_nat (height l) - Z.of_nat (height r))%Z) as Hbf.
      { eapply R_bf; [exact HR1|apply sub_incl; intros; inl|apply sub_incl; intros; inl|done..]. }
      assert (av_get_field t c Left = Val (root l)) as Hfl by (eapply (R_child _ _ _ _ _ false); [exact HR1|apply elem_of_list_here]).
      assert (av_get_field t c Right = Val (root r)) as Hfr by (eapply (R_opp _ _ _ _ _ false); [exact HR1|apply elem_of_list_here]).
      apply wp_elim in Hwp as (u & t' & Hs & HQ). eapply wp_intro; [|apply HQ; split; [done|reflexivity]].
      unfold avr_rebalance_step. unfold av_rebalance_step in Hs. revert Hs.
      unfold mbind, M_bind, gets. rewrite Hfl, Hfr, Hbf.
      unfold leaning in Hle. rewrite !decide_False by lia. destruct (av_update_height c t) as [? t1|]; [|done].
      intros [= <- <-]. done.
  Qed.

  (** a predicate [I] kept on the way up *)
  Lemma wpr_rebalance (I : list frame → nat → tree → tree → nat → Prop) :
    (∀ ctx h0 l r rot, I ctx h0 l r rot → near (height l) (height r) h0 ∧ (leaning (height l) (height r) → 2 ≤ rot)%nat) →
    (∀ d m a kvf o ctx h0 l c kv r rot s rot', I (F d m a kvf o :: ctx) h0 l r rot → avl l → avl r → actx (F d m a kvf o :: ctx) h0 →
       stepped l c kv r s → left_of l r rot rot' →
       I ctx (S (Nat.max h0 (height o))) (if d then o else s) (if d then s else o) rot') →
    ∀ ctx t m l c kv r h0 rot (Q : () → avlt → Prop),
    rep t (plug ctx (Nd m l c kv r)) → avl l → avl r → actx ctx h0 → I ctx h0 l r rot →
    (∀ t' U', rep t' U' → avl U' → entries U' = entries (plug ctx (Nd m l c kv r)) → Q () t') →
    wp (avr_rebalance rot (apath ctx c)) t Q.
  Proof using Type.
    intros HI1 HI2. induction ctx as [|[d mf a kvf o] ctx IH]; intros t m l c kv r h0 rot Q HR Hl Hr Hc HI HQ; cbn [apath avr_rebalance].
    - destruct (HI1 _ _ _ _ _ HI) as [Hn Hrot].
      apply wp_bind. eapply (wpr_step t [] _ m l c kv r None h0); [rewrite app_nil_r; exact HR|done|done|done|done|].
      clear t HR. intros t s HR As Es Ts Hne _ _ _. rewrite app_nil_r in HR. split.
      + destruct s as [|m' l' c' kv' r']; [done|]. unfold av_attach. apply wp_bind, wp_modify.
        destruct HR as [HC _]. pose proof (avl_mk false _ _ _ _ _ As) as (Hl' & Hr' & _ & _ & Hm').
        assert (R (set_aroot c' t) ((c', nd false (root l') (root r') m' kv') :: cl l' ++ cl r') c') as HR by (by rewrite cl_Nd in HC).
        eapply (wp_update _ _ _ _ _ false l' r'); [exact HR|apply sub_incl; intros; inl|apply sub_incl; intros; inl| |].
        { eapply clean_bound; [exact HR|done|done|]. pose proof (cl_length l'). pose proof (cl_length r').
          unfold lengthN in *. simpl. rewrite app_length. lia. }
        intros t' HR' rot' _. apply wp_ret. apply (HQ t' (Nd m' l' c' kv' r')); [|done|done].
        unfold AVLProof.rep. rewrite cl_Nd, Hm'. done.
      + intros Ec rot' _. apply wp_ret. apply (HQ t s); [|done|done]. unfold AVLProof.rep. rewrite Ec. done.
    - inversion Hc as [|? ? ? ? ? ? ? Ao Hc1 Hc2 Hc3]; subst. destruct (HI1 _ _ _ _ _ HI) as [Hn Hrot].
      apply wp_bind. rewrite rep_focus in HR. cbn [croot root fa] in HR. rewrite cc_cons in HR.
      eapply (wpr_step t _ _ m l c kv r _ h0); [exact HR|done|done|done|done|].
      clear t HR. intros t s HR As Es Ts Hne _ _ Hst.
      assert (∀ mf' t' rot', left_of l r rot rot' → R t' ((a, nd d (root s) (root o) mf' kvf) :: cl s ++ cl o ++ cc ctx a) (croot ctx a) →
                wp (avr_rebalance rot' (apath ctx a)) t' Q) as Hgo.
      { intros mf' t' rot' Hlo HR'.
        assert (rep t' (plug ctx (mk d mf' s a kvf o))) as HR2.
        { rewrite rep_focus, root_mk. eapply R_perm; [exact HR'|]. rewrite cl_mk. simpl. by rewrite <- app_assoc. }
        assert (entries (plug ctx (mk d mf' s a kvf o)) = entries (plug (F d mf a kvf o :: ctx) (Nd m l c kv r))) as Ee.
        { cbn [plug]. rewrite !entries_plug, !entries_mk, Es. done. }
        pose proof (HI2 _ _ _ _ _ _ _ _ _ _ _ _ _ _ HI Hl Hr Hc Hst Hlo) as HI'.
        destruct d; simpl mk in *; (eapply IH; [exact HR2|done|done|exact Hc3|exact HI'|]);
          intros t'' U' ? ? E; (eapply HQ; [done|done|]); by rewrite E, Ee. }
      split.
      + unfold av_attach. eapply (wp_set _ t (cl s ++ cl o ++ cc ctx a) (croot ctx a) a d c s o mf kvf).
        * eapply R_perm; [exact HR|]. symmetry. apply Permutation_middle.
        * apply sub_incl; intros; inl.
        * apply sub_incl; intros; inl.
        * eapply clean_bound; [exact HR|done|done|]. pose proof (cl_length s). pose proof (cl_length o).
          unfold lengthN in *. rewrite app_length. simpl. rewrite app_length. lia.
        * intros t' HR' rot' Hlo. by eapply Hgo.
      + intros Ec rot' Hlo. apply (Hgo mf t rot' Hlo). rewrite Ec. eapply R_perm; [exact HR|]. symmetry. apply Permutation_middle.
  Qed.

  (** *** After an insertion: a subtree has grown by one, until the first rotation or the first node whose height stays *)
  Definition grew x y (h0 : nat) : Prop :=
    (1 ≤ height x ∧ height y ≤ height x ∧ height x ≤ height y + 2 ∧ h0 = S (Nat.max (height x - 1) (height y)))%nat ∧
    ((height x = height y + 2)%nat → skewed x).
  Definition ins_inv ctx (h0 : nat) l r (rot : nat) : Prop :=
    (height l ≤ S (height r) ∧ height r ≤ S (height l) ∧ h0 = S (Nat.max (height l) (height r)))%nat ∨
    (2 ≤ rot)%nat ∧ (grew l r h0 ∨ grew r l h0).
  Lemma wpr_rebalance_insert ctx t m l c kv r h0 rot (Q : () → avlt → Prop) :
    rep t (plug ctx (Nd m l c kv r)) → avl l → avl r → actx ctx h0 → ins_inv ctx h0 l r rot →
    (∀ t' U', rep t' U' → avl U' → entries U' = entries (plug ctx (Nd m l c kv r)) → Q () t') →
    wp (avr_rebalance rot (apath ctx c)) t Q.
  Proof using Type.
    apply wpr_rebalance; clear; unfold ins_inv, grew, near, leaning, left_of, stepped, leaning.
    - intros _ h0 l r rot HI. lia.
    - intros d m a kvf o ctx h0 l c kv r rot s rot' HI _ _ Hc (S1 & S2 & S3) [Hr1 Hr2].
      inversion Hc as [|? ? ? ? ? ? ? _ Hc1 Hc2 _]; subst. clear Hc.
      assert ((height s = h0) ∨ ((2 ≤ rot')%nat ∧ height s = S h0 ∧ skewed s)) as Hs.
      { assert (((height l < height r + 2)%nat ∧ (height r < height l + 2)%nat) ∨ leaning (height l) (height r)) as [[H1 H2]|Hle]
          by (unfold leaning; destruct HI as [?|(_ & [[? _]|[? _]])]; lia).
        - assert (rot' = rot) as -> by (apply Hr2; lia). rewrite (S3 H1 H2). clear S1 S2 S3. cbn [height skewed].
          destruct HI as [?|(Hrot & [[? _]|[? _]])]; lia.
        - left. destruct HI as [?|(Hrot & [[? Hsk]|[? Hsk]])]; [unfold leaning in Hle; lia| |]; destruct Hle as [Hle|Hle]; try lia.
          + destruct (S1 Hle) as [_ E]. rewrite E by auto. lia.
          + destruct (S2 Hle) as [_ E]. rewrite E by auto. lia. }
      clear -Hs Hc1 Hc2. destruct Hs as [<-|(Hrot & Hs & Hsk)].
      + left. destruct d; lia.
      + destruct (decide (height o = S h0)) as [E|Hno].
        * left. destruct d; lia.
        * right. split; [done|]. destruct d; [right|left]; (split; [lia|done]).
  Qed.

  (** *** After a removal: a node that rotates was two higher than its subtree that shrank *)
  Fixpoint cheight ctx (h : nat) : nat :=
    match ctx with [] => h | f :: ctx => cheight ctx (S (Nat.max h (height (fo f)))) end.
  Lemma cheight_plug ctx s : cheight ctx (height s) = height (plug ctx s).
  Proof using Type. revert s. induction ctx as [|[d m a kv o] ctx IH]; intros s; simpl; [done|]. rewrite <- IH. by rewrite height_mk. Qed.
  Lemma cheight_le ctx h : (h ≤ cheight ctx h)%nat.
  Proof using Type. revert h. induction ctx as [|f ctx IH]; intros h; simpl; [done|]. specialize (IH (S (Nat.max h (height (fo f))))). lia. Qed.
  Lemma cheight_fo ctx ctx' h : Forall2 (λ f g, fo f = fo g) ctx ctx' → cheight ctx h = cheight ctx' h.
  Proof using Type. intros Hf. revert h. induction Hf as [|f g ctx ctx' Ho _ IH]; intros h; simpl; [done|]. by rewrite Ho, IH. Qed.
  Definition rem_inv (B : nat) ctx (h0 : nat) l r (rot : nat) : Prop :=
    near (height l) (height r) h0 ∧ (S (Nat.max (height l) (height r)) ≤ h0)%nat ∧ (cheight ctx h0 ≤ B)%nat ∧ (B ≤ rot + h0)%nat ∧
    (leaning (height l) (height r) → 2 + B ≤ rot + h0)%nat.
  Lemma wpr_rebalance_remove B ctx t m l c kv r h0 rot (Q : () → avlt → Prop) :
    rep t (plug ctx (Nd m l c kv r)) → avl l → avl r → actx ctx h0 → rem_inv B ctx h0 l r rot →
    (∀ t' U', rep t' U' → avl U' → entries U' = entries (plug ctx (Nd m l c kv r)) → Q () t') →
    wp (avr_rebalance rot (apath ctx c)) t Q.
  Proof using Type.
    apply wpr_rebalance; clear; unfold rem_inv, near, left_of, stepped, leaning.
    - intros ctx h0 l r rot (Hn & Hm & Hh & Hr & Hl). split; [done|]. intros Hle. specialize (Hl Hle).
      pose proof (cheight_le ctx h0). lia.
    - intros d m a kvf o ctx h0 l c kv r rot s rot' (Hn & Hm & Hh & Hr & Hl) _ _ Hc (S1 & S2 & S3) [Hr1 Hr2].
      inversion Hc as [|? ? ? ? ? ? ? _ Hc1 Hc2 _]; subst. clear Hc. cbn [cheight fo] in Hh.
      pose proof (cheight_le ctx (S (Nat.max h0 (height o)))) as Hcl.
      assert (height s ≤ h0 ∧ h0 ≤ S (height s) ∧ B ≤ rot' + h0)%nat as (Hs1 & Hs2 & Hs3).
      { assert (((height l < height r + 2)%nat ∧ (height r < height l + 2)%nat) ∨ leaning (height l) (height r)) as [[H1 H2]|Hle]
          by (unfold leaning; lia).
        - rewrite (S3 H1 H2). cbn [height]. rewrite Hr2 by lia. lia.
        - destruct Hle as [Hle|Hle]; [destruct (S1 Hle) as [Hb _]|destruct (S2 Hle) as [Hb _]]; lia. }
      clear -Hs1 Hs2 Hs3 Hc1 Hc2 Hh Hcl. destruct d; lia.
  Qed.
End av.
