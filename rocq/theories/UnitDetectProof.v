(** * What the unit tests inside src/ detect: proofs for C79 *)
From Verif Require Import TestProof UnitDetectSpec StructModel UnitModel.

Section monad.
  Context {S : Type}.
  Lemma bind_iff {A B} (m : M S A) (f : A → M S B) s b s' : (a ← m; f a) s = Ret b s' ↔ ∃ a s1, m s = Ret a s1 ∧ f a s1 = Ret b s'.
  Proof.
    unfold mbind, M_bind. destruct (m s) as [a s1|e s1]; split; [by eauto|intros (a' & s1' & [= <- <-] & ?); done|done|intros (? & ? & [=] & _)].
  Qed.
  Lemma massert_iff b (s s' : S) u : massert b s = Ret u s' ↔ b = true ∧ s' = s.
  Proof. destruct b, u; cbn; split; try done; try (intros [= <-]; done); try (intros [_ ->]; done). by intros [[=] _]. Qed.
  Lemma gets_iff {A} (f : S → res A) s a s' : gets f s = Ret a s' ↔ f s = Val a ∧ s' = s.
  Proof. unfold gets. destruct (f s); split; try done; [intros [= <- <-]; done|by intros [[= <-] ->]|by intros [[=] _]]. Qed.
  Lemma lift_unwrap_iff {A} (o : option A) (s : S) a s' : lift (unwrap o) s = Ret a s' ↔ o = Some a ∧ s' = s.
  Proof. destruct o; cbn; split; try done; [intros [= <- <-]; done|by intros [[= <-] ->]|by intros [[=] _]]. Qed.
End monad.

Section structural.
  Context {S K V : Type} (tree : shape S K V) (z : V).
  Notation ins := (λ k, h_insert tree k z).
  Lemma s_insert_iff k s a s' : s_insert tree z k s = Ret a s' ↔ h_insert tree k z s = Ret (Some a) s'.
  Proof.
    unfold s_insert. rewrite bind_iff. setoid_rewrite lift_unwrap_iff. split; [by intros (? & ? & ? & -> & ->)|]. intros E. by exists (Some a), s'.
  Qed.
  Lemma s_eq_iff (f : S → res N) x s s' u : s_eq f x s = Ret u s' ↔ f s = Val x ∧ s' = s.
  Proof.
    unfold s_eq. rewrite bind_iff. setoid_rewrite gets_iff. setoid_rewrite massert_iff. setoid_rewrite bool_decide_eq_true.
    split; [by intros (a & s1 & [? ->] & -> & ->)|]. intros [E ->]. by exists x, s.
  Qed.
  Lemma s_is_iff (f : S → res bool) s s' u : s_is f s = Ret u s' ↔ f s = Val true ∧ s' = s.
  Proof.
    unfold s_is. rewrite bind_iff. setoid_rewrite gets_iff. setoid_rewrite massert_iff.
    split; [by intros (a & s1 & [? ->] & -> & ->)|]. intros [E ->]. by exists true, s.
  Qed.
  (** The programs as lists of insertions and assertions *)
  Lemma then_insert {B} k (f : N → M S B) s b s' : (a ← s_insert tree z k; f a) s = Ret b s' ↔ ∃ a s1, h_insert tree k z s = Ret (Some a) s1 ∧ f a s1 = Ret b s'.
  Proof. rewrite bind_iff. by setoid_rewrite s_insert_iff. Qed.
  Lemma then_eq {B} g x (m : M S B) s b s' : (s_eq g x;; m) s = Ret b s' ↔ g s = Val x ∧ m s = Ret b s'.
  Proof. rewrite bind_iff. setoid_rewrite s_eq_iff. split; [by intros (_ & s1 & [? ->] & ?)|]. intros [? ?]. by exists (), s. Qed.
  Lemma then_is {B} g (m : M S B) s b s' : (s_is g;; m) s = Ret b s' ↔ g s = Val true ∧ m s = Ret b s'.
  Proof. rewrite bind_iff. setoid_rewrite s_is_iff. split; [by intros (_ & s1 & [? ->] & ?)|]. intros [? ?]. by exists (), s. Qed.
End structural.
Ltac fwd := repeat match goal with
  | H : (a ← s_insert _ _ _; _) _ = Ret _ _ |- _ => apply then_insert in H as (? & ? & ? & H); cbv beta in H
  | H : (s_eq _ _;; _) _ = Ret _ _ |- _ => apply then_eq in H as (? & H)
  | H : (s_is _;; _) _ = Ret _ _ |- _ => apply then_is in H as (? & H)
  | H : s_eq _ _ _ = Ret _ _ |- _ => apply s_eq_iff in H as (? & ?)
  | H : s_is _ _ = Ret _ _ |- _ => apply s_is_iff in H as (? & ?)
  end; subst.
Ltac bwd := repeat match goal with
  | |- (a ← s_insert _ _ _; _) _ = Ret _ _ => apply then_insert; do 2 eexists; split; [eassumption|]
  | |- (s_eq _ _;; _) _ = Ret _ _ => apply then_eq; split; [eassumption|]
  | |- (s_is _;; _) _ = Ret _ _ => apply then_is; split; [eassumption|]
  | |- s_eq _ _ _ = Ret _ _ => apply s_eq_iff; split; [eassumption|reflexivity]
  | |- s_is _ _ = Ret _ _ => apply s_is_iff; split; [eassumption|reflexivity]
  end.
Ltac un := unfold s_left, s_right, s_parent, s_black, s_red, s_leaf in *.
Ltac facts := repeat (apply Forall_cons; split; [eassumption|]); by apply Forall_nil.
Ltac unfacts := repeat match goal with
  | H : Forall _ (_ :: _) |- _ => apply Forall_cons in H as [? H]; cbv beta in *
  | H : Forall _ [] |- _ => clear H
  | H : _ ∧ _ |- _ => destruct H
  | H : ∃ _, _ |- _ => destruct H
  end; subst.

Section passes.
  Context {S K V : Type} (tree : shape S K V) (z : V).
  Notation ins := (λ k, h_insert tree k z).
  Notation onL := (hangs (h_left tree) (h_parent tree)).
  Notation onR := (hangs (h_right tree) (h_parent tree)).
  Notation all_black := (all_say (h_black tree)).
  Notation all_red := (all_say (h_red tree)).
  Notation all_leaves := (all_say (h_leaf tree)).
  Definition any : S → Prop := λ _, True.
  Lemma red_uncle_iff k52 k61 k76 k85 k93 k100 s s' :
    test_red_uncle tree z k52 k61 k76 k85 k93 k100 s = Ret () s' ↔
    ∃ a0 a1 g u p l s1,
      filled ins any [k61; k52; k85; k76; k93] [a0; a1; g; u; p] s s1 ∧
      (onL s1 a0 a1 ∧ onR s1 a0 g ∧ onL s1 g u ∧ onR s1 g p) ∧ all_black s1 [a0; a1; g] ∧ all_red s1 [u; p] ∧
      filled ins any [k100] [l] s1 s' ∧
      all_black s' [a0; a1; u; p] ∧ all_red s' [g; l].
  Proof.
    unfold test_red_uncle. un. split.
    - intros H. fwd. do 7 eexists. split_and!.
      1: { cbn [filled]. do 5 (eexists; split; [eassumption|]; split; [exact I|]). reflexivity. }
      1-4: split; eassumption. 1-2: facts.
      + cbn [filled]. eexists. split; [eassumption|]. split; [exact I|]. reflexivity.
      + facts.
      + facts.
    - unfold all_say, hangs. intros H. cbn [filled] in H. unfacts. bwd.
  Qed.
  Ltac solve_four := split;
    [ intros H; fwd; do 6 eexists; split_and!;
      [ cbn [filled]; do 4 (eexists; split; [eassumption|]; split; [exact I|]); reflexivity
      | split; eassumption | split; eassumption | eassumption | split; eassumption | facts | facts
      | cbn [filled]; eexists; split; [eassumption|]; split; [exact I|]; reflexivity
      | split; eassumption | split; eassumption | split; eassumption | split; eassumption | facts | facts | facts ]
    | unfold all_say, hangs; intros H; cbn [filled] in H; unfacts; bwd ].
  Lemma right_right_iff k52 k61 k85 k93 k100 s s' :
    test_right_right tree z k52 k61 k85 k93 k100 s = Ret () s' ↔
    ∃ a0 a1 g p l s1,
      filled ins any [k61; k52; k85; k93] [a0; a1; g; p] s s1 ∧
      (onL s1 a0 a1 ∧ onR s1 a0 g ∧ h_left tree s1 g = Val SENTINEL ∧ onR s1 g p) ∧ all_black s1 [a0; a1; g] ∧ all_red s1 [p] ∧
      filled ins any [k100] [l] s1 s' ∧
      (onL s' a0 a1 ∧ onR s' a0 p ∧ onL s' p g ∧ onR s' p l) ∧ all_black s' [a0; a1; p] ∧ all_red s' [g; l] ∧ all_leaves s' [l; g].
  Proof. unfold test_right_right. un. solve_four. Qed.
  Lemma right_left_iff k52 k61 k85 k87 k93 s s' :
    test_right_left tree z k52 k61 k85 k87 k93 s = Ret () s' ↔
    ∃ a0 a1 g p l s1,
      filled ins any [k61; k52; k85; k93] [a0; a1; g; p] s s1 ∧
      (onL s1 a0 a1 ∧ onR s1 a0 g ∧ h_left tree s1 g = Val SENTINEL ∧ onR s1 g p) ∧ all_black s1 [a0; a1; g] ∧ all_red s1 [p] ∧
      filled ins any [k87] [l] s1 s' ∧
      (onL s' a0 a1 ∧ onR s' a0 l ∧ onL s' l g ∧ onR s' l p) ∧ all_black s' [a0; a1; l] ∧ all_red s' [g; p] ∧ all_leaves s' [p; g].
  Proof. unfold test_right_left. un. solve_four. Qed.
  Lemma left_left_iff k25 k41 k52 k61 k85 s s' :
    test_left_left tree z k25 k41 k52 k61 k85 s = Ret () s' ↔
    ∃ a0 a1 g p l s1,
      filled ins any [k61; k85; k52; k41] [a0; a1; g; p] s s1 ∧
      (onR s1 a0 a1 ∧ onL s1 a0 g ∧ h_right tree s1 g = Val SENTINEL ∧ onL s1 g p) ∧ all_black s1 [a0; a1; g] ∧ all_red s1 [p] ∧
      filled ins any [k25] [l] s1 s' ∧
      (onR s' a0 a1 ∧ onL s' a0 p ∧ onR s' p g ∧ onL s' p l) ∧ all_black s' [a0; a1; p] ∧ all_red s' [g; l] ∧ all_leaves s' [l; g].
  Proof. unfold test_left_left. un. solve_four. Qed.
  Lemma left_right_iff k41 k47 k52 k61 k85 s s' :
    test_left_right tree z k41 k47 k52 k61 k85 s = Ret () s' ↔
    ∃ a0 a1 g p l s1,
      filled ins any [k61; k85; k52; k41] [a0; a1; g; p] s s1 ∧
      (onR s1 a0 a1 ∧ onL s1 a0 g ∧ h_right tree s1 g = Val SENTINEL ∧ onL s1 g p) ∧ all_black s1 [a0; a1; g] ∧ all_red s1 [p] ∧
      filled ins any [k47] [l] s1 s' ∧
      (onR s' a0 a1 ∧ onL s' a0 l ∧ onR s' l g ∧ onL s' l p) ∧ all_black s' [a0; a1; l] ∧ all_red s' [g; p] ∧ all_leaves s' [p; g].
  Proof. unfold test_left_right. un. solve_four. Qed.
End passes.

(** ** The deletion tests *)
Section deletion.
  Context {S K V : Type} (tree : draining S K V) (z : V).
  Notation ins := (λ k, r_insert tree k z).
  Notation ok := (λ s, r_valid tree s = Val true).
  Lemma u_valid_iff s u s' : u_valid tree s = Ret u s' ↔ r_valid tree s = Val true ∧ s' = s.
  Proof. unfold u_valid. apply (s_is_iff (r_valid tree)). Qed.
  Lemma u_fill_iff (check : bool) keys s l s' : u_fill tree z check keys s = Ret l s' ↔ filled ins (λ s, if check then r_valid tree s = Val true else True) keys l s s'.
  Proof.
    revert s l. induction keys as [|k keys IH]; intros s l; cbn [u_fill filled].
    { destruct l; [split; [by intros [= <-]|by intros ->]|done]. }
    split.
    - intros Hx. apply bind_iff in Hx as (o & s1 & Hi & Hx). apply bind_iff in Hx as (a & s2 & Hu & Hx). apply lift_unwrap_iff in Hu as [-> ->].
      apply bind_iff in Hx as ([] & s3 & Hc & Hx). apply bind_iff in Hx as (l1 & s4 & Hf & [= <- <-]). apply IH in Hf. exists s1. split; [done|].
      destruct check; [apply u_valid_iff in Hc as [Hv ->]|injection Hc as <-]; done.
    - destruct l as [|a l]; [done|]. intros (s1 & Hi & Hv & Hf). apply bind_iff. exists (Some a), s1. split; [done|]. apply bind_iff. exists a, s1.
      split; [by apply lift_unwrap_iff|]. apply bind_iff. exists (), s1. split; [destruct check; [by apply u_valid_iff|done]|].
      apply bind_iff. exists l, s'. split; [by apply IH|done].
  Qed.
  Lemma u_drain_iff keys s u s' : u_drain tree keys s = Ret u s' ↔ drained (r_remove tree) ok keys s s'.
  Proof.
    revert s. induction keys as [|k keys IH]; intros s; cbn [u_drain drained]; [destruct u; split; [by intros [= <-]|by intros ->]|].
    split.
    - intros Hx. apply bind_iff in Hx as (o & s1 & Hi & Hx). apply bind_iff in Hx as (a & s2 & Hu & Hx). apply lift_unwrap_iff in Hu as [-> ->].
      apply bind_iff in Hx as ([] & s3 & Hc & Hx). apply u_valid_iff in Hc as [Hv ->]. apply IH in Hx. by exists a, s1.
    - intros (v & s1 & Hr & Hv & Hf). apply bind_iff. exists (Some v), s1. split; [done|]. apply bind_iff. exists v, s1. split; [by apply lift_unwrap_iff|].
      apply bind_iff. exists (), s1. split; [by apply u_valid_iff|by apply IH].
  Qed.
  Lemma u_addrs_iff l s u s' : u_addrs tree l s = Ret u s' ↔ s' = s ∧ Forall (λ p, r_addr tree s p.1 = Val p.2) l.
  Proof.
    induction l as [|[k a] l IH]; cbn [u_addrs]; [destruct u; split; [by intros [= <-]|by intros [-> _]]|].
    change (b ← gets (λ t, r_addr tree t k); massert (bool_decide (b = a));; u_addrs tree l) with
      (b ← gets (λ t, r_addr tree t k); (massert (bool_decide (b = a));; u_addrs tree l)).
    rewrite bind_iff. setoid_rewrite gets_iff. setoid_rewrite bind_iff. setoid_rewrite massert_iff. setoid_rewrite bool_decide_eq_true. split.
    - intros (b & s1 & [Hb ->] & _ & s2 & [-> ->] & Hr). apply IH in Hr as [-> Hf]. split; [done|]. by constructor.
    - intros [-> [Ha Hf]%Forall_cons]. exists a, s. split; [done|]. exists (), s. split; [done|]. by apply IH.
  Qed.
  Lemma test_delete_iff keys s s' : test_delete tree z keys s = Ret () s' ↔ ∃ addrs s1, filled ins ok keys addrs s s1 ∧ drained (r_remove tree) ok keys s1 s'.
  Proof. unfold test_delete. rewrite bind_iff. setoid_rewrite u_fill_iff. by setoid_rewrite u_drain_iff. Qed.
  Lemma test_delete_1024_iff keys s s' : test_delete_1024 tree z keys s = Ret () s' ↔
    ∃ addrs s1, filled ins ok keys addrs s s1 ∧ Forall2 (λ k a, r_addr tree s1 k = Val a) keys addrs ∧ drained (r_remove tree) ok keys s1 s'.
  Proof.
    unfold test_delete_1024. rewrite bind_iff. setoid_rewrite u_fill_iff. setoid_rewrite bind_iff. setoid_rewrite u_addrs_iff. setoid_rewrite u_drain_iff.
    assert (∀ ks l s1 s2, filled ins ok ks l s1 s2 → length ks = length l) as Hlen.
    { induction ks as [|k ks IH]; intros [|a l] s1 s2; cbn [filled]; try done. intros (s3 & _ & _ & Hf). cbn. f_equal. by eapply IH. }
    assert (∀ s1 ks l, length ks = length l → Forall (λ p, r_addr tree s1 p.1 = Val p.2) (zip ks l) ↔ Forall2 (λ k a, r_addr tree s1 k = Val a) ks l) as Hz.
    { intros s1. induction ks as [|k ks IH]; intros [|a l]; cbn; intros [=]; [split; constructor|]. rewrite Forall_cons. rewrite IH by done.
      split; [intros [? ?]; by constructor|]. intros Hf. inversion Hf; subst. done. }
    split.
    - intros (l & s1 & Hf & _ & s2 & [-> Ha] & Hd). exists l, s1. split; [done|]. split; [|done]. apply Hz; [by eapply Hlen|done].
    - intros (l & s1 & Hf & Ha & Hd). exists l, s1. split; [done|]. exists (), s1. split; [|done]. split; [done|]. apply Hz; [by eapply Hlen|done].
  Qed.
End deletion.

(** ** [test_deque] *)
Section deque.
  Context `{Profile} {T : Type} `{EqDecision T} (r_n : N → N).
  Implicit Types (st : dtest (T:=T)) (v : list T) (q : deque T).
  Ltac go := repeat first
    [ progress unfold mbind, M_bind, mget, gets, lift, modify, mret, M_ret in *
    | progress cbn [fst snd] in * ].
  (** How many calls are made, and what they answer *)
  Lemma zip_iff (nx nb : dq_iter → res (option (N * T) * dq_iter)) it v :
    u_zip nx it v = Val () ↔
    ∃ m l, (m ≤ length v)%nat ∧ drive nx nb (replicate (Datatypes.S m) Fwd) it = Val l ∧
      take m (map (option_map snd) l) = map Some (take m v) ∧ (m = length v ∨ l !! m = Some None).
  Proof.
    revert it. induction v as [|j v IH]; intros it; cbn [u_zip].
    - split.
      + intros E. destruct (nx it) as [[o it']|e] eqn:En; [|done]. exists 0%nat, [o]. cbn [replicate drive]. rewrite En. cbn. split_and!; [lia|done|done|by left].
      + intros (m & l & Hm & Hd & _). cbn in Hm. assert (m = 0)%nat as -> by lia. cbn [replicate drive] in Hd. by destruct (nx it) as [[o it']|e].
    - destruct (nx it) as [[[[a x]|] it']|e] eqn:En; cbn [mbind res_bind fst snd].
      + destruct (decide (x = j)) as [->|Hne].
        * rewrite IH. split.
          { intros (m & l & Hm & Hd & Ht & Hl). exists (Datatypes.S m), (Some (a, j) :: l). cbn [replicate drive]. rewrite En. cbn [mbind res_bind fst snd].
            cbn [replicate drive] in Hd. rewrite Hd. cbn [mbind res_bind]. split_and!; [cbn; lia|done|cbn; by f_equal|]. destruct Hl as [->|Hl]; [by left|by right]. }
          { intros (m & l & Hm & Hd & Ht & Hl). cbn [replicate drive] in Hd. rewrite En in Hd. cbn [mbind res_bind fst snd] in Hd.
            destruct m as [|m].
            { destruct Hl as [[=]|Hl]. cbn [drive mbind res_bind] in Hd. injection Hd as <-. done. }
            destruct (drive nx nb (replicate (Datatypes.S m) Fwd) it') as [l'|e] eqn:Ed; cbn [mbind res_bind] in Hd; [|done]. injection Hd as <-.
            exists m, l'. split_and!; [cbn in Hm; lia|done|cbn in Ht; by injection Ht|]. destruct Hl as [[= ->]|Hl]; [by left|by right]. }
        * split; [done|]. intros (m & l & Hm & Hd & Ht & Hl). exfalso. cbn [replicate drive] in Hd. rewrite En in Hd. cbn [mbind res_bind fst snd] in Hd.
          destruct (drive nx nb (replicate m Fwd) it') as [l'|e] eqn:Ed; cbn [mbind res_bind] in Hd; [|done]. injection Hd as <-.
          destruct m as [|m]; [destruct Hl as [[=]|[=]]|]. cbn in Ht. by injection Ht.
      + split; [|done]. intros _. exists 0%nat, [None]. cbn [replicate drive]. rewrite En. cbn. split_and!; [lia|done|done|by right].
      + split; [done|]. intros (m & l & Hm & Hd & _). cbn [replicate drive] in Hd. by rewrite En in Hd.
  Qed.
  Lemma drive_flip {IT A} (nx nb : IT → res (option A * IT)) m it : drive nx nb (replicate m Fwd) it = drive nb nx (replicate m Bwd) it.
  Proof. revert it. induction m as [|m IH]; intros it; [done|]. cbn [replicate drive]. destruct (nx it) as [r|e]; [|done]. cbn [mbind res_bind]. by rewrite IH. Qed.
  Definition agrees (e : fb) q v : Prop :=
    ∃ m l, (m ≤ length v)%nat ∧ dq_iterate (replicate (Datatypes.S m) e) q = Val l ∧ take m (map (option_map snd) l) = map Some (take m v) ∧ (m = length v ∨ l !! m = Some None).
  Lemma same_iff st st' : u_same st = Ret () st' ↔ st' = st ∧ agrees Fwd (t_q st) (t_v st) ∧ agrees Bwd (t_q st) (rev (t_v st)).
  Proof.
    unfold u_same, agrees, dq_iterate. go.
    pose proof (zip_iff (dq_iter_next (t_q st)) (dq_iter_next_back (t_q st)) (dq_mk_iter (t_q st)) (t_v st)) as H1.
    pose proof (zip_iff (dq_iter_next_back (t_q st)) (dq_iter_next (t_q st)) (dq_mk_iter (t_q st)) (rev (t_v st))) as H2.
    setoid_rewrite drive_flip in H2. destruct (u_zip (dq_iter_next (t_q st)) _ _) as [[]|e].
    - destruct (u_zip (dq_iter_next_back (t_q st)) _ _) as [[]|e]; go.
      + split; [intros [= <-]|by intros [-> _]]. split; [done|]. split; [by apply H1|by apply H2].
      + split; [done|]. intros (_ & _ & Hx). apply H2 in Hx. done.
    - split; [done|]. intros (_ & Hx & _). apply H1 in Hx. done.
  Qed.
  Lemma drive_len {IT A} (nx nb : IT → res (option A * IT)) sc it l : drive nx nb sc it = Val l → length l = length sc.
  Proof.
    revert it l. induction sc as [|e sc IH]; intros it l; cbn [drive]; [by intros [= <-]|].
    destruct (match e with Fwd => nx it | Bwd => nb it end) as [r|?]; [|done]. cbn [mbind res_bind].
    destruct (drive nx nb sc r.2) as [rs|?] eqn:E; [|done]. cbn [mbind res_bind]. intros [= <-]. cbn. f_equal. by eapply IH.
  Qed.
  Lemma drive_mut_len {S A V} (nx nb : (V → V) → M S (option A)) sc s l s' : drive_mut nx nb sc s = Ret l s' → length l = length sc.
  Proof.
    revert s l. induction sc as [|[e f] sc IH]; intros s l; cbn [drive_mut]; [by intros [= <- _]|].
    intros Hx. apply bind_iff in Hx as (r & s1 & _ & Hx). apply bind_iff in Hx as (rs & s2 & Hx & [= <- ->]). cbn. f_equal. by eapply IH.
  Qed.
  (** The items asked for: [b] from the front, the others from the back, and four times nothing *)
  Definition both_ends (b : nat) v : list (option T) := map Some (take b v ++ rev (drop b v)) ++ [None; None; None; None].
  Lemma both_iff b v (l : list (option T)) : (b ≤ length v)%nat → length l = length (de_script b (length v)) →
    u_both b (length v) l (de_spec (de_script b (length v)) v) = true ↔ l = both_ends b v.
  Proof.
    intros Hb Hl. unfold u_both, both_ends. replace (b + (length v - b))%nat with (length v) by lia.
    assert (de_spec (de_script b (length v)) v = map Some (take b v ++ rev (drop b v)) ++ [None; None; None; None]) as -> by (unfold de_script; by rewrite de_split).
    assert (length (map Some (take b v ++ rev (drop b v))) = length v) as Hlen by (rewrite map_length, app_length, rev_length, take_length, drop_length; lia).
    rewrite take_app_alt, drop_app_alt by done. rewrite !andb_true_iff, bool_decide_eq_true. split.
    - intros [[Ht Hn] _]. rewrite <- (take_drop (length v) l), Ht. f_equal.
      assert (length (drop (length v) l) = 4%nat) as H4.
      { rewrite drop_length, Hl. unfold de_script. rewrite !app_length, !replicate_length. cbn. lia. }
      revert Hn H4. generalize (drop (length v) l). intros k Hn H4. destruct k as [|[?|] [|[?|] [|[?|] [|[?|] [|]]]]]; done.
    - intros ->. rewrite take_app_alt, drop_app_alt by done. done.
  Qed.
  Lemma range_iff low high st r st' : u_range r_n low high st = Ret r st' ↔
    low < high ∧ r = low + r_n (t_draws st) mod (high - low) ∧ st' = DTest (t_q st) (t_draws st + 1) (t_v st).
  Proof.
    unfold u_range, u_draw. go. destruct (decide (low < high)); split; try done; [intros [= <- <-]; done|by intros (_ & -> & ->)|by intros (? & _)].
  Qed.
  Lemma iter_iff st st' : let n := length (t_v st) in
    u_iter r_n n st = Ret () st' ↔
    (2 < n)%nat ∧ st' = DTest (t_q st) (t_draws st + 1) (t_v st) ∧
    let b := N.to_nat (1 + r_n (t_draws st) mod (N.of_nat n - 2)) in
    ∃ l, dq_iterate (replicate b Fwd ++ replicate (n - b) Bwd ++ [Fwd; Bwd; Fwd; Bwd]) (t_q st) = Val l ∧ map (option_map snd) l = both_ends b (t_v st).
  Proof.
    intros n. cbv zeta. unfold u_iter. rewrite bind_iff. setoid_rewrite range_iff. replace (N.of_nat n - 1 - 1) with (N.of_nat n - 2) by lia.
    set (b := 1 + r_n (t_draws st) mod (N.of_nat n - 2)).
    assert ((2 < n)%nat → (N.to_nat b ≤ n)%nat) as Hb.
    { intros Hn. unfold b. pose proof (N.mod_lt (r_n (t_draws st)) (N.of_nat n - 2) ltac:(lia)) as Hm. revert Hm. generalize (r_n (t_draws st) mod (N.of_nat n - 2)). lia. }
    split.
    - intros (b' & s1 & (Hlt & -> & ->) & Hx). fold b in Hx. assert (2 < n)%nat as Hn by lia. go. cbn [t_q t_v] in Hx.
      destruct (dq_iterate (de_script (N.to_nat b) n) (t_q st)) as [l|e] eqn:El; [|done].
      apply massert_iff in Hx as [Hx ->]. apply both_iff in Hx; [|by apply Hb|rewrite map_length; by eapply drive_len]. split_and!; [done..|]. by exists l.
    - intros (Hn & -> & l & Hl & Hv). exists b. eexists. split; [split_and!; [lia|done|done]|]. go. cbn [t_q t_v].
      change (dq_iterate (de_script (N.to_nat b) n) (t_q st) = Val l) in Hl. rewrite Hl. apply massert_iff. split; [|done].
      apply both_iff; [by apply Hb|rewrite map_length; by eapply drive_len|done].
  Qed.
  Lemma iter_mut_iff st st' : let n := length (t_v st) in
    u_iter_mut r_n n st = Ret () st' ↔
    (2 < n)%nat ∧ t_draws st' = t_draws st + 1 ∧ t_v st' = t_v st ∧
    let b := N.to_nat (1 + r_n (t_draws st) mod (N.of_nat n - 2)) in
    ∃ l, dq_iterate_mut (map (λ e, (e, λ x, x)) (replicate b Fwd ++ replicate (n - b) Bwd ++ [Fwd; Bwd; Fwd; Bwd])) (t_q st) = Ret l (t_q st') ∧
      map (option_map snd) l = both_ends b (t_v st).
  Proof.
    intros n. cbv zeta. unfold u_iter_mut. rewrite bind_iff. setoid_rewrite range_iff. replace (N.of_nat n - 1 - 1) with (N.of_nat n - 2) by lia.
    set (b := 1 + r_n (t_draws st) mod (N.of_nat n - 2)).
    assert ((2 < n)%nat → (N.to_nat b ≤ n)%nat) as Hb.
    { intros Hn. unfold b. pose proof (N.mod_lt (r_n (t_draws st)) (N.of_nat n - 2) ltac:(lia)) as Hm. revert Hm. generalize (r_n (t_draws st) mod (N.of_nat n - 2)). lia. }
    assert (∀ q l q', dq_iterate_mut (map (λ e, (e, λ x : T, x)) (de_script (N.to_nat b) n)) q = Ret l q' → length (map (option_map snd) l) = length (de_script (N.to_nat b) n)) as Hlen.
    { intros q l q'. unfold dq_iterate_mut. destruct (drive_mut _ _ _ _) as [l' [q1 it]|e [q1 it]] eqn:E; [|done]. intros [= <- _]. apply drive_mut_len in E. by rewrite map_length in *. }
    split.
    - intros (b' & s1 & (Hlt & -> & ->) & Hx). fold b in Hx. assert (2 < n)%nat as Hn by lia. unfold on_q, zoom in Hx. go. cbn [t_q t_v] in Hx.
      destruct (dq_iterate_mut (map (λ e, (e, λ x : T, x)) (de_script (N.to_nat b) n)) (t_q st)) as [l q'|e q'] eqn:El; [|done].
      apply massert_iff in Hx as [Hx ->]. apply both_iff in Hx; [|by apply Hb|by eapply Hlen]. split_and!; [done..|]. by exists l.
    - intros (Hn & Hd & Hv' & l & Hl & Hv). exists b. eexists. split; [split_and!; [lia|done|done]|]. unfold on_q, zoom. go. cbn [t_q t_v].
      change (dq_iterate_mut (map (λ e, (e, λ x : T, x)) (de_script (N.to_nat b) n)) (t_q st) = Ret l (t_q st')) in Hl. rewrite Hl.
      apply massert_iff. split; [|destruct st' as [q' d' v']; cbn in *; by subst]. apply both_iff; [by apply Hb|by eapply Hlen|done].
  Qed.
  Lemma pop_back_iff st st' : u_pop_back st = Ret () st' ↔
    ∃ q, dq_pop_back (t_q st) = Ret (last (t_v st)) q ∧ st' = DTest q (t_draws st) (take (length (t_v st) - 1) (t_v st)).
  Proof.
    unfold u_pop_back, on_q, zoom. go. destruct (dq_pop_back (t_q st)) as [a q|e q]; go; [|split; [done|by intros (? & [=] & _)]].
    cbn [t_v set_q]. destruct (massert _ _) as [[] s1|e s1] eqn:E.
    - apply massert_iff in E as [->%bool_decide_eq_true ->]. split; [intros [= <-]; by exists q|]. by intros (? & [= <-] & ->).
    - split; [done|]. intros (q' & [= Ha <-] & _). rewrite bool_decide_eq_true_2 in E by done. done.
  Qed.
  Lemma pop_front_iff st st' : u_pop_front st = Ret () st' ↔
    ∃ q, dq_pop_front (t_q st) = Ret (head (t_v st)) q ∧ st' = DTest q (t_draws st) (tail (t_v st)).
  Proof.
    unfold u_pop_front, on_q, zoom. go. destruct (dq_pop_front (t_q st)) as [a q|e q]; go; [|split; [done|by intros (? & [=] & _)]].
    cbn [t_v set_q]. destruct (massert _ _) as [[] s1|e s1] eqn:E.
    - apply massert_iff in E as [->%bool_decide_eq_true ->]. split; [intros [= <-]; by exists q|]. by intros (? & [= <-] & ->).
    - split; [done|]. intros (q' & [= Ha <-] & _). rewrite bool_decide_eq_true_2 in E by done. done.
  Qed.
  Lemma empty_iff st st' : u_empty st = Ret () st' ↔ st' = st ∧ dq_is_empty (t_q st) = true ∧ t_v st = [].
  Proof. unfold u_empty. go. rewrite massert_iff, andb_true_iff, bool_decide_eq_true. naive_solver. Qed.
End deque.
