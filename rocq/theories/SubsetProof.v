(** * Maps used only with the keys that are lawfully ordered *)
From Verif Require Import FuzzProof MapProof MapFacts.
From Verif Require Import IterProof.
From Verif Require Export SubsetSpec LooseSim.

Section om.
  Context {K V : Type} (P : K → bool) (cmp : K → K → comparison) (HO : OrdLawsOn P cmp).
  Implicit Types T : bt K V.
  Implicit Types l : list (K * V).

  (** All the other keys put after those in [P], in one lump *)
  Definition ecmp (a b : K) : comparison :=
    match P a, P b with true, true => cmp a b | true, false => Lt | false, true => Gt | false, false => Eq end.
  Lemma ecmp_laws : OrdLaws ecmp.
  Proof using HO.
    destruct HO as [Hs Ht He]. split; unfold ecmp.
    - intros a b. destruct (P a) eqn:Ha, (P b) eqn:Hb; [by apply Hs|done..].
    - intros a b c. destruct (P a) eqn:Ha, (P b) eqn:Hb, (P c) eqn:Hc; try done. by apply Ht.
    - intros a b c. destruct (P a) eqn:Ha, (P b) eqn:Hb, (P c) eqn:Hc; try done. by apply He.
  Qed.
  Lemma ecmp_in a b : P a = true → P b = true → ecmp a b = cmp a b.
  Proof using Type. intros Ha Hb. unfold ecmp. by rewrite Ha, Hb. Qed.

  (** the same searches *)
  Notation inT T := (Forall (λ x : N * (K * V), P x.2.1 = true) (bt_seq T)).
  Notation inL l := (Forall (λ k, P k = true) l.*1).
  Ltac split_in := match goal with H : Forall _ (_ ++ _ :: _) |- _ => apply Forall_app in H as [? [? ?]%Forall_cons_1] end.
  Lemma e_find k T : P k = true → inT T → bt_find ecmp k T = bt_find cmp k T.
  Proof using Type.
    intros Hk. induction T as [|l IHl i kv r IHr]; simpl; [done|]. intros Hf. split_in. rewrite ecmp_in by done. by rewrite IHl, IHr.
  Qed.
  Lemma e_put k x T : P k = true → inT T → bt_put ecmp k x T = bt_put cmp k x T.
  Proof using Type.
    intros Hk. induction T as [|l IHl i kv r IHr]; simpl; [done|]. intros Hf. split_in. rewrite ecmp_in by done. by rewrite IHl, IHr.
  Qed.
  Lemma e_del k T : P k = true → inT T → bt_del ecmp k T = bt_del cmp k T.
  Proof using Type.
    intros Hk. induction T as [|l IHl i kv r IHr]; simpl; [done|]. intros Hf. split_in. rewrite ecmp_in by done. by rewrite IHl, IHr.
  Qed.
  Lemma e_upd k f T : P k = true → inT T → bt_upd ecmp k f T = bt_upd cmp k f T.
  Proof using Type.
    intros Hk. induction T as [|l IHl i kv r IHr]; simpl; [done|]. intros Hf. split_in. rewrite ecmp_in by done. by rewrite IHl, IHr.
  Qed.
  Lemma e_step cap o T a T' : om_key_in P o → inT T → bt_step cmp cap o T a T' → bt_step ecmp cap o T a T'.
  Proof using Type.
    intros Hk Hi Hs. destruct Hs as [k v x T Hf|k v i T T' Hf Hl Hn H0 Hc Hs|k v T Hf Hl|k x T T' Hf Hs|k T Hf|o a T Hr|k f T|k f T|sc T T' H1 H2| |]; simpl in Hk.
    - rewrite <- e_upd by done. econstructor. by rewrite e_find.
    - econstructor; [by rewrite e_find|done..|]. by rewrite e_put.
    - econstructor; [by rewrite e_find|done].
    - econstructor; [by rewrite e_find|]. by rewrite e_del.
    - econstructor. by rewrite e_find.
    - econstructor. rewrite <- Hr. destruct o; simpl in *; unfold bt_get; by rewrite ?e_find.
    - assert (bt_get cmp k T = bt_get ecmp k T) as -> by (unfold bt_get; by rewrite e_find). rewrite <- e_upd by done. constructor.
    - assert (bt_get cmp k T = bt_get ecmp k T) as -> by (unfold bt_get; by rewrite e_find). rewrite <- e_upd by done. constructor.
    - by constructor.
    - constructor.
    - by constructor.
  Qed.
  (** the same map *)
  Lemma e_om_find k l : P k = true → inL l → om_find ecmp k l = om_find cmp k l.
  Proof using Type.
    intros Hk. induction l as [|x l IH]; simpl; [done|]. intros [? ?]%Forall_cons_1. rewrite ecmp_in by done. by rewrite IH.
  Qed.
  Lemma e_om_insert k v l : P k = true → inL l → om_insert ecmp k v l = om_insert cmp k v l.
  Proof using Type.
    intros Hk. induction l as [|x l IH]; simpl; [done|]. intros [? ?]%Forall_cons_1. rewrite ecmp_in by done. by rewrite IH.
  Qed.
  Lemma e_om_remove k l : P k = true → inL l → om_remove ecmp k l = om_remove cmp k l.
  Proof using Type.
    intros Hk. induction l as [|x l IH]; simpl; [done|]. intros [? ?]%Forall_cons_1. rewrite ecmp_in by done. by rewrite IH.
  Qed.
  Lemma e_om_alter k f l : P k = true → inL l → om_alter ecmp k f l = om_alter cmp k f l.
  Proof using Type.
    intros Hk. induction l as [|x l IH]; simpl; [done|]. intros [? ?]%Forall_cons_1. rewrite ecmp_in by done. by rewrite IH.
  Qed.
  Lemma e_om_spec cap o l : om_key_in P (Some o) → inL l → om_spec ecmp cap o l = om_spec cmp cap o l.
  Proof using Type.
    intros Hk Hl. destruct o; simpl in *; unfold om_get; by rewrite ?e_om_find, ?e_om_insert, ?e_om_remove, ?e_om_alter.
  Qed.
  Lemma e_asc l : inL l → ascending ecmp l → ascending cmp l.
  Proof using Type.
    intros Hf. induction 1 as [|x l Hs IH Hx]; [constructor|]. rewrite fmap_cons in Hf. apply Forall_cons_1 in Hf as [? Hf]. constructor; [by apply IH|].
    rewrite Forall_fmap in Hf. eapply Forall_impl; [by apply Forall_and; split; [exact Hx|exact Hf]|]. intros y [Hy ?]. simpl in *. by rewrite ecmp_in in Hy.
  Qed.
End om.

(** ** A lawful comparison *)
Section lawful.
  Context {K V : Type} (cmp : K → K → comparison) (HO : OrdLaws cmp).
  Implicit Types T : bt K V.
  Lemma bt_step_om cap o T a T' :
    ascending cmp (bt_seq T).*2 → lengthN (bt_seq T) ≤ cap → bt_step cmp cap (Some o) T a T' →
    om_spec cmp cap o (bt_seq T).*2 = (a, (bt_seq T').*2).
  Proof using HO.
    intros Ha Hc Hs.
    assert (∀ k, om_get cmp k (bt_seq T).*2 = bt_get cmp k T) as Hget.
    { intros k. destruct T as [|l i kv r] eqn:ET; [done|]. rewrite <- ET in *. by destruct (bt_lawful cmp k (i, (k, kv.2)) T HO Ha eq_refl) as (-> & _). }
    assert (∀ k, om_find cmp k (bt_seq T).*2 = None ↔ bt_find cmp k T = None) as Hfind.
    { intros k. specialize (Hget k). unfold om_get, bt_get in Hget. destruct (om_find _ _ _), (bt_find _ _ _); naive_solver. }
    assert (∀ k f, (bt_seq (bt_upd cmp k f T)).*2 = om_alter cmp k f (bt_seq T).*2) as Hupd.
    { intros k f. destruct T as [|l i kv r] eqn:ET; [done|]. rewrite <- ET in *. by destruct (bt_lawful cmp k (i, (k, kv.2)) T HO Ha eq_refl) as (_ & _ & _ & ->). }
    assert (lengthN (bt_seq T).*2 = lengthN (bt_seq T)) as Hlen by (unfold lengthN; by rewrite fmap_length).
    inversion Hs; subst; clear Hs.
    - destruct x as [i kv]. destruct (bt_lawful cmp k (i, (k, v)) T HO Ha eq_refl) as (_ & _ & _ & Hal). rewrite Hal. cbn [om_spec].
      destruct (om_find cmp k (bt_seq T).*2) eqn:E; [|apply Hfind in E; congruence]. f_equal.
      destruct (asc_cases cmp HO k _ Ha) as [(l1 & x & l2 & He & Hb & Hx & Hab)|(l1 & l2 & He & Hb & Hab)]; rewrite He in *.
      + by rewrite om_insert_found, om_alter_found.
      + by rewrite om_find_absent in E.
    - destruct (bt_lawful cmp k (i, (k, v)) T HO Ha eq_refl) as (_ & Hp & _). cbn [om_spec].
      destruct (om_find cmp k (bt_seq T).*2) eqn:E; [assert (om_find cmp k (bt_seq T).*2 = None) as E' by (by apply Hfind); congruence|].
      rewrite decide_True by (by rewrite Hlen). cbn [fst snd] in Hp. rewrite <- Hp by done. by repeat f_equal.
    - cbn [om_spec]. rewrite (proj2 (Hfind k)) by done. rewrite decide_False by lia. done.
    - destruct x as [i kv]. destruct (bt_lawful cmp k (i, (k, kv.2)) T HO Ha eq_refl) as (_ & _ & Hd & _). cbn [om_spec]. rewrite Hget.
      unfold bt_get. rewrite <- Hd by congruence. match goal with H : bt_find _ _ _ = _, H' : bt_seq _ = _ |- _ => by rewrite H, H' end.
    - cbn [om_spec]. rewrite Hget. unfold bt_get. match goal with H : bt_find _ _ _ = None |- _ => rewrite H; apply Hfind in H as Hn end.
      f_equal. destruct (asc_cases cmp HO k _ Ha) as [(l1 & x & l2 & He & Hb & Hx & Hab)|(l1 & l2 & He & Hb & Hab)]; rewrite He in *.
      + by rewrite om_find_found in Hn.
      + by apply om_remove_absent.
    - match goal with H : bt_read _ _ _ _ = _ |- _ => rename H into Hr end.
      destruct o; cbn [bt_read om_spec] in *; try done; rewrite ?Hget; simplify_eq; try done.
      + specialize (Hfind k). destruct (om_find _ _ _), (bt_find _ _ _); naive_solver.
      + by rewrite Hlen.
      + rewrite <- Hlen. by destruct ((bt_seq T').*2).
    - cbn [om_spec]. by rewrite Hget, Hupd.
    - cbn [om_spec]. by rewrite Hget, Hupd.
    - cbn [om_spec]. match goal with H : (bt_seq T').*2 = _ |- _ => rewrite H end. by destruct (de_mut_spec _ sc (bt_seq T).*2).
  Qed.

  Lemma bt_root_om l i kv r (T' : bt K V) :
    ascending cmp (bt_seq (BN l i kv r)).*2 → bt_seq T' = bt_seq l ++ bt_seq r →
    kv ∈ (bt_seq (BN l i kv r)).*2 ∧ (bt_seq T').*2 = om_remove cmp kv.1 (bt_seq (BN l i kv r)).*2.
  Proof using HO.
    intros Ha ->. simpl in *. rewrite !fmap_app, fmap_cons in *. simpl in *. split; [set_solver|].
    apply (ascending_mid cmp HO) in Ha as (_ & _ & Hb & _). rewrite om_remove_found; [done|done|]. by apply cmp_refl.
  Qed.
End lawful.

(** ** Together *)
Section both.
  Context {K V : Type} (P : K → bool) (cmp : K → K → comparison) (HO : OrdLawsOn P cmp).
  Implicit Types T : bt K V.
  Notation dom := (λ k, P k = true).
  Notation inv cap T := (om_inv (ecmp P cmp) dom cap (bt_seq T).*2).
  Lemma run_on cap ops T rs T' :
    Forall (om_key_in P) ops → inv cap T → bt_run cmp cap ops T rs T' →
    om_run cmp cap ops (bt_seq T).*2 rs (bt_seq T').*2 ∧ inv cap T'.
  Proof using HO.
    pose proof (ecmp_laws P cmp HO) as HE.
    intros Hk Hi Hr. induction Hr as [T|o ops T a T1 rs T2 Hs Hr IH]; [split; [constructor|done]|].
    apply Forall_cons in Hk as [Ho Hk]. pose proof Hi as (Ha & Hl & Hd).
    assert (Forall (λ x : N * (K * V), P x.2.1 = true) (bt_seq T)) as HT by (by rewrite !Forall_fmap in Hd).
    apply (e_step P cmp) in Hs; [|done..].
    assert (lengthN (bt_seq T) ≤ cap) as Hc by (unfold lengthN in *; by rewrite fmap_length in Hl).
    destruct o as [o|].
    - apply bt_step_om in Hs; [|done..]. pose proof (om_spec_inv (ecmp P cmp) HE dom cap o _ Ho Hi) as Hi1. rewrite Hs in Hi1. simpl in Hi1.
      rewrite e_om_spec in Hs by done. destruct (IH Hk Hi1) as [H1 H2]. split; [|done].
      pose proof (run_op cmp cap o ops (bt_seq T).*2 rs (bt_seq T2).*2) as Hq. rewrite Hs in Hq. by apply Hq.
    - inversion Hs as [| | | | | | | | | |l i kv r ? Hs']; subst.
      + destruct (IH Hk Hi) as [H1 H2]. split; [by constructor|done].
      + destruct (bt_root_om _ HE l i kv r T1 Ha Hs') as [Hin Hrm].
        assert (P kv.1 = true) as Hkv. { rewrite Forall_forall in Hd. apply Hd. by apply elem_of_list_fmap_1. }
        pose proof (om_spec_inv (ecmp P cmp) HE dom cap (MRemove kv.1) _ Hkv Hi) as Hi1. cbn [om_spec snd] in Hi1. rewrite <- Hrm in Hi1.
        destruct (IH Hk Hi1) as [H1 H2]. split; [|done]. apply run_root; [done|]. rewrite Hrm, e_om_remove in H1 by done. exact H1.
  Qed.
  Lemma run_on_new cap ops rs T' :
    Forall (om_key_in P) ops → bt_run cmp cap ops BL rs T' →
    om_run cmp cap ops [] rs (bt_seq T').*2 ∧ ascending cmp (bt_seq T').*2.
  Proof using HO.
    intros Hk Hr. destruct (run_on cap ops BL rs T' Hk) as [H1 (Ha & _ & Hd)]; [cbn; split_and!; [constructor|unfold lengthN; simpl; lia|constructor]|done|].
    split; [done|]. by eapply e_asc.
  Qed.
End both.
