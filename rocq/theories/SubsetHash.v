(** * Hash tables used only with the keys that are lawfully compared and hashed *)
From Verif Require Import HashMain OrderProof.
From Verif Require Import IterProof.
From Verif Require Export SubsetSpec.

Section ext.
  Context {K V : Type} (P : K → bool) (keq : K → K → bool) (hash : K → N) (HL : HashLawsOn P keq hash).
  Definition ekeq (a b : K) : bool := match P a, P b with true, true => keq a b | false, false => true | _, _ => false end.
  Definition ehash (a : K) : N := if P a then hash a else 0.
  Lemma ekeq_laws : HashLaws ekeq ehash.
  Proof using HL.
    destruct HL as [Hr Hs Ht Hh]. split; unfold ekeq, ehash.
    - intros a. destruct (P a) eqn:Ha; [by apply Hr|done].
    - intros a b. destruct (P a) eqn:Ha, (P b) eqn:Hb; [by apply Hs|done..].
    - intros a b c. destruct (P a) eqn:Ha, (P b) eqn:Hb, (P c) eqn:Hc; try done. by apply Ht.
    - intros a b. destruct (P a) eqn:Ha, (P b) eqn:Hb; try done. by apply Hh.
  Qed.
  Lemma ekeq_in a b : P a = true → P b = true → ekeq a b = keq a b.
  Proof using Type. intros Ha Hb. unfold ekeq. by rewrite Ha, Hb. Qed.
  Lemma ehash_in a : P a = true → ehash a = hash a.
  Proof using Type. intros Ha. unfold ehash. by rewrite Ha. Qed.

  (** the tables with chains *)
  Implicit Types c : list (K * V).
  Implicit Types bs : list (list (K * V)).
  Notation inC c := (Forall (λ x : K * V, P x.1 = true) c).
  Notation inB bs := (Forall (λ c : list (K * V), Forall (λ x : K * V, P x.1 = true) c) bs).
  Lemma e_split k c : P k = true → inC c → hb_split ekeq k c = hb_split keq k c.
  Proof using Type. intros Hk. induction 1 as [|x c Hx Hc IH]; simpl; [done|]. by rewrite ekeq_in, IH by done. Qed.
  Lemma split_app k c c1 x c2 : hb_split keq k c = Some (c1, x, c2) → c = c1 ++ x :: c2.
  Proof using Type.
    revert c1. induction c as [|y c IH]; simpl; intros c1 H; [done|]. destruct (keq y.1 k); [by simplify_eq|].
    destruct (hb_split keq k c) as [[[? ?] ?]|]; [|done]. simplify_eq. simpl. f_equal. by apply IH.
  Qed.
  Lemma e_index bs k : P k = true → hb_index ehash bs k = hb_index hash bs k.
  Proof using Type. intros Hk. unfold hb_index. by rewrite ehash_in. Qed.
  Lemma e_chain bs k : P k = true → hb_chain ehash bs k = hb_chain hash bs k.
  Proof using Type. intros Hk. unfold hb_chain. by rewrite e_index. Qed.
  Lemma e_put bs k c : P k = true → hb_put ehash bs k c = hb_put hash bs k c.
  Proof using Type. intros Hk. unfold hb_put. by rewrite e_index. Qed.
  Lemma chain_in bs k : inB bs → inC (hb_chain hash bs k).
  Proof using Type. intros HB. unfold hb_chain. destruct (bs !! _) as [c|] eqn:E; simpl; [|constructor]. by eapply Forall_lookup_1 in HB. Qed.
  Lemma put_in bs k c : inB bs → inC c → inB (hb_put hash bs k c).
  Proof using Type. intros HB HC. unfold hb_put. by apply Forall_insert. Qed.
  Lemma apply_in fs c : inC c → inC (chain_apply fs c).
  Proof using Type.
    intros Hc. revert fs. induction Hc as [|x c Hx Hc IH]; intros [|f fs]; simpl; constructor; try done; by apply IH.
  Qed.
  Lemma table_in fs bs : inB bs → inB (table_apply fs bs).
  Proof using Type.
    intros Hb. revert fs. induction Hb as [|c bs Hc Hb IH]; intros fs; simpl; [constructor|]. constructor; [by apply apply_in|apply IH].
  Qed.
  Lemma e_spec cap o bs : hm_key_in P o → inB bs →
    hb_spec ekeq ehash cap o bs = hb_spec keq hash cap o bs ∧ inB (hb_spec keq hash cap o bs).2.
  Proof using Type.
    intros Ho HB.
    assert (∀ k, P k = true → hb_split ekeq k (hb_chain ehash bs k) = hb_split keq k (hb_chain hash bs k)) as Hs.
    { intros k Hk. rewrite e_chain by done. apply e_split; [done|]. by apply chain_in. }
    assert (∀ k, P k = true → hb_get ekeq ehash bs k = hb_get keq hash bs k) as Hg.
    { intros k Hk. unfold hb_get. by rewrite Hs. }
    assert (∀ k c1 x c2, hb_split keq k (hb_chain hash bs k) = Some (c1, x, c2) → inC c1 ∧ P x.1 = true ∧ inC c2) as Hin.
    { intros k c1 x c2 E. pose proof (chain_in bs k HB) as Hc. rewrite (split_app _ _ _ _ _ E) in Hc.
      apply Forall_app in Hc as [? [? ?]%Forall_cons]. done. }
    assert (∀ k f, P k = true → hb_get_mut ekeq ehash bs k f = hb_get_mut keq hash bs k f ∧ inB (hb_get_mut keq hash bs k f)) as Hm.
    { intros k f Hk. unfold hb_get_mut. rewrite Hs by done. destruct (hb_split keq k _) as [[[c1 x] c2]|] eqn:E; [|done].
      split; [by rewrite e_put|]. apply Hin in E as (? & ? & ?). apply put_in; [done|]. constructor; [done|]. by apply Forall_app. }
    destruct o as [k v|k|k|k f|k|k| | | |k|k f|n|fs]; simpl in Ho |- *; rewrite ?Hg by done; try done.
    - unfold hb_insert. rewrite Hs by done. destruct (hb_split keq k _) as [[[c1 x] c2]|] eqn:E.
      + rewrite e_put by done. split; [done|]. apply Hin in E as (? & ? & ?). apply put_in; [done|]. apply Forall_app. split; [done|]. by constructor.
      + destruct (decide _); [|done]. rewrite e_put, e_chain by done. split; [done|]. apply put_in; [done|]. constructor; [done|]. by apply chain_in.
    - unfold hb_remove. rewrite Hs by done. destruct (hb_split keq k _) as [[[c1 x] c2]|] eqn:E; [|done].
      rewrite e_put by done. split; [done|]. apply Hin in E as (? & ? & ?). apply put_in; [done|]. by apply Forall_app.
    - destruct (Hm k f Ho) as [-> ?]. done.
    - destruct (Hm k f Ho) as [-> ?]. done.
    - split; [done|]. by apply table_in.
  Qed.
  Lemma e_tables cap o bs : Forall (hm_key_in P) o → inB bs →
    (spec_history (hb_spec ekeq ehash cap) o bs) = (spec_history (hb_spec keq hash cap) o bs).
  Proof using Type.
    intros Ho. revert bs. induction Ho as [|a o Ha Ho IH]; intros bs HB; [done|]. cbn [spec_history].
    destruct (e_spec cap a bs Ha HB) as [-> HB']. destruct (hb_spec keq hash cap a bs) as [r bs'] eqn:E. simpl in HB'. by rewrite IH.
  Qed.

  (** the maps *)
  Implicit Types l : list (K * V).
  Lemma e_hfind k l : P k = true → inC l → hm_find ekeq k l = hm_find keq k l.
  Proof using Type. intros Hk. induction 1 as [|x l Hx Hl IH]; simpl; [done|]. by rewrite ekeq_in, IH by done. Qed.
  Lemma e_halter k f l : P k = true → inC l → hm_alter ekeq k f l = hm_alter keq k f l ∧ inC (hm_alter keq k f l).
  Proof using Type.
    intros Hk. induction 1 as [|x l Hx Hl [IH1 IH2]]; simpl; [split; [done|constructor]|]. rewrite ekeq_in by done. split; [by f_equal|].
    constructor; [|done]. by destruct (keq x.1 k).
  Qed.
  Lemma e_hremove k l : P k = true → inC l → hm_remove ekeq k l = hm_remove keq k l ∧ inC (hm_remove keq k l).
  Proof using Type.
    intros Hk. induction 1 as [|x l Hx Hl [IH1 IH2]]; simpl; [split; [done|constructor]|]. rewrite ekeq_in by done.
    unfold hm_remove in *. destruct (keq x.1 k); simpl; [done|]. split; [by f_equal|]. by constructor.
  Qed.
  Lemma e_hinsert k v l : P k = true → inC l → hm_insert ekeq k v l = hm_insert keq k v l ∧ inC (hm_insert keq k v l).
  Proof using Type.
    intros Hk Hl. unfold hm_insert. rewrite e_hfind by done. destruct (hm_find keq k l); [by apply e_halter|]. split; [done|]. by constructor.
  Qed.
  Lemma e_hstep cap o l r l' : hm_key_in P o → inC l → hm_step ekeq cap o l r l' → hm_step keq cap o l r l' ∧ inC l'.
  Proof using Type.
    intros Ho Hl Hs. destruct Hs as [k v l x Hf|k v l Hf ?|k v l Hf ?|k l|k l|k f l|k l|k l|l|l|l|k l|k f l|n l l' Hp|fs l l' out l'' Hp E]; simpl in Ho.
    - destruct (e_hinsert k v l Ho Hl) as [-> Hi]. split; [|done]. apply st_update with x. by rewrite <- e_hfind.
    - destruct (e_hinsert k v l Ho Hl) as [-> Hi]. split; [|done]. apply st_insert; [|done]. by rewrite <- e_hfind.
    - split; [|done]. apply st_full; [|done]. by rewrite <- e_hfind.
    - destruct (e_hremove k l Ho Hl) as [-> Hi]. split; [|done]. unfold hm_get. rewrite e_hfind by done. constructor.
    - split; [|done]. unfold hm_get. rewrite e_hfind by done. constructor.
    - destruct (e_halter k f l Ho Hl) as [-> Hi]. split; [|done]. unfold hm_get. rewrite e_hfind by done. constructor.
    - split; [|done]. rewrite e_hfind by done. constructor.
    - split; [|done]. rewrite e_hfind by done. constructor.
    - split; [|done]. constructor.
    - split; [|done]. constructor.
    - split; [|done]. constructor.
    - split; [|done]. unfold hm_get. rewrite e_hfind by done. constructor.
    - destruct (e_halter k f l Ho Hl) as [-> Hi]. split; [|done]. unfold hm_get. rewrite e_hfind by done. constructor.
    - split; [|done]. by constructor.
    - split; [by econstructor|]. pose proof (de_mut_spec_keys (λ f (x : K * V), (x.1, f x.2)) fst (map (λ f, (Fwd, f)) fs) l' ltac:(done)) as Hk.
      rewrite E in Hk. simpl in Hk. rewrite <- Hp in Hl. apply (Forall_fmap fst (λ k, P k = true)) in Hl.
      apply (Forall_fmap fst (λ k, P k = true)). change (l''.*1) with (map fst l''). by rewrite Hk.
  Qed.
  Lemma e_hrun cap o l rs l' : Forall (hm_key_in P) o → inC l → hm_run ekeq cap o l rs l' → hm_run keq cap o l rs l' ∧ inC l'.
  Proof using Type.
    intros Ho Hl Hr. induction Hr as [l|a o l r l1 rs l2 Hs Hr IH]; [split; [constructor|done]|].
    apply Forall_cons in Ho as [Ha Ho]. apply e_hstep in Hs as [Hs Hl1]; [|done..]. destruct (IH Ho Hl1) as [H1 H2].
    split; [by econstructor|done].
  Qed.
  Lemma e_distinct l : inC l → distinct_keys ekeq l → distinct_keys keq l.
  Proof using Type.
    intros Hl Hd. induction Hd as [|x l Hx Hd IH]; [constructor|]. apply Forall_cons in Hl as [Hpx Hl]. constructor; [|by apply IH].
    rewrite List.Forall_forall in Hx. rewrite Forall_forall in Hl. apply List.Forall_forall. intros y Hy. rewrite <- ekeq_in; [by apply Hx|done|].
    apply Hl. by apply elem_of_list_In.
  Qed.
End ext.

Section fact.
  Context `{Profile} {K V : Type} (P : K → bool) (keq : K → K → bool) (hash : K → N) (HL : HashLawsOn P keq hash) (nb ms : nat) (d : K * V).
  Context (h0 : htable K V) (Hnew : ht_new nb ms d = Some h0) (Hnb : (0 < nb)%nat) (Hw : N.of_nat ms + 1 < W32).
  Notation cap := (N.of_nat ms).
  Lemma ht_subset_fact (o : list (hm_op K V)) :
    Forall (hm_key_in P) o →
    ∃ l, hm_run keq cap o [] (history (ht_step keq hash) o h0).1 l ∧ distinct_keys keq l ∧ lengthN l ≤ cap.
  Proof using HL Hnew Hnb Hw.
    intros Ho. destruct (ht_is_map_fact (ekeq P keq) (ehash P hash) (ekeq_laws P keq hash HL) nb ms d h0 Hnew Hnb Hw o) as (l & Hr & Hd & Hl).
    apply (e_hrun P keq) in Hr as [Hr Hin]; [|done|constructor]. exists l. split_and!; [|by eapply e_distinct|done].
    rewrite (order_answers_fact keq hash nb ms d h0 Hnew Hnb Hw). 
    rewrite (order_answers_fact (ekeq P keq) (ehash P hash) nb ms d h0 Hnew Hnb Hw), e_tables in Hr; [done|done|].
    apply Forall_replicate. constructor.
  Qed.
End fact.
