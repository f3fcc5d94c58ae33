(** * C57: the public navigation functions and [get_node_mut] *)
From Verif Require Import Spec RBMain HashMain AVLMain CritMain RBProps HashProps AVLProps NavProof NavHash NavAv NavCb.

Section rb.
  Context `{Profile} {K V : Type} (cmp : K → K → comparison) (HO : OrdLaws cmp) (ms : nat) (d : K * V).
  Context (H0 : (0 < ms)%nat) (Hw : N.of_nat ms + 1 < W32).
  (** After any calls, with the pairs [l] in the tree (ascending), there is one binary tree [b] with these pairs from left to right, about
      which [get_node], [get_left], [get_right], [get_parent], [get_child], [get_dir], [is_leaf], [is_root], [get_color], [is_red],
      [is_black], [get_addr] tell the truth at every node ([rb_tells], NavSpec.v), and the getters answer SENTINEL and black at SENTINEL *)
  Theorem C57_rb_navigation (o : list (option (om_op K V))) l :
    rb_holds cmp ms d o l → let t := rb_after cmp ms d o in
    ∃ b : btree (K * V), let ns := bviews SENTINEL b in
      v_pair <$> ns = l ∧ NoDup (v_index <$> ns) ∧ SENTINEL ∉ v_index <$> ns ∧ rb_root t = btop b ∧
      rb_tells_sentinel t ∧ ∀ n, n ∈ ns → rb_tells cmp t n.
  Proof using HO H0 Hw.
    intros Hl t. destruct (rb_reach' cmp HO ms d o l H0 Hw Hl) as (U & Hok & <- & _). exists (bt U). by eapply rb_nav_fact.
  Qed.
  (** Assigning a value through [get_node_mut(get_addr(k))] does exactly what assigning it through [get_mut(k)] does *)
  Theorem C57_rb_node_mut (o : list (option (om_op K V))) l kv :
    rb_holds cmp ms d o l → kv ∈ l → let t := rb_after cmp ms d o in
    ∃ i, rb_get_addr cmp t kv.1 = Val i ∧ rb_get_node t i = Val kv ∧
      ∀ v, ∃ t', rb_set_node_value i v t = Ret () t' ∧ rb_get_mut cmp kv.1 (λ _, v) t = Ret (Some kv.2) t'.
  Proof using HO H0 Hw.
    intros Hl Hin t. destruct (rb_reach' cmp HO ms d o l H0 Hw Hl) as (U & Hok & <- & _).
    apply elem_of_list_fmap in Hin as ([i kv'] & -> & Hin).
    pose proof (bviews_entries SENTINEL U) as He. rewrite <- He in Hin. apply elem_of_list_fmap in Hin as (n & [= -> ->] & Hn).
    destruct (rb_tells_ok cmp HO _ _ U n Hok Hn). exists (v_index n). split_and!; [done|done|]. intros v.
    destruct (rb_node_mut_fact cmp HO _ _ U (v_index n) (v_pair n) v Hok) as (t' & _ & H1 & H2 & _); [|by exists t'].
    rewrite <- He. apply elem_of_list_fmap. by exists n.
  Qed.
End rb.
Print Assumptions C57_rb_navigation.
Print Assumptions C57_rb_node_mut.

Section ht.
  Context `{Profile} {K V : Type} (keq : K → K → bool) (hash : K → N) (HL : HashLaws keq hash) (nb ms : nat) (d : K * V).
  Context (h0 : htable K V) (Hnew : ht_new nb ms d = Some h0) (Hnb : (0 < nb)%nat) (Hw : N.of_nat ms + 1 < W32).
  (** After any calls, with the pairs [l] in the table: [nb] chains of numbered pairs, together [l], every pair in the chain of its hash;
      the bucket heads, [get_node], [get_next], [get_prev], [get_addr], [iter] tell the truth about them ([ht_tells], NavSpec.v).
      Assigning [v] to the value of any node through [get_node_mut] replaces that value in its chain and nothing else. *)
  Theorem C57_ht_navigation (o : list (hm_op K V)) l :
    ht_holds keq hash ms h0 o l → let h := ht_after keq hash h0 o in
    ∃ chains, length chains = nb ∧ (concat chains).*2 ≡ₚ l ∧ ht_tells keq hash h chains ∧
      ∀ b c j i kv v, chains !! b = Some c → c !! j = Some (i, kv) →
        ∃ h', ht_set_node_value i v h = Ret () h' ∧ ht_tells keq hash h' (<[b:=<[j:=(i, (kv.1, v))]> c]> chains).
  Proof using HL Hnew Hnb Hw. exact (ht_nav_fact keq hash HL nb ms d h0 Hnew Hnb Hw o l). Qed.
End ht.
Print Assumptions C57_ht_navigation.

(** The same for AVLTree and Critbit ([cb_value_slot t k] is [get_leaf_index(get_addr(k))]; the navigation functions of Critbit are in C39) *)
Theorem C57_av_node_mut `{Profile} {K V : Type} (pcmp : K → K → option comparison) (ms : nat) (d : K * V) (o : list (om_op K V)) kv :
  OrdLaws (po_cmp pcmp) → (0 < ms)%nat → N.of_nat ms + 1 < W32 → kv ∈ av_contents pcmp ms o →
  let t := av_after pcmp ms d o in
  ∃ i, av_get_addr pcmp t kv.1 = Val i ∧ av_get_node t i = Val kv ∧
    ∀ v, ∃ t', av_set_node_value i v t = Ret () t' ∧ av_get_mut pcmp kv.1 (λ _, v) t = Ret (Some kv.2) t'.
Proof. intros HO H0 Hw. exact (av_node_mut_fact pcmp HO ms d H0 Hw o kv). Qed.
Theorem C57_cb_leaf_mut `{Profile} {V : Type} (nn ms : nat) (d : V) (t0 : critbit V) (o : list (om_op N V)) kv :
  (0 < ms)%nat → N.of_nat nn + 1 < W32 → cb_new nn ms d = Some t0 → Forall u128_op o → kv ∈ cb_contents ms o →
  let t := (history cb_step o t0).2 in
  ∃ i, cb_value_slot t kv.1 = Val i ∧ cb_get_leaf t i = Val kv.2 ∧
    ∀ v, ∃ t', cb_replace_leaf i v t = Ret () t' ∧ cb_get_mut kv.1 (λ _, v) t = Ret (Some kv.2) t'.
Proof. intros H0 Hw Hnew. exact (cb_leaf_mut_fact nn ms d t0 H0 Hw Hnew o kv). Qed.
Print Assumptions C57_av_node_mut.
Print Assumptions C57_cb_leaf_mut.

(** Concrete cases *)
Local Instance ex_profile : Profile := {| overflow_checks := true |}.
Definition ex_nav : list (option (om_op N N)) := Some <$> [MInsert 5 50; MInsert 3 30; MInsert 8 80; MInsert 9 90; MInsert 7 70; MRemove 3].
Definition ex_btree : btree (N * N) := BNode (BNode BLeaf 1 (5, 50) (BNode BLeaf 5 (7, 70) BLeaf)) 3 (8, 80) (BNode BLeaf 4 (9, 90) BLeaf).
Example ex_C57_rb :
  let t := rb_after N.compare 5 (0, 0) ex_nav in
  rb_holds N.compare 5 (0, 0) ex_nav [(5, 50); (7, 70); (8, 80); (9, 90)] ∧
  v_pair <$> bviews SENTINEL ex_btree = [(5, 50); (7, 70); (8, 80); (9, 90)] ∧
  bviews SENTINEL ex_btree !! 1%nat = Some (View 1 5 (7, 70) SENTINEL SENTINEL) ∧
  rb_root t = btop ex_btree ∧ rb_get_parent t 5 = Val 1 ∧ rb_get_node t 5 = Val (7, 70) ∧ rb_get_right t 1 = Val 5 ∧ rb_is_leaf t 5 = Val true ∧
  rb_is_root t 3 = true ∧ rb_is_red t 5 = Val true.
Proof.
  split.
  - unfold rb_holds. unfold ex_nav. rewrite om_run_ops. by vm_compute.
  - by vm_compute.
Qed.
Definition ex_nh0 : htable N N := match ht_new 2 4 (0, 0) with Some h => h | None => HT [] (Alloc 0 1 1 []) end.
Definition ex_nht : list (hm_op N N) := [HInsert 1 10; HInsert 2 20; HInsert 3 30; HInsert 5 50; HRemove 3; HGetMut 1 (λ v, v + 1)].
Example ex_C57_ht :
  ht_new 2 4 (0, 0) = Some ex_nh0 ∧
  let h := ht_after N.eqb id ex_nh0 ex_nht in
  buckets h = [2; 1] ∧ ht_get_next h 1 = Val 4 ∧ ht_get_prev h 4 = Val 1 ∧ ht_get_node h 4 = Val (5, 50) ∧
  ht_iterate h (replicate 4 Fwd) = Val [Some (2, 20); Some (1, 11); Some (5, 50); None] ∧
  match ht_set_node_value 4 55 h with
  | Ret _ h' => buckets h' = [2; 1] ∧ ht_iterate h' (replicate 4 Fwd) = Val [Some (2, 20); Some (1, 11); Some (5, 55); None]
  | Fail _ _ => False
  end.
Proof. by vm_compute. Qed.
Example ex_C57_av :
  let t := av_after nat_pcmp 3 (0, 0) [MInsert 5 50; MInsert 7 70] in
  av_contents nat_pcmp 3 [MInsert 5 50; MInsert 7 70] = [(5, 50); (7, 70)] ∧ av_get_addr nat_pcmp t 7 = Val 2 ∧
  av_set_node_value 2 71 t = match av_get_mut nat_pcmp 7 (λ _, 71) t with Ret _ t' => Ret () t' | Fail e t' => Fail e t' end.
Proof. by vm_compute. Qed.
