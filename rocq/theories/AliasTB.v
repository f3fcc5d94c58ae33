(** * Tree Borrows: items may be collected first and used afterwards *)
From Verif Require Import AliasModel AliasUse AliasProof AliasProg AliasRun AliasLate.
Local Open Scope nat_scope.

(** ** Permissions *)
Definition valid (tr : trace) (p : ptr) (l : loc) : Prop :=
  match p with [] => True | (k, m) :: p => ∃ g, tr !! m = Some (Reborrow k p g) ∧ covers g l end.
Definition has (tr : trace) (l : loc) (x : ptr) (q : tb_perm) : Prop :=
  ∃ k n p g, x = (k, n) :: same_ref p ∧ tr !! n = Some (Reborrow k p g) ∧ k ≠ KRaw ∧ covers g l ∧ tb_run l x (drop (S n) tr) (tb_initial k) = Some q.
(** Every reference on the way to [p] is as it was when it was made *)
Definition clean (tr : trace) (p : ptr) (l : loc) : Prop :=
  valid tr p l ∧ ∀ k n x, (k, n) :: x `suffix_of` same_ref p → has tr l ((k, n) :: x) (tb_initial k).
(** Every reference on the way to [p] was written through *)
Definition used (tr : trace) (p : ptr) (l : loc) : Prop :=
  valid tr p l ∧ ∀ k n x, (k, n) :: x `suffix_of` same_ref p → has tr l ((k, n) :: x) Active.
Definition muts (p : ptr) : Prop := ∀ k n, (k, n) ∈ same_ref p → k = KMut.

Lemma valid_app tr ext p l : valid tr p l → valid (tr ++ ext) p l.
Proof. destruct p as [|[k m] p]; [done|]. intros (g & H1 & H2). exists g. split; [|done]. by apply lookup_app_l_Some. Qed.
Lemma has_det tr l x q q' : has tr l x q → has tr l x q' → q = q'.
Proof.
  intros (k & n & p & g & -> & H1 & H2 & H3 & H4) (k' & n' & p' & g' & E & H1' & H2' & H3' & H4'). injection E as <- <- E. congruence.
Qed.
Lemma has_snoc tr l x q q' e : has tr l x q → tb_event l x e q = Some q' → has (tr ++ [e]) l x q'.
Proof.
  intros (k & n & p & g & -> & H1 & H2 & H3 & H4) He. exists k, n, p, g. split; [done|]. split; [by apply lookup_app_l_Some|]. split; [done|]. split; [done|].
  rewrite drop_app_le by (apply lookup_lt_Some in H1; lia). rewrite tb_run_app, H4. cbn [mbind option_bind tb_run]. by rewrite He.
Qed.
Definition writes (e : event) (l : loc) : Prop := match e with Write _ g => covers g l | _ => False end.
Lemma tb_event_calm l x e k : ¬ writes e l → tb_event l x e (tb_initial k) = Some (tb_initial k).
Proof.
  intros Hw. unfold tb_event. destruct e as [[] p g|p g|p g]; cbn [tb_access target]; try done; (destruct (decide (covers _ _)); [|done]); try done; destruct (decide _); by destruct k.
Qed.
Lemma clean_snoc tr p l e : clean tr p l → ¬ writes e l → clean (tr ++ [e]) p l.
Proof. intros [Hv Hc] Hw. split; [by apply valid_app|]. intros k n x Hx. eapply has_snoc; [by apply Hc|]. by apply tb_event_calm. Qed.
Lemma clean_calm tr ext p l : (∀ e, e ∈ ext → ¬ writes e l) → clean tr p l → clean (tr ++ ext) p l.
Proof.
  revert tr. induction ext as [|e ext IH]; intros tr He Hc; [by rewrite app_nil_r|]. rewrite cons_middle, app_assoc. apply IH; [intros; apply He; by right|].
  apply clean_snoc; [done|]. apply He. by left.
Qed.
Lemma clean_root tr l : clean tr [] l.
Proof. split; [done|]. intros k n x Hx. by apply suffix_nil_inv in Hx. Qed.
Lemma clean_reborrow tr k p g l : clean tr p l → covers g l → clean (tr ++ [Reborrow k p g]) ((k, length tr) :: p) l.
Proof.
  intros Hc Hg. assert (Hl : (tr ++ [Reborrow k p g]) !! length tr = Some (Reborrow k p g)) by (rewrite lookup_app_r, Nat.sub_diag by lia; done).
  split; [by exists g|]. apply (clean_snoc _ _ _ (Reborrow k p g)) in Hc as [_ Hc]; [|(cbn; by intros ?)]. intros k' n x Hx.
  assert (Hk : (k = KRaw ∧ same_ref ((k, length tr) :: p) = same_ref p) ∨ (k ≠ KRaw ∧ same_ref ((k, length tr) :: p) = (k, length tr) :: same_ref p)) by (destruct k; [by right|by right|by left]).
  destruct Hk as [[_ Hk]|[Hk Hk']]; [rewrite Hk in Hx; by apply Hc|rewrite Hk' in Hx].
  apply suffix_cons_inv in Hx as [[= -> -> ->]|Hx]; [|by apply Hc].
  exists k, (length tr), p, g. split; [done|]. split; [done|]. split; [done|]. split; [done|]. rewrite drop_ge; [done|]. rewrite app_length. cbn. lia.
Qed.
Lemma used_clean_snoc tr p l e q : muts p → valid tr p l → (∀ k n x, (k, n) :: x `suffix_of` same_ref p → has tr l ((k, n) :: x) q) →
  q = Reserved ∨ q = Active → via e = p → covers (target e) l → match e with Reborrow _ _ _ => False | _ => True end →
  ∀ k n x, (k, n) :: x `suffix_of` same_ref p → has (tr ++ [e]) l ((k, n) :: x) (match e with Write _ _ => Active | _ => q end).
Proof.
  intros Hm Hv Hh Hq Hvia Hg Hnr k n x Hx. eapply has_snoc; [by apply Hh|]. unfold tb_event.
  destruct e as [| p' g|p' g]; [done| |]; cbn [tb_access target via] in *; subst p'; rewrite decide_True by done; rewrite decide_True by done; by destruct Hq as [-> | ->].
Qed.
Lemma has_elsewhere tr l x q e : ¬ covers (target e) l → has tr l x q → has (tr ++ [e]) l x q.
Proof. intros Hg Hh. eapply has_snoc; [done|]. unfold tb_event. destruct (tb_access e) as [[]|]; [|done]. by rewrite decide_False. Qed.

(** ** One event more *)
Lemma root_ok l tr : ∀ q, q = Reserved ∨ q = Active → is_Some (tb_run l [] tr q).
Proof.
  induction tr as [|e tr IH]; intros q Hq; cbn [tb_run]; [done|].
  assert (H : ∃ q', tb_event l [] e q = Some q' ∧ (q' = Reserved ∨ q' = Active)).
  { unfold tb_event. destruct (tb_access e) as [[p w]|]; [|by eauto]. destruct (decide _); [|by eauto]. rewrite decide_True by apply suffix_nil.
    destruct Hq as [-> | ->], w; cbn; eauto. }
  destruct H as (q' & -> & Hq'). cbn [mbind option_bind]. by apply IH.
Qed.
Lemma tb_snoc tr e :
  tb_ok tr → (∀ l, covers (target e) l → valid tr (via e) l) →
  (∀ l p w k n x q, tb_access e = Some (p, w) → covers (target e) l → (k, n) :: x `suffix_of` p → has tr l ((k, n) :: x) q → is_Some (tb_local w q)) →
  tb_ok (tr ++ [e]).
Proof.
  intros (H1 & _ & H3) Hv Hacc. split; [|split].
  - intros n e' l Hn Hl. apply lookup_app_Some in Hn as [Hn|[Hge Hn]].
    + specialize (H1 n e' l Hn Hl). destruct (via e') as [|[k m] p]; [done|]. destruct H1 as (? & g & ? & ?). split; [done|]. exists g. split; [|done]. by apply lookup_app_l_Some.
    + apply list_lookup_singleton_Some in Hn as [Hn <-]. specialize (Hv l Hl). destruct (via e) as [|[k m] p]; [done|]. destruct Hv as (g & Hm & Hg).
      split; [apply lookup_lt_Some in Hm; lia|]. exists g. split; [|done]. by apply lookup_app_l_Some.
  - intros l. apply root_ok. by left.
  - intros n k p g l Hn Hk Hg. apply lookup_app_Some in Hn as [Hn|[Hge Hn]].
    + destruct (H3 _ _ _ _ _ Hn Hk Hg) as [q Hq].
      assert (Hh : has tr l ((k, n) :: same_ref p) q) by (by exists k, n, p, g).
      rewrite drop_app_le by (apply lookup_lt_Some in Hn; lia). rewrite tb_run_app, Hq. cbn [mbind option_bind tb_run].
      assert (is_Some (tb_event l ((k, n) :: same_ref p) e q)) as [q' ->]; [|done].
      unfold tb_event. destruct (tb_access e) as [[p' w]|] eqn:Ea; [|done]. destruct (decide _) as [Hc|]; [|done]. destruct (decide _) as [Hs|]; [|done]. by eapply Hacc.
    + apply list_lookup_singleton_Some in Hn as [Hn Heq]. rewrite drop_ge; [done|]. rewrite app_length. cbn. lia.
Qed.
Definition peeks (e : event) : Prop := match e with Write _ _ => False | _ => True end.
Lemma tb_peek tr e : tb_ok tr → peeks e → (∀ l, covers (target e) l → clean tr (via e) l) → tb_ok (tr ++ [e]).
Proof.
  intros Hk Hp Hc. apply tb_snoc; [done|intros l Hl; by apply Hc|]. intros l p w k n x q Ha Hl Hs Hh.
  assert (w = false ∧ p = same_ref (via e)) as [-> ->]. { destruct e as [[] ? ?|? ?|? ?]; naive_solver. }
  rewrite (has_det _ _ _ _ _ Hh (proj2 (Hc l Hl) _ _ _ Hs)). by destruct k.
Qed.
Lemma tb_root tr e : tb_ok tr → peeks e → via e = [] → tb_ok (tr ++ [e]).
Proof. intros Hk Hp Hv. apply tb_peek; [done..|]. rewrite Hv. intros l _. apply clean_root. Qed.

(** ** What a call of the iterator adds *)
Lemma walk_calm n w : walk n w → ∀ e l, e ∈ w → ¬ writes e l.
Proof. induction 1; intros e l; rewrite ?elem_of_cons, ?elem_of_nil; intros He; naive_solver. Qed.
Lemma yield_calm fl n nd i e l : e ∈ yield_evs fl n nd i → ¬ writes e l.
Proof. destruct fl; unfold yield_evs, value_evs; cbn [app]; rewrite ?elem_of_cons, ?elem_of_nil; intros He; naive_solver. Qed.
Lemma tb_walk n w : walk n w → ∀ tr, length tr = n → tb_ok tr → tb_ok (tr ++ w).
Proof.
  induction 1 as [n|n w Hw IH|n w Hw IH|n b i w Hw IH]; intros tr Hn Hk.
  - by rewrite app_nil_r.
  - rewrite cons_middle, app_assoc. apply IH; [rewrite app_length; cbn; lia|]. by apply tb_root.
  - rewrite cons_middle, app_assoc. apply IH; [rewrite app_length; cbn; lia|]. by apply tb_root.
  - rewrite cons_middle, app_assoc. rewrite cons_middle, app_assoc. apply IH; [rewrite !app_length; cbn; lia|].
    apply tb_peek; [by apply tb_root|done|]. intros l Hl. cbn [via]. rewrite <- Hn. by apply clean_reborrow; [apply clean_root|].
Qed.
(** A reborrow of part of what the pointer covers *)
Lemma tb_reborrow tr k p g : tb_ok tr → (∀ l, covers g l → clean tr p l) →
  tb_ok (tr ++ [Reborrow k p g]) ∧ ∀ l, covers g l → clean (tr ++ [Reborrow k p g]) ((k, length tr) :: p) l.
Proof. intros Hk Hc. split; [by apply tb_peek|]. intros l Hl. apply clean_reborrow; [by apply Hc|done]. Qed.
Lemma tb_value tr b g i : tb_ok tr → (∀ l, covers g l → covers (Slot b i) l) → let tr' := tr ++ value_evs (length tr) b g i in
  tb_ok tr' ∧ ∀ l, covers g l → clean tr' (p_val (length tr)) l.
Proof.
  intros Hk Hg. cbn zeta. unfold value_evs. set (n := length tr).
  destruct (tb_reborrow tr KMut [] (Pool b) Hk) as [K1 C1]; [intros; apply clean_root|]. set (t1 := tr ++ [_]) in *. assert (L1 : length t1 = S n) by (unfold t1; rewrite app_length; cbn; lia).
  destruct (tb_reborrow t1 KRaw (p_pool n) (Pool b) K1) as [K2 C2]; [done|]. set (t2 := t1 ++ [_]) in *. assert (L2 : length t2 = S (S n)) by (unfold t2; rewrite app_length; cbn; lia).
  rewrite L1 in C2. fold (p_raw n) in C2.
  destruct (tb_reborrow t2 KMut (p_raw n) (Slot b i) K2) as [K3 C3]; [intros l Hl; apply C2; destruct Hl as [->|[-> | ->]]; done|].
  set (t3 := t2 ++ [_]) in *. assert (L3 : length t3 = S (S (S n))) by (unfold t3; rewrite app_length; cbn; lia).
  rewrite L2 in C3. fold (p_node n) in C3.
  destruct (tb_reborrow t3 KMut (p_node n) g K3) as [K4 C4]; [intros l Hl; by apply C3, Hg|]. rewrite L3 in C4. fold (p_val n) in C4.
  unfold t3, t2, t1 in K4, C4. rewrite <- !app_assoc in K4, C4. done.
Qed.
Lemma tb_yield fl tr nd i : tb_ok tr → let tr' := tr ++ yield_evs fl (length tr) nd i in let q := yield_refs fl (length tr) nd i in
  tb_ok tr' ∧ clean tr' (rf_val q).1 (LVal (fl_pool fl) i) ∧ match rf_key q with None => True | Some (k, g) => ∃ n', g = KeyOf false n' ∧ clean tr' k (LKey false n') end.
Proof.
  intros Hk. cbn zeta. set (n := length tr). destruct fl; cbn [yield_evs yield_refs rf_val rf_key fl_pool].
  - destruct (tb_value tr false (ValOf false i) i Hk) as [H1 H2]; [cbn; naive_solver|]. split; [done|]. split; [|done]. cbn [fst]. by apply H2.
  - destruct (tb_value tr false (Entry false i) i Hk) as [H1 H2]; [cbn; naive_solver|]. fold n in H1, H2. rewrite app_assoc. set (t1 := tr ++ _) in *.
    assert (L1 : length t1 = 4 + n). { unfold t1. rewrite app_length. cbn. fold n. lia. }
    destruct (tb_reborrow t1 KShr (p_val n) (KeyOf false i) H1) as [K2 C2]; [intros l Hl; apply H2; by left|]. rewrite app_two. rewrite L1 in C2. set (t2 := t1 ++ [_]) in *.
    assert (L2 : length t2 = 5 + n). { unfold t2. rewrite app_length. cbn. lia. }
    destruct (tb_reborrow t2 KMut (p_val n) (ValOf false i) K2) as [K3 C3]; [intros l Hl; apply clean_snoc; [apply H2; by right|(cbn; by intros ?)]|]. rewrite L2 in C3.
    split; [done|]. split; [by apply C3|]. exists i. split; [done|]. apply clean_snoc; [by apply C2|(cbn; by intros ?)].
  - destruct (tb_reborrow tr KShr [] (Pool false) Hk) as [K1 C1]; [intros; apply clean_root|]. set (t1 := tr ++ [_]) in *. assert (L1 : length t1 = S n) by (unfold t1; rewrite app_length; cbn; lia).
    fold n in C1. destruct (tb_reborrow t1 KShr [(KShr, n)] (KeyOf false nd) K1) as [K2 C2]; [intros l Hl; apply C1; cbn in Hl; by subst l|]. set (t2 := t1 ++ [_]) in *.
    assert (L2 : length t2 = S (S n)) by (unfold t2; rewrite app_length; cbn; lia). rewrite L1 in C2.
    destruct (tb_value t2 true (ValOf true i) i K2) as [H1 H2]; [cbn; naive_solver|]. rewrite L2 in *. rewrite app_assoc, app_two. fold t1. fold t2.
    split; [done|]. split; [by apply H2|]. exists nd. split; [done|]. apply clean_calm; [|by apply C2]. intros e He. unfold value_evs in He. rewrite ?elem_of_cons, ?elem_of_nil in He. naive_solver.
Qed.
Lemma muts_yield fl n nd i : muts (rf_val (yield_refs fl n nd i)).1 ∧ (rf_val (yield_refs fl n nd i)).2 = ValOf (fl_pool fl) i.
Proof.
  split; [|by destruct fl]. intros k m Hin. apply elem_of_list_In in Hin. destruct fl; cbn in Hin; naive_solver.
Qed.

(** ** Programs *)
(** [U]: items used since the last call of the iterator, [D]: items used before *)
Fixpoint phased {V} (U D : nat → Prop) (script : list (hact V)) : Prop :=
  match script with
  | [] => True
  | HNext _ :: script => phased (λ _, False) (λ j, D j ∨ U j) script
  | HKey _ :: script => phased U D script
  | HUse j _ :: script => ¬ D j ∧ phased (λ j', U j' ∨ j' = j) D script
  end.
Lemma phased_intro {V} (script : list (hact V)) : ∀ U D : nat → Prop,
  (∀ s0 j f s1, D j → script ≠ s0 ++ HUse j f :: s1) →
  (∀ s0 e s1 j f s2, U j → script ≠ s0 ++ HNext e :: s1 ++ HUse j f :: s2) → one_phase script → phased U D script.
Proof.
  induction script as [|[e|j|j f] script IH]; intros U D HD HU Ho; cbn [phased]; [done| | |].
  - apply IH.
    + intros s0 j f s1 [Hj|Hj] ->; [by apply (HD (HNext e :: s0) j f s1 Hj)|by apply (HU [] e s0 j f s1 Hj)].
    + done.
    + intros s0 j f s1 e' s2 g s3 ->. by apply (Ho (HNext e :: s0) j f s1 e' s2 g s3).
  - apply IH.
    + intros s0 j' f s1 Hj ->. by apply (HD (HKey j :: s0) j' f s1 Hj).
    + intros s0 e s1 j' f s2 Hj ->. by apply (HU (HKey j :: s0) e s1 j' f s2 Hj).
    + intros s0 j' f s1 e' s2 g s3 ->. by apply (Ho (HKey j :: s0) j' f s1 e' s2 g s3).
  - split; [intros Hj; by apply (HD [] j f script Hj)|]. apply IH.
    + intros s0 j' f' s1 Hj ->. by apply (HD (HUse j f :: s0) j' f' s1 Hj).
    + intros s0 e s1 j' f' s2 [Hj| ->] ->; [by apply (HU (HUse j f :: s0) e s1 j' f' s2 Hj)|]. by apply (Ho [] j f s0 e s1 f' s2).
    + intros s0 j' f' s1 e' s2 g s3 ->. by apply (Ho (HUse j f :: s0) j' f' s1 e' s2 g s3).
Qed.

(** The other direction *)
Lemma phased_later {V} j (s1 : list (hact V)) s2 : ∀ U D, phased U D (s1 ++ s2) → U j ∨ D j → ∃ U' D' : nat → Prop, phased U' D' s2 ∧ (U' j ∨ D' j) ∧ (D j → D' j).
Proof.
  induction s1 as [|[e|j'|j' f] s1 IH]; intros U D Hp Hj; cbn [app phased] in Hp.
  - by exists U, D.
  - destruct (IH _ _ Hp) as (U' & D' & ? & ? & Hd); [naive_solver|]. exists U', D'. split_and!; [done..|]. intros ?. apply Hd. by left.
  - exact (IH U D Hp Hj).
  - destruct Hp as [_ Hp]. destruct (IH _ _ Hp) as (U' & D' & ? & ? & Hd); [naive_solver|]. by exists U', D'.
Qed.
Lemma phased_app {V} (s1 : list (hact V)) s2 : ∀ U D, phased U D (s1 ++ s2) → ∃ U' D' : nat → Prop, phased U' D' s2.
Proof.
  induction s1 as [|[e|j'|j' f] s1 IH]; intros U D Hp; cbn [app phased] in Hp; [by exists U, D|by eapply IH..|]. destruct Hp as [_ Hp]. by eapply IH.
Qed.
Lemma phased_elim {V} (script : list (hact V)) : phased (λ _, False) (λ _, False) script → one_phase script.
Proof.
  intros Hp s0 j f s1 e s2 g s3 ->. apply phased_app in Hp as (U & D & [_ Hp]).
  apply (phased_later j) in Hp as (U1 & D1 & Hp & Hj & _); [|left; by right]. cbn [phased] in Hp.
  apply (phased_later j) in Hp as (U2 & D2 & [Hn _] & _ & Hd); [|right; naive_solver]. apply Hn, Hd. naive_solver.
Qed.

Section program.
  Context {S0 R K V : Type} (fl : flavour) (next next_back : M (S0 * trace) (option (R * refs))) (base base_back : M S0 (option R)).
  Context (index : R → N) (key : R → S0 → res K) (use : R → (V → V) → M S0 V).
  Hypothesis Hn : contract fl index next base.
  Hypothesis Hb : contract fl index next_back base_back.
  Notation run := (traced (K:=K) next next_back index key use).

  Definition item_ok (tr : trace) (U D : nat → Prop) (j : nat) (r : R) (q : refs) : Prop :=
    let v := (rf_val q).1 in let l := LVal (fl_pool fl) (index r) in
    (rf_val q).2 = ValOf (fl_pool fl) (index r) ∧ muts v ∧
    (D j ∨ (U j ∧ used tr v l) ∨ (¬ U j ∧ clean tr v l)) ∧
    match rf_key q with None => True | Some (k, g) => ∃ n', g = KeyOf false n' ∧ clean tr k (LKey false n') end.
  Definition items_ok (tr : trace) (U D : nat → Prop) (hs : list (option (R * refs))) : Prop :=
    ∀ j r q, hs !! j = Some (Some (r, q)) → item_ok tr U D j r q.
  Definition ids (hs : list (option (R * refs))) : list N := omap (λ o, index ∘ fst <$> o) hs.
  Lemma ids_inj hs j j' r q r' q' : NoDup (ids hs) → hs !! j = Some (Some (r, q)) → hs !! j' = Some (Some (r', q')) → index r = index r' → j = j'.
  Proof.
    unfold ids. revert j j'. induction hs as [|o hs IH]; intros j j' Hnd Hj Hj' Hi; [done|].
    assert (Hin : ∀ m r q, hs !! m = Some (Some (r, q)) → index r ∈ omap (λ o : option (R * refs), index ∘ fst <$> o) hs).
    { intros m r0 q0 Hm. apply elem_of_list_omap. exists (Some (r0, q0)). split; [by eapply elem_of_list_lookup_2|done]. }
    destruct j as [|j], j' as [|j']; [done| | |].
    - exfalso. cbn in Hj. injection Hj as ->. cbn in Hnd. apply NoDup_cons in Hnd as [Hnd _]. apply Hnd. rewrite Hi. by eapply Hin.
    - exfalso. cbn in Hj'. injection Hj' as ->. cbn in Hnd. apply NoDup_cons in Hnd as [Hnd _]. apply Hnd. rewrite <- Hi. by eapply Hin.
    - f_equal. apply (IH j j'); try done. destruct o as [[]|]; cbn in Hnd; [by apply NoDup_cons in Hnd as [_ Hnd]|done].
  Qed.
  Lemma item_calm tr ext D U j r q : (∀ e l, e ∈ ext → ¬ writes e l) → item_ok tr U D j r q → item_ok (tr ++ ext) (λ _, False) (λ j, D j ∨ U j) j r q.
  Proof.
    intros Hc (H1 & H2 & H3 & H4). split; [done|]. split; [done|]. split.
    - destruct H3 as [?|[[? _]|[_ ?]]]; [left; by left|left; by right|]. right. right. split; [by intros []|]. apply clean_calm; [|done]. intros e. apply Hc.
    - destruct (rf_key q) as [[k g]|]; [|done]. destruct H4 as (n' & ? & ?). exists n'. split; [done|]. apply clean_calm; [|done]. intros e. apply Hc.
  Qed.

  Lemma run_phased script : ∀ U D hs s (tr : trace) ans st',
    run script hs (s, tr) = Ret ans st' → NoDup (ids hs ++ omap got ans) → tb_ok tr → items_ok tr U D hs → phased U D script → tb_ok st'.2.
  Proof using Hn Hb.
    induction script as [|[e|j|j f] script IH]; intros U D hs s tr ans st' E Hnd Hk Hit Hph; cbn [phased] in Hph.
    - cbn in E. by injection E as <- <-.
    - cbn [traced] in E. unfold mbind, M_bind in E. destruct (call_ok fl next next_back base base_back index Hn Hb e s tr) as (w & Hw & Ec).
      pose proof (tb_walk _ _ Hw tr eq_refl Hk) as Hkw.
      destruct (match e with Fwd => base | Bwd => base_back end s) as [[r|] s'|er s'].
      + destruct Ec as [nd Ec]. rewrite Ec in E. destruct (tb_yield fl (tr ++ w) nd (index r) Hkw) as (K1 & C1 & C2). set (q := yield_refs _ _ _ _) in *.
        destruct (run script _ _) as [ans' st|] eqn:Er; [|done]. cbn in E. injection E as <- <-. refine (IH _ _ _ _ _ _ _ Er _ K1 _ Hph).
        * unfold ids. rewrite omap_app. cbn in *. by rewrite <- app_assoc.
        * intros j r' q' Hj. apply lookup_app_Some in Hj as [Hj|[Hge Hj]].
          { rewrite <- app_assoc. apply item_calm; [|by apply Hit]. intros e' l. rewrite elem_of_app. intros [?|?]; [by eapply walk_calm|by eapply yield_calm]. }
          apply list_lookup_singleton_Some in Hj as [_ [= <- <-]]. destruct (muts_yield fl (length (tr ++ w)) nd (index r)) as [M1 M2]. split; [done|]. split; [done|]. split; [|done].
          right. right. split; [by intros []|done].
      + rewrite Ec in E. destruct (run script _ _) as [ans' st|] eqn:Er; [|done]. cbn in E. injection E as <- <-. refine (IH _ _ _ _ _ _ _ Er _ Hkw _ Hph).
        * unfold ids. rewrite omap_app. cbn in *. by rewrite app_nil_r.
        * intros j r' q' Hj. apply lookup_app_Some in Hj as [Hj|[Hge Hj]]; [|by apply list_lookup_singleton_Some in Hj as [_ ?]].
          apply item_calm; [|by apply Hit]. by eapply walk_calm.
      + by rewrite Ec in E.
    - cbn [traced] in E. destruct (hs !! j) as [[[r q]|]|] eqn:Ej.
      2,3: unfold mbind, M_bind, mret, M_ret in E; destruct (run script _ _) as [ans' st|] eqn:Er; [|done]; injection E as <- <-; by refine (IH _ _ _ _ _ _ _ Er _ Hk Hit Hph).
      destruct (Hit _ _ _ Ej) as (_ & _ & _ & Hkey). unfold mbind, M_bind, mret, M_ret in E.
      assert (∃ t1 : trace, (match rf_key q with Some (p, g) => emit (Read p g) | None => λ s1, Ret () s1 end) (s, tr) = Ret () (s, t1) ∧ tb_ok t1 ∧ items_ok t1 U D hs) as (t1 & Et & K1 & I1).
      { destruct (rf_key q) as [[p g]|]; [|by exists tr]. destruct Hkey as (n' & -> & Hc). exists (tr ++ [Read p (KeyOf false n')]). split; [done|]. split.
        - apply tb_peek; [done|done|]. intros l Hl. cbn in Hl. by subst l.
        - intros j' r' q' Hj'. destruct (Hit _ _ _ Hj') as (I1 & I2 & I3 & I4). split; [done|]. split; [done|]. split.
          + destruct I3 as [?|[[? [Hv Hu]]|[? ?]]]; [by left|right; left; split; [done|]|right; right; split; [done|]; (apply clean_snoc; [done|cbn; by intros ?])].
            split; [by apply valid_app|]. intros k n x Hx. apply has_elsewhere; [(cbn; by intros ?)|]. by apply Hu.
          + destruct (rf_key q') as [[k g]|]; [|done]. destruct I4 as (n2 & ? & ?). exists n2. split; [done|]. (apply clean_snoc; [done|cbn; by intros ?]). }
      rewrite Et in E. unfold gets, mget, lift in E. cbn [fst snd] in E.
      destruct (key r s) as [k|]; [|done]. destruct (run script _ _) as [ans' st|] eqn:Er; [|done]. injection E as <- <-. by refine (IH _ _ _ _ _ _ _ Er _ K1 I1 Hph).
    - cbn [traced] in E. destruct Hph as [HD Hph]. destruct (hs !! j) as [[[r q]|]|] eqn:Ej.
      2,3: unfold mbind, M_bind, mret, M_ret in E; destruct (run script _ _) as [ans' st|] eqn:Er; [|done]; injection E as <- <-; refine (IH _ _ _ _ _ _ _ Er _ Hk _ Hph); [done|];
        intros j' r' q' Hj'; destruct (Hit _ _ _ Hj') as (I1 & I2 & I3 & I4); split; [done|]; split; [done|]; split; [|done]; destruct I3 as [?|[[? ?]|[? ?]]]; [by left|right; left; split; [by left|done]|];
        right; right; split; [|done]; intros [?| ->]; [done|congruence].
      destruct (Hit _ _ _ Ej) as (Er2 & Hm & Hst & _). destruct Hst as [?|Hst]; [done|].
      set (v := (rf_val q).1) in *. set (l0 := LVal (fl_pool fl) (index r)) in *.
      assert (∃ q0, (q0 = Reserved ∨ q0 = Active) ∧ valid tr v l0 ∧ ∀ k n x, (k, n) :: x `suffix_of` same_ref v → has tr l0 ((k, n) :: x) q0) as (q0 & Hq0 & Hv & Hh).
      { destruct Hst as [[_ [Hv Hu]]|[_ [Hv Hc]]]; [exists Active; split_and!; try done; by right|]. exists Reserved. split; [by left|]. split; [done|]. intros k n x Hx.
        assert (k = KMut) as ->. { apply (Hm k n). destruct Hx as [y ->]. rewrite elem_of_app. right. left. } by apply (Hc KMut). }
      set (e1 := Read v (rf_val q).2). set (e2 := Write v (rf_val q).2). set (t1 := tr ++ [e1]). set (t2 := t1 ++ [e2]).
      assert (Hh1 : ∀ k n x, (k, n) :: x `suffix_of` same_ref v → has t1 l0 ((k, n) :: x) q0).
      { refine (used_clean_snoc tr v l0 e1 q0 Hm Hv Hh Hq0 _ _ _); try done. unfold e1. cbn [target]. by rewrite Er2. }
      assert (Hh2 : ∀ k n x, (k, n) :: x `suffix_of` same_ref v → has t2 l0 ((k, n) :: x) Active).
      { refine (used_clean_snoc t1 v l0 e2 q0 Hm _ Hh1 Hq0 _ _ _); try done; [by apply valid_app|]. unfold e2. cbn [target]. by rewrite Er2. }
      assert (K1 : tb_ok t1).
      { apply tb_snoc; [done| |].
        - intros l Hl. unfold e1 in Hl. cbn in Hl. rewrite Er2 in Hl. cbn in Hl. by subst l.
        - intros l p w k n x q' Ha Hl Hs Hh'. unfold e1 in Hl. cbn in Hl. rewrite Er2 in Hl. cbn in Hl. subst l. cbn in Ha. injection Ha as <- <-.
          rewrite (has_det _ _ _ _ _ Hh' (Hh _ _ _ Hs)). by destruct Hq0 as [-> | ->]. }
      assert (K2 : tb_ok t2).
      { apply tb_snoc; [done| |].
        - intros l Hl. unfold e2 in Hl. cbn in Hl. rewrite Er2 in Hl. cbn in Hl. subst l. by apply valid_app.
        - intros l p w k n x q' Ha Hl Hs Hh'. unfold e2 in Hl. cbn in Hl. rewrite Er2 in Hl. cbn in Hl. subst l. cbn in Ha. injection Ha as <- <-.
          rewrite (has_det _ _ _ _ _ Hh' (Hh1 _ _ _ Hs)). by destruct Hq0 as [-> | ->]. }
      unfold mbind, M_bind, mret, M_ret, emit, modify, quietly, zoom, lift, gets in E. cbn [fst snd] in E. fold v in E. fold e1 e2 in E. fold t1 in E. fold t2 in E.
      destruct (use r f s) as [x s'|]; [|done]. destruct (run script _ _) as [ans' st|] eqn:Er; [|done]. injection E as <- <-. refine (IH _ _ _ _ _ _ _ Er _ K2 _ Hph); [done|].
      intros j' r' q' Hj'. destruct (Hit _ _ _ Hj') as (I1 & I2 & I3 & I4). split; [done|]. split; [done|].
      assert (Hcl : ∀ p l, l ≠ l0 → clean tr p l → clean t2 p l).
      { intros p l Hl Hc. apply clean_snoc; [apply clean_snoc; [done|(cbn; by intros ?)]|]. unfold e2. cbn. rewrite Er2. cbn. by fold l0. }
      split.
      + destruct (decide (j' = j)) as [-> |Hne].
        * rewrite Ej in Hj'. injection Hj' as <- <-. right. left. split; [by right|]. split; [by apply valid_app, valid_app|done].
        * assert (Hl : LVal (fl_pool fl) (index r') ≠ l0). { intros [= Hi]. apply Hne. eapply (ids_inj hs); try done. by apply NoDup_app in Hnd as [? _]. }
          destruct I3 as [?|[[? [Hv' Hu]]|[? ?]]]; [by left|right; left; split; [by left|]|right; right; split; [by intros [?|?]|by apply Hcl]].
          split; [by apply valid_app, valid_app|]. intros k n x0 Hx. apply has_elsewhere; [unfold e2; cbn; rewrite Er2; cbn; by fold l0|]. apply has_elsewhere; [unfold e1; cbn; rewrite Er2; cbn; by fold l0|]. by apply Hu.
      + destruct (rf_key q') as [[k g]|]; [|done]. destruct I4 as (n2 & ? & ?). exists n2. split; [done|]. by apply Hcl.
  Qed.
  Lemma run_one_phase script s ans st' : run script [] (s, []) = Ret ans st' → NoDup (omap got ans) → one_phase script → tb_ok st'.2.
  Proof using Hn Hb.
    intros E Hnd Ho. refine (run_phased script (λ _, False) (λ _, False) [] s [] ans st' E Hnd _ _ _).
    - split; [|split]; [intros n e l Hl; done|intros l; by eexists|intros n k p g l Hl; done].
    - intros j r q Hj. done.
    - apply phased_intro; try done.
  Qed.
End program.
