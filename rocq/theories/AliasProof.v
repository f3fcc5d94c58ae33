(** * Facts about the two sets of rules, for any trace *)
From Verif Require Import AliasSpec.
Local Open Scope nat_scope.

(** ** Stacked Borrows *)
Lemma sb_run_app l n t1 t2 s : sb_run l n (t1 ++ t2) s = (s' ← sb_run l n t1 s; sb_run l (n + length t1) t2 s').
Proof.
  revert n s. induction t1 as [|e t1 IH]; intros n s; cbn [app sb_run length].
  - by rewrite Nat.add_0_r.
  - destruct (if decide (covers (target e) l) then sb_event n e s else Some s) as [s'|]; [|done].
    cbn [mbind option_bind]. rewrite IH. by rewrite Nat.add_succ_r.
Qed.
Lemma sb_at_snoc tr e l : sb_at (tr ++ [e]) l = (s ← sb_at tr l; if decide (covers (target e) l) then sb_event (length tr) e s else Some s).
Proof.
  unfold sb_at. rewrite sb_run_app. cbn [plus]. destruct (sb_run l 0 tr _) as [s|]; [|done]. cbn [mbind option_bind sb_run].
  by destruct (if decide _ then _ else _).
Qed.
Lemma sb_at_app tr t2 l : sb_at (tr ++ t2) l = (s ← sb_at tr l; sb_run l (length tr) t2 s).
Proof. unfold sb_at. by rewrite sb_run_app. Qed.

Lemma sb_read_tags p s s' : sb_read p s = Some s' → s'.*2 = s.*2.
Proof.
  revert s'. induction s as [|it s IH]; intros s'; cbn [sb_read]; [done|]. destruct (decide (grants_read p it)); [naive_solver|].
  destruct (sb_read p s) as [s''|] eqn:E; [|done]. cbn [mbind option_bind]. intros [= <-]. cbn. f_equal. by apply IH.
Qed.
Lemma sb_write_tags p s s' : sb_write p s = Some s' → s'.*2 `sublist_of` s.*2 ∧ length s' ≤ length s.
Proof.
  revert s'. induction s as [|it s IH]; intros s'; cbn [sb_write]; [done|]. destruct (decide (grants_write p it)); [naive_solver|].
  destruct (sb_write p s) as [s''|] eqn:E; [|done]. cbn [mbind option_bind]. destruct (IH s'' eq_refl) as [H1 H2].
  destruct (decide _) as [_|_]; intros [= <-]; cbn; split; [by constructor|lia|by constructor|lia].
Qed.
Lemma sb_raw_tags p q s s' : sb_raw p q s = Some s' → ∀ x, x ∈ s'.*2 → x = q ∨ x ∈ s.*2.
Proof.
  revert s'. induction s as [|it s IH]; intros s'; cbn [sb_raw]; [done|]. destruct (decide (grants_write p it)).
  { intros [= <-] x. cbn. rewrite !elem_of_cons. naive_solver. }
  destruct (sb_raw p q s) as [s''|] eqn:E; [|done]. cbn [mbind option_bind]. intros [= <-] x. cbn. rewrite !elem_of_cons.
  specialize (IH s'' eq_refl x). naive_solver.
Qed.
(** Nothing ever brings a removed tag back *)
Lemma sb_event_gone n e s s' k m p : m < n → sb_event n e s = Some s' → (k, m) :: p ∉ s.*2 → (k, m) :: p ∉ s'.*2.
Proof.
  intros Hm He Hs. destruct e as [[] q g|q g|q g]; cbn [sb_event] in He.
  - destruct (sb_write q s) as [s1|] eqn:E; [|done]. injection He as <-. apply sb_write_tags in E as [E _]. cbn. rewrite not_elem_of_cons. split; [intros [= -> ->]; lia|].
    intros Hx. apply Hs. by eapply elem_of_submseteq, sublist_submseteq.
  - destruct (sb_read q s) as [s1|] eqn:E; [|done]. injection He as <-. apply sb_read_tags in E. cbn. rewrite not_elem_of_cons, E. split; [intros [= -> ->]; lia|done].
  - intros Hx. destruct (sb_raw_tags _ _ _ _ He _ Hx) as [[= -> ->]|]; [lia|done].
  - apply sb_read_tags in He. by rewrite He.
  - apply sb_write_tags in He as [He _]. intros Hx. apply Hs. by eapply elem_of_submseteq, sublist_submseteq.
Qed.
Lemma sb_run_gone l n tr s s' k m p : m < n → sb_run l n tr s = Some s' → (k, m) :: p ∉ s.*2 → (k, m) :: p ∉ s'.*2.
Proof.
  revert n s. induction tr as [|e tr IH]; intros n s Hm; cbn [sb_run]; [naive_solver|].
  destruct (decide _); cbn [mbind option_bind].
  - destruct (sb_event n e s) as [s1|] eqn:E; [|done]. intros H1 Hs. eapply IH; [|done|]; [lia|]. by eapply sb_event_gone.
  - intros H1 Hs. eapply IH; [|done|]; [lia|done].
Qed.
Lemma sb_read_gone p s : p ∉ s.*2 → sb_read p s = None.
Proof.
  induction s as [|it s IH]; [done|]. cbn. rewrite not_elem_of_cons. intros [H1 H2]. rewrite decide_False by (unfold grants_read; naive_solver). by rewrite IH.
Qed.

(** The reference everything starts from stays at the bottom *)
Definition bottom (s : stack) : Prop := ∃ up, s = up ++ [(Unique, [])] ∧ Forall (λ it, it.2 ≠ []) up.
Lemma bottom_cons it s : it.2 ≠ [] → bottom s → bottom (it :: s).
Proof. intros Hi (up & -> & Hf). exists (it :: up). split; [done|by constructor]. Qed.
Lemma bottom_inv it s : bottom (it :: s) → (it = (Unique, []) ∧ s = []) ∨ (it.2 ≠ [] ∧ bottom s).
Proof.
  intros ([|x up] & Hs & Hf); simplify_eq/=; [by left|]. apply Forall_cons in Hf as [? Hf]. right. split; [done|]. by exists up.
Qed.
Lemma bottom_read p s s' : bottom s → sb_read p s = Some s' → bottom s'.
Proof.
  revert s'. induction s as [|it s IH]; intros s' Hb; cbn [sb_read]; [done|]. destruct (decide (grants_read p it)); [naive_solver|].
  destruct (sb_read p s) as [s''|] eqn:E; [|done]. cbn [mbind option_bind]. intros [= <-].
  apply bottom_inv in Hb as [[-> ->]|[Hi Hb]]; [done|]. apply bottom_cons; [done|]. by apply IH.
Qed.
Lemma bottom_write p s s' : bottom s → sb_write p s = Some s' → bottom s'.
Proof.
  revert s'. induction s as [|it s IH]; intros s' Hb; cbn [sb_write]; [done|]. destruct (decide (grants_write p it)); [naive_solver|].
  destruct (sb_write p s) as [s''|] eqn:E; [|done]. cbn [mbind option_bind].
  apply bottom_inv in Hb as [[-> ->]|[Hi Hb]]; [done|]. destruct (decide _); intros [= <-]; [apply bottom_cons; [done|]|]; by apply IH.
Qed.
Lemma bottom_raw p q s s' : q ≠ [] → bottom s → sb_raw p q s = Some s' → bottom s'.
Proof.
  intros Hq. revert s'. induction s as [|it s IH]; intros s' Hb; cbn [sb_raw]; [done|]. destruct (decide (grants_write p it)).
  { intros [= <-]. by apply bottom_cons. }
  destruct (sb_raw p q s) as [s''|] eqn:E; [|done]. cbn [mbind option_bind]. intros [= <-].
  apply bottom_inv in Hb as [[-> ->]|[Hi Hb]]; [done|]. apply bottom_cons; [done|]. by apply IH.
Qed.
Lemma bottom_event n e s s' : bottom s → sb_event n e s = Some s' → bottom s'.
Proof.
  intros Hb He. destruct e as [[] q g|q g|q g]; cbn [sb_event] in He.
  - destruct (sb_write q s) as [s1|] eqn:E; [|done]. injection He as <-. apply bottom_cons; [done|]. by eapply bottom_write.
  - destruct (sb_read q s) as [s1|] eqn:E; [|done]. injection He as <-. apply bottom_cons; [done|]. by eapply bottom_read.
  - by refine (bottom_raw _ _ _ _ _ Hb He).
  - by eapply bottom_read.
  - by eapply bottom_write.
Qed.
Lemma bottom_run l n tr s s' : bottom s → sb_run l n tr s = Some s' → bottom s'.
Proof.
  revert n s. induction tr as [|e tr IH]; intros n s Hb; cbn [sb_run]; [naive_solver|].
  destruct (decide _); cbn [mbind option_bind].
  - destruct (sb_event n e s) as [s1|] eqn:E; [|done]. apply IH. by eapply bottom_event.
  - by apply IH.
Qed.
Lemma bottom_at tr l s : sb_at tr l = Some s → bottom s.
Proof. apply bottom_run. by exists []. Qed.
Lemma bottom_write_root s : bottom s → sb_write [] s = Some [(Unique, [])].
Proof.
  induction s as [|it s IH]; intros Hb; [by destruct Hb as ([] & ? & _)|]. cbn [sb_write].
  apply bottom_inv in Hb as [[-> ->]|[Hi Hb]]; [done|]. rewrite decide_False by (unfold grants_write; naive_solver).
  rewrite (IH Hb). cbn [mbind option_bind]. rewrite decide_False; [done|]. intros (Hl & _ & Hh). destruct s as [|x [|y s]]; [done| |done].
  apply bottom_inv in Hb as [[-> _]|[_ Hb]]; [done|]. by destruct Hb as ([] & ? & _).
Qed.
Lemma bottom_read_root s : bottom s → is_Some (sb_read [] s).
Proof.
  induction s as [|it s IH]; intros Hb; [by destruct Hb as ([] & ? & _)|]. cbn [sb_read].
  apply bottom_inv in Hb as [[-> ->]|[Hi Hb]]; [done|]. rewrite decide_False by (unfold grants_read; naive_solver).
  by destruct (IH Hb) as [s' ->].
Qed.
(** Reads keep every shared item *)
Lemma sb_read_shared p s s' q : sb_read p s = Some s' → (SharedRO, q) ∈ s → (SharedRO, q) ∈ s'.
Proof.
  revert s'. induction s as [|it s IH]; intros s'; cbn [sb_read]; [done|]. destruct (decide (grants_read p it)); [naive_solver|].
  destruct (sb_read p s) as [s''|] eqn:E; [|done]. cbn [mbind option_bind]. intros [= <-]. rewrite !elem_of_cons. intros [<-|Hx]; [by left|right; by apply IH].
Qed.
Lemma sb_read_shared_ok q s : (SharedRO, q) ∈ s → is_Some (sb_read q s).
Proof.
  induction s as [|it s IH]; [by rewrite elem_of_nil|]. rewrite elem_of_cons. cbn [sb_read]. destruct (decide (grants_read q it)) as [|Hn]; [done|].
  intros [<-|Hx]; [by destruct Hn|]. by destruct (IH Hx) as [s' ->].
Qed.

(** After the container was reborrowed mutably by its owner, an older pointer may not be used any more *)
Lemma sb_stale tr t1 g t2 h t3 k m p l :
  tr = t1 ++ Reborrow KMut [] g :: t2 ++ Read ((k, m) :: p) h :: t3 → m < length t1 → covers g l → covers h l → sb_at tr l = None.
Proof.
  intros -> Hm Hg Hh. rewrite sb_at_app. destruct (sb_at t1 l) as [s|] eqn:E; [|done]. apply bottom_at in E. cbn [mbind option_bind sb_run target].
  rewrite decide_True by done. cbn [sb_event]. rewrite bottom_write_root by done. cbn [mbind option_bind].
  rewrite sb_run_app. destruct (sb_run l _ t2 _) as [s2|] eqn:E2; [|done]. cbn [mbind option_bind sb_run target].
  rewrite decide_True by done. cbn [sb_event]. rewrite sb_read_gone; [done|].
  eapply sb_run_gone; [|exact E2|]; [lia|]. cbn. rewrite !not_elem_of_cons. split; [|split; [done|apply not_elem_of_nil]]. intros [= -> -> ->]. lia.
Qed.

(** ** Tree Borrows *)
Lemma tb_run_app l x t1 t2 q : tb_run l x (t1 ++ t2) q = (q' ← tb_run l x t1 q; tb_run l x t2 q').
Proof.
  revert q. induction t1 as [|e t1 IH]; intros q; cbn [app tb_run]; [done|].
  destruct (tb_event l x e q); [|done]. cbn [mbind option_bind]. apply IH.
Qed.
Lemma tb_event_not_reserved l x e q q' : tb_event l x e q = Some q' → q ≠ Reserved → q' ≠ Reserved.
Proof.
  unfold tb_event. destruct (tb_access e) as [[p w]|]; [|naive_solver]. destruct (decide _); [|naive_solver].
  destruct (decide _), q, w; cbn; naive_solver.
Qed.
Lemma tb_run_not_reserved l x tr q q' : tb_run l x tr q = Some q' → q ≠ Reserved → q' ≠ Reserved.
Proof.
  revert q. induction tr as [|e tr IH]; intros q; cbn [tb_run]; [naive_solver|]. destruct (tb_event l x e q) as [q1|] eqn:E; [|done].
  cbn [mbind option_bind]. intros H1 H2. eapply IH; [done|]. by eapply tb_event_not_reserved.
Qed.
Definition low (q : tb_perm) : Prop := q = Frozen ∨ q = TDisabled.
Lemma tb_event_low l x e q q' : tb_event l x e q = Some q' → low q → low q'.
Proof.
  unfold tb_event, low. destruct (tb_access e) as [[p w]|]; [|naive_solver]. destruct (decide _); [|naive_solver].
  destruct (decide _), q, w; cbn; naive_solver.
Qed.
Lemma tb_run_low l x tr q q' : tb_run l x tr q = Some q' → low q → low q'.
Proof.
  revert q. induction tr as [|e tr IH]; intros q; cbn [tb_run]; [naive_solver|]. destruct (tb_event l x e q) as [q1|] eqn:E; [|done].
  cbn [mbind option_bind]. intros H1 H2. eapply IH; [done|]. by eapply tb_event_low.
Qed.
(** Written, then the owner makes a reference, then written again *)
Lemma tb_stale tr t1 t2 g t3 t4 h m p g0 l :
  tr = t1 ++ Write ((KMut, m) :: p) h :: t2 ++ Reborrow KMut [] g :: t3 ++ Write ((KMut, m) :: p) h :: t4 →
  tr !! m = Some (Reborrow KMut p g0) → m < length t1 → covers g0 l → covers g l → covers h l → ¬ tb_ok tr.
Proof.
  intros Htr Hm Hlt H0 Hg Hh (_ & _ & Hok). destruct (Hok _ _ _ _ l Hm ltac:(done) H0) as [q Hq]. clear Hok Hm. subst tr.
  rewrite drop_app_le in Hq by lia. rewrite tb_run_app in Hq. destruct (tb_run _ _ (drop _ t1) _) as [q1|]; [|done].
  cbn [mbind option_bind tb_run] in Hq. set (x := (KMut, m) :: same_ref p) in *.
  assert (Hx : same_ref ((KMut, m) :: p) = x) by done.
  destruct (tb_event l x (Write _ _) q1) as [q2|] eqn:E; [|done]. cbn [mbind option_bind] in Hq.
  assert (Hq2 : q2 ≠ Reserved).
  { unfold tb_event in E. cbn [tb_access target] in E. rewrite decide_True in E by done. rewrite Hx in E. rewrite decide_True in E by done. destruct q1; cbn in E; naive_solver. }
  clear E q1. rewrite tb_run_app in Hq. destruct (tb_run l x t2 q2) as [q3|] eqn:E; [|done]. apply tb_run_not_reserved in E; [|done]. clear Hq2 q2.
  cbn [mbind option_bind tb_run] in Hq. destruct (tb_event l x (Reborrow _ _ _) q3) as [q4|] eqn:E4; [|done]. cbn [mbind option_bind] in Hq.
  assert (H4 : low q4).
  { unfold tb_event in E4. cbn [tb_access target] in E4. rewrite decide_True in E4 by done. rewrite decide_False in E4 by (intros [? ?%symmetry]; by destruct x0).
    unfold low. destruct q3; cbn in E4; naive_solver. }
  rewrite tb_run_app in Hq. destruct (tb_run l x t3 q4) as [q5|] eqn:E5; [|done]. apply tb_run_low in E5; [|done].
  cbn [mbind option_bind tb_run] in Hq. unfold tb_event in Hq. cbn [tb_access target] in Hq. rewrite decide_True in Hq by done. rewrite Hx, decide_True in Hq by done.
  by destruct E5 as [-> | ->].
Qed.
