(** * The HashTable used by programs with different [==] and [Hash]

    Proof by tagging: a key is paired with the hash value and the equality its program computes with. On tagged keys one fixed equality and
    hash function do for all calls, so that C53 applies; C65 (the table looks at keys only through these functions) takes the tags off. *)
From Verif Require Export ChangeSpec OrderProof.
From Verif Require Import RelProof RelMain.

Lemma spec_snoc {S O A} (f : O → S → A * S) ops o s :
  spec_history f (ops ++ [o]) s =
    let '(rs, s1) := spec_history f ops s in let '(r, s2) := f o s1 in (rs ++ [r], s2).
Proof.
  revert s. induction ops as [|x ops IH]; intros s; cbn.
  { by destruct (f o s). }
  destruct (f x s) as [r s1]. rewrite IH. destruct (spec_history f ops s1) as [rs s2]. by destruct (f o s2).
Qed.
Lemma hist_snoc {S O A} (step : O → M S A) os o s :
  history step (os ++ [o]) s =
    let '(rs, s1) := history step os s in let '(r, s2) := call (step o) s1 in (rs ++ [r], s2).
Proof.
  revert s. induction os as [|x os IH]; intros s; cbn.
  { by destruct (call (step o) s). }
  destruct (call (step x) s) as [r s1]. rewrite IH. destruct (history step os s1) as [rs s2]. by destruct (call (step o) s2).
Qed.

Definition hcall_step `{Profile} {K V} (c : hcall K V) : M (htable K V) (hm_out K V) := ht_step (hc_eq c) (hc_hash c) (hc_op c).

Section tags.
  Context `{Profile} {K V : Type}.
  Notation tkey := (K * (N * (K → K → bool)))%type.
  Definition teq (x q : tkey) : bool := q.2.2 x.1 q.1.
  Definition thash (q : tkey) : N := q.2.1.
  Definition tagk (c : hcall K V) (k : K) : tkey := (k, (hc_hash c k, hc_eq c)).
  Definition tag (c : hcall K V) : hm_op tkey V := hm_rename (tagk c) (hc_op c).
  Notation RK := (λ (x : tkey) (k : K), x.1 = k).
  Notation out_rel := (rrel (hm_out_rel (V := V) (V' := V) RK eq)).

  Lemma tag_rel c : hm_op_rel (λ x k, x = tagk c k) eq (tag c) (hc_op c).
  Proof.
    unfold tag. destruct (hc_op c); cbn; try done; try (split; [done|]; by intros x y ->).
    induction fs; constructor; [|done]. by intros x y ->.
  Qed.
  Lemma tag_step c : mrel (htr RK eq) (hm_out_rel RK eq) (ht_step teq thash (tag c)) (hcall_step c).
  Proof.
    apply (l_ht_step RK eq teq (hc_eq c) thash (hc_hash c) (λ x k, x = tagk c k)).
    - by intros k k' ->.
    - by intros a a' b b' <- ->.
    - by intros a a' ->.
    - apply tag_rel.
  Qed.

  (** ** The tables of chains *)
  Definition un (x : tkey * V) : K * V := (x.1.1, x.2).
  Notation unc := (map un).
  Notation unt := (map (map un)).
  Lemma unt_len bs : lengthN (unt bs) = lengthN bs.
  Proof. unfold lengthN. by rewrite map_length. Qed.
  Lemma unt_concat bs : concat (unt bs) = unc (concat bs).
  Proof. symmetry. apply concat_map. Qed.
  Lemma unt_clen bs : lengthN (concat (unt bs)) = lengthN (concat bs).
  Proof. rewrite unt_concat. unfold lengthN. by rewrite map_length. Qed.
  Lemma unt_index c k bs : hb_index (hc_hash c) (unt bs) k = hb_index thash bs (tagk c k).
  Proof. unfold hb_index. by rewrite unt_len. Qed.
  Lemma unt_chain c k bs : hb_chain (hc_hash c) (unt bs) k = unc (hb_chain thash bs (tagk c k)).
  Proof.
    unfold hb_chain. rewrite unt_index. etrans; [apply f_equal, (list_lookup_fmap (map un) bs)|]. by destruct (bs !! _).
  Qed.
  Lemma unt_put c k bs ch : hb_put (hc_hash c) (unt bs) k (unc ch) = unt (hb_put thash bs (tagk c k) ch).
  Proof. unfold hb_put. rewrite unt_index. symmetry. apply (list_fmap_insert (map un)). Qed.
  Lemma unc_split c k ch : hb_split (hc_eq c) k (unc ch) =
    match hb_split teq (tagk c k) ch with Some (c1, x, c2) => Some (unc c1, un x, unc c2) | None => None end.
  Proof.
    induction ch as [|x ch IH]; [done|]. cbn [hb_split map]. change (teq x.1 (tagk c k)) with (hc_eq c (un x).1 k).
    destruct (hc_eq c (un x).1 k); [done|]. rewrite IH. by destruct (hb_split teq (tagk c k) ch) as [[[c1 y] c2]|].
  Qed.
  Lemma unt_get c k bs : hb_get (hc_eq c) (hc_hash c) (unt bs) k = hb_get teq thash bs (tagk c k).
  Proof. unfold hb_get. rewrite unt_chain, unc_split. by destruct (hb_split _ _ _) as [[[c1 y] c2]|]. Qed.
  Lemma unt_insert c k v cap bs : hb_insert (hc_eq c) (hc_hash c) cap (unt bs) k v =
    let '(b, bs') := hb_insert teq thash cap bs (tagk c k) v in (b, unt bs').
  Proof.
    unfold hb_insert. rewrite unt_chain, unc_split. destruct (hb_split _ _ _) as [[[c1 y] c2]|].
    - f_equal. rewrite <- unt_put. by rewrite map_app.
    - rewrite unt_clen. destruct (decide (lengthN (concat bs) < cap)); [|done]. f_equal. by rewrite <- unt_put.
  Qed.
  Lemma unt_remove c k bs : hb_remove (hc_eq c) (hc_hash c) (unt bs) k = unt (hb_remove teq thash bs (tagk c k)).
  Proof.
    unfold hb_remove. rewrite unt_chain, unc_split. destruct (hb_split _ _ _) as [[[c1 y] c2]|]; [|done]. rewrite <- unt_put. by rewrite map_app.
  Qed.
  Lemma unt_get_mut c k f bs : hb_get_mut (hc_eq c) (hc_hash c) (unt bs) k f = unt (hb_get_mut teq thash bs (tagk c k) f).
  Proof.
    unfold hb_get_mut. rewrite unt_chain, unc_split. destruct (hb_split _ _ _) as [[[c1 y] c2]|]; [|done]. rewrite <- unt_put. cbn. by rewrite map_app.
  Qed.
  Lemma unc_apply fs ch : chain_apply fs (unc ch) = unc (chain_apply fs ch).
  Proof. revert fs. induction ch as [|x ch IH]; intros [|f fs]; cbn; [done..|]. by rewrite IH. Qed.
  Lemma unt_apply fs bs : table_apply fs (unt bs) = unt (table_apply fs bs).
  Proof. revert fs. induction bs as [|ch bs IH]; intros fs; cbn; [done|]. by rewrite unc_apply, map_length, IH. Qed.
  Lemma nexts_rel n ch : Forall2 (orel (prel RK eq)) (nexts n ch) (nexts n (unc ch)).
  Proof.
    unfold nexts. generalize (seq 0 n). intros l. induction l as [|i l IH]; cbn; [constructor|]. constructor; [|done].
    change (@map (tkey * V) (K * V) un ch) with (un <$> ch). rewrite list_lookup_fmap. by destruct (ch !! i).
  Qed.
  Lemma ref_rel (o : option V) : out_rel (hb_ref o) (hb_ref o).
  Proof. by destruct o. Qed.
  Lemma orel_refl (o : option V) : orel eq o o.
  Proof. by destruct o. Qed.

  Lemma unt_spec cap c bs :
    let '(a', bs') := hb_spec teq thash cap (tag c) bs in
    ∃ a, hcall_spec cap c (unt bs) = (a, unt bs') ∧ out_rel a' a.
  Proof.
    unfold hcall_spec, tag. destruct (hc_op c); cbn [hm_rename hb_spec].
    - rewrite unt_insert. destruct (hb_insert _ _ _ _ _ _) as [b bs']. by eexists.
    - rewrite unt_get, unt_remove. eexists. split; [done|]. apply orel_refl.
    - rewrite unt_get. eexists. split; [done|]. apply orel_refl.
    - rewrite unt_get, unt_get_mut. eexists. split; [done|]. apply orel_refl.
    - rewrite unt_get. by eexists.
    - rewrite unt_get. by eexists.
    - rewrite unt_clen. by eexists.
    - rewrite unt_concat. eexists. split; [done|]. by destruct (concat bs).
    - by eexists.
    - rewrite unt_get. eexists. split; [done|]. apply ref_rel.
    - rewrite unt_get, unt_get_mut. eexists. split; [done|]. apply ref_rel.
    - rewrite unt_concat. eexists. split; [done|]. apply nexts_rel.
    - rewrite unt_concat, unt_apply. eexists. split; [done|]. apply nexts_rel.
  Qed.
  Lemma unt_history cap cs bs :
    let '(rs', bs') := spec_history (hb_spec teq thash cap) (map tag cs) bs in
    ∃ rs, spec_history (hcall_spec cap) cs (unt bs) = (rs, unt bs') ∧ Forall2 out_rel rs' rs.
  Proof.
    revert bs. induction cs as [|c cs IH]; intros bs; cbn [map spec_history]; [by exists []|].
    pose proof (unt_spec cap c bs) as Hs. destruct (hb_spec _ _ _ _ _) as [a' bs1]. destruct Hs as (a & -> & Ha).
    specialize (IH bs1). destruct (spec_history _ (map tag cs) bs1) as [rs' bs2]. destruct IH as (rs & -> & Hr).
    exists (a :: rs). split; [done|]. by constructor.
  Qed.

  Lemma list_rel_fun (l : list (option (tkey * V))) l1 l2 :
    Forall2 (orel (prel RK eq)) l l1 → Forall2 (orel (prel RK eq)) l l2 → l1 = l2.
  Proof.
    intros HA. revert l2. induction HA as [|x y l l1 Hxy _ IH]; intros l2 HB; inversion HB as [|x' z l' l2' Hxz Hrest]; subst; [done|].
    f_equal; [|by apply IH]. destruct x as [[x v]|], y as [[y v1]|], z as [[z v2]|]; try done. destruct Hxy as [H1 H2], Hxz as [H3 H4]. cbn in *. congruence.
  Qed.
  Lemma out_rel_fun a b1 b2 : out_rel a b1 → out_rel a b2 → b1 = b2.
  Proof.
    destruct a as [a|e], b1 as [b1|e1], b2 as [b2|e2]; cbn; try done; [|congruence].
    intros H1 H2. f_equal. destruct a, b1, b2; cbn in *; try done; subst; try congruence.
    - repeat match goal with o : option V |- _ => destruct o end; cbn in *; try done; congruence.
    - f_equal. by eapply list_rel_fun.
  Qed.
  Lemma outs_rel_fun l l1 l2 : Forall2 out_rel l l1 → Forall2 out_rel l l2 → l1 = l2.
  Proof.
    intros H1. revert l2. induction H1 as [|x y l l1 Hxy _ IH]; intros l2 H2; inversion H2 as [|x' z l' l2' Hxz H3]; subst; [done|].
    f_equal; [by eapply out_rel_fun|by apply IH].
  Qed.
  Lemma fw_spec_rel sc ch : Forall2 (orel (prel RK eq)) (fw_spec sc ch) (fw_spec sc (unc ch)).
  Proof.
    revert ch. induction sc as [|[] sc IH]; intros ch; cbn; [constructor| |].
    - destruct ch as [|x ch]; cbn; constructor; try done. apply (IH []).
    - by constructor.
  Qed.
End tags.

(** ** From the start *)
Section main.
  Context `{Profile} {K V : Type} (nb ms : nat) (d : K * V).
  Context (h0 : htable K V) (Hnew : ht_new nb ms d = Some h0) (Hnb : (0 < nb)%nat) (Hw : N.of_nat ms + 1 < W32).
  Notation cap := (N.of_nat ms).
  Notation tables cs := (spec_history (hcall_spec cap) cs (replicate nb [])).
  Notation RK := (λ (x : K * (N * (K → K → bool))) (k : K), x.1 = k).

  Lemma tagged cs :
    ∃ h0' : htable (K * (N * (K → K → bool))) V, ht_new nb ms ((d.1, (0, λ _ _, true)), d.2) = Some h0' ∧
      Forall2 (rrel (hm_out_rel RK eq)) (history (ht_step teq thash) (map tag cs) h0').1 (history hcall_step cs h0).1 ∧
      htr RK eq (history (ht_step teq thash) (map tag cs) h0').2 (history hcall_step cs h0).2.
  Proof using Hnew.
    unfold ht_new in *. destruct (decide (Nat.modulo nb 2 = 0%nat)); [|done]. eexists. split; [done|].
    apply (history_rel _ (λ o c, o = tag c)); [|clear; induction cs; by constructor|].
    - intros o c ->. apply tag_step.
    - injection Hnew as <-. split; [done|]. by apply al_new_rel.
  Qed.
  Lemma hcalls_fact cs : (history hcall_step cs h0).1 = (tables cs).1 ∧
    ∀ sc, ht_iterate (history hcall_step cs h0).2 sc = Val (fw_spec sc (concat (tables cs).2)).
  Proof using Hnew Hnb Hw.
    destruct (tagged cs) as (h0' & Hn' & Ha & Hs).
    pose proof (order_answers_fact teq thash nb ms _ h0' Hn' Hnb Hw (map tag cs)) as He.
    pose proof (λ sc, order_iter_fact teq thash nb ms _ h0' Hn' Hnb Hw (map tag cs) sc) as Hi.
    pose proof (unt_history cap cs (replicate nb [])) as Hu. destruct (spec_history _ (map tag cs) _) as [rs' bs'].
    destruct Hu as (rs & Hu & Hr). replace (map (map un) (replicate nb [])) with (replicate nb (@nil (K * V))) in Hu
      by (clear; induction nb as [|n IH]; cbn; [done|by rewrite IH]).
    rewrite Hu. cbn [fst snd] in *. rewrite He in Ha. split; [by eapply outs_rel_fun|].
    intros sc. specialize (Hi sc). pose proof (l_ht_iterate RK eq _ _ sc Hs) as Hl. rewrite Hi in Hl.
    destruct (ht_iterate (history hcall_step cs h0).2 sc) as [l|e]; [|done]. cbn in Hl. f_equal. rewrite unt_concat.
    eapply list_rel_fun; [exact Hl|apply fw_spec_rel].
  Qed.
  (** One more call *)
  Lemma hcall_fact cs c : (call (hcall_step c) (history hcall_step cs h0).2).1 = (hcall_spec cap c (tables cs).2).1.
  Proof using Hnew Hnb Hw.
    destruct (hcalls_fact (cs ++ [c])) as [He _]. destruct (hcalls_fact cs) as [He1 _]. rewrite hist_snoc, spec_snoc in He.
    destruct (history hcall_step cs h0) as [rs s1]. destruct (tables cs) as [rs1 s2]. cbn [fst snd] in *. subst rs1.
    destruct (call (hcall_step c) s1) as [r s3], (hcall_spec cap c s2) as [r' s4]. cbn [fst snd] in *.
    by apply app_inj_tail in He as [_ ->].
  Qed.
End main.

(** ** A table built by one program and used by the next *)
Lemma history_map {S O P A} (step : O → M S A) (f : P → O) ps s : history (λ p, step (f p)) ps s = history step (map f ps) s.
Proof. revert s. induction ps as [|p ps IH]; intros s; cbn; [done|]. destruct (call (step (f p)) s). by rewrite IH. Qed.
Lemma spec_history_map {S O P A} (step : O → S → A * S) (f : P → O) ps s : spec_history (λ p, step (f p)) ps s = spec_history step (map f ps) s.
Proof. revert s. induction ps as [|p ps IH]; intros s; cbn; [done|]. destruct (step (f p) s). by rewrite IH. Qed.
Lemma table_apply_len {K V} fs (bs : list (list (K * V))) : length (table_apply fs bs) = length bs.
Proof. revert fs. induction bs as [|c bs IH]; intros fs; cbn; [done|]. by rewrite IH. Qed.
Lemma hb_spec_len {K V} keq hash cap (o : hm_op K V) bs : length (hb_spec keq hash cap o bs).2 = length bs.
Proof.
  destruct o; cbn [hb_spec snd]; unfold hb_remove, hb_get_mut, hb_insert, hb_put; try done; try (by apply table_apply_len);
    destruct (hb_split _ _ _) as [[[c1 x] c2]|]; cbn [snd]; try (by apply insert_length); try done.
  destruct (decide _); cbn [snd]; [by apply insert_length|done].
Qed.
Lemma hb_history_len {K V} keq hash cap (os : list (hm_op K V)) bs : length (spec_history (hb_spec keq hash cap) os bs).2 = length bs.
Proof.
  revert bs. induction os as [|o os IH]; intros bs; cbn; [done|]. pose proof (hb_spec_len keq hash cap o bs) as Hl.
  destruct (hb_spec keq hash cap o bs) as [r bs1]. specialize (IH bs1). destruct (spec_history _ os bs1). cbn in *. congruence.
Qed.

Section reopened.
  Context `{Profile} {K V : Type} (keq : K → K → bool) (hash hash2 : K → N) (HL : HashLaws keq hash) (nb ms : nat) (d : K * V).
  Context (h0 : htable K V) (Hnew : ht_new nb ms d = Some h0) (Hnb : (0 < nb)%nat) (Hw : N.of_nat ms + 1 < W32).
  Notation cap := (N.of_nat ms).
  Context (ops : list (hm_op K V)).
  Notation h := (history (ht_step keq hash) ops h0).2.
  Notation T := (spec_history (hb_spec keq hash cap) ops (replicate nb [])).2.
  Notation cs := (map (HC keq hash) ops).

  Lemma state_as_calls : h = (history hcall_step cs h0).2 ∧ T = (spec_history (hcall_spec cap) cs (replicate nb [])).2.
  Proof.
    split.
    - f_equal. apply (history_map hcall_step (HC keq hash)).
    - f_equal. apply (spec_history_map (hcall_spec cap) (HC keq hash)).
  Qed.
  Lemma T_len : lengthN T = N.of_nat nb.
  Proof. unfold lengthN. by rewrite hb_history_len, replicate_length. Qed.
  Lemma T_placed b c : T !! b = Some c → Forall (λ x, hash x.1 mod N.of_nat nb = N.of_nat b) c.
  Proof using H Hnew Hnb Hw.
    pose proof T_len as Hl. destruct (order_fact keq hash nb ms d h0 Hnew Hnb Hw ops) as (bs & Hok & He). rewrite He in *. cbn [snd] in *.
    change (map (map snd) bs !! b) with (((λ c : list (N * (K * V)), map snd c) <$> bs) !! b). rewrite list_lookup_fmap.
    intros (c' & Hb & ->)%fmap_Some. pose proof (ho_hash _ _ _ _ _ Hok _ _ Hb) as Hh.
    assert (lengthN bs = N.of_nat nb) as Hl' by (unfold lengthN in *; by rewrite map_length in Hl). rewrite Hl' in Hh.
    clear -Hh. induction Hh as [|x l Hx _ IH]; cbn; by constructor.
  Qed.
  Lemma split_miss k c : Forall (λ x, keq x.1 k = false) c → hb_split (V := V) keq k c = None.
  Proof. induction 1 as [|x c Hx _ IH]; [done|]. cbn. by rewrite Hx, IH. Qed.
  Lemma T_index g k : hb_index g T k = N.to_nat (g k mod N.of_nat nb).
  Proof. unfold hb_index. by rewrite T_len. Qed.
  Lemma T_moved k : hash2 k mod N.of_nat nb ≠ hash k mod N.of_nat nb → hb_split keq k (hb_chain hash2 T k) = None.
  Proof using H Hnew Hnb Hw HL.
    intros Hne. apply split_miss. unfold hb_chain. rewrite T_index.
    destruct (T !! N.to_nat (hash2 k mod N.of_nat nb)) as [c|] eqn:Hc; cbn; [|constructor].
    apply T_placed in Hc. eapply Forall_impl; [exact Hc|]. intros x Hx. cbn in Hx. rewrite N2Nat.id in Hx.
    destruct (keq x.1 k) eqn:He; [|done]. rewrite (hash_keq _ _ HL _ _ He) in Hx. congruence.
  Qed.
  Lemma T_kept k : hash2 k mod N.of_nat nb = hash k mod N.of_nat nb → hb_get keq hash2 T k = hb_get keq hash T k.
  Proof. intros He. unfold hb_get, hb_chain. by rewrite !T_index, He. Qed.

  (** Lookups on the state after more calls *)
  Lemma get_after more g k :
    ht_get keq g (history hcall_step (cs ++ more) h0).2 k =
      Val (hb_get keq g (spec_history (hcall_spec cap) (cs ++ more) (replicate nb [])).2 k).
  Proof using H Hnew Hnb Hw.
    pose proof (hcall_fact nb ms d h0 Hnew Hnb Hw (cs ++ more) (HC keq g (HGet k))) as Hc.
    set (sx := (history hcall_step (cs ++ more) h0).2) in *. set (Tx := (spec_history (hcall_spec cap) (cs ++ more) (replicate nb [])).2) in *. clearbody sx Tx.
    unfold hcall_step, hcall_spec, call in Hc. cbn in Hc. unfold mbind, M_bind, gets, mret, M_ret in Hc.
    destruct (ht_get keq g _ k) as [o|e]; cbn in Hc; [congruence|done].
  Qed.
  Lemma get_now g k : ht_get keq g h k = Val (hb_get keq g T k).
  Proof using H Hnew Hnb Hw.
    pose proof (get_after [] g k) as Hg. rewrite app_nil_r in Hg. destruct state_as_calls as [-> ->]. exact Hg.
  Qed.
  Lemma reopened_get k :
    ht_get keq hash2 h k = if decide (hash2 k mod N.of_nat nb = hash k mod N.of_nat nb) then ht_get keq hash h k else Val None.
  Proof using H Hnew Hnb Hw HL.
    rewrite !get_now. destruct (decide _) as [He|Hne]; [by rewrite T_kept|]. unfold hb_get. by rewrite T_moved.
  Qed.
  Lemma len_after more : ht_len (history hcall_step (cs ++ more) h0).2 = lengthN (concat (spec_history (hcall_spec cap) (cs ++ more) (replicate nb [])).2).
  Proof using H Hnew Hnb Hw.
    pose proof (hcall_fact nb ms d h0 Hnew Hnb Hw (cs ++ more) (HC keq hash HLen)) as Hc.
    set (sx := (history hcall_step (cs ++ more) h0).2) in *. set (Tx := (spec_history (hcall_spec cap) (cs ++ more) (replicate nb [])).2) in *. clearbody sx Tx.
    unfold hcall_step, hcall_spec, call in Hc. cbn in Hc. by injection Hc.
  Qed.
  Lemma len_now : ht_len h = lengthN (concat T).
  Proof using H Hnew Hnb Hw.
    pose proof (len_after []) as Hg. rewrite app_nil_r in Hg. destruct state_as_calls as [-> ->]. exact Hg.
  Qed.
  Lemma after_one c :
    (history hcall_step (cs ++ [c]) h0).2 = (call (hcall_step c) h).2 ∧
    (spec_history (hcall_spec cap) (cs ++ [c]) (replicate nb [])).2 = (hcall_spec cap c T).2.
  Proof.
    rewrite hist_snoc, spec_snoc. destruct state_as_calls as [-> ->].
    destruct (history hcall_step cs h0) as [rs s1], (spec_history (hcall_spec cap) cs _) as [rs2 s2]. cbn [fst snd].
    by destruct (call (hcall_step c) s1), (hcall_spec cap c s2).
  Qed.
  Lemma concat_put (bs : list (list (K * V))) i c x : bs !! i = Some c → lengthN (concat (<[i := x :: c]> bs)) = lengthN (concat bs) + 1.
  Proof.
    revert i. induction bs as [|b bs IH]; intros [|i] Hi; cbn in *; [done|done| |].
    - injection Hi as ->. unfold lengthN. cbn [length]. lia.
    - specialize (IH i Hi). unfold lengthN in *. rewrite !app_length. unfold insert, list_insert in *. lia.
  Qed.
  Lemma reopened_insert k v :
    hash2 k mod N.of_nat nb ≠ hash k mod N.of_nat nb → ht_len h < cap →
    let '(r, h') := call (ht_insert keq hash2 k v) h in
    (∃ i, r = Val (Some i)) ∧ ht_len h' = ht_len h + 1 ∧ ht_get keq hash h' k = ht_get keq hash h k ∧ ht_get keq hash2 h' k = Val (Some v).
  Proof using H Hnew Hnb Hw HL.
    intros Hne Hlt. set (c := HC keq hash2 (HInsert k v)).
    assert (hcall_spec cap c T = (Val (HBool true), hb_put hash2 T k ((k, v) :: hb_chain hash2 T k))) as Hs.
    { unfold hcall_spec, c. cbn. unfold hb_insert. rewrite T_moved by done. rewrite len_now in Hlt. by rewrite decide_True by done. }
    pose proof (hcall_fact nb ms d h0 Hnew Hnb Hw cs c) as Hc. pose proof (get_after [c]) as Hg. pose proof (len_after [c]) as Hl.
    destruct (after_one c) as [Ha Hb]. rewrite Ha, Hb, Hs in Hl. setoid_rewrite Ha in Hg. setoid_rewrite Hb in Hg. rewrite Hs in Hg.
    destruct state_as_calls as [E1 E2]. rewrite <- E1, <- E2, Hs in Hc. cbn [fst snd] in *.
    assert (∃ ch, T !! hb_index hash2 T k = Some ch ∧ hb_chain hash2 T k = ch) as (ch & Hch & Ech).
    { unfold hb_chain. destruct (T !! hb_index hash2 T k) as [ch|] eqn:Hch; [by exists ch|]. apply lookup_ge_None in Hch. exfalso.
      pose proof T_len as Hlen. unfold lengthN in Hlen. rewrite T_index in Hch.
      pose proof (N.mod_lt (hash2 k) (N.of_nat nb) ltac:(lia)). lia. }
    unfold c, hcall_step, call in Hc, Hg, Hl. cbn in Hc, Hg, Hl. unfold mbind, M_bind, mret, M_ret in Hc, Hg, Hl. unfold call.
    destruct (ht_insert keq hash2 k v h) as [o h'|e h']; cbn [fst snd] in *; [|done].
    split_and!.
    - destruct o; [by eexists|done].
    - rewrite Hl. unfold hb_put. rewrite Ech, (concat_put _ _ ch _ Hch). by rewrite len_now.
    - rewrite Hg, get_now. f_equal. unfold hb_get, hb_chain at 1. unfold hb_put at 1 2. unfold hb_index at 1.
      unfold lengthN. rewrite insert_length. fold (lengthN T). fold (hb_index hash T k).
      rewrite list_lookup_insert_ne; [done|]. rewrite !T_index. intros He%N2Nat.inj. congruence.
    - rewrite Hg. f_equal. unfold hb_get, hb_chain at 1. unfold hb_put at 1 2. unfold hb_index at 1.
      unfold lengthN. rewrite insert_length. fold (lengthN T). fold (hb_index hash2 T k).
      rewrite list_lookup_insert by (by eapply lookup_lt_Some). cbn. by rewrite (keq_refl _ _ HL).
  Qed.
  Lemma reopened_remove k :
    hash2 k mod N.of_nat nb ≠ hash k mod N.of_nat nb →
    let '(r, h') := call (ht_remove keq hash2 k) h in r = Val None ∧ ∀ k', ht_get keq hash h' k' = ht_get keq hash h k'.
  Proof using H Hnew Hnb Hw HL.
    intros Hne. set (c := HC (V := V) keq hash2 (HRemove k)).
    assert (hcall_spec cap c T = (Val (HVal None), T)) as Hs.
    { unfold hcall_spec, c. cbn. unfold hb_get, hb_remove. by rewrite T_moved. }
    pose proof (hcall_fact nb ms d h0 Hnew Hnb Hw cs c) as Hc. pose proof (get_after [c]) as Hg.
    destruct (after_one c) as [Ha Hb]. setoid_rewrite Ha in Hg. setoid_rewrite Hb in Hg. rewrite Hs in Hg.
    destruct state_as_calls as [E1 E2]. rewrite <- E1, <- E2, Hs in Hc. cbn [fst snd] in *.
    unfold c, hcall_step, call in Hc, Hg. cbn in Hc, Hg. unfold mbind, M_bind, mret, M_ret in Hc, Hg. unfold call.
    destruct (ht_remove keq hash2 k h) as [o h'|e h']; cbn [fst snd] in *; [|done]. split; [congruence|].
    intros k'. by rewrite Hg, get_now.
  Qed.
End reopened.
