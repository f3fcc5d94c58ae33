(** * What the tests can tell apart: proofs for C76 *)
From Verif Require Import FuzzProof TestModel DetectSpec MapProof.

(** ** The fuzzing harness *)
Section harness.
  Context {S K V : Type} `{EqDecision V} (api : nam S K V).
  Implicit Types (s : S) (ks : list K).
  Lemma assert_get_iff s k v : fz_assert_get api s k v = Val () ↔ n_get api s k = Val (Some v).
  Proof.
    unfold fz_assert_get. destruct (n_get api s k) as [[x|]|e]; cbn; unfold assert_eq; [destruct (decide (x = v)) as [->|Hn]| |]; split; try done. naive_solver.
  Qed.
  Lemma check_iff s l : fz_check api s l = Val () ↔ ∀ kv, kv ∈ l → n_get api s kv.1 = Val (Some kv.2).
  Proof.
    induction l as [|kv l IH]; cbn [fz_check]; [split; [|done]; intros _ kv Hkv; by inversion Hkv|].
    destruct (fz_assert_get api s kv.1 kv.2) as [[]|e] eqn:E; cbn [mbind res_bind].
    - apply assert_get_iff in E. rewrite IH. split; [intros Hl kv' [->|Hin]%elem_of_cons; [done|by apply Hl]|intros Hl kv' Hin; apply Hl; by right].
    - split; [done|]. intros Hl. exfalso. rewrite (proj2 (assert_get_iff s kv.1 kv.2)) in E; [done|]. apply Hl. by left.
  Qed.
  Ltac go := repeat first
    [ progress unfold mbind, M_bind, mget, gets, lift, modify, mret, M_ret, fz_on, zoom in *
    | progress cbn [fst snd] in * ].
  Lemma insert_iff k v rnd s ks s' ks' : perform_action api (FInsert k v) rnd (s, ks) = Ret () (s', ks') ↔
    (∃ v0, n_get api s k = Val (Some v0) ∧ s' = s ∧ ks' = ks) ∨
    (n_get api s k = Val None ∧ ∃ o, n_insert api k v s = Ret o s' ∧
      match o with None => ks' = ks | Some _ => ks' = ks ++ [k] ∧ n_get api s' k = Val (Some v) end).
  Proof.
    unfold perform_action. go. destruct (n_get api s k) as [[v0|]|e]; go.
    - split; [intros [= <- <-]; left; by exists v0|]. intros [(v1 & [= <-] & -> & ->)|[[=] _]]; done.
    - destruct (n_insert api k v s) as [[a|] s1|e s1]; go.
      + destruct (fz_assert_get api s1 k v) as [[]|e] eqn:E; go.
        * apply assert_get_iff in E. split; [intros [= <- <-]; right; split; [done|]; by eexists|].
          intros [(v1 & [=] & _)|(_ & o & [= <- <-] & -> & _)]; done.
        * split; [done|]. intros [(v1 & [=] & _)|(_ & o & [= <- <-] & -> & Hg)]. apply assert_get_iff in Hg. congruence.
      + split; [intros [= <- <-]; right; split; [done|]; by eexists|]. intros [(v1 & [=] & _)|(_ & o & [= <- <-] & ->)]; done.
      + split; [done|]. intros [(v1 & [=] & _)|(_ & o & [=] & _)].
    - split; [done|]. intros [(v1 & [=] & _)|([=] & _)].
  Qed.
  Lemma pick_ok rnd ks : ks ≠ [] → ∃ k, fz_pick rnd ks = Val (N.to_nat (rnd mod lengthN ks), k) ∧ ks !! N.to_nat (rnd mod lengthN ks) = Some k.
  Proof.
    intros Hk. unfold fz_pick. assert (N.to_nat (rnd mod lengthN ks) < length ks)%nat as Hlt.
    { assert (lengthN ks ≠ 0) as H0 by (destruct ks; [done|unfold lengthN; cbn; lia]). pose proof (N.mod_lt rnd _ H0). unfold lengthN in *. lia. }
    destruct (lookup_lt_is_Some_2 _ _ Hlt) as [k Ek]. exists k. rewrite Ek. done.
  Qed.
  Lemma nokeys ks : lengthN ks = 0 ↔ ks = [].
  Proof. destruct ks; [done|]. unfold lengthN. cbn. split; [lia|done]. Qed.
  Lemma upsert_iff v rnd s ks s' ks' : perform_action api (FUpsert v) rnd (s, ks) = Ret () (s', ks') ↔
    (ks = [] ∧ s' = s ∧ ks' = []) ∨
    (∃ k o, ks !! N.to_nat (rnd mod lengthN ks) = Some k ∧ n_insert api k v s = Ret o s' ∧ n_get api s' k = Val (Some v) ∧ ks' = ks).
  Proof.
    unfold perform_action. go. destruct (decide (lengthN ks = 0)) as [H0|H0].
    - apply nokeys in H0 as ->. go. split; [intros [= <- <-]; by left|]. intros [(_ & -> & ->)|(k & o & Hk & _)]; [done|by rewrite lookup_nil in Hk].
    - rewrite nokeys in H0. destruct (pick_ok rnd ks H0) as (k & -> & Hk). go. destruct (n_insert api k v s) as [o s1|e s1] eqn:Ei; go.
      + destruct (fz_assert_get api s1 k v) as [[]|e] eqn:E; go.
        * apply assert_get_iff in E. split; [intros [= <- <-]; right; by exists k, o|]. intros [(-> & _)|(k1 & o1 & Hk1 & Ei1 & _ & ->)]; [done|]. congruence.
        * split; [done|]. intros [(-> & _)|(k1 & o1 & Hk1 & Ei1 & Hg & ->)]; [done|]. replace k1 with k in * by congruence. replace s1 with s' in * by congruence.
          apply assert_get_iff in Hg. congruence.
      + split; [done|]. intros [(-> & _)|(k1 & o1 & Hk1 & Ei1 & _)]; [done|]. congruence.
  Qed.
  Lemma replace_iff v rnd s ks s' ks' : perform_action api (FReplace v) rnd (s, ks) = Ret () (s', ks') ↔
    (ks = [] ∧ s' = s ∧ ks' = []) ∨
    (∃ k v0, ks !! N.to_nat (rnd mod lengthN ks) = Some k ∧ n_get_mut api k (λ _, v) s = Ret (Some v0) s' ∧ n_get api s' k = Val (Some v) ∧ ks' = ks).
  Proof.
    unfold perform_action. go. destruct (decide (lengthN ks = 0)) as [H0|H0].
    - apply nokeys in H0 as ->. go. split; [intros [= <- <-]; by left|]. intros [(_ & -> & ->)|(k & o & Hk & _)]; [done|by rewrite lookup_nil in Hk].
    - rewrite nokeys in H0. destruct (pick_ok rnd ks H0) as (k & -> & Hk). go. destruct (n_get_mut api k _ s) as [[v0|] s1|e s1] eqn:Ei; go.
      + unfold unwrap at 1. go. destruct (fz_assert_get api s1 k v) as [[]|e] eqn:E; go.
        * apply assert_get_iff in E. split; [intros [= <- <-]; right; by exists k, v0|]. intros [(-> & _)|(k1 & o1 & Hk1 & Ei1 & _ & ->)]; [done|]. congruence.
        * split; [done|]. intros [(-> & _)|(k1 & o1 & Hk1 & Ei1 & Hg & ->)]; [done|]. replace k1 with k in * by congruence. replace s1 with s' in * by congruence.
          apply assert_get_iff in Hg. congruence.
      + split; [done|]. intros [(-> & _)|(k1 & o1 & Hk1 & Ei1 & _)]; [done|]. replace k1 with k in * by congruence. congruence.
      + split; [done|]. intros [(-> & _)|(k1 & o1 & Hk1 & Ei1 & _)]; [done|]. replace k1 with k in * by congruence. congruence.
  Qed.
  Lemma remove_iff rnd s ks s' ks' : perform_action api FRemove rnd (s, ks) = Ret () (s', ks') ↔
    (ks = [] ∧ s' = s ∧ ks' = []) ∨
    (∃ k v, ks !! N.to_nat (rnd mod lengthN ks) = Some k ∧ n_get api s k = Val (Some v) ∧ n_remove api k s = Ret (Some v) s' ∧
      ks' = swap_remove (N.to_nat (rnd mod lengthN ks)) ks).
  Proof.
    unfold perform_action. go. destruct (decide (lengthN ks = 0)) as [H0|H0].
    - apply nokeys in H0 as ->. go. split; [intros [= <- <-]; by left|]. intros [(_ & -> & ->)|(k & o & Hk & _)]; [done|by rewrite lookup_nil in Hk].
    - rewrite nokeys in H0. destruct (pick_ok rnd ks H0) as (k & -> & Hk). go. destruct (n_get api s k) as [[v|]|e] eqn:Eg; go.
      + unfold unwrap at 1. go. destruct (n_remove api k s) as [[v1|] s1|e s1] eqn:Er; go.
        * unfold unwrap, assert_eq. go. destruct (decide (v = v1)) as [<-|Hv]; go.
          -- split; [intros [= <- <-]; right; by exists k, v|]. intros [(-> & _)|(k1 & o1 & Hk1 & Eg1 & Er1 & ->)]; [done|]. congruence.
          -- split; [done|]. intros [(-> & _)|(k1 & o1 & Hk1 & Eg1 & Er1 & ->)]; [done|]. congruence.
        * split; [done|]. intros [(-> & _)|(k1 & o1 & Hk1 & Eg1 & Er1 & ->)]; [done|]. congruence.
        * split; [done|]. intros [(-> & _)|(k1 & o1 & Hk1 & Eg1 & Er1 & ->)]; [done|]. congruence.
      + split; [done|]. intros [(-> & _)|(k1 & o1 & Hk1 & Eg1 & Er1 & ->)]; [done|]. congruence.
      + split; [done|]. intros [(-> & _)|(k1 & o1 & Hk1 & Eg1 & Er1 & ->)]; [done|]. congruence.
  Qed.
  (** what a [for] loop sees *)
  Lemma until_iff {A} (l : list (option A)) xs : until_none l = Val xs ↔ ∃ rest, l = map Some xs ++ None :: rest.
  Proof.
    revert xs. induction l as [|[x|] l IH]; intros xs; cbn [until_none].
    - split; [done|]. intros [rest E]. by destruct xs.
    - destruct (until_none l) as [ys|e] eqn:E; cbn [mbind res_bind].
      + destruct (proj1 (IH ys) eq_refl) as [rest ->]. split; [intros [= <-]; by exists rest|].
        intros [rest' E']. destruct xs as [|x' xs]; cbn in E'; [done|]. injection E' as -> E'. f_equal. f_equal.
        assert (Val ys = Val xs) as [= ->]; [|done]. apply IH. by exists rest'.
      + split; [done|]. intros [rest' E']. destruct xs as [|x' xs]; cbn in E'; [done|]. injection E' as -> E'.
        assert (Err e = Val xs) as [=]. apply IH. by exists rest'.
    - split; [intros [= <-]; by exists l|]. intros [rest E]. destruct xs; [done|]. done.
  Qed.
  Lemma iter_iff e s ks s' ks' : fz_iter api e (s, ks) = Ret () (s', ks') ↔
    s' = s ∧ ks' = ks ∧ ∃ xs rest, n_iter api s (replicate (N.to_nat (n_capacity api s + 1)) e) = Val (map Some xs ++ None :: rest) ∧
      ∀ kv, kv ∈ xs → n_get api s kv.1 = Val (Some kv.2).
  Proof.
    unfold fz_iter, fz_calls. go. destruct (n_iter api s _) as [l|er]; go.
    - destruct (until_none l) as [xs|er] eqn:E; go.
      + apply until_iff in E as [rest ->]. destruct (fz_check api s xs) as [[]|er] eqn:Ec; go.
        * rewrite check_iff in Ec. split; [intros [= <- <-]; split_and!; [done..|]; by exists xs, rest|]. by intros (-> & -> & _).
        * split; [done|]. intros (_ & _ & xs' & rest' & [= E'] & Hx). assert (xs' = xs) as ->.
          { assert (Val xs' = Val xs) as [= ->]; [|done]. transitivity (until_none (map Some xs ++ None :: rest)); [symmetry|]; apply until_iff; eauto. }
          rewrite (proj2 (check_iff s xs) Hx) in Ec. done.
      + split; [done|]. intros (_ & _ & xs' & rest' & [= ->] & Hx). rewrite (proj2 (until_iff _ xs')) in E by eauto. done.
    - split; [done|]. by intros (_ & _ & xs' & rest' & [=] & _).
  Qed.
  Lemma iter_mut_iff e s ks s' ks' : fz_iter_mut api e (s, ks) = Ret () (s', ks') ↔
    ks' = ks ∧ ∃ xs rest, n_iter_mut api (replicate (N.to_nat (n_capacity api s + 1)) (e, λ v, v)) s = Ret (map Some xs ++ None :: rest) s'.
  Proof.
    unfold fz_iter_mut, fz_calls. go. destruct (n_iter_mut api _ s) as [l s1|er s1]; go.
    - destruct (until_none l) as [xs|er] eqn:E; go.
      + apply until_iff in E as [rest ->]. split; [intros [= <- <-]; split; [done|]; by exists xs, rest|]. intros (-> & xs' & rest' & [= _ ->]). done.
      + split; [done|]. intros (_ & xs' & rest' & [= -> _]). rewrite (proj2 (until_iff _ xs')) in E by eauto. done.
    - split; [done|]. by intros (_ & xs' & rest' & [=]).
  Qed.
  Lemma run_iff (check : S → res bool) a rnd acts st st' :
    fz_target api check ((a, rnd) :: acts) st = Ret () st' ↔
    ∃ st1, perform_action api a rnd st = Ret () st1 ∧ check st1.1 = Val true ∧ fz_target api check acts st1 = Ret () st'.
  Proof.
    cbn [fz_target]. unfold mbind, M_bind at 1. destruct (perform_action api a rnd st) as [[] st1|e st1]; [|split; [done|by intros (? & [=] & _)]].
    unfold M_bind at 1, gets. destruct (check st1.1) as [[]|e] eqn:E; unfold massert, mret, M_ret, M_bind.
    - split; [intros Hr; by exists st1|]. by intros (? & [= <-] & _ & ?).
    - split; [done|]. intros (? & [= <-] & ? & _). congruence.
    - split; [done|]. intros (? & [= <-] & ? & _). congruence.
  Qed.
End harness.

(** ** The map that never forgets passes every run *)
Section forgetless.
  Context {K V : Type} `{EqDecision V} (cmp : K → K → comparison) (HO : OrdLaws cmp).
  Notation inv ks l := (∀ k, k ∈ ks → is_Some (om_get cmp k l)).
  Lemma get_alter_self k (f : V → V) l v : om_get cmp k l = Some v → om_get cmp k (om_alter cmp k f l) = Some (f v).
  Proof using HO. intros Hg. rewrite om_get_alter by done. rewrite decide_True by apply (cmp_refl cmp HO). by rewrite Hg. Qed.
  Lemma forgetless_step (a : fz_action K V) rnd l ks : inv ks l → ∃ l' ks', perform_action (forgetless cmp) a rnd (l, ks) = Ret () (l', ks') ∧ inv ks' l'.
  Proof using HO.
    intros Hi.
    assert (∀ k (v : V) l, om_get cmp k (om_insert cmp k v l) = Some v) as Hgi.
    { intros. rewrite om_get_insert by done. by rewrite decide_True by apply (cmp_refl cmp HO). }
    assert (∀ k k' (v : V) l, is_Some (om_get cmp k' l) → is_Some (om_get cmp k' (om_insert cmp k v l))) as Hgi'.
    { intros k k' v m Hs. rewrite om_get_insert by done. destruct (decide _); [by eexists|done]. }
    assert (ks = [] ∨ ∃ k v, ks !! N.to_nat (rnd mod lengthN ks) = Some k ∧ om_get cmp k l = Some v) as Hpick.
    { destruct ks as [|k0 ks]; [by left|]. right. destruct (pick_ok rnd (k0 :: ks)) as (k & _ & Hk); [done|].
      destruct (Hi k) as [v Hv]; [by eapply elem_of_list_lookup_2|]. by exists k, v. }
    destruct a as [k v|v| |v| | | |].
    - destruct (om_get cmp k l) as [v0|] eqn:Eg.
      + exists l, ks. split; [|done]. apply insert_iff. left. exists v0. cbn. by rewrite Eg.
      + exists (om_insert cmp k v l), (ks ++ [k]). split.
        * apply insert_iff. right. split; [cbn; by rewrite Eg|]. exists (Some 0). split; [done|]. split; [done|]. cbn. by rewrite Hgi.
        * intros k' [Hk'| ->%elem_of_list_singleton]%elem_of_app; [by apply Hgi', Hi|rewrite Hgi; by eexists].
    - destruct Hpick as [->|(k & v0 & Hk & Hg)].
      + exists l, []. split; [|done]. apply upsert_iff. by left.
      + exists (om_insert cmp k v l), ks. split; [|intros k' Hk'; by apply Hgi', Hi]. apply upsert_iff. right. exists k, (Some 0). split_and!; [done..|cbn; by rewrite Hgi|done].
    - destruct Hpick as [->|(k & v0 & Hk & Hg)].
      + exists l, []. split; [|done]. apply remove_iff. by left.
      + exists l, (swap_remove (N.to_nat (rnd mod lengthN ks)) ks). split.
        * apply remove_iff. right. exists k, v0. split_and!; [done|cbn; by rewrite Hg|cbn; by rewrite Hg|done].
        * intros k' Hk'. apply Hi. rewrite (swap_remove_perm _ _ _ Hk). by right.
    - destruct Hpick as [->|(k & v0 & Hk & Hg)].
      + exists l, []. split; [|done]. apply replace_iff. by left.
      + exists (om_alter cmp k (λ _, v) l), ks. split.
        * apply replace_iff. right. exists k, v0. split_and!; [done|cbn; by rewrite Hg|cbn; by rewrite (get_alter_self _ _ _ v0)|done].
        * intros k' Hk'. rewrite om_get_alter by done. destruct (Hi k' Hk') as [v' Hv']. destruct (decide _); [|by rewrite Hv'; eexists]. apply fmap_is_Some. rewrite ?Hv'. eauto.
    - exists l, ks. split; [|done]. apply iter_iff. split_and!; [done..|]. exists [], []. split; [done|]. intros kv Hkv. by inversion Hkv.
    - exists l, ks. split; [|done]. apply iter_iff. split_and!; [done..|]. exists [], []. split; [done|]. intros kv Hkv. by inversion Hkv.
    - exists l, ks. split; [|done]. apply iter_mut_iff. split; [done|]. by exists [], [].
    - exists l, ks. split; [|done]. apply iter_mut_iff. split; [done|]. by exists [], [].
  Qed.
  Lemma forgetless_run (acts : list (fz_action K V * N)) : ∀ l ks, inv ks l → ∃ st, fz_target (forgetless cmp) (λ _, Val true) acts (l, ks) = Ret () st.
  Proof using HO.
    induction acts as [|[a rnd] acts IH]; intros l ks Hi; cbn [fz_target]; [by eexists|].
    destruct (forgetless_step a rnd l ks Hi) as (l' & ks' & E & Hi'). unfold mbind, M_bind at 1. rewrite E. unfold M_bind at 1, gets at 1. unfold massert, mret, M_ret, M_bind. by apply IH.
  Qed.
End forgetless.
