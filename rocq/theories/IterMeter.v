(** * The limited iterators answer the same or run out *)
From Verif Require Export IterModel RBApi AVLApi CritApi HashApi CostProof.

(** [b], which carries a meter beside its iterator, runs out or answers like [r] *)
Definition mle {A IT Mt} (b : res (A * (IT * Mt))) (r : res (A * IT)) : Prop :=
  b = Err OutOfFuel ∨ r = match b with Val (x, st) => Val (x, st.1) | Err e => Err e end.
Definition drop_meter {S IT Mt A} (b : outcome (S * (IT * Mt)) A) : outcome (S * IT) A :=
  match b with Ret x (s, st) => Ret x (s, st.1) | Fail e (s, st) => Fail e (s, st.1) end.
Definition mlem {S A IT Mt} (b : M (S * (IT * Mt)) A) (r : M (S * IT) A) : Prop :=
  ∀ s st, (∃ s', b (s, st) = Fail OutOfFuel s') ∨ r (s, st.1) = drop_meter (b (s, st)).

Section drive.
  Context {A IT Mt : Type} (nb bb : IT * Mt → res (option A * (IT * Mt))) (n b : IT → res (option A * IT)).
  Context (Hn : ∀ st, mle (nb st) (n st.1)) (Hb : ∀ st, mle (bb st) (b st.1)).
  Lemma drive_mle sc st : drive nb bb sc st = Err OutOfFuel ∨ drive nb bb sc st = drive n b sc st.1.
  Proof using Hn Hb.
    revert st. induction sc as [|e sc IH]; intros st; [by right|]. cbn [drive].
    assert (mle (match e with Fwd => nb st | Bwd => bb st end) (match e with Fwd => n st.1 | Bwd => b st.1 end)) as [->| ->] by (destruct e; auto);
      [by left|].
    destruct (match e with Fwd => nb st | Bwd => bb st end) as [[x st']|e']; cbn [mbind res_bind fst snd]; [|by right].
    destruct (IH st') as [->| ->]; [by left|by right].
  Qed.
  (** with an invariant that keeps it from running out *)
  Context (J : IT * Mt → Prop).
  Context (HJn : ∀ st, J st → match nb st with Val (_, st') => J st' | Err e => e ≠ OutOfFuel end).
  Context (HJb : ∀ st, J st → match bb st with Val (_, st') => J st' | Err e => e ≠ OutOfFuel end).
  Lemma drive_within sc st : J st → drive nb bb sc st = drive n b sc st.1.
  Proof using Hn Hb HJn HJb.
    intros HJ. destruct (drive_mle sc st) as [Hx|]; [exfalso|done]. clear Hn Hb.
    revert st HJ Hx. induction sc as [|e sc IH]; intros st HJ; [done|]. cbn [drive].
    assert (match (match e with Fwd => nb st | Bwd => bb st end) with Val (_, st') => J st' | Err e => e ≠ OutOfFuel end) as HJ' by (destruct e; [by apply HJn|by apply HJb]).
    destruct (match e with Fwd => nb st | Bwd => bb st end) as [[x st']|e']; cbn [mbind res_bind fst snd]; [|congruence].
    intros Hx. apply (IH st' HJ'). destruct (drive nb bb sc st'); [done|]. by injection Hx as ->.
  Qed.
End drive.

Section drive_mut.
  Context {S A V IT Mt : Type} (nb bb : (V → V) → M (S * (IT * Mt)) (option A)) (n b : (V → V) → M (S * IT) (option A)).
  Context (Hn : ∀ f, mlem (nb f) (n f)) (Hb : ∀ f, mlem (bb f) (b f)).
  Lemma drive_mut_mle sc s st :
    (∃ s', drive_mut nb bb sc (s, st) = Fail OutOfFuel s') ∨ drop_meter (drive_mut nb bb sc (s, st)) = drive_mut n b sc (s, st.1).
  Proof using Hn Hb.
    revert s st. induction sc as [|[e f] sc IH]; intros s st; [by right|]. cbn [drive_mut]. unfold mbind, M_bind.
    assert (mlem (match e with Fwd => nb f | Bwd => bb f end) (match e with Fwd => n f | Bwd => b f end)) as Hx by (destruct e; auto).
    destruct (Hx s st) as [[s' ->]| ->]; [left; by eexists|].
    destruct ((match e with Fwd => nb f | Bwd => bb f end) (s, st)) as [x [s' st']|e' [s' st']]; cbn [drop_meter]; [|by right].
    destruct (IH s' st') as [[s2 ->]|<-]; [left; by eexists|]. right.
    by destruct (drive_mut nb bb sc (s', st')) as [? []|? []].
  Qed.
  Context (J : S * (IT * Mt) → Prop).
  Context (HJn : ∀ f s, J s → match nb f s with Ret _ s' => J s' | Fail e _ => e ≠ OutOfFuel end).
  Context (HJb : ∀ f s, J s → match bb f s with Ret _ s' => J s' | Fail e _ => e ≠ OutOfFuel end).
  Lemma drive_mut_within sc s st : J (s, st) → drop_meter (drive_mut nb bb sc (s, st)) = drive_mut n b sc (s, st.1).
  Proof using Hn Hb HJn HJb.
    intros HJ. destruct (drive_mut_mle sc s st) as [Hx|]; [exfalso|done]. clear Hn Hb. revert HJ Hx. generalize (s, st). clear s st.
    induction sc as [|[e f] sc IH]; intros s HJ [s' Hx]; [done|]. cbn [drive_mut] in Hx. unfold mbind, M_bind in Hx.
    assert (match (match e with Fwd => nb f | Bwd => bb f end) s with Ret _ s' => J s' | Fail e _ => e ≠ OutOfFuel end) as HJ' by (destruct e; [by apply HJn|by apply HJb]).
    destruct ((match e with Fwd => nb f | Bwd => bb f end) s) as [x s1|e1 s1]; [|congruence].
    apply (IH s1 HJ'). destruct (drive_mut nb bb sc s1) as [|e2 s2]; [done|]. injection Hx as -> ->. by eexists.
  Qed.
End drive_mut.

(** ** The steps of the iterators *)
Section tree.
  Context `{Profile} {K V : Type} (room : nat).
  Notation al := (alloc (K * V)).

  Lemma tim_fwd_mle fuel c rds (a : al) it :
    (c ≤ fuel)%nat → (0 < fuel)%nat ∨ ti_fwd_stack it ≠ [] ∧ ti_terminated it = false →
    mle (tim_fwd room c rds a it) (ti_fwd fuel a it).
  Proof using Type.
    revert c rds it. induction fuel as [|fuel IH]; intros c rds [fs fp fn rs rp rn tm] Hc Hx.
    { destruct Hx as [|[Hs Ht]]; [lia|]. simpl in Hs, Ht. subst tm. assert (c = O) as -> by lia. cbn [tim_fwd].
      destruct (decide (fp = SENTINEL)); [destruct fs; [done|]|]; by left. }
    destruct c as [|c]; cbn [tim_fwd ti_fwd].
    - destruct tm; [by right|]. destruct (decide (fp = SENTINEL)); [destruct fs; [by right|]|]; by left.
    - destruct tm; [by right|]. destruct (decide (fp = SENTINEL)).
      + destruct fs as [|x fs]; [by right|]. destruct rds as [|rds]; [by left|]. destruct (decide (Some x = rn)); [by right|].
        destruct (na_get_register a x Right); by right.
      + destruct rds as [|rds]; [by left|]. destruct (decide (length fs < room)%nat); [|by left].
        destruct (na_get_register a fp Left); cbn [mbind res_bind]; [|by right]. apply IH; [lia|]. by right.
  Qed.
  Lemma tim_rev_mle fuel c rds (a : al) it :
    (c ≤ fuel)%nat → (0 < fuel)%nat ∨ ti_rev_stack it ≠ [] ∧ ti_terminated it = false →
    mle (tim_rev room c rds a it) (ti_rev fuel a it).
  Proof using Type.
    revert c rds it. induction fuel as [|fuel IH]; intros c rds [fs fp fn rs rp rn tm] Hc Hx.
    { destruct Hx as [|[Hs Ht]]; [lia|]. simpl in Hs, Ht. subst tm. assert (c = O) as -> by lia. cbn [tim_rev].
      destruct (decide (rp = SENTINEL)); [destruct rs; [done|]|]; by left. }
    destruct c as [|c]; cbn [tim_rev ti_rev].
    - destruct tm; [by right|]. destruct (decide (rp = SENTINEL)); [destruct rs; [by right|]|]; by left.
    - destruct tm; [by right|]. destruct (decide (rp = SENTINEL)).
      + destruct rs as [|x rs]; [by right|]. destruct rds as [|rds]; [by left|]. destruct (decide (Some x = fn)); [by right|].
        destruct (na_get_register a x Left); by right.
      + destruct rds as [|rds]; [by left|]. destruct (decide (length rs < room)%nat); [|by left].
        destruct (na_get_register a rp Right); cbn [mbind res_bind]; [|by right]. apply IH; [lia|]. by right.
  Qed.
  Lemma call_fwd rds (a : al) it : mle (tim_fwd room (tim_call room a) rds a it) (ti_fwd (ti_fuel a) a it).
  Proof using Type. apply tim_fwd_mle; [unfold tim_call; lia|]. left. unfold ti_fuel. lia. Qed.
  Lemma call_rev rds (a : al) it : mle (tim_rev room (tim_call room a) rds a it) (ti_rev (ti_fuel a) a it).
  Proof using Type. apply tim_rev_mle; [unfold tim_call; lia|]. left. unfold ti_fuel. lia. Qed.
  Lemma next_mle (a : al) st : mle (tim_next room a st) (ti_next a st.1).
  Proof using Type.
    unfold tim_next, ti_next. destruct (call_fwd st.2.1 a st.1) as [->| ->]; [by left|].
    destruct (tim_fwd _ _ _ a st.1) as [[x [it m]]|e]; cbn [mbind res_bind fst snd]; [|by right].
    destruct x as [x|]; [|by right]. destruct (na_get a x); by right.
  Qed.
  Lemma next_back_mle (a : al) st : mle (tim_next_back room a st) (ti_next_back a st.1).
  Proof using Type.
    unfold tim_next_back, ti_next_back. destruct (call_rev st.2.2 a st.1) as [->| ->]; [by left|].
    destruct (tim_rev _ _ _ a st.1) as [[x [it m]]|e]; cbn [mbind res_bind fst snd]; [|by right].
    destruct x as [x|]; [|by right]. destruct (na_get a x); by right.
  Qed.
  Lemma mut_next_mle f : mlem (tim_mut_next (K := K) (V := V) room f) (ti_mut_next f).
  Proof using Type.
    intros a st. unfold tim_mut_next, ti_mut_next, mbind, M_bind, mget, lift, gets, modify, zoom. cbn [fst snd].
    destruct (call_fwd st.2.1 a st.1) as [->| ->]; [left; by eexists|].
    destruct (tim_fwd _ _ _ a st.1) as [[x [it m]]|e]; cbn [fst snd]; [|by right].
    destruct x as [x|]; [|by right]. cbn [fst snd]. match goal with |- context [na_raw_update x ?g a] => destruct (na_raw_update x g a) end; by right.
  Qed.
  Lemma mut_next_back_mle f : mlem (tim_mut_next_back (K := K) (V := V) room f) (ti_mut_next_back f).
  Proof using Type.
    intros a st. unfold tim_mut_next_back, ti_mut_next_back, mbind, M_bind, mget, lift, gets, modify, zoom. cbn [fst snd].
    destruct (call_rev st.2.2 a st.1) as [->| ->]; [left; by eexists|].
    destruct (tim_rev _ _ _ a st.1) as [[x [it m]]|e]; cbn [fst snd]; [|by right].
    destruct x as [x|]; [|by right]. cbn [fst snd]. match goal with |- context [na_raw_update x ?g a] => destruct (na_raw_update x g a) end; by right.
  Qed.
  Lemma mlem_zoom {S T A IT Mt} (g : S → T) (u : T → S → S) (b : M (T * (IT * Mt)) A) (r : M (T * IT) A) :
    mlem b r →
    mlem (zoom (λ st : S * (IT * Mt), (g st.1, st.2)) (λ at_ st, (u at_.1 st.1, at_.2)) b)
         (zoom (λ st : S * IT, (g st.1, st.2)) (λ at_ st, (u at_.1 st.1, at_.2)) r).
  Proof.
    intros Hb s st. unfold zoom. cbn [fst snd]. destruct (Hb (g s) st) as [[s' ->]| ->]; [left; by eexists|].
    right. by destruct (b (g s, st)) as [? []|? []].
  Qed.
End tree.

Section crit.
  Context `{Profile} {V : Type} (room : nat).
  Implicit Types t : critbit V.
  Lemma cim_fwd_mle fuel c rds t it : (c ≤ fuel)%nat → (0 < fuel)%nat ∨ ci_fwd_stack it ≠ [] ∧ ci_terminated it = false →
    mle (cim_fwd room c rds t it) (ci_fwd fuel t it).
  Proof using Type.
    revert c rds it. induction fuel as [|fuel IH]; intros c rds [fs fn rs rn tm] Hc Hx.
    { destruct Hx as [|[Hs Ht]]; [lia|]. simpl in Hs, Ht. subst tm. assert (c = O) as -> by lia. cbn [cim_fwd]. destruct fs; [done|]. by left. }
    destruct c as [|c]; cbn [cim_fwd ci_fwd].
    - destruct tm; [by right|]. destruct fs; [by right|by left].
    - destruct tm; [by right|]. destruct fs as [|n fs]; [by right|]. destruct rds as [|rds]; [by left|].
      destruct (cb_is_inner_node t n) as [inn|]; cbn [mbind res_bind]; [|by right]. destruct inn; cbn [negb].
      + destruct (decide (S (length fs) < room)%nat); [|by left].
        destruct (cb_get_right t n); cbn [mbind res_bind]; [|by right]. destruct (cb_get_left t n); cbn [mbind res_bind]; [|by right].
        apply IH; [lia|by right].
      + destruct (cb_get_leaf_index t n) as [i|]; cbn [mbind res_bind]; [|by right]. destruct (decide (Some i = rn)); by right.
  Qed.
  Lemma cim_rev_mle fuel c rds t it : (c ≤ fuel)%nat → (0 < fuel)%nat ∨ ci_rev_stack it ≠ [] ∧ ci_terminated it = false →
    mle (cim_rev room c rds t it) (ci_rev fuel t it).
  Proof using Type.
    revert c rds it. induction fuel as [|fuel IH]; intros c rds [fs fn rs rn tm] Hc Hx.
    { destruct Hx as [|[Hs Ht]]; [lia|]. simpl in Hs, Ht. subst tm. assert (c = O) as -> by lia. cbn [cim_rev]. destruct rs; [done|]. by left. }
    destruct c as [|c]; cbn [cim_rev ci_rev].
    - destruct tm; [by right|]. destruct rs; [by right|by left].
    - destruct tm; [by right|]. destruct rs as [|n rs]; [by right|]. destruct rds as [|rds]; [by left|].
      destruct (cb_is_inner_node t n) as [inn|]; cbn [mbind res_bind]; [|by right]. destruct inn; cbn [negb].
      + destruct (decide (S (length rs) < room)%nat); [|by left].
        destruct (cb_get_left t n); cbn [mbind res_bind]; [|by right]. destruct (cb_get_right t n); cbn [mbind res_bind]; [|by right].
        apply IH; [lia|by right].
      + destruct (cb_get_leaf_index t n) as [i|]; cbn [mbind res_bind]; [|by right]. destruct (decide (Some i = fn)); by right.
  Qed.
  Lemma ccall_fwd rds t it : mle (cim_fwd room (cim_call room t) rds t it) (ci_fwd (cb_fuel t) t it).
  Proof using Type. apply cim_fwd_mle; [unfold cim_call; lia|]. left. unfold cb_fuel. lia. Qed.
  Lemma ccall_rev rds t it : mle (cim_rev room (cim_call room t) rds t it) (ci_rev (cb_fuel t) t it).
  Proof using Type. apply cim_rev_mle; [unfold cim_call; lia|]. left. unfold cb_fuel. lia. Qed.
  Lemma cnext_mle t st : mle (cim_next room t st) (cb_iter_next t st.1).
  Proof using Type.
    unfold cim_next, cb_iter_next. destruct (ccall_fwd st.2.1 t st.1) as [->| ->]; [by left|].
    destruct (cim_fwd _ _ _ t st.1) as [[x [it m]]|e]; cbn [mbind res_bind fst snd]; [|by right].
    destruct x as [[x i]|]; [|by right]. destruct (cb_get_leaf t i); [|by right]. cbn [mbind res_bind]. destruct (cb_get_key t x); by right.
  Qed.
  Lemma cnext_back_mle t st : mle (cim_next_back room t st) (cb_iter_next_back t st.1).
  Proof using Type.
    unfold cim_next_back, cb_iter_next_back. destruct (ccall_rev st.2.2 t st.1) as [->| ->]; [by left|].
    destruct (cim_rev _ _ _ t st.1) as [[x [it m]]|e]; cbn [mbind res_bind fst snd]; [|by right].
    destruct x as [[x i]|]; [|by right]. destruct (cb_get_leaf t i); [|by right]. cbn [mbind res_bind]. destruct (cb_get_key t x); by right.
  Qed.
  Lemma cmut_next_mle f : mlem (cim_mut_next (V := V) room f) (cb_iter_mut_next f).
  Proof using Type.
    intros t st. unfold cim_mut_next, cb_iter_mut_next, mbind, M_bind, mget, lift, gets, modify. cbn [fst snd].
    destruct (ccall_fwd st.2.1 t st.1) as [->| ->]; [left; by eexists|].
    destruct (cim_fwd _ _ _ t st.1) as [[x [it m]]|e]; cbn [fst snd]; [|by right].
    destruct x as [[x i]|]; [|by right]. cbn [fst snd]. destruct (cb_raw_key t x); [|by right]. unfold zoom. cbn [fst snd]. match goal with |- context [cb_onl ?g t] => destruct (cb_onl g t) end; by right.
  Qed.
  Lemma cmut_next_back_mle f : mlem (cim_mut_next_back (V := V) room f) (cb_iter_mut_next_back f).
  Proof using Type.
    intros t st. unfold cim_mut_next_back, cb_iter_mut_next_back, mbind, M_bind, mget, lift, gets, modify. cbn [fst snd].
    destruct (ccall_rev st.2.2 t st.1) as [->| ->]; [left; by eexists|].
    destruct (cim_rev _ _ _ t st.1) as [[x [it m]]|e]; cbn [fst snd]; [|by right].
    destruct x as [[x i]|]; [|by right]. cbn [fst snd]. destruct (cb_raw_key t x); [|by right]. unfold zoom. cbn [fst snd]. match goal with |- context [cb_onl ?g t] => destruct (cb_onl g t) end; by right.
  Qed.
End crit.
