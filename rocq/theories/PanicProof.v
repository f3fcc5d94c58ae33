(** * A panic of the user's code leaves the container as it was *)
From Verif Require Export PanicSpec PanicModel Spec.

(** [X]: some call of the user's code panics *)
Definition same {S A} (X : Prop) (m1 m2 : M S A) : Prop := ∀ s, m1 s = m2 s ∨ m1 s = Fail Panic s ∧ X.
Definition rsame {A} (X : Prop) (r1 r2 : res A) : Prop := r1 = r2 ∨ r1 = Err Panic ∧ X.
Definition gives {A} (X : Prop) (r : res A) (a : A) : Prop := r = Val a ∨ r = Err Panic ∧ X.
Section same.
  Context {X : Prop}.
  Lemma same_refl {S A} (m : M S A) : same X m m.
  Proof. by left. Qed.
  Lemma rsame_refl {A} (r : res A) : rsame X r r.
  Proof. by left. Qed.
  Lemma same_gets {S A} (r1 r2 : S → res A) : (∀ s, rsame X (r1 s) (r2 s)) → same X (gets r1) (gets r2).
  Proof. intros Hr s. unfold gets. destruct (Hr s) as [-> |[-> HX]]; [by left|by right]. Qed.
  Lemma same_gets_bind {S A B} (r1 r2 : S → res A) (f g : A → M S B) :
    (∀ s, rsame X (r1 s) (r2 s)) → (∀ a, same X (f a) (g a)) → same X (gets r1 ≫= f) (gets r2 ≫= g).
  Proof.
    intros Hr Hf s. unfold gets, mbind, M_bind. destruct (Hr s) as [-> |[-> HX]]; [|by right]. destruct (r2 s) as [a|e]; [apply Hf|by left].
  Qed.
  Lemma same_mget_bind {S B} (f g : S → M S B) : (∀ a, same X (f a) (g a)) → same X (mget ≫= f) (mget ≫= g).
  Proof. intros Hf s. apply Hf. Qed.
  Lemma same_bind {S A B} (m1 m2 : M S A) (f : A → M S B) : same X m1 m2 → same X (m1 ≫= f) (m2 ≫= f).
  Proof. intros Hm s. unfold mbind, M_bind. destruct (Hm s) as [-> |[-> HX]]; [by left|by right]. Qed.
  Lemma same_call {S A B} (r : res A) (a : A) (f : A → M S B) (m : M S B) :
    gives X r a → same X (f a) m → same X (mcall r ≫= f) m.
  Proof. intros [-> |[-> HX]] Hf s; [apply Hf|by right]. Qed.
  Lemma rsame_bind {A B} (r1 r2 : res A) (f g : A → res B) : rsame X r1 r2 → (∀ a, rsame X (f a) (g a)) → rsame X (r1 ≫= f) (r2 ≫= g).
  Proof. intros [-> |[-> HX]] Hf; [|by right]. destruct r2 as [a|e]; [apply Hf|by left]. Qed.
  Lemma rsame_call {A B} (r : res A) (a : A) (f : A → res B) (m : res B) : gives X r a → rsame X (f a) m → rsame X (r ≫= f) m.
  Proof. intros [-> |[-> HX]] Hf; [apply Hf|by right]. Qed.
End same.

Section RB.
  Context `{Profile} {K V : Type} (X : Prop) (pc : K → K → res comparison) (cmp : K → K → comparison).
  Context (Ha : ∀ a b, gives X (pc a b) (cmp a b)).
  Implicit Types t : rbt K V.

  Lemma rb_walk_p fuel (a : alloc (K * V)) k i : rsame X (rbp_b_walk pc fuel a k i) (bst_walk cmp fuel a k i).
  Proof using Ha.
    revert i. induction fuel as [|fuel IH]; intros i; [apply rsame_refl|]. simpl. apply rsame_bind; [apply rsame_refl|]. intros n.
    eapply rsame_call; [apply Ha|]. destruct (cmp k _); [apply rsame_refl|..];
      (apply rsame_bind; [apply rsame_refl|]; intros c; destruct (decide (c = SENTINEL)); [apply rsame_refl|apply IH]).
  Qed.
  Lemma rb_get_addr_p t k : rsame X (rbp_get_addr pc t k) (rb_get_addr cmp t k).
  Proof using Ha.
    unfold rbp_get_addr, rb_get_addr, rbp_b_get_addr, bst_get_addr. destruct (decide _); [apply rsame_refl|apply rb_walk_p].
  Qed.
  Lemma rb_get_p t k : rsame X (rbp_get pc t k) (rb_get cmp t k).
  Proof using Ha. apply rsame_bind; [apply rb_get_addr_p|]. intros. apply rsame_refl. Qed.
  Lemma rb_contains_p t k : rsame X (rbp_contains pc t k) (rb_contains cmp t k).
  Proof using Ha. apply rsame_bind; [apply rb_get_p|]. intros. apply rsame_refl. Qed.
  Lemma rb_index_p t k : rsame X (rbp_index pc t k) (rb_index cmp t k).
  Proof using Ha. apply rsame_bind; [apply rb_get_p|]. intros. apply rsame_refl. Qed.
  Lemma rb_get_mut_p k f : same X (rbp_get_mut pc k f) (rb_get_mut cmp k f : M (rbt K V) _).
  Proof using Ha. apply same_gets_bind; [intros; apply rb_get_addr_p|]. intros. apply same_refl. Qed.
  Lemma rb_index_mut_p k f : same X (rbp_index_mut pc k f) (rb_index_mut cmp k f : M (rbt K V) _).
  Proof using Ha. apply same_bind, rb_get_mut_p. Qed.
  Lemma rb_insert_loop_p fuel k v i : same X (rbp_insert_loop pc fuel k v i) (rb_insert_loop cmp fuel k v i : M (rbt K V) _).
  Proof using Ha.
    revert i. induction fuel as [|fuel IH]; intros i; [apply same_refl|]. simpl. apply same_gets_bind; [intros; apply rsame_refl|]. intros n.
    eapply same_call; [apply Ha|]. destruct (cmp k _); [apply same_refl|..];
      (apply same_gets_bind; [intros; apply rsame_refl|]; intros c; destruct (decide (c = SENTINEL)); [apply same_refl|apply IH]).
  Qed.
  Lemma rb_insert_p k v : same X (rbp_insert pc k v) (rb_insert cmp k v : M (rbt K V) _).
  Proof using Ha.
    apply same_mget_bind. intros t. destruct (decide (rb_root t = SENTINEL)); [apply same_refl|apply rb_insert_loop_p].
  Qed.
  Lemma rb_remove_loop_p fuel k i : same X (rbp_remove_loop pc fuel k i) (rb_remove_loop cmp fuel k i : M (rbt K V) _).
  Proof using Ha.
    revert i. induction fuel as [|fuel IH]; intros i; [apply same_refl|]. simpl. apply same_gets_bind; [intros; apply rsame_refl|]. intros n.
    eapply same_call; [apply Ha|]. destruct (cmp k _); [apply same_refl|..];
      (apply same_gets_bind; [intros; apply rsame_refl|]; intros c; destruct (decide (c = SENTINEL)); [apply same_refl|apply IH]).
  Qed.
  Lemma rb_remove_p k : same X (rbp_remove pc k) (rb_remove cmp k : M (rbt K V) _).
  Proof using Ha.
    apply same_mget_bind. intros t. destruct (decide (rb_root t = SENTINEL)); [apply same_refl|apply rb_remove_loop_p].
  Qed.
  Lemma rb_step_p o : same X (rbp_step pc o) (rb_step cmp o : M (rbt K V) _).
  Proof using Ha.
    destruct o as [[]|]; simpl; try apply same_refl; apply same_bind;
      first [apply rb_insert_p|apply rb_remove_p|apply rb_get_mut_p|apply rb_index_mut_p
        |apply same_gets; intros; first [apply rb_get_p|apply rb_contains_p|apply rb_index_p]].
  Qed.
End RB.

Section AVL.
  Context `{Profile} {K V : Type} (X : Prop) (lt gt : K → K → res bool) (pcmp : K → K → option comparison).
  Context (Hl : ∀ a b, gives X (lt a b) (match pcmp a b with Some Lt => true | _ => false end)).
  Context (Hg : ∀ a b, gives X (gt a b) (match pcmp a b with Some Gt => true | _ => false end)).
  Implicit Types t : avlt K V.

  Lemma av_cmp_p a b : gives X (avp_cmp lt gt a b) (av_cmp pcmp a b).
  Proof using Hl Hg.
    unfold avp_cmp, av_cmp. destruct (Hl a b) as [-> |[-> HX]]; [|by right]. destruct (pcmp a b) as [[]|] eqn:E; simpl; [|by left|..].
    all: destruct (Hg a b) as [-> |[-> HX]]; [|by right]; rewrite E; by left.
  Qed.
  Lemma av_walk_p fuel (a : alloc (K * V)) k i : rsame X (avp_b_walk lt gt fuel a k i) (bst_walk (av_cmp pcmp) fuel a k i).
  Proof using Hl Hg.
    revert i. induction fuel as [|fuel IH]; intros i; [apply rsame_refl|]. simpl. apply rsame_bind; [apply rsame_refl|]. intros n.
    eapply rsame_call; [apply av_cmp_p|]. destruct (av_cmp pcmp k _); [apply rsame_refl|..];
      (apply rsame_bind; [apply rsame_refl|]; intros c; destruct (decide (c = SENTINEL)); [apply rsame_refl|apply IH]).
  Qed.
  Lemma av_get_addr_p t k : rsame X (avp_get_addr lt gt t k) (av_get_addr pcmp t k).
  Proof using Hl Hg.
    unfold avp_get_addr, av_get_addr, avp_b_get_addr, bst_get_addr. destruct (decide _); [apply rsame_refl|apply av_walk_p].
  Qed.
  Lemma av_get_loop_p fuel t k i : rsame X (avp_get_loop lt gt fuel t k i) (av_get_loop pcmp fuel t k i).
  Proof using Hl Hg.
    revert i. induction fuel as [|fuel IH]; intros i; [apply rsame_refl|]. simpl. apply rsame_bind; [apply rsame_refl|]. intros n.
    eapply rsame_call; [apply av_cmp_p|]. destruct (av_cmp pcmp k _); [apply rsame_refl|..];
      (apply rsame_bind; [apply rsame_refl|]; intros c; destruct (decide (c = SENTINEL)); [apply rsame_refl|apply IH]).
  Qed.
  Lemma av_get_p t k : rsame X (avp_get lt gt t k) (av_get pcmp t k).
  Proof using Hl Hg. unfold avp_get, av_get. destruct (decide _); [apply rsame_refl|apply av_get_loop_p]. Qed.
  Lemma av_contains_p t k : rsame X (avp_contains lt gt t k) (av_contains pcmp t k).
  Proof using Hl Hg. apply rsame_bind; [apply av_get_p|]. intros. apply rsame_refl. Qed.
  Lemma av_index_p t k : rsame X (avp_index lt gt t k) (av_index pcmp t k).
  Proof using Hl Hg. apply rsame_bind; [apply av_get_p|]. intros. apply rsame_refl. Qed.
  Lemma av_get_mut_loop_p fuel k f i : same X (avp_get_mut_loop lt gt fuel k f i) (av_get_mut_loop pcmp fuel k f i : M (avlt K V) _).
  Proof using Hl Hg.
    revert i. induction fuel as [|fuel IH]; intros i; [apply same_refl|]. simpl. apply same_gets_bind; [intros; apply rsame_refl|]. intros n.
    eapply same_call; [apply av_cmp_p|]. destruct (av_cmp pcmp k _); [apply same_refl|..];
      (apply same_gets_bind; [intros; apply rsame_refl|]; intros c; destruct (decide (c = SENTINEL)); [apply same_refl|apply IH]).
  Qed.
  Lemma av_get_mut_p k f : same X (avp_get_mut lt gt k f) (av_get_mut pcmp k f : M (avlt K V) _).
  Proof using Hl Hg. apply same_mget_bind. intros t. destruct (decide _); [apply same_refl|apply av_get_mut_loop_p]. Qed.
  Lemma av_index_mut_p k f : same X (avp_index_mut lt gt k f) (av_index_mut pcmp k f : M (avlt K V) _).
  Proof using Hl Hg. apply same_bind, av_get_mut_p. Qed.
  Lemma av_insert_loop_p fuel k v p i : same X (avp_insert_loop lt gt fuel k v p i) (av_insert_loop pcmp fuel k v p i : M (avlt K V) _).
  Proof using Hl Hg.
    revert p i. induction fuel as [|fuel IH]; intros p i; [apply same_refl|]. simpl. apply same_gets_bind; [intros; apply rsame_refl|]. intros n.
    eapply same_call; [apply av_cmp_p|]. destruct (av_cmp pcmp k _); [apply same_refl|..];
      (apply same_gets_bind; [intros; apply rsame_refl|]; intros c; destruct (decide (c = SENTINEL)); [apply same_refl|apply IH]).
  Qed.
  Lemma av_insert_p k v : same X (avp_insert lt gt k v) (av_insert pcmp k v : M (avlt K V) _).
  Proof using Hl Hg. apply same_mget_bind. intros t. cbv zeta. destruct (decide _); [apply same_refl|apply av_insert_loop_p]. Qed.
  Lemma av_remove_walk_p fuel t k p i : rsame X (avp_remove_walk lt gt fuel t k p i) (av_remove_walk pcmp fuel t k p i).
  Proof using Hl Hg.
    revert p i. induction fuel as [|fuel IH]; intros p i; [apply rsame_refl|]. simpl. destruct (decide (i = SENTINEL)) as [|Hi]; [apply rsame_refl|].
    apply rsame_bind; [apply rsame_refl|]. intros nd.
    eapply rsame_call; [apply av_cmp_p|]. destruct (av_cmp pcmp k _); [apply rsame_refl|..]; (apply rsame_bind; [apply rsame_refl|]; intros c; apply IH).
  Qed.
  Lemma av_remove_p k : same X (avp_remove lt gt k) (av_remove pcmp k : M (avlt K V) _).
  Proof using Hl Hg.
    apply same_mget_bind. intros t. cbv zeta. destruct (decide (as_u32 (av_root t) = SENTINEL)); [apply same_refl|].
    apply same_gets_bind; [intros; apply av_remove_walk_p|]. intros. apply same_refl.
  Qed.
  Lemma av_step_p o : same X (avp_step lt gt o) (av_step pcmp o : M (avlt K V) _).
  Proof using Hl Hg.
    destruct o; simpl; try apply same_refl; apply same_bind;
      first [apply av_insert_p|apply av_remove_p|apply av_get_mut_p|apply av_index_mut_p
        |apply same_gets; intros; first [apply av_get_p|apply av_contains_p|apply av_index_p]].
  Qed.
End AVL.

Section Hash.
  Context `{Profile} {K V : Type} (X : Prop) (pkeq : K → K → res bool) (phash : K → res N) (keq : K → K → bool) (hash : K → N).
  Context (He : ∀ a b, gives X (pkeq a b) (keq a b)) (Hh : ∀ a, gives X (phash a) (hash a)).
  Implicit Types h : htable K V.

  Lemma ht_bucket_index_p h k : rsame X (htp_bucket_index phash h k) (ht_bucket_index hash h k).
  Proof using Hh. eapply rsame_call; [apply Hh|apply rsame_refl]. Qed.
  Ltac rloop IH :=
    simpl; destruct (decide _); [apply rsame_refl|]; apply rsame_bind; [apply rsame_refl|]; intros;
    eapply rsame_call; [apply He|]; destruct (keq _ _); [apply rsame_refl|]; apply rsame_bind; [apply rsame_refl|]; intros; apply IH.
  Ltac mloop IH :=
    simpl; destruct (decide _); [apply same_refl|]; apply same_gets_bind; [intros; apply rsame_refl|]; intros;
    eapply same_call; [apply He|]; destruct (keq _ _); [apply same_refl|]; apply same_gets_bind; [intros; apply rsame_refl|]; intros; apply IH.
  Lemma ht_get_loop_p fuel h k i : rsame X (htp_get_loop pkeq fuel h k i) (ht_get_loop keq fuel h k i).
  Proof using He. revert i. induction fuel as [|fuel IH]; intros i; [apply rsame_refl|]. rloop IH. Qed.
  Lemma ht_contains_loop_p fuel h k i : rsame X (htp_contains_loop pkeq fuel h k i) (ht_contains_loop keq fuel h k i).
  Proof using He. revert i. induction fuel as [|fuel IH]; intros i; [apply rsame_refl|]. rloop IH. Qed.
  Lemma ht_get_addr_loop_p fuel h k i : rsame X (htp_get_addr_loop pkeq fuel h k i) (ht_get_addr_loop keq fuel h k i).
  Proof using He. revert i. induction fuel as [|fuel IH]; intros i; [apply rsame_refl|]. rloop IH. Qed.
  Lemma ht_get_p h k : rsame X (htp_get pkeq phash h k) (ht_get keq hash h k).
  Proof using He Hh. apply rsame_bind; [apply ht_bucket_index_p|]. intros. apply rsame_bind; [apply rsame_refl|]. intros. apply ht_get_loop_p. Qed.
  Lemma ht_contains_p h k : rsame X (htp_contains pkeq phash h k) (ht_contains keq hash h k).
  Proof using He Hh. apply rsame_bind; [apply ht_bucket_index_p|]. intros. apply rsame_bind; [apply rsame_refl|]. intros. apply ht_contains_loop_p. Qed.
  Lemma ht_get_addr_p h k : rsame X (htp_get_addr pkeq phash h k) (ht_get_addr keq hash h k).
  Proof using He Hh. apply rsame_bind; [apply ht_bucket_index_p|]. intros. apply rsame_bind; [apply rsame_refl|]. intros. apply ht_get_addr_loop_p. Qed.
  Lemma ht_contains_trait_p h k : rsame X (htp_contains_trait pkeq phash h k) (ht_contains_trait keq hash h k).
  Proof using He Hh. apply rsame_bind; [apply ht_get_p|]. intros. apply rsame_refl. Qed.
  Lemma ht_index_p h k : rsame X (htp_index pkeq phash h k) (ht_index keq hash h k).
  Proof using He Hh. apply rsame_bind; [apply ht_get_p|]. intros. apply rsame_refl. Qed.
  Lemma ht_get_mut_loop_p fuel k f b hd i : same X (htp_get_mut_loop pkeq fuel k f b hd i) (ht_get_mut_loop keq fuel k f b hd i : M (htable K V) _).
  Proof using He. revert i. induction fuel as [|fuel IH]; intros i; [apply same_refl|]. mloop IH. Qed.
  Lemma ht_insert_loop_p fuel k v b hd i : same X (htp_insert_loop pkeq fuel k v b hd i) (ht_insert_loop keq fuel k v b hd i : M (htable K V) _).
  Proof using He. revert i. induction fuel as [|fuel IH]; intros i; [apply same_refl|]. mloop IH. Qed.
  Lemma ht_remove_loop_p fuel k b hd i : same X (htp_remove_loop pkeq fuel k b hd i) (ht_remove_loop keq fuel k b hd i : M (htable K V) _).
  Proof using He. revert i. induction fuel as [|fuel IH]; intros i; [apply same_refl|]. mloop IH. Qed.
  Ltac mop L := apply same_gets_bind; [intros; apply ht_bucket_index_p|]; intros; apply same_gets_bind; [intros; apply rsame_refl|]; intros;
    apply same_mget_bind; intros; apply L.
  Lemma ht_get_mut_p k f : same X (htp_get_mut pkeq phash k f) (ht_get_mut keq hash k f : M (htable K V) _).
  Proof using He Hh. mop ht_get_mut_loop_p. Qed.
  Lemma ht_insert_p k v : same X (htp_insert pkeq phash k v) (ht_insert keq hash k v : M (htable K V) _).
  Proof using He Hh. mop ht_insert_loop_p. Qed.
  Lemma ht_remove_p k : same X (htp_remove pkeq phash k) (ht_remove keq hash k : M (htable K V) _).
  Proof using He Hh. mop ht_remove_loop_p. Qed.
  Lemma ht_index_mut_p k f : same X (htp_index_mut pkeq phash k f) (ht_index_mut keq hash k f : M (htable K V) _).
  Proof using He Hh. apply same_bind, ht_get_mut_p. Qed.
  Lemma ht_step_p o : same X (htp_step pkeq phash o) (ht_step keq hash o : M (htable K V) _).
  Proof using He Hh.
    destruct o; simpl; try apply same_refl; apply same_bind;
      first [apply ht_insert_p|apply ht_remove_p|apply ht_get_mut_p|apply ht_index_mut_p
        |apply same_gets; intros; first [apply ht_get_p|apply ht_contains_trait_p|apply ht_contains_p|apply ht_index_p]].
  Qed.
End Hash.

(** ** Histories *)
Section hist.
  Context {S C O R : Type} (pstep : C → O → M S R) (step : O → M S R) (P X : C → Prop) (HP : ∀ c o, P c → same (X c) (pstep c o) (step o)).
  Lemma same_history (l : list (C * O)) s :
    Forall (λ co, P co.1) l →
    let r := history (λ co, pstep co.1 co.2) l s in
    ∃ bits, length bits = length l ∧ history step (kept bits l.*2) s = (kept bits r.1, r.2) ∧
      ∀ i, bits !! i = Some false → r.1 !! i = Some (Err Panic) ∧ ∃ co, l !! i = Some co ∧ X co.1.
  Proof using HP.
    revert s. induction l as [|[c o] l IH]; intros s Hl.
    { exists []. split_and!; [done|done|]. intros i. done. }
    apply Forall_cons in Hl as [Hc Hl]. cbn [fst] in Hc.
    assert (∀ b bits, kept (b :: bits) ((c, o) :: l).*2 = if b then o :: kept bits l.*2 else kept bits l.*2) as Hk by done.
    cbn [history fst snd]. unfold call. destruct (HP c o Hc s) as [E|[E HX]]; rewrite E; cbv zeta.
    - destruct (step o s) as [a s'|e s'] eqn:Es; (destruct (IH s' Hl) as (bits & H1 & H2 & H3); exists (true :: bits); rewrite Hk; cbn [history]; unfold call;
        rewrite Es, H2; destruct (history (λ co, pstep co.1 co.2) l s') as [rs t]; split_and!; [cbn [length]; by rewrite H1|done|]; intros [|i]; [done|apply H3]).
    - destruct (IH s Hl) as (bits & H1 & H2 & H3). exists (false :: bits). rewrite Hk, H2.
      destruct (history (λ co, pstep co.1 co.2) l s) as [rs t]. split_and!; [cbn [length]; by rewrite H1|done|]. intros [|i]; [|apply H3]. intros _. split; [done|]. by exists (c, o).
  Qed.
End hist.
