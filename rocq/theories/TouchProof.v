(** * Counting the slots written *)
From Verif Require Export TouchSpec.

Section touch.
  Context {S T : Type} (g : S → alloc T).
  Implicit Types m : M S ().

  (** [m] writes to the slots in [L] at most *)
  Definition wr {A} (L : list N) (m : M S A) : Prop := ∀ s, same_but L (g s) (g (after m s)).
  (** [m] writes to the slots in [K], and to [n] others at most *)
  Definition tp {A} (K : list N) (n : nat) (m : M S A) : Prop :=
    ∀ s, ∃ E, (length E ≤ n)%nat ∧ same_but (E ++ K) (g s) (g (after m s)).

  Lemma same_but_mono (L L' : list N) (a a' : alloc T) : L ⊆ L' → same_but L a a' → same_but L' a a'.
  Proof. intros Hs [Hl Hn]. split; [done|]. intros j Hj. apply Hn. intros Hi. by apply Hj, Hs. Qed.
  Lemma same_but_trans (L : list N) (a a' a'' : alloc T) : same_but L a a' → same_but L a' a'' → same_but L a a''.
  Proof. intros [Hl Hn] [Hl' Hn']. split; [congruence|]. intros j Hj. by rewrite Hn', Hn. Qed.
  Lemma same_but_refl (L : list N) (a : alloc T) : same_but L a a.
  Proof. done. Qed.

  Lemma after_bind {A B} (m : M S A) (f : A → M S B) s :
    after (m ≫= f) s = match m s with Ret a s' => after (f a) s' | Fail _ s' => s' end.
  Proof. unfold after, mbind, M_bind. by destruct (m s). Qed.

  Lemma wr_pure {A} (m : M S A) L : (∀ s, after m s = s) → wr L m.
  Proof. intros Hm s. by rewrite Hm. Qed.
  Lemma wr_modify L f : (∀ s, nodes (g (f s)) = nodes (g s)) → wr L (modify f).
  Proof. intros Hf s. unfold after, modify, same_but. by rewrite Hf. Qed.
  Lemma after_gets {A} (f : S → res A) s : after (gets f) s = s.
  Proof. unfold after, gets. by destruct (f s). Qed.
  Lemma after_massert b s : after (S:=S) (massert b) s = s.
  Proof. by destruct b. Qed.

  Lemma tp_mono {A} K n n' (m : M S A) : tp K n m → (n ≤ n')%nat → tp K n' m.
  Proof. intros Hm Hn s. destruct (Hm s) as (E & ? & ?). exists E. split; [lia|done]. Qed.
  Lemma tp_wr {A} new L K n (m : M S A) : wr L m → L ⊆ new ++ K → (length new ≤ n)%nat → tp K n m.
  Proof. intros Hm Hs Hn s. exists new. split; [done|]. by eapply same_but_mono, Hm. Qed.
  Lemma tp_wr_bind {A B} new L K n n' (m : M S A) (f : A → M S B) :
    wr L m → L ⊆ new ++ K → (∀ a, tp (new ++ K) n' (f a)) → (length new + n' ≤ n)%nat → tp K n (m ≫= f).
  Proof.
    intros Hm Hs Hf Hn s. rewrite after_bind. specialize (Hm s). unfold after in Hm at 1. destruct (m s) as [a s'|e s'].
    - destruct (Hf a s') as (E & HE & Hsb). exists (E ++ new). split; [rewrite app_length; lia|].
      rewrite <-app_assoc. eapply same_but_trans; [|exact Hsb]. eapply same_but_mono; [|exact Hm]. set_solver.
    - exists new. split; [lia|]. by eapply same_but_mono.
  Qed.
  Lemma tp_bind {A B} K n n1 n2 (m : M S A) (f : A → M S B) :
    tp K n1 m → (∀ a, tp K n2 (f a)) → (n1 + n2 ≤ n)%nat → tp K n (m ≫= f).
  Proof.
    intros Hm Hf Hn s. rewrite after_bind. destruct (Hm s) as (E & HE & Hsb). unfold after in Hsb at 1. destruct (m s) as [a s'|e s'].
    - destruct (Hf a s') as (E' & HE' & Hsb'). exists (E' ++ E). split; [rewrite app_length; lia|].
      eapply same_but_trans; (eapply same_but_mono; [|eassumption]); set_solver.
    - exists E. split; [lia|done].
  Qed.
  Lemma tp_pure_bind {A B} K n (m : M S A) (f : A → M S B) : (∀ s, after m s = s) → (∀ a, tp K n (f a)) → tp K n (m ≫= f).
  Proof. intros Hm Hf. eapply (tp_wr_bind [] []); [by apply wr_pure|set_solver|done|simpl; lia]. Qed.
  Lemma tp_pure {A} K n (m : M S A) : (∀ s, after m s = s) → tp K n m.
  Proof. intros Hm. apply (tp_wr [] []); [by apply wr_pure|set_solver|simpl; lia]. Qed.
  Lemma tp_assoc {A B C} K n (m : M S A) (f : A → M S B) (h : B → M S C) :
    tp K n (m ≫= λ a, f a ≫= h) → tp K n ((m ≫= f) ≫= h).
  Proof. intros Hm s. specialize (Hm s). unfold after, mbind, M_bind in *. by destruct (m s). Qed.
  Lemma tp_weak {A} K K' n (m : M S A) : tp K n m → K ⊆ K' → tp K' n m.
  Proof. intros Hm HK s. destruct (Hm s) as (E & ? & Hs). exists E. split; [done|]. eapply same_but_mono; [|exact Hs]. set_solver. Qed.
  Lemma tp_few {A} n (m : M S A) s : tp [] n m → few n (g s) (g (after m s)).
  Proof. intros Hm. destruct (Hm s) as (E & ? & Hs). exists E. split; [done|]. by rewrite app_nil_r in Hs. Qed.
End touch.

(** ** The operations of the allocator inside a container *)
Section prims.
  Context `{Profile} {S T : Type} (g : S → alloc T) (u : alloc T → S → S) (Hgu : ∀ a s, g (u a s) = a).

  Lemma after_zoom {A} (m : M (alloc T) A) s : g (after (zoom g u m) s) = after m (g s).
  Proof using Hgu. unfold after, zoom. by destruct (m (g s)). Qed.
  Lemma wr_zoom {A} L (m : M (alloc T) A) : wr id L m → wr g L (zoom g u m).
  Proof using Hgu. intros Hm s. rewrite after_zoom. apply Hm. Qed.

End prims.
Section prims.
  Context `{Profile} {T : Type}.
  (** the slot that index [i] means; index 0 wraps *)
  Definition wi (i : N) : N := if decide (i = 0) then W32 else i.

  Lemma wr_get_mut i (f : node T → res (node T)) : wr id [wi i] (na_get_mut i f).
  Proof.
    intros a. unfold after, na_get_mut, mbind, M_bind, lift, gets, u32_sub, u_sub. cbn [id].
    destruct (decide (1 ≤ i)) as [Hi|Hi].
    - destruct (lookupN (nodes a) (i - 1)) as [n|]; [|done]. destruct (f n) as [n'|]; [|done]. unfold modify.
      unfold same_but, insertN. cbn [nodes set_nodes]. rewrite insert_length. split; [done|]. intros j Hj. apply list_lookup_insert_ne.
      intros Ej. apply Hj. apply elem_of_list_singleton. unfold wi. rewrite decide_False by lia. lia.
    - destruct overflow_checks; [done|]. replace i with 0 by lia. replace ((0 + W32 - 1) mod W32) with (W32 - 1) by done.
      destruct (lookupN (nodes a) (W32 - 1)) as [n|]; [|done]. destruct (f n) as [n'|]; [|done]. unfold modify.
      unfold same_but, insertN. cbn [nodes set_nodes]. rewrite insert_length. split; [done|]. intros j Hj. apply list_lookup_insert_ne.
      intros Ej. apply Hj. apply elem_of_list_singleton. unfold wi. rewrite decide_True by done. unfold W32 in *. lia.
  Qed.
  Lemma wr_raw i (f : T → T) : wr id [wi i] (na_raw_update i f).
  Proof.
    intros a. unfold after, na_raw_update, mbind, M_bind, lift, gets, u32_sub, u_sub. cbn [id].
    destruct (decide (1 ≤ i)) as [Hi|Hi].
    - destruct (lookupN (nodes a) (i - 1)) as [n|]; [|done]. unfold modify.
      unfold same_but, insertN. cbn [nodes set_nodes mret M_ret]. rewrite insert_length. split; [done|]. intros j Hj. apply list_lookup_insert_ne.
      intros Ej. apply Hj. apply elem_of_list_singleton. unfold wi. rewrite decide_False by lia. lia.
    - destruct overflow_checks; [done|]. replace i with 0 by lia. replace ((0 + W32 - 1) mod W32) with (W32 - 1) by done.
      destruct (lookupN (nodes a) (W32 - 1)) as [n|]; [|done]. unfold modify.
      unfold same_but, insertN. cbn [nodes set_nodes mret M_ret]. rewrite insert_length. split; [done|]. intros j Hj. apply list_lookup_insert_ne.
      intros Ej. apply Hj. apply elem_of_list_singleton. unfold wi. rewrite decide_True by done. unfold W32 in *. lia.
  Qed.
  Lemma wr_ret {S' A} (g' : S' → alloc T) L (a : A) : wr g' L (mret a).
  Proof. by apply wr_pure. Qed.
  Lemma wr_bind {S' A B} (g' : S' → alloc T) L (m : M S' A) (f : A → M S' B) : wr g' L m → (∀ a, wr g' L (f a)) → wr g' L (m ≫= f).
  Proof.
    intros Hm Hf s. rewrite after_bind. specialize (Hm s). unfold after in Hm at 1. destruct (m s) as [a s'|]; [|done].
    eapply same_but_trans; [exact Hm|]. apply Hf.
  Qed.
  Lemma wr_mono {S' A} (g' : S' → alloc T) L L' (m : M S' A) : wr g' L m → L ⊆ L' → wr g' L' m.
  Proof. intros Hm HL s. eapply same_but_mono; [exact HL|apply Hm]. Qed.
  Lemma wr_set_register i x r : wr id [wi i] (na_set_register (T:=T) i x r).
  Proof. unfold na_set_register. destruct (decide _); [apply wr_ret|apply wr_get_mut]. Qed.
  Lemma wr_clear_register i r : wr id [wi i] (na_clear_register (T:=T) i r).
  Proof. unfold na_clear_register. destruct (decide _); [apply wr_ret|apply wr_get_mut]. Qed.
  Lemma wr_connect i j r r' : wr id [wi i; wi j] (na_connect (T:=T) i j r r').
  Proof.
    unfold na_connect. apply wr_bind; [destruct (decide _)|intros; destruct (decide _)]; try apply wr_ret;
      (eapply wr_mono; [apply wr_get_mut|set_solver]).
  Qed.
  Lemma wr_disconnect i j r r' : wr id [wi i; wi j] (na_disconnect (T:=T) i j r r').
  Proof.
    unfold na_disconnect. apply wr_bind; [destruct (decide _)|intros; destruct (decide _)]; try apply wr_ret;
      (eapply wr_mono; [apply wr_clear_register|set_solver]).
  Qed.
  Lemma wr_remove_node i : wr id [wi i] (na_remove_node (T:=T) i).
  Proof.
    unfold na_remove_node. destruct (decide _); [apply wr_ret|].
    apply wr_bind; [by apply wr_pure|intros]. apply wr_bind; [apply wr_get_mut|intros]. apply wr_bind; [by apply wr_modify|intros].
    apply wr_bind; [by apply wr_pure|intros]. apply wr_bind; [apply wr_pure; intros; apply after_gets|intros].
    apply wr_bind; [by apply wr_modify|intros]. apply wr_bind; [apply wr_pure; intros; apply after_gets|intros]. apply wr_ret.
  Qed.
  (** [add_node] writes to the slot whose index it returns *)
  Lemma rets_bind {S' A B} (P : B → Prop) (m : M S' A) (f : A → M S' B) :
    (∀ a s, match f a s with Ret b _ => P b | Fail _ _ => True end) → ∀ s, match (m ≫= f) s with Ret b _ => P b | Fail _ _ => True end.
  Proof. intros Hf s. unfold mbind, M_bind. destruct (m s); [apply Hf|done]. Qed.
  Lemma add_node_idx v a i a' : na_add_node (T:=T) v a = Ret i a' → i = free_list_head a.
  Proof.
    unfold na_add_node. intros E.
    unfold mbind at 1, M_bind at 1, mget at 1 in E.
    match type of E with ?f a = _ => assert (∀ s, match f s with Ret b _ => b = free_list_head a | Fail _ _ => True end) as Hs end.
    { do 5 (apply rets_bind; intros ?). done. }
    specialize (Hs a). rewrite E in Hs. exact Hs.
  Qed.
  Lemma wr_add_node v a : same_but [wi (free_list_head a)] a (after (na_add_node (T:=T) v) a).
  Proof.
    unfold na_add_node. rewrite after_bind. unfold mget at 1.
    match goal with |- same_but ?L a (after ?f a) => enough (wr id L f) as Hw by exact (Hw a) end.
    apply wr_bind.
    { destruct (decide _).
      - destruct (decide _); [by apply wr_pure|]. apply wr_bind; [apply wr_pure; intros; apply after_gets|intros].
        apply wr_bind; [by apply wr_modify|intros]. by apply wr_modify.
      - apply wr_bind; [apply wr_pure; intros; apply after_gets|intros]. apply wr_bind; [by apply wr_modify|intros]. apply wr_get_mut. }
    intros _. apply wr_bind; [apply wr_get_mut|intros]. apply wr_bind; [by apply wr_pure|intros].
    apply wr_bind; [apply wr_pure; intros; apply after_gets|intros]. apply wr_bind; [by apply wr_modify|intros]. apply wr_ret.
  Qed.
End prims.

Lemma tp_add_bind `{Profile} {S T B} (g : S → alloc T) (u : alloc T → S → S) K n n0 v (f : N → M S B) :
  (∀ a s, g (u a s) = a) → (∀ i, tp g (wi i :: K) n (f i)) → (Datatypes.S n ≤ n0)%nat → tp g K n0 (zoom g u (na_add_node v) ≫= f).
Proof.
  intros Hgu Hf Hn s. rewrite after_bind. pose proof (wr_add_node v (g s)) as Hw. pose proof (add_node_idx v (g s)) as Hi.
  unfold zoom. unfold after in Hw at 1. destruct (na_add_node v (g s)) as [i a|e a].
  - rewrite (Hi i a eq_refl) in *. destruct (Hf (free_list_head (g s)) (u a s)) as (E & HE & Hs).
    exists (E ++ [wi (free_list_head (g s))]). split; [rewrite app_length; simpl; lia|]. rewrite <-app_assoc. cbn [app].
    rewrite Hgu in Hs. eapply same_but_trans; [|exact Hs]. eapply same_but_mono; [|exact Hw]. set_solver.
  - exists [wi (free_list_head (g s))]. split; [simpl; lia|]. rewrite Hgu. eapply same_but_mono; [|exact Hw]. set_solver.
Qed.
(** a part of the state that is not the array *)
Lemma wr_zoom_other {S T T' A} (g : S → alloc T) (g' : S → T') (u : T' → S → S) L (m : M T' A) :
  (∀ a s, g (u a s) = g s) → wr g L (zoom g' u m).
Proof. intros Hgu s. unfold after, zoom. destruct (m (g' s)); by rewrite Hgu. Qed.

Ltac t_mem := cbn [app]; repeat first [apply elem_of_list_here | apply elem_of_list_further].
Ltac t_sub :=
  let x := fresh "x" in let Hx := fresh "Hx" in
  intros x Hx; repeat (apply elem_of_cons in Hx as [->|Hx]; [solve [t_mem]|]); by apply elem_of_nil in Hx.
(** [m] leaves the state alone *)
Ltac t_pure := intros; first [apply after_gets | apply after_massert | reflexivity].
Ltac t_new :=
  lazymatch goal with |- ?L ⊆ ?new ++ ?K =>
    first [ unify new (@nil N); t_sub
          | lazymatch L with
            | [?i] => unify new [i]; t_sub
            | [?i; ?j] => first [unify new [i]; t_sub | unify new [j]; t_sub | unify new [i; j]; t_sub]
            end ]
  end.
Section rules.
  Context {S T : Type} (g : S → alloc T).
  Lemma tr_wr {A} new L K n (m : M S A) : wr g L m → L ⊆ new ++ K → (length new ≤ n)%nat → tp g K n m.
  Proof. apply tp_wr. Qed.
  Lemma tr_wr_bind {A B} new L K n (m : M S A) (f : A → M S B) :
    wr g L m → L ⊆ new ++ K → (length new ≤ n)%nat → (∀ a, tp g (new ++ K) (n - length new) (f a)) → tp g K n (m ≫= f).
  Proof. intros Hm Hs Hn Hf. eapply tp_wr_bind; [exact Hm|exact Hs|exact Hf|lia]. Qed.
  Lemma tr_ret_bind {A B} K n (a : A) (f : A → M S B) : tp g K n (f a) → tp g K n (mret a ≫= f).
  Proof. done. Qed.
  Lemma tr_bind {A B} k K n (m : M S A) (f : A → M S B) :
    tp g K k m → (k ≤ n)%nat → (∀ a, tp g K (n - k) (f a)) → tp g K n (m ≫= f).
  Proof. intros Hm Hn Hf. eapply tp_bind; [exact Hm|exact Hf|lia]. Qed.
  Lemma tr_add_bind `{Profile} {B} (u : alloc T → S → S) K n v (f : N → M S B) :
    (∀ a s, g (u a s) = a) → (1 ≤ n)%nat → (∀ i, tp g (wi i :: K) (n - 1) (f i)) → tp g K n (zoom g u (na_add_node v) ≫= f).
  Proof. intros Hgu Hn Hf. eapply tp_add_bind; [done|exact Hf|lia]. Qed.
End rules.
(** one step through a program; [wp] proves what a primitive writes, [tl] what a procedure costs, [ad] deals with [add_node] *)
Ltac t_step wp tl ad :=
  lazymatch goal with
  | |- tp _ _ _ (?m ≫= ?f) =>
      lazymatch m with
      | _ ≫= _ => apply tp_assoc
      | mret _ => apply tr_ret_bind; cbn beta iota
      | if ?b then _ else _ => destruct b
      | match ?b with _ => _ end => destruct b
      | _ => first
         [ ad; [lia|intros ?]
         | eapply tp_pure_bind; [t_pure|intros ?]
         | eapply tr_wr_bind; [wp|t_new|cbn [length]; lia|intros ?; cbn [length app]]
         | eapply tr_bind; [tl|lia|intros ?] ]
      end
  | |- tp _ _ _ (let _ := _ in _) => cbv zeta
  | |- tp _ _ _ (if ?b then _ else _) => destruct b
  | |- tp _ _ _ (match ?b with _ => _ end) => destruct b
  | |- tp _ _ _ _ => first
         [ apply tp_pure; t_pure
         | eapply tr_wr; [wp|t_new|cbn [length]; lia]
         | eapply tp_mono; [tl|lia] ]
  end.
