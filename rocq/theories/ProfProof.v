(** * Both build profiles compute the same

    [rle]/[mle]: the computation with overflow checks panics, or the other profile does exactly the same. Every function of the models satisfies this;
    together with the absence of panics (the theorems about histories) the two profiles agree. *)
From Verif Require Import IterProof.
From Verif Require Export AllocApi DequeApi HashApi RBApi AVLApi CritApi.

Definition dbg : Profile := {| overflow_checks := true |}.
Definition rle {A} (r r' : res A) : Prop := r = Err Panic ∨ r = r'.
Definition mle {S A} (m m' : M S A) : Prop := ∀ s, (∃ s', m s = Fail Panic s') ∨ m s = m' s.

Lemma rle_refl {A} (r : res A) : rle r r.
Proof. by right. Qed.
Lemma rle_bind {A B} (r r' : res A) (f f' : A → res B) : rle r r' → (∀ a, rle (f a) (f' a)) → rle (r ≫= f) (r' ≫= f').
Proof. intros [->| ->] Hf; [by left|]. destruct r' as [a|]; [apply Hf|by right]. Qed.
Lemma mle_refl {S A} (m : M S A) : mle m m.
Proof. intros s. by right. Qed.
Lemma mle_bind {S A B} (m m' : M S A) (f f' : A → M S B) : mle m m' → (∀ a, mle (f a) (f' a)) → mle (m ≫= f) (m' ≫= f').
Proof.
  intros Hm Hf s. unfold mbind, M_bind. destruct (Hm s) as [[s' ->]| ->]; [left; by eexists|].
  destruct (m' s) as [a s'|]; [apply Hf|by right].
Qed.
Lemma mle_gets {S A} (f f' : S → res A) : (∀ s, rle (f s) (f' s)) → mle (gets f) (gets f').
Proof. intros Hf s. unfold gets. destruct (Hf s) as [->| ->]; [left; by eexists|by right]. Qed.
Lemma mle_lift {S A} (r r' : res A) : rle r r' → mle (S:=S) (lift r) (lift r').
Proof. intros Hr. by apply mle_gets. Qed.
Lemma mle_zoom {S T A} (g : S → T) u (m m' : M T A) : mle m m' → mle (zoom g u m) (zoom g u m').
Proof. intros Hm s. unfold zoom. destruct (Hm (g s)) as [[s' ->]| ->]; [left; by eexists|by right]. Qed.
Lemma rle_drive {IT A} (n n' b b' : IT → res (option A * IT)) sc it :
  (∀ it, rle (n it) (n' it)) → (∀ it, rle (b it) (b' it)) → rle (drive n b sc it) (drive n' b' sc it).
Proof.
  intros Hn Hb. revert it. induction sc as [|e sc IH]; intros it; cbn [drive]; [apply rle_refl|].
  apply rle_bind; [destruct e; [apply Hn|apply Hb]|]. intros [o it']. apply rle_bind; [apply IH|intros; apply rle_refl].
Qed.
Lemma mle_drive_mut {S A V} (n n' b b' : (V → V) → M S (option A)) sc :
  (∀ f, mle (n f) (n' f)) → (∀ f, mle (b f) (b' f)) → mle (drive_mut n b sc) (drive_mut n' b' sc).
Proof.
  intros Hn Hb. induction sc as [|[e f] sc IH]; cbn [drive_mut]; [apply mle_refl|].
  apply mle_bind; [destruct e; [apply Hn|apply Hb]|]. intros o. apply mle_bind; [apply IH|intros; apply mle_refl].
Qed.

Create HintDb prof.
Ltac pstep :=
  match goal with
  | |- rle ?x ?y => constr_eq x y; apply rle_refl
  | |- mle ?x ?y => constr_eq x y; apply mle_refl
  | |- rle (_ ≫= _) _ => apply rle_bind; [|intros ?]
  | |- mle (_ ≫= _) _ => apply mle_bind; [|intros ?]
  | |- mle (gets _) _ => apply mle_gets; intros ?
  | |- mle (lift _) _ => apply mle_lift
  | |- mle (zoom _ _ _) _ => apply mle_zoom
  | |- rle (match ?x with _ => _ end) _ => destruct x
  | |- mle (match ?x with _ => _ end) _ => destruct x
  | |- rle (drive _ _ _ _) _ => apply rle_drive; intros ?
  | |- mle (drive_mut _ _ _) _ => apply mle_drive_mut; intros ?
  | |- rle _ _ => solve [eauto 1 with prof]
  | |- mle _ _ => solve [eauto 1 with prof]
  | |- _ => progress cbv zeta
  end.

Section prof.
  Context (Q : Profile).
  Lemma p_u_add w a b : rle (@u_add dbg w a b) (@u_add Q w a b).
  Proof. unfold u_add. cbn. destruct (decide _); [by right|by left]. Qed.
  Lemma p_u_sub w a b : rle (@u_sub dbg w a b) (@u_sub Q w a b).
  Proof. unfold u_sub. cbn. destruct (decide _); [by right|by left]. Qed.
  Lemma p_i32_chk z : rle (@i32_chk dbg z) (@i32_chk Q z).
  Proof. unfold i32_chk. cbn. destruct (decide _); [by right|by left]. Qed.
  Lemma p_crit_bit_mask z : rle (@crit_bit_mask dbg z) (@crit_bit_mask Q z).
  Proof. unfold crit_bit_mask. cbn. destruct (decide _); [by right|by left]. Qed.
  Hint Resolve p_u_add p_u_sub p_i32_chk p_crit_bit_mask : prof.
  (** ** alloc *)
  Lemma p_na_get {T : Type} (a : alloc T) (i : N) : rle (na_get (H:=dbg) a i) (na_get (H:=Q) a i).
  Proof. unfold na_get, u32_sub, u32_add, u64_add, u64_sub. repeat pstep. Qed.
  Hint Resolve p_na_get : prof.
  Lemma p_na_get_mut {T : Type} (i : N) (f : node T → res (node T)) : mle (S:=alloc T) (na_get_mut (H:=dbg) i f) (na_get_mut (H:=Q) i f).
  Proof. unfold na_get_mut, u32_sub, u32_add, u64_add, u64_sub. repeat pstep. Qed.
  Hint Resolve p_na_get_mut : prof.
  Lemma p_na_add_node {T : Type} (v : T) : mle (S:=alloc T) (na_add_node (H:=dbg) v) (na_add_node (H:=Q) v).
  Proof. unfold na_add_node, u32_sub, u32_add, u64_add, u64_sub. repeat pstep. Qed.
  Hint Resolve p_na_add_node : prof.
  Lemma p_na_remove_node {T : Type} (i : N) : mle (S:=alloc T) (na_remove_node (H:=dbg) i) (na_remove_node (H:=Q) i).
  Proof. unfold na_remove_node, u32_sub, u32_add, u64_add, u64_sub. repeat pstep. Qed.
  Hint Resolve p_na_remove_node : prof.
  Lemma p_na_clear_register {T : Type} (i r : N) : mle (S:=alloc T) (na_clear_register (H:=dbg) i r) (na_clear_register (H:=Q) i r).
  Proof. unfold na_clear_register, u32_sub, u32_add, u64_add, u64_sub. repeat pstep. Qed.
  Hint Resolve p_na_clear_register : prof.
  Lemma p_na_disconnect {T : Type} (i j r s : N) : mle (S:=alloc T) (na_disconnect (H:=dbg) i j r s) (na_disconnect (H:=Q) i j r s).
  Proof. unfold na_disconnect, u32_sub, u32_add, u64_add, u64_sub. repeat pstep. Qed.
  Hint Resolve p_na_disconnect : prof.
  Lemma p_na_connect {T : Type} (i j r s : N) : mle (S:=alloc T) (na_connect (H:=dbg) i j r s) (na_connect (H:=Q) i j r s).
  Proof. unfold na_connect, u32_sub, u32_add, u64_add, u64_sub. repeat pstep. Qed.
  Hint Resolve p_na_connect : prof.
  Lemma p_na_set_register {T : Type} (i v r : N) : mle (S:=alloc T) (na_set_register (H:=dbg) i v r) (na_set_register (H:=Q) i v r).
  Proof. unfold na_set_register, u32_sub, u32_add, u64_add, u64_sub. repeat pstep. Qed.
  Hint Resolve p_na_set_register : prof.
  Lemma p_na_get_register {T : Type} (a : alloc T) (i r : N) : rle (na_get_register (H:=dbg) a i r) (na_get_register (H:=Q) a i r).
  Proof. unfold na_get_register, u32_sub, u32_add, u64_add, u64_sub. repeat pstep. Qed.
  Hint Resolve p_na_get_register : prof.
  Lemma p_na_raw_update {T : Type} (i : N) (f : T → T) : mle (S:=alloc T) (na_raw_update (H:=dbg) i f) (na_raw_update (H:=Q) i f).
  Proof. unfold na_raw_update, u32_sub, u32_add, u64_add, u64_sub. repeat pstep. Qed.
  Hint Resolve p_na_raw_update : prof.
  Lemma p_na_find_dir {T : Type} (fuel : nat) (a : alloc T) (r i : N) : rle (na_find_dir (H:=dbg) fuel a r i) (na_find_dir (H:=Q) fuel a r i).
  Proof. revert a r i. induction fuel as [|fuel IH]; intros a r i; cbn [na_find_dir]; cbv zeta; repeat pstep. Qed.
  Hint Resolve p_na_find_dir : prof.
  Lemma p_al_step {T : Type} (o : al_op T) : mle (S:=alloc T) (al_step (H:=dbg) o) (al_step (H:=Q) o).
  Proof. unfold al_step. repeat pstep. Qed.
  Hint Resolve p_al_step : prof.
  Lemma p_dq_get_node {T : Type} (d : deque T) (i : N) : rle (dq_get_node (H:=dbg) d i) (dq_get_node (H:=Q) d i).
  Proof. unfold dq_get_node. repeat pstep. Qed.
  Hint Resolve p_dq_get_node : prof.
  Lemma p_dq_front {T : Type} (d : deque T) : rle (dq_front (H:=dbg) d) (dq_front (H:=Q) d).
  Proof. unfold dq_front. repeat pstep. Qed.
  Hint Resolve p_dq_front : prof.
  Lemma p_dq_back {T : Type} (d : deque T) : rle (dq_back (H:=dbg) d) (dq_back (H:=Q) d).
  Proof. unfold dq_back. repeat pstep. Qed.
  Hint Resolve p_dq_back : prof.
  Lemma p_dq_get_next {T : Type} (d : deque T) (i : N) : rle (dq_get_next (H:=dbg) d i) (dq_get_next (H:=Q) d i).
  Proof. unfold dq_get_next. repeat pstep. Qed.
  Hint Resolve p_dq_get_next : prof.
  Lemma p_dq_get_prev {T : Type} (d : deque T) (i : N) : rle (dq_get_prev (H:=dbg) d i) (dq_get_prev (H:=Q) d i).
  Proof. unfold dq_get_prev. repeat pstep. Qed.
  Hint Resolve p_dq_get_prev : prof.
  Lemma p_dq_bump_seq {T : Type} : mle (S:=deque T) (dq_bump_seq (H:=dbg)) (dq_bump_seq (H:=Q)).
  Proof. unfold dq_bump_seq, dq_on, u32_sub, u32_add, u64_add, u64_sub. repeat pstep. Qed.
  Hint Resolve p_dq_bump_seq : prof.
  Lemma p_dq_push_back {T : Type} (v : T) : mle (S:=deque T) (dq_push_back (H:=dbg) v) (dq_push_back (H:=Q) v).
  Proof. unfold dq_push_back, dq_on. repeat pstep. Qed.
  Hint Resolve p_dq_push_back : prof.
  Lemma p_dq_push_front {T : Type} (v : T) : mle (S:=deque T) (dq_push_front (H:=dbg) v) (dq_push_front (H:=Q) v).
  Proof. unfold dq_push_front, dq_on. repeat pstep. Qed.
  Hint Resolve p_dq_push_front : prof.
  Lemma p_dq_remove {T : Type} (i : N) : mle (S:=deque T) (dq_remove (H:=dbg) i) (dq_remove (H:=Q) i).
  Proof. unfold dq_remove, dq_on. repeat pstep. Qed.
  Hint Resolve p_dq_remove : prof.
  Lemma p_dq_pop_front {T : Type} : mle (S:=deque T) (dq_pop_front (H:=dbg)) (dq_pop_front (H:=Q)).
  Proof. unfold dq_pop_front, dq_on. repeat pstep. Qed.
  Hint Resolve p_dq_pop_front : prof.
  Lemma p_dq_pop_back {T : Type} : mle (S:=deque T) (dq_pop_back (H:=dbg)) (dq_pop_back (H:=Q)).
  Proof. unfold dq_pop_back, dq_on. repeat pstep. Qed.
  Hint Resolve p_dq_pop_back : prof.
  Lemma p_dq_iter_next {T : Type} (d : deque T) (it : dq_iter) : rle (dq_iter_next (H:=dbg) d it) (dq_iter_next (H:=Q) d it).
  Proof. unfold dq_iter_next. repeat pstep. Qed.
  Hint Resolve p_dq_iter_next : prof.
  Lemma p_dq_iter_next_back {T : Type} (d : deque T) (it : dq_iter) : rle (dq_iter_next_back (H:=dbg) d it) (dq_iter_next_back (H:=Q) d it).
  Proof. unfold dq_iter_next_back. repeat pstep. Qed.
  Hint Resolve p_dq_iter_next_back : prof.
  Lemma p_dq_iter_mut_next {T : Type} (f : T → T) : mle (S:=deque T * dq_iter) (dq_iter_mut_next (H:=dbg) f) (dq_iter_mut_next (H:=Q) f).
  Proof. unfold dq_iter_mut_next, dq_on. repeat pstep. Qed.
  Hint Resolve p_dq_iter_mut_next : prof.
  Lemma p_dq_iter_mut_next_back {T : Type} (f : T → T) : mle (S:=deque T * dq_iter) (dq_iter_mut_next_back (H:=dbg) f) (dq_iter_mut_next_back (H:=Q) f).
  Proof. unfold dq_iter_mut_next_back, dq_on. repeat pstep. Qed.
  Hint Resolve p_dq_iter_mut_next_back : prof.
  Lemma p_dq_iterate {T : Type} (sc : list fb) (d : deque T) : rle (dq_iterate (H:=dbg) sc d) (dq_iterate (H:=Q) sc d).
  Proof. unfold dq_iterate. repeat pstep. Qed.
  Hint Resolve p_dq_iterate : prof.
  Lemma p_dq_iterate_mut {T : Type} (sc : list (fb * (T → T))) : mle (S:=deque T) (dq_iterate_mut (H:=dbg) sc) (dq_iterate_mut (H:=Q) sc).
  Proof.
    intros t. unfold dq_iterate_mut.
    match goal with |- context [drive_mut ?a ?b sc ?s] => destruct (mle_drive_mut a (dq_iter_mut_next (H:=Q)) b (dq_iter_mut_next_back (H:=Q)) sc ltac:(intros; apply p_dq_iter_mut_next) ltac:(intros; apply p_dq_iter_mut_next_back) s) as [[[x y] ->]| ->] end; [left; by eexists|by right].
  Qed.
  Hint Resolve p_dq_iterate_mut : prof.
  Lemma p_dq_step {T : Type} (o : dq_op T) : mle (S:=deque T) (dq_step (H:=dbg) o) (dq_step (H:=Q) o).
  Proof. unfold dq_step, dq_on. repeat pstep. Qed.
  Hint Resolve p_dq_step : prof.
  (** ** walk *)
  Lemma p_bst_walk {K V : Type} (cmp : K → K → comparison) (fuel : nat) (a : alloc (K * V)) (k : K) (i : N) : rle (bst_walk (H:=dbg) cmp fuel a k i) (bst_walk (H:=Q) cmp fuel a k i).
  Proof. revert a k i. induction fuel as [|fuel IH]; intros a k i; cbn [bst_walk]; cbv zeta; repeat pstep. Qed.
  Hint Resolve p_bst_walk : prof.
  Lemma p_bst_get_addr {K V : Type} (cmp : K → K → comparison) (n : nat) (a : alloc (K * V)) (r : N) (k : K) : rle (bst_get_addr (H:=dbg) cmp n a r k) (bst_get_addr (H:=Q) cmp n a r k).
  Proof. unfold bst_get_addr. repeat pstep. Qed.
  Hint Resolve p_bst_get_addr : prof.
  Lemma p_ti_fwd {K V : Type} (fuel : nat) (a : alloc (K * V)) (it : titer) : rle (ti_fwd (H:=dbg) fuel a it) (ti_fwd (H:=Q) fuel a it).
  Proof. revert a it. induction fuel as [|fuel IH]; intros a it; cbn [ti_fwd]; cbv zeta; repeat pstep. Qed.
  Hint Resolve p_ti_fwd : prof.
  Lemma p_ti_rev {K V : Type} (fuel : nat) (a : alloc (K * V)) (it : titer) : rle (ti_rev (H:=dbg) fuel a it) (ti_rev (H:=Q) fuel a it).
  Proof. revert a it. induction fuel as [|fuel IH]; intros a it; cbn [ti_rev]; cbv zeta; repeat pstep. Qed.
  Hint Resolve p_ti_rev : prof.
  Lemma p_ti_next {K V : Type} (a : alloc (K * V)) (it : titer) : rle (ti_next (H:=dbg) a it) (ti_next (H:=Q) a it).
  Proof. unfold ti_next. repeat pstep. Qed.
  Hint Resolve p_ti_next : prof.
  Lemma p_ti_next_back {K V : Type} (a : alloc (K * V)) (it : titer) : rle (ti_next_back (H:=dbg) a it) (ti_next_back (H:=Q) a it).
  Proof. unfold ti_next_back. repeat pstep. Qed.
  Hint Resolve p_ti_next_back : prof.
  Lemma p_ti_mut_next {K V : Type} (f : V → V) : mle (S:=alloc (K * V) * titer) (ti_mut_next (H:=dbg) f) (ti_mut_next (H:=Q) f).
  Proof. unfold ti_mut_next. repeat pstep. Qed.
  Hint Resolve p_ti_mut_next : prof.
  Lemma p_ti_mut_next_back {K V : Type} (f : V → V) : mle (S:=alloc (K * V) * titer) (ti_mut_next_back (H:=dbg) f) (ti_mut_next_back (H:=Q) f).
  Proof. unfold ti_mut_next_back. repeat pstep. Qed.
  Hint Resolve p_ti_mut_next_back : prof.
  (** ** rb *)
  Lemma p_rb_get_node {K V : Type} (t : rbt K V) (i : N) : rle (rb_get_node (H:=dbg) t i) (rb_get_node (H:=Q) t i).
  Proof. unfold rb_get_node. repeat pstep. Qed.
  Hint Resolve p_rb_get_node : prof.
  Lemma p_rb_set_node_value {K V : Type} (i : N) (v : V) : mle (S:=rbt K V) (rb_set_node_value (H:=dbg) i v) (rb_set_node_value (H:=Q) i v).
  Proof. unfold rb_set_node_value, rb_on. repeat pstep. Qed.
  Hint Resolve p_rb_set_node_value : prof.
  Lemma p_rb_color_red {K V : Type} (i : N) : mle (S:=rbt K V) (rb_color_red (H:=dbg) i) (rb_color_red (H:=Q) i).
  Proof. unfold rb_color_red, rb_on. repeat pstep. Qed.
  Hint Resolve p_rb_color_red : prof.
  Lemma p_rb_color_black {K V : Type} (i : N) : mle (S:=rbt K V) (rb_color_black (H:=dbg) i) (rb_color_black (H:=Q) i).
  Proof. unfold rb_color_black, rb_on. repeat pstep. Qed.
  Hint Resolve p_rb_color_black : prof.
  Lemma p_rb_color_node {K V : Type} (i c : N) : mle (S:=rbt K V) (rb_color_node (H:=dbg) i c) (rb_color_node (H:=Q) i c).
  Proof. unfold rb_color_node, rb_on. repeat pstep. Qed.
  Hint Resolve p_rb_color_node : prof.
  Lemma p_rb_is_red {K V : Type} (t : rbt K V) (i : N) : rle (rb_is_red (H:=dbg) t i) (rb_is_red (H:=Q) t i).
  Proof. unfold rb_is_red. repeat pstep. Qed.
  Hint Resolve p_rb_is_red : prof.
  Lemma p_rb_is_black {K V : Type} (t : rbt K V) (i : N) : rle (rb_is_black (H:=dbg) t i) (rb_is_black (H:=Q) t i).
  Proof. unfold rb_is_black. repeat pstep. Qed.
  Hint Resolve p_rb_is_black : prof.
  Lemma p_rb_get_child {K V : Type} (t : rbt K V) (i d : N) : rle (rb_get_child (H:=dbg) t i d) (rb_get_child (H:=Q) t i d).
  Proof. unfold rb_get_child. repeat pstep. Qed.
  Hint Resolve p_rb_get_child : prof.
  Lemma p_rb_get_left {K V : Type} (t : rbt K V) (i : N) : rle (rb_get_left (H:=dbg) t i) (rb_get_left (H:=Q) t i).
  Proof. unfold rb_get_left. repeat pstep. Qed.
  Hint Resolve p_rb_get_left : prof.
  Lemma p_rb_get_right {K V : Type} (t : rbt K V) (i : N) : rle (rb_get_right (H:=dbg) t i) (rb_get_right (H:=Q) t i).
  Proof. unfold rb_get_right. repeat pstep. Qed.
  Hint Resolve p_rb_get_right : prof.
  Lemma p_rb_get_color {K V : Type} (t : rbt K V) (i : N) : rle (rb_get_color (H:=dbg) t i) (rb_get_color (H:=Q) t i).
  Proof. unfold rb_get_color. repeat pstep. Qed.
  Hint Resolve p_rb_get_color : prof.
  Lemma p_rb_get_parent {K V : Type} (t : rbt K V) (i : N) : rle (rb_get_parent (H:=dbg) t i) (rb_get_parent (H:=Q) t i).
  Proof. unfold rb_get_parent. repeat pstep. Qed.
  Hint Resolve p_rb_get_parent : prof.
  Lemma p_rb_get_dir {K V : Type} (t : rbt K V) (i d : N) : rle (rb_get_dir (H:=dbg) t i d) (rb_get_dir (H:=Q) t i d).
  Proof. unfold rb_get_dir. repeat pstep. Qed.
  Hint Resolve p_rb_get_dir : prof.
  Lemma p_rb_is_leaf {K V : Type} (t : rbt K V) (i : N) : rle (rb_is_leaf (H:=dbg) t i) (rb_is_leaf (H:=Q) t i).
  Proof. unfold rb_is_leaf. repeat pstep. Qed.
  Hint Resolve p_rb_is_leaf : prof.
  Lemma p_rb_remove_allocator_node {K V : Type} (i : N) : mle (S:=rbt K V) (rb_remove_allocator_node (H:=dbg) i) (rb_remove_allocator_node (H:=Q) i).
  Proof. unfold rb_remove_allocator_node, rb_on. repeat pstep. Qed.
  Hint Resolve p_rb_remove_allocator_node : prof.
  Lemma p_rb_connect {K V : Type} (p c d : N) : mle (S:=rbt K V) (rb_connect (H:=dbg) p c d) (rb_connect (H:=Q) p c d).
  Proof. unfold rb_connect, rb_on. repeat pstep. Qed.
  Hint Resolve p_rb_connect : prof.
  Lemma p_rb_child_dir {K V : Type} (t : rbt K V) (p c : N) : rle (rb_child_dir (H:=dbg) t p c) (rb_child_dir (H:=Q) t p c).
  Proof. unfold rb_child_dir. repeat pstep. Qed.
  Hint Resolve p_rb_child_dir : prof.
  Lemma p_rb_rotate_dir {K V : Type} (p d : N) : mle (S:=rbt K V) (rb_rotate_dir (H:=dbg) p d) (rb_rotate_dir (H:=Q) p d).
  Proof. unfold rb_rotate_dir, rb_on. repeat pstep. Qed.
  Hint Resolve p_rb_rotate_dir : prof.
  Lemma p_rb_fix_insert_loop {K V : Type} (fuel : nat) (i : N) : mle (S:=rbt K V) (rb_fix_insert_loop (H:=dbg) fuel i) (rb_fix_insert_loop (H:=Q) fuel i).
  Proof. revert i. induction fuel as [|fuel IH]; intros i; cbn [rb_fix_insert_loop]; cbv zeta; unfold rb_on; repeat pstep. Qed.
  Hint Resolve p_rb_fix_insert_loop : prof.
  Lemma p_rb_fix_insert {K V : Type} (i : N) : mle (S:=rbt K V) (rb_fix_insert (H:=dbg) i) (rb_fix_insert (H:=Q) i).
  Proof. unfold rb_fix_insert, rb_on. repeat pstep. Qed.
  Hint Resolve p_rb_fix_insert : prof.
  Lemma p_rb_insert_loop {K V : Type} (cmp : K → K → comparison) (fuel : nat) (k : K) (v : V) (p : N) : mle (S:=rbt K V) (rb_insert_loop (H:=dbg) cmp fuel k v p) (rb_insert_loop (H:=Q) cmp fuel k v p).
  Proof. revert k v p. induction fuel as [|fuel IH]; intros k v p; cbn [rb_insert_loop]; cbv zeta; unfold rb_on; repeat pstep. Qed.
  Hint Resolve p_rb_insert_loop : prof.
  Lemma p_rb_insert {K V : Type} (cmp : K → K → comparison) (k : K) (v : V) : mle (S:=rbt K V) (rb_insert (H:=dbg) cmp k v) (rb_insert (H:=Q) cmp k v).
  Proof. unfold rb_insert, rb_on. repeat pstep. Qed.
  Hint Resolve p_rb_insert : prof.
  Lemma p_rb_transplant {K V : Type} (i j : N) : mle (S:=rbt K V) (rb_transplant (H:=dbg) i j) (rb_transplant (H:=Q) i j).
  Proof. unfold rb_transplant, rb_on. repeat pstep. Qed.
  Hint Resolve p_rb_transplant : prof.
  Lemma p_rb_fix_remove_loop {K V : Type} (fuel : nat) (p d : N) : mle (S:=rbt K V) (rb_fix_remove_loop (H:=dbg) fuel p d) (rb_fix_remove_loop (H:=Q) fuel p d).
  Proof. revert p d. induction fuel as [|fuel IH]; intros p d; cbn [rb_fix_remove_loop]; cbv zeta; unfold rb_on; repeat pstep. Qed.
  Hint Resolve p_rb_fix_remove_loop : prof.
  Lemma p_rb_fix_remove {K V : Type} (i : N) (o : option (N * N)) : mle (S:=rbt K V) (rb_fix_remove (H:=dbg) i o) (rb_fix_remove (H:=Q) i o).
  Proof. unfold rb_fix_remove, rb_on. repeat pstep. Qed.
  Hint Resolve p_rb_fix_remove : prof.
  Lemma p_rb_find_min {K V : Type} (t : rbt K V) (i : N) : rle (rb_find_min (H:=dbg) t i) (rb_find_min (H:=Q) t i).
  Proof. unfold rb_find_min. repeat pstep. Qed.
  Hint Resolve p_rb_find_min : prof.
  Lemma p_rb_find_max {K V : Type} (t : rbt K V) (i : N) : rle (rb_find_max (H:=dbg) t i) (rb_find_max (H:=Q) t i).
  Proof. unfold rb_find_max. repeat pstep. Qed.
  Hint Resolve p_rb_find_max : prof.
  Lemma p_rb_remove_tree_node {K V : Type} (i : N) : mle (S:=rbt K V) (rb_remove_tree_node (H:=dbg) i) (rb_remove_tree_node (H:=Q) i).
  Proof. unfold rb_remove_tree_node, rb_on. repeat pstep. Qed.
  Hint Resolve p_rb_remove_tree_node : prof.
  Lemma p_rb_remove_loop {K V : Type} (cmp : K → K → comparison) (fuel : nat) (k : K) (i : N) : mle (S:=rbt K V) (rb_remove_loop (H:=dbg) cmp fuel k i) (rb_remove_loop (H:=Q) cmp fuel k i).
  Proof. revert k i. induction fuel as [|fuel IH]; intros k i; cbn [rb_remove_loop]; cbv zeta; unfold rb_on; repeat pstep. Qed.
  Hint Resolve p_rb_remove_loop : prof.
  Lemma p_rb_remove {K V : Type} (cmp : K → K → comparison) (k : K) : mle (S:=rbt K V) (rb_remove (H:=dbg) cmp k) (rb_remove (H:=Q) cmp k).
  Proof. unfold rb_remove, rb_on. repeat pstep. Qed.
  Hint Resolve p_rb_remove : prof.
  Lemma p_rb_remove_root {K V : Type} : mle (S:=rbt K V) (rb_remove_root (H:=dbg)) (rb_remove_root (H:=Q)).
  Proof. unfold rb_remove_root, rb_on. repeat pstep. Qed.
  Hint Resolve p_rb_remove_root : prof.
  Lemma p_rb_get_addr {K V : Type} (cmp : K → K → comparison) (t : rbt K V) (k : K) : rle (rb_get_addr (H:=dbg) cmp t k) (rb_get_addr (H:=Q) cmp t k).
  Proof. unfold rb_get_addr. repeat pstep. Qed.
  Hint Resolve p_rb_get_addr : prof.
  Lemma p_rb_get {K V : Type} (cmp : K → K → comparison) (t : rbt K V) (k : K) : rle (rb_get (H:=dbg) cmp t k) (rb_get (H:=Q) cmp t k).
  Proof. unfold rb_get. repeat pstep. Qed.
  Hint Resolve p_rb_get : prof.
  Lemma p_rb_contains {K V : Type} (cmp : K → K → comparison) (t : rbt K V) (k : K) : rle (rb_contains (H:=dbg) cmp t k) (rb_contains (H:=Q) cmp t k).
  Proof. unfold rb_contains. repeat pstep. Qed.
  Hint Resolve p_rb_contains : prof.
  Lemma p_rb_get_mut {K V : Type} (cmp : K → K → comparison) (k : K) (f : V → V) : mle (S:=rbt K V) (rb_get_mut (H:=dbg) cmp k f) (rb_get_mut (H:=Q) cmp k f).
  Proof. unfold rb_get_mut, rb_on. repeat pstep. Qed.
  Hint Resolve p_rb_get_mut : prof.
  Lemma p_rb_get_min_index {K V : Type} (t : rbt K V) : rle (rb_get_min_index (H:=dbg) t) (rb_get_min_index (H:=Q) t).
  Proof. unfold rb_get_min_index. repeat pstep. Qed.
  Hint Resolve p_rb_get_min_index : prof.
  Lemma p_rb_get_max_index {K V : Type} (t : rbt K V) : rle (rb_get_max_index (H:=dbg) t) (rb_get_max_index (H:=Q) t).
  Proof. unfold rb_get_max_index. repeat pstep. Qed.
  Hint Resolve p_rb_get_max_index : prof.
  Lemma p_rb_get_min {K V : Type} (t : rbt K V) : rle (rb_get_min (H:=dbg) t) (rb_get_min (H:=Q) t).
  Proof. unfold rb_get_min. repeat pstep. Qed.
  Hint Resolve p_rb_get_min : prof.
  Lemma p_rb_get_max {K V : Type} (t : rbt K V) : rle (rb_get_max (H:=dbg) t) (rb_get_max (H:=Q) t).
  Proof. unfold rb_get_max. repeat pstep. Qed.
  Hint Resolve p_rb_get_max : prof.
  Lemma p_rb_index {K V : Type} (cmp : K → K → comparison) (t : rbt K V) (k : K) : rle (rb_index (H:=dbg) cmp t k) (rb_index (H:=Q) cmp t k).
  Proof. unfold rb_index. repeat pstep. Qed.
  Hint Resolve p_rb_index : prof.
  Lemma p_rb_index_mut {K V : Type} (cmp : K → K → comparison) (k : K) (f : V → V) : mle (S:=rbt K V) (rb_index_mut (H:=dbg) cmp k f) (rb_index_mut (H:=Q) cmp k f).
  Proof. unfold rb_index_mut, rb_on. repeat pstep. Qed.
  Hint Resolve p_rb_index_mut : prof.
  Lemma p_rb_iter_next {K V : Type} (t : rbt K V) (it : titer) : rle (rb_iter_next (H:=dbg) t it) (rb_iter_next (H:=Q) t it).
  Proof. unfold rb_iter_next. repeat pstep. Qed.
  Hint Resolve p_rb_iter_next : prof.
  Lemma p_rb_iter_next_back {K V : Type} (t : rbt K V) (it : titer) : rle (rb_iter_next_back (H:=dbg) t it) (rb_iter_next_back (H:=Q) t it).
  Proof. unfold rb_iter_next_back. repeat pstep. Qed.
  Hint Resolve p_rb_iter_next_back : prof.
  Lemma p_rb_iter_mut_next {K V : Type} (f : V → V) : mle (S:=rbt K V * titer) (rb_iter_mut_next (H:=dbg) f) (rb_iter_mut_next (H:=Q) f).
  Proof. unfold rb_iter_mut_next, rb_on_iter. repeat pstep. Qed.
  Hint Resolve p_rb_iter_mut_next : prof.
  Lemma p_rb_iter_mut_next_back {K V : Type} (f : V → V) : mle (S:=rbt K V * titer) (rb_iter_mut_next_back (H:=dbg) f) (rb_iter_mut_next_back (H:=Q) f).
  Proof. unfold rb_iter_mut_next_back, rb_on_iter. repeat pstep. Qed.
  Hint Resolve p_rb_iter_mut_next_back : prof.
  Lemma p_rb_iterate {K V : Type} (t : rbt K V) (sc : list fb) : rle (rb_iterate (H:=dbg) t sc) (rb_iterate (H:=Q) t sc).
  Proof. unfold rb_iterate. repeat pstep. Qed.
  Hint Resolve p_rb_iterate : prof.
  Lemma p_rb_iterate_mut {K V : Type} (sc : list (fb * (V → V))) : mle (S:=rbt K V) (rb_iterate_mut (H:=dbg) sc) (rb_iterate_mut (H:=Q) sc).
  Proof.
    intros t. unfold rb_iterate_mut.
    match goal with |- context [drive_mut ?a ?b sc ?s] => destruct (mle_drive_mut a (rb_iter_mut_next (H:=Q)) b (rb_iter_mut_next_back (H:=Q)) sc ltac:(intros; apply p_rb_iter_mut_next) ltac:(intros; apply p_rb_iter_mut_next_back) s) as [[[x y] ->]| ->] end; [left; by eexists|by right].
  Qed.
  Hint Resolve p_rb_iterate_mut : prof.
  Lemma p_rb_valid_loop {K V : Type} (fuel : nat) (t : rbt K V) (st : list (N * N)) (c : list N) : rle (rb_valid_loop (H:=dbg) fuel t st c) (rb_valid_loop (H:=Q) fuel t st c).
  Proof. revert t st c. induction fuel as [|fuel IH]; intros t st c; cbn [rb_valid_loop]; cbv zeta; unfold rb_on; repeat pstep. Qed.
  Hint Resolve p_rb_valid_loop : prof.
  Lemma p_rb_is_valid {K V : Type} (t : rbt K V) : rle (rb_is_valid (H:=dbg) t) (rb_is_valid (H:=Q) t).
  Proof. unfold rb_is_valid. repeat pstep. Qed.
  Hint Resolve p_rb_is_valid : prof.
  (** ** avl *)
  Lemma p_av_get_node {K V : Type} (t : avlt K V) (i : N) : rle (av_get_node (H:=dbg) t i) (av_get_node (H:=Q) t i).
  Proof. unfold av_get_node. repeat pstep. Qed.
  Hint Resolve p_av_get_node : prof.
  Lemma p_av_set_node_value {K V : Type} (i : N) (v : V) : mle (S:=avlt K V) (av_set_node_value (H:=dbg) i v) (av_set_node_value (H:=Q) i v).
  Proof. unfold av_set_node_value, av_on. repeat pstep. Qed.
  Hint Resolve p_av_set_node_value : prof.
  Lemma p_av_get_field {K V : Type} (t : avlt K V) (i r : N) : rle (av_get_field (H:=dbg) t i r) (av_get_field (H:=Q) t i r).
  Proof. unfold av_get_field. repeat pstep. Qed.
  Hint Resolve p_av_get_field : prof.
  Lemma p_av_update_height {K V : Type} (i : N) : mle (S:=avlt K V) (av_update_height (H:=dbg) i) (av_update_height (H:=Q) i).
  Proof. unfold av_update_height, av_on, u32_sub, u32_add, u64_add, u64_sub. repeat pstep. Qed.
  Hint Resolve p_av_update_height : prof.
  Lemma p_av_set_field {K V : Type} (i r v : N) : mle (S:=avlt K V) (av_set_field (H:=dbg) i r v) (av_set_field (H:=Q) i r v).
  Proof. unfold av_set_field, av_on. repeat pstep. Qed.
  Hint Resolve p_av_set_field : prof.
  Lemma p_av_balance_factor {K V : Type} (t : avlt K V) (l r : N) : rle (av_balance_factor (H:=dbg) t l r) (av_balance_factor (H:=Q) t l r).
  Proof. unfold av_balance_factor. repeat pstep. Qed.
  Hint Resolve p_av_balance_factor : prof.
  Lemma p_av_left_rotate {K V : Type} (i : N) : mle (S:=avlt K V) (av_left_rotate (H:=dbg) i) (av_left_rotate (H:=Q) i).
  Proof. unfold av_left_rotate, av_on. repeat pstep. Qed.
  Hint Resolve p_av_left_rotate : prof.
  Lemma p_av_right_rotate {K V : Type} (i : N) : mle (S:=avlt K V) (av_right_rotate (H:=dbg) i) (av_right_rotate (H:=Q) i).
  Proof. unfold av_right_rotate, av_on. repeat pstep. Qed.
  Hint Resolve p_av_right_rotate : prof.
  Lemma p_av_delete {K V : Type} (i : N) : mle (S:=avlt K V) (av_delete (H:=dbg) i) (av_delete (H:=Q) i).
  Proof. unfold av_delete, av_on. repeat pstep. Qed.
  Hint Resolve p_av_delete : prof.
  Lemma p_av_rebalance_step {K V : Type} (e : ancestor) : mle (S:=avlt K V) (av_rebalance_step (H:=dbg) e) (av_rebalance_step (H:=Q) e).
  Proof. unfold av_rebalance_step, av_on. repeat pstep. Qed.
  Hint Resolve p_av_rebalance_step : prof.
  Lemma p_av_rebalance {K V : Type} (e : list ancestor) : mle (S:=avlt K V) (av_rebalance (H:=dbg) e) (av_rebalance (H:=Q) e).
  Proof. induction e as [|x e IH]; cbn [av_rebalance]; repeat pstep. Qed.
  Hint Resolve p_av_rebalance : prof.
  Lemma p_av_insert_loop {K V : Type} (pcmp : K → K → option comparison) (fuel : nat) (k : K) (v : V) (p : list ancestor) (i : N) : mle (S:=avlt K V) (av_insert_loop (H:=dbg) pcmp fuel k v p i) (av_insert_loop (H:=Q) pcmp fuel k v p i).
  Proof. revert k v p i. induction fuel as [|fuel IH]; intros k v p i; cbn [av_insert_loop]; cbv zeta; unfold av_on; repeat pstep. Qed.
  Hint Resolve p_av_insert_loop : prof.
  Lemma p_av_insert {K V : Type} (pcmp : K → K → option comparison) (k : K) (v : V) : mle (S:=avlt K V) (av_insert (H:=dbg) pcmp k v) (av_insert (H:=Q) pcmp k v).
  Proof. unfold av_insert, av_on. repeat pstep. Qed.
  Hint Resolve p_av_insert : prof.
  Lemma p_av_remove_walk {K V : Type} (pcmp : K → K → option comparison) (fuel : nat) (t : avlt K V) (k : K) (p : list ancestor) (i : N) : rle (av_remove_walk (H:=dbg) pcmp fuel t k p i) (av_remove_walk (H:=Q) pcmp fuel t k p i).
  Proof. revert t k p i. induction fuel as [|fuel IH]; intros t k p i; cbn [av_remove_walk]; cbv zeta; unfold av_on; repeat pstep. Qed.
  Hint Resolve p_av_remove_walk : prof.
  Lemma p_av_leftmost_walk {K V : Type} (fuel : nat) (t : avlt K V) (l p : N) (i : list ancestor) : rle (av_leftmost_walk (H:=dbg) fuel t l p i) (av_leftmost_walk (H:=Q) fuel t l p i).
  Proof. revert t l p i. induction fuel as [|fuel IH]; intros t l p i; cbn [av_leftmost_walk]; cbv zeta; unfold av_on; repeat pstep. Qed.
  Hint Resolve p_av_leftmost_walk : prof.
  Lemma p_av_remove {K V : Type} (pcmp : K → K → option comparison) (k : K) : mle (S:=avlt K V) (av_remove (H:=dbg) pcmp k) (av_remove (H:=Q) pcmp k).
  Proof. unfold av_remove, av_on. repeat pstep. Qed.
  Hint Resolve p_av_remove : prof.
  Lemma p_av_get_addr {K V : Type} (pcmp : K → K → option comparison) (t : avlt K V) (k : K) : rle (av_get_addr (H:=dbg) pcmp t k) (av_get_addr (H:=Q) pcmp t k).
  Proof. unfold av_get_addr. repeat pstep. Qed.
  Hint Resolve p_av_get_addr : prof.
  Lemma p_av_get_loop {K V : Type} (pcmp : K → K → option comparison) (fuel : nat) (t : avlt K V) (k : K) (i : N) : rle (av_get_loop (H:=dbg) pcmp fuel t k i) (av_get_loop (H:=Q) pcmp fuel t k i).
  Proof. revert t k i. induction fuel as [|fuel IH]; intros t k i; cbn [av_get_loop]; cbv zeta; unfold av_on; repeat pstep. Qed.
  Hint Resolve p_av_get_loop : prof.
  Lemma p_av_get {K V : Type} (pcmp : K → K → option comparison) (t : avlt K V) (k : K) : rle (av_get (H:=dbg) pcmp t k) (av_get (H:=Q) pcmp t k).
  Proof. unfold av_get. repeat pstep. Qed.
  Hint Resolve p_av_get : prof.
  Lemma p_av_contains {K V : Type} (pcmp : K → K → option comparison) (t : avlt K V) (k : K) : rle (av_contains (H:=dbg) pcmp t k) (av_contains (H:=Q) pcmp t k).
  Proof. unfold av_contains. repeat pstep. Qed.
  Hint Resolve p_av_contains : prof.
  Lemma p_av_get_mut_loop {K V : Type} (pcmp : K → K → option comparison) (fuel : nat) (k : K) (f : V → V) (i : N) : mle (S:=avlt K V) (av_get_mut_loop (H:=dbg) pcmp fuel k f i) (av_get_mut_loop (H:=Q) pcmp fuel k f i).
  Proof. revert k f i. induction fuel as [|fuel IH]; intros k f i; cbn [av_get_mut_loop]; cbv zeta; unfold av_on; repeat pstep. Qed.
  Hint Resolve p_av_get_mut_loop : prof.
  Lemma p_av_get_mut {K V : Type} (pcmp : K → K → option comparison) (k : K) (f : V → V) : mle (S:=avlt K V) (av_get_mut (H:=dbg) pcmp k f) (av_get_mut (H:=Q) pcmp k f).
  Proof. unfold av_get_mut, av_on. repeat pstep. Qed.
  Hint Resolve p_av_get_mut : prof.
  Lemma p_av_find_min_index {K V : Type} (t : avlt K V) : rle (av_find_min_index (H:=dbg) t) (av_find_min_index (H:=Q) t).
  Proof. unfold av_find_min_index. repeat pstep. Qed.
  Hint Resolve p_av_find_min_index : prof.
  Lemma p_av_find_max_index {K V : Type} (t : avlt K V) : rle (av_find_max_index (H:=dbg) t) (av_find_max_index (H:=Q) t).
  Proof. unfold av_find_max_index. repeat pstep. Qed.
  Hint Resolve p_av_find_max_index : prof.
  Lemma p_av_find_min {K V : Type} (t : avlt K V) : rle (av_find_min (H:=dbg) t) (av_find_min (H:=Q) t).
  Proof. unfold av_find_min. repeat pstep. Qed.
  Hint Resolve p_av_find_min : prof.
  Lemma p_av_find_max {K V : Type} (t : avlt K V) : rle (av_find_max (H:=dbg) t) (av_find_max (H:=Q) t).
  Proof. unfold av_find_max. repeat pstep. Qed.
  Hint Resolve p_av_find_max : prof.
  Lemma p_av_get_min {K V : Type} (t : avlt K V) : rle (av_get_min (H:=dbg) t) (av_get_min (H:=Q) t).
  Proof. unfold av_get_min. repeat pstep. Qed.
  Hint Resolve p_av_get_min : prof.
  Lemma p_av_get_max {K V : Type} (t : avlt K V) : rle (av_get_max (H:=dbg) t) (av_get_max (H:=Q) t).
  Proof. unfold av_get_max. repeat pstep. Qed.
  Hint Resolve p_av_get_max : prof.
  Lemma p_av_index {K V : Type} (pcmp : K → K → option comparison) (t : avlt K V) (k : K) : rle (av_index (H:=dbg) pcmp t k) (av_index (H:=Q) pcmp t k).
  Proof. unfold av_index. repeat pstep. Qed.
  Hint Resolve p_av_index : prof.
  Lemma p_av_index_mut {K V : Type} (pcmp : K → K → option comparison) (k : K) (f : V → V) : mle (S:=avlt K V) (av_index_mut (H:=dbg) pcmp k f) (av_index_mut (H:=Q) pcmp k f).
  Proof. unfold av_index_mut, av_on. repeat pstep. Qed.
  Hint Resolve p_av_index_mut : prof.
  Lemma p_av_iter_next {K V : Type} (t : avlt K V) (it : titer) : rle (av_iter_next (H:=dbg) t it) (av_iter_next (H:=Q) t it).
  Proof. unfold av_iter_next. repeat pstep. Qed.
  Hint Resolve p_av_iter_next : prof.
  Lemma p_av_iter_next_back {K V : Type} (t : avlt K V) (it : titer) : rle (av_iter_next_back (H:=dbg) t it) (av_iter_next_back (H:=Q) t it).
  Proof. unfold av_iter_next_back. repeat pstep. Qed.
  Hint Resolve p_av_iter_next_back : prof.
  Lemma p_av_iter_mut_next {K V : Type} (f : V → V) : mle (S:=avlt K V * titer) (av_iter_mut_next (H:=dbg) f) (av_iter_mut_next (H:=Q) f).
  Proof. unfold av_iter_mut_next, av_on_iter. repeat pstep. Qed.
  Hint Resolve p_av_iter_mut_next : prof.
  Lemma p_av_iter_mut_next_back {K V : Type} (f : V → V) : mle (S:=avlt K V * titer) (av_iter_mut_next_back (H:=dbg) f) (av_iter_mut_next_back (H:=Q) f).
  Proof. unfold av_iter_mut_next_back, av_on_iter. repeat pstep. Qed.
  Hint Resolve p_av_iter_mut_next_back : prof.
  Lemma p_av_iterate {K V : Type} (t : avlt K V) (sc : list fb) : rle (av_iterate (H:=dbg) t sc) (av_iterate (H:=Q) t sc).
  Proof. unfold av_iterate. repeat pstep. Qed.
  Hint Resolve p_av_iterate : prof.
  Lemma p_av_iterate_mut {K V : Type} (sc : list (fb * (V → V))) : mle (S:=avlt K V) (av_iterate_mut (H:=dbg) sc) (av_iterate_mut (H:=Q) sc).
  Proof.
    intros t. unfold av_iterate_mut.
    match goal with |- context [drive_mut ?a ?b sc ?s] => destruct (mle_drive_mut a (av_iter_mut_next (H:=Q)) b (av_iter_mut_next_back (H:=Q)) sc ltac:(intros; apply p_av_iter_mut_next) ltac:(intros; apply p_av_iter_mut_next_back) s) as [[[x y] ->]| ->] end; [left; by eexists|by right].
  Qed.
  Hint Resolve p_av_iterate_mut : prof.
  (** ** hash *)
  Lemma p_ht_get_next {K V : Type} (h : htable K V) (i : N) : rle (ht_get_next (H:=dbg) h i) (ht_get_next (H:=Q) h i).
  Proof. unfold ht_get_next. repeat pstep. Qed.
  Hint Resolve p_ht_get_next : prof.
  Lemma p_ht_get_prev {K V : Type} (h : htable K V) (i : N) : rle (ht_get_prev (H:=dbg) h i) (ht_get_prev (H:=Q) h i).
  Proof. unfold ht_get_prev. repeat pstep. Qed.
  Hint Resolve p_ht_get_prev : prof.
  Lemma p_ht_get_node {K V : Type} (h : htable K V) (i : N) : rle (ht_get_node (H:=dbg) h i) (ht_get_node (H:=Q) h i).
  Proof. unfold ht_get_node. repeat pstep. Qed.
  Hint Resolve p_ht_get_node : prof.
  Lemma p_ht_set_node_value {K V : Type} (i : N) (v : V) : mle (S:=htable K V) (ht_set_node_value (H:=dbg) i v) (ht_set_node_value (H:=Q) i v).
  Proof. unfold ht_set_node_value, ht_on. repeat pstep. Qed.
  Hint Resolve p_ht_set_node_value : prof.
  Lemma p_ht_get_loop {K V : Type} (keq : K → K → bool) (fuel : nat) (h : htable K V) (k : K) (i : N) : rle (ht_get_loop (H:=dbg) keq fuel h k i) (ht_get_loop (H:=Q) keq fuel h k i).
  Proof. revert h k i. induction fuel as [|fuel IH]; intros h k i; cbn [ht_get_loop]; cbv zeta; unfold ht_on; repeat pstep. Qed.
  Hint Resolve p_ht_get_loop : prof.
  Lemma p_ht_get {K V : Type} (keq : K → K → bool) (hash : K → N) (h : htable K V) (k : K) : rle (ht_get (H:=dbg) keq hash h k) (ht_get (H:=Q) keq hash h k).
  Proof. unfold ht_get. repeat pstep. Qed.
  Hint Resolve p_ht_get : prof.
  Lemma p_ht_contains_trait {K V : Type} (keq : K → K → bool) (hash : K → N) (h : htable K V) (k : K) : rle (ht_contains_trait (H:=dbg) keq hash h k) (ht_contains_trait (H:=Q) keq hash h k).
  Proof. unfold ht_contains_trait. repeat pstep. Qed.
  Hint Resolve p_ht_contains_trait : prof.
  Lemma p_ht_contains_loop {K V : Type} (keq : K → K → bool) (fuel : nat) (h : htable K V) (k : K) (i : N) : rle (ht_contains_loop (H:=dbg) keq fuel h k i) (ht_contains_loop (H:=Q) keq fuel h k i).
  Proof. revert h k i. induction fuel as [|fuel IH]; intros h k i; cbn [ht_contains_loop]; cbv zeta; unfold ht_on; repeat pstep. Qed.
  Hint Resolve p_ht_contains_loop : prof.
  Lemma p_ht_contains {K V : Type} (keq : K → K → bool) (hash : K → N) (h : htable K V) (k : K) : rle (ht_contains (H:=dbg) keq hash h k) (ht_contains (H:=Q) keq hash h k).
  Proof. unfold ht_contains. repeat pstep. Qed.
  Hint Resolve p_ht_contains : prof.
  Lemma p_ht_get_addr_loop {K V : Type} (keq : K → K → bool) (fuel : nat) (h : htable K V) (k : K) (i : N) : rle (ht_get_addr_loop (H:=dbg) keq fuel h k i) (ht_get_addr_loop (H:=Q) keq fuel h k i).
  Proof. revert h k i. induction fuel as [|fuel IH]; intros h k i; cbn [ht_get_addr_loop]; cbv zeta; unfold ht_on; repeat pstep. Qed.
  Hint Resolve p_ht_get_addr_loop : prof.
  Lemma p_ht_get_addr {K V : Type} (keq : K → K → bool) (hash : K → N) (h : htable K V) (k : K) : rle (ht_get_addr (H:=dbg) keq hash h k) (ht_get_addr (H:=Q) keq hash h k).
  Proof. unfold ht_get_addr. repeat pstep. Qed.
  Hint Resolve p_ht_get_addr : prof.
  Lemma p_ht_get_mut_loop {K V : Type} (keq : K → K → bool) (fuel : nat) (k : K) (f : V → V) (b i j : N) : mle (S:=htable K V) (ht_get_mut_loop (H:=dbg) keq fuel k f b i j) (ht_get_mut_loop (H:=Q) keq fuel k f b i j).
  Proof. revert k f b i j. induction fuel as [|fuel IH]; intros k f b i j; cbn [ht_get_mut_loop]; cbv zeta; unfold ht_on; repeat pstep. Qed.
  Hint Resolve p_ht_get_mut_loop : prof.
  Lemma p_ht_get_mut {K V : Type} (keq : K → K → bool) (hash : K → N) (k : K) (f : V → V) : mle (S:=htable K V) (ht_get_mut (H:=dbg) keq hash k f) (ht_get_mut (H:=Q) keq hash k f).
  Proof. unfold ht_get_mut, ht_on. repeat pstep. Qed.
  Hint Resolve p_ht_get_mut : prof.
  Lemma p_ht_insert_new_node {K V : Type} (k : K) (v : V) (b i : N) : mle (S:=htable K V) (ht_insert_new_node (H:=dbg) k v b i) (ht_insert_new_node (H:=Q) k v b i).
  Proof. unfold ht_insert_new_node, ht_on. repeat pstep. Qed.
  Hint Resolve p_ht_insert_new_node : prof.
  Lemma p_ht_insert_loop {K V : Type} (keq : K → K → bool) (fuel : nat) (k : K) (v : V) (b i j : N) : mle (S:=htable K V) (ht_insert_loop (H:=dbg) keq fuel k v b i j) (ht_insert_loop (H:=Q) keq fuel k v b i j).
  Proof. revert k v b i j. induction fuel as [|fuel IH]; intros k v b i j; cbn [ht_insert_loop]; cbv zeta; unfold ht_on; repeat pstep. Qed.
  Hint Resolve p_ht_insert_loop : prof.
  Lemma p_ht_insert {K V : Type} (keq : K → K → bool) (hash : K → N) (k : K) (v : V) : mle (S:=htable K V) (ht_insert (H:=dbg) keq hash k v) (ht_insert (H:=Q) keq hash k v).
  Proof. unfold ht_insert, ht_on. repeat pstep. Qed.
  Hint Resolve p_ht_insert : prof.
  Lemma p_ht_remove_loop {K V : Type} (keq : K → K → bool) (fuel : nat) (k : K) (b i j : N) : mle (S:=htable K V) (ht_remove_loop (H:=dbg) keq fuel k b i j) (ht_remove_loop (H:=Q) keq fuel k b i j).
  Proof. revert k b i j. induction fuel as [|fuel IH]; intros k b i j; cbn [ht_remove_loop]; cbv zeta; unfold ht_on; repeat pstep. Qed.
  Hint Resolve p_ht_remove_loop : prof.
  Lemma p_ht_remove {K V : Type} (keq : K → K → bool) (hash : K → N) (k : K) : mle (S:=htable K V) (ht_remove (H:=dbg) keq hash k) (ht_remove (H:=Q) keq hash k).
  Proof. unfold ht_remove, ht_on. repeat pstep. Qed.
  Hint Resolve p_ht_remove : prof.
  Lemma p_ht_index {K V : Type} (keq : K → K → bool) (hash : K → N) (h : htable K V) (k : K) : rle (ht_index (H:=dbg) keq hash h k) (ht_index (H:=Q) keq hash h k).
  Proof. unfold ht_index. repeat pstep. Qed.
  Hint Resolve p_ht_index : prof.
  Lemma p_ht_index_mut {K V : Type} (keq : K → K → bool) (hash : K → N) (k : K) (f : V → V) : mle (S:=htable K V) (ht_index_mut (H:=dbg) keq hash k f) (ht_index_mut (H:=Q) keq hash k f).
  Proof. unfold ht_index_mut, ht_on. repeat pstep. Qed.
  Hint Resolve p_ht_index_mut : prof.
  Lemma p_ht_iter_next {K V : Type} (h : htable K V) (it : ht_iter) : rle (ht_iter_next (H:=dbg) h it) (ht_iter_next (H:=Q) h it).
  Proof. unfold ht_iter_next. repeat pstep. Qed.
  Hint Resolve p_ht_iter_next : prof.
  Lemma p_ht_iter_mut_next {K V : Type} (f : V → V) : mle (S:=htable K V * ht_iter) (ht_iter_mut_next (H:=dbg) f) (ht_iter_mut_next (H:=Q) f).
  Proof. unfold ht_iter_mut_next, ht_on. repeat pstep. Qed.
  Hint Resolve p_ht_iter_mut_next : prof.
  Lemma p_ht_iterate {K V : Type} (h : htable K V) (sc : list fb) : rle (ht_iterate (H:=dbg) h sc) (ht_iterate (H:=Q) h sc).
  Proof. unfold ht_iterate. repeat pstep. Qed.
  Hint Resolve p_ht_iterate : prof.
  Lemma p_ht_iterate_mut {K V : Type} (sc : list (fb * (V → V))) : mle (S:=htable K V) (ht_iterate_mut (H:=dbg) sc) (ht_iterate_mut (H:=Q) sc).
  Proof.
    intros t. unfold ht_iterate_mut. destruct (ht_mk_iter t); [|by right].
    match goal with |- context [drive_mut ?a ?b sc ?s] => destruct (mle_drive_mut a (ht_iter_mut_next (H:=Q)) b b sc ltac:(intros; apply p_ht_iter_mut_next) ltac:(intros; apply mle_refl) s) as [[[x y] ->]| ->] end; [left; by eexists|by right].
  Qed.
  Hint Resolve p_ht_iterate_mut : prof.
  Lemma p_ht_step {K V : Type} (keq : K → K → bool) (hash : K → N) (o : hm_op K V) : mle (S:=htable K V) (ht_step (H:=dbg) keq hash o) (ht_step (H:=Q) keq hash o).
  Proof. unfold ht_step, ht_on. repeat pstep. Qed.
  Hint Resolve p_ht_step : prof.
  (** ** crit *)
  Lemma p_cb_get_leaf {V : Type} (t : critbit V) (i : N) : rle (cb_get_leaf (H:=dbg) t i) (cb_get_leaf (H:=Q) t i).
  Proof. unfold cb_get_leaf. repeat pstep. Qed.
  Hint Resolve p_cb_get_leaf : prof.
  Lemma p_cb_replace_leaf {V : Type} (i : N) (v : V) : mle (S:=critbit V) (cb_replace_leaf (H:=dbg) i v) (cb_replace_leaf (H:=Q) i v).
  Proof. unfold cb_replace_leaf, cb_onn, cb_onl. repeat pstep. Qed.
  Hint Resolve p_cb_replace_leaf : prof.
  Lemma p_cb_get_leaf_index {V : Type} (t : critbit V) (i : N) : rle (cb_get_leaf_index (H:=dbg) t i) (cb_get_leaf_index (H:=Q) t i).
  Proof. unfold cb_get_leaf_index. repeat pstep. Qed.
  Hint Resolve p_cb_get_leaf_index : prof.
  Lemma p_cb_is_inner_node {V : Type} (t : critbit V) (i : N) : rle (cb_is_inner_node (H:=dbg) t i) (cb_is_inner_node (H:=Q) t i).
  Proof. unfold cb_is_inner_node. repeat pstep. Qed.
  Hint Resolve p_cb_is_inner_node : prof.
  Lemma p_cb_get_node {V : Type} (t : critbit V) (i : N) : rle (cb_get_node (H:=dbg) t i) (cb_get_node (H:=Q) t i).
  Proof. unfold cb_get_node. repeat pstep. Qed.
  Hint Resolve p_cb_get_node : prof.
  Lemma p_cb_get_key {V : Type} (t : critbit V) (i : N) : rle (cb_get_key (H:=dbg) t i) (cb_get_key (H:=Q) t i).
  Proof. unfold cb_get_key. repeat pstep. Qed.
  Hint Resolve p_cb_get_key : prof.
  Lemma p_cb_get_left {V : Type} (t : critbit V) (i : N) : rle (cb_get_left (H:=dbg) t i) (cb_get_left (H:=Q) t i).
  Proof. unfold cb_get_left. repeat pstep. Qed.
  Hint Resolve p_cb_get_left : prof.
  Lemma p_cb_get_right {V : Type} (t : critbit V) (i : N) : rle (cb_get_right (H:=dbg) t i) (cb_get_right (H:=Q) t i).
  Proof. unfold cb_get_right. repeat pstep. Qed.
  Hint Resolve p_cb_get_right : prof.
  Lemma p_cb_get_parent {V : Type} (t : critbit V) (i : N) : rle (cb_get_parent (H:=dbg) t i) (cb_get_parent (H:=Q) t i).
  Proof. unfold cb_get_parent. repeat pstep. Qed.
  Hint Resolve p_cb_get_parent : prof.
  Lemma p_cb_add_leaf {V : Type} (k : N) (v : V) : mle (S:=critbit V) (cb_add_leaf (H:=dbg) k v) (cb_add_leaf (H:=Q) k v).
  Proof. unfold cb_add_leaf, cb_onn, cb_onl. repeat pstep. Qed.
  Hint Resolve p_cb_add_leaf : prof.
  Lemma p_cb_get_child {V : Type} (t : critbit V) (p i k : N) : rle (cb_get_child (H:=dbg) t p i k) (cb_get_child (H:=Q) t p i k).
  Proof. unfold cb_get_child. repeat pstep. Qed.
  Hint Resolve p_cb_get_child : prof.
  Lemma p_cb_duplicate {V : Type} (i : N) : mle (S:=critbit V) (cb_duplicate (H:=dbg) i) (cb_duplicate (H:=Q) i).
  Proof. unfold cb_duplicate, cb_onn, cb_onl. repeat pstep. Qed.
  Hint Resolve p_cb_duplicate : prof.
  Lemma p_cb_replace_node {V : Type} (i : N) (c : cnode) (l r : N) : mle (S:=critbit V) (cb_replace_node (H:=dbg) i c l r) (cb_replace_node (H:=Q) i c l r).
  Proof. unfold cb_replace_node, cb_onn, cb_onl. repeat pstep. Qed.
  Hint Resolve p_cb_replace_node : prof.
  Lemma p_cb_migrate {V : Type} (i j : N) : mle (S:=critbit V) (cb_migrate (H:=dbg) i j) (cb_migrate (H:=Q) i j).
  Proof. unfold cb_migrate, cb_onn, cb_onl. repeat pstep. Qed.
  Hint Resolve p_cb_migrate : prof.
  Lemma p_cb_remove_leaf {V : Type} (i : N) : mle (S:=critbit V) (cb_remove_leaf (H:=dbg) i) (cb_remove_leaf (H:=Q) i).
  Proof. unfold cb_remove_leaf, cb_onn, cb_onl. repeat pstep. Qed.
  Hint Resolve p_cb_remove_leaf : prof.
  Lemma p_cb_walk {V : Type} (fuel : nat) (t : critbit V) (k i : N) : rle (cb_walk (H:=dbg) fuel t k i) (cb_walk (H:=Q) fuel t k i).
  Proof. revert t k i. induction fuel as [|fuel IH]; intros t k i; cbn [cb_walk]; cbv zeta; unfold cb_onn, cb_onl; repeat pstep. Qed.
  Hint Resolve p_cb_walk : prof.
  Lemma p_cb_get_addr {V : Type} (t : critbit V) (k : N) : rle (cb_get_addr (H:=dbg) t k) (cb_get_addr (H:=Q) t k).
  Proof. unfold cb_get_addr. repeat pstep. Qed.
  Hint Resolve p_cb_get_addr : prof.
  Lemma p_cb_get_loop {V : Type} (fuel : nat) (t : critbit V) (k i : N) : rle (cb_get_loop (H:=dbg) fuel t k i) (cb_get_loop (H:=Q) fuel t k i).
  Proof. revert t k i. induction fuel as [|fuel IH]; intros t k i; cbn [cb_get_loop]; cbv zeta; unfold cb_onn, cb_onl; repeat pstep. Qed.
  Hint Resolve p_cb_get_loop : prof.
  Lemma p_cb_get {V : Type} (t : critbit V) (k : N) : rle (cb_get (H:=dbg) t k) (cb_get (H:=Q) t k).
  Proof. unfold cb_get. repeat pstep. Qed.
  Hint Resolve p_cb_get : prof.
  Lemma p_cb_contains {V : Type} (t : critbit V) (k : N) : rle (cb_contains (H:=dbg) t k) (cb_contains (H:=Q) t k).
  Proof. unfold cb_contains. repeat pstep. Qed.
  Hint Resolve p_cb_contains : prof.
  Lemma p_cb_get_mut_loop {V : Type} (fuel : nat) (k : N) (f : V → V) (i : N) : mle (S:=critbit V) (cb_get_mut_loop (H:=dbg) fuel k f i) (cb_get_mut_loop (H:=Q) fuel k f i).
  Proof. revert k f i. induction fuel as [|fuel IH]; intros k f i; cbn [cb_get_mut_loop]; cbv zeta; unfold cb_onn, cb_onl; repeat pstep. Qed.
  Hint Resolve p_cb_get_mut_loop : prof.
  Lemma p_cb_get_mut {V : Type} (k : N) (f : V → V) : mle (S:=critbit V) (cb_get_mut (H:=dbg) k f) (cb_get_mut (H:=Q) k f).
  Proof. unfold cb_get_mut, cb_onn, cb_onl. repeat pstep. Qed.
  Hint Resolve p_cb_get_mut : prof.
  Lemma p_cb_insert_loop {V : Type} (fuel : nat) (k : N) (v : V) (i : N) : mle (S:=critbit V) (cb_insert_loop (H:=dbg) fuel k v i) (cb_insert_loop (H:=Q) fuel k v i).
  Proof. revert k v i. induction fuel as [|fuel IH]; intros k v i; cbn [cb_insert_loop]; cbv zeta; unfold cb_onn, cb_onl; repeat pstep. Qed.
  Hint Resolve p_cb_insert_loop : prof.
  Lemma p_cb_insert {V : Type} (k : N) (v : V) : mle (S:=critbit V) (cb_insert (H:=dbg) k v) (cb_insert (H:=Q) k v).
  Proof. unfold cb_insert, cb_onn, cb_onl. repeat pstep. Qed.
  Hint Resolve p_cb_insert : prof.
  Lemma p_cb_remove_walk {V : Type} (fuel : nat) (t : critbit V) (k p c : N) (b : bool) : rle (cb_remove_walk (H:=dbg) fuel t k p c b) (cb_remove_walk (H:=Q) fuel t k p c b).
  Proof. revert t k p c b. induction fuel as [|fuel IH]; intros t k p c b; cbn [cb_remove_walk]; cbv zeta; unfold cb_onn, cb_onl; repeat pstep. Qed.
  Hint Resolve p_cb_remove_walk : prof.
  Lemma p_cb_remove {V : Type} (k : N) : mle (S:=critbit V) (cb_remove (H:=dbg) k) (cb_remove (H:=Q) k).
  Proof. unfold cb_remove, cb_onn, cb_onl, u32_sub, u32_add, u64_add, u64_sub. repeat pstep. Qed.
  Hint Resolve p_cb_remove : prof.
  Lemma p_cb_get_min_index {V : Type} (t : critbit V) : rle (cb_get_min_index (H:=dbg) t) (cb_get_min_index (H:=Q) t).
  Proof. unfold cb_get_min_index. repeat pstep. Qed.
  Hint Resolve p_cb_get_min_index : prof.
  Lemma p_cb_get_max_index {V : Type} (t : critbit V) : rle (cb_get_max_index (H:=dbg) t) (cb_get_max_index (H:=Q) t).
  Proof. unfold cb_get_max_index. repeat pstep. Qed.
  Hint Resolve p_cb_get_max_index : prof.
  Lemma p_cb_entry {V : Type} (t : critbit V) (i : N) : rle (cb_entry (H:=dbg) t i) (cb_entry (H:=Q) t i).
  Proof. unfold cb_entry. repeat pstep. Qed.
  Hint Resolve p_cb_entry : prof.
  Lemma p_cb_get_min {V : Type} (t : critbit V) : rle (cb_get_min (H:=dbg) t) (cb_get_min (H:=Q) t).
  Proof. unfold cb_get_min. repeat pstep. Qed.
  Hint Resolve p_cb_get_min : prof.
  Lemma p_cb_get_max {V : Type} (t : critbit V) : rle (cb_get_max (H:=dbg) t) (cb_get_max (H:=Q) t).
  Proof. unfold cb_get_max. repeat pstep. Qed.
  Hint Resolve p_cb_get_max : prof.
  Lemma p_cb_index {V : Type} (t : critbit V) (k : N) : rle (cb_index (H:=dbg) t k) (cb_index (H:=Q) t k).
  Proof. unfold cb_index. repeat pstep. Qed.
  Hint Resolve p_cb_index : prof.
  Lemma p_cb_index_mut {V : Type} (k : N) (f : V → V) : mle (S:=critbit V) (cb_index_mut (H:=dbg) k f) (cb_index_mut (H:=Q) k f).
  Proof. unfold cb_index_mut, cb_onn, cb_onl. repeat pstep. Qed.
  Hint Resolve p_cb_index_mut : prof.
  Lemma p_ci_fwd {V : Type} (fuel : nat) (t : critbit V) (it : citer) : rle (ci_fwd (H:=dbg) fuel t it) (ci_fwd (H:=Q) fuel t it).
  Proof. revert t it. induction fuel as [|fuel IH]; intros t it; cbn [ci_fwd]; cbv zeta; repeat pstep. Qed.
  Hint Resolve p_ci_fwd : prof.
  Lemma p_ci_rev {V : Type} (fuel : nat) (t : critbit V) (it : citer) : rle (ci_rev (H:=dbg) fuel t it) (ci_rev (H:=Q) fuel t it).
  Proof. revert t it. induction fuel as [|fuel IH]; intros t it; cbn [ci_rev]; cbv zeta; repeat pstep. Qed.
  Hint Resolve p_ci_rev : prof.
  Lemma p_cb_iter_next {V : Type} (t : critbit V) (it : citer) : rle (cb_iter_next (H:=dbg) t it) (cb_iter_next (H:=Q) t it).
  Proof. unfold cb_iter_next. repeat pstep. Qed.
  Hint Resolve p_cb_iter_next : prof.
  Lemma p_cb_iter_next_back {V : Type} (t : critbit V) (it : citer) : rle (cb_iter_next_back (H:=dbg) t it) (cb_iter_next_back (H:=Q) t it).
  Proof. unfold cb_iter_next_back. repeat pstep. Qed.
  Hint Resolve p_cb_iter_next_back : prof.
  Lemma p_cb_raw_key {V : Type} (t : critbit V) (n : N) : rle (cb_raw_key (H:=dbg) t n) (cb_raw_key (H:=Q) t n).
  Proof. unfold cb_raw_key, u32_sub, u32_add, u64_add, u64_sub. repeat pstep. Qed.
  Hint Resolve p_cb_raw_key : prof.
  Lemma p_cb_iter_mut_next {V : Type} (f : V → V) : mle (S:=critbit V * citer) (cb_iter_mut_next (H:=dbg) f) (cb_iter_mut_next (H:=Q) f).
  Proof. unfold cb_iter_mut_next, cb_onn, cb_onl. repeat pstep. Qed.
  Hint Resolve p_cb_iter_mut_next : prof.
  Lemma p_cb_iter_mut_next_back {V : Type} (f : V → V) : mle (S:=critbit V * citer) (cb_iter_mut_next_back (H:=dbg) f) (cb_iter_mut_next_back (H:=Q) f).
  Proof. unfold cb_iter_mut_next_back, cb_onn, cb_onl. repeat pstep. Qed.
  Hint Resolve p_cb_iter_mut_next_back : prof.
  Lemma p_cb_iterate {V : Type} (t : critbit V) (sc : list fb) : rle (cb_iterate (H:=dbg) t sc) (cb_iterate (H:=Q) t sc).
  Proof. unfold cb_iterate. repeat pstep. Qed.
  Hint Resolve p_cb_iterate : prof.
  Lemma p_cb_iterate_mut {V : Type} (sc : list (fb * (V → V))) : mle (S:=critbit V) (cb_iterate_mut (H:=dbg) sc) (cb_iterate_mut (H:=Q) sc).
  Proof.
    intros t. unfold cb_iterate_mut.
    match goal with |- context [drive_mut ?a ?b sc ?s] => destruct (mle_drive_mut a (cb_iter_mut_next (H:=Q)) b (cb_iter_mut_next_back (H:=Q)) sc ltac:(intros; apply p_cb_iter_mut_next) ltac:(intros; apply p_cb_iter_mut_next_back) s) as [[[x y] ->]| ->] end; [left; by eexists|by right].
  Qed.
  Hint Resolve p_cb_iterate_mut : prof.
End prof.
