(** * The provided methods of an iterator that reads a sequence *)
From Verif Require Import IterProof HashSpec RBMain AVLMain CritMain HashMain HashProof OrderProps AVLProps CritProps DequeProof DequeProps RBProps MethSpec.

(** ** One end *)
Section one.
  Context {IT A : Type} (next : IT → res (option A * IT)) (R : IT → list A → Prop).
  Context (Hn : ∀ it l, R it l → ∃ it', next it = Val (head l, it') ∧ R it' (tail l)).
  Lemma fold_ok {B} (f : B → A → B) n : ∀ z it l, R it l → (length l < n)%nat → ∃ it', it_fold next n f z it = Val (fold_left f l z, it') ∧ R it' [].
  Proof using Hn.
    induction n as [|n IH]; intros z it l HR Hl; [lia|]. cbn [it_fold]. destruct (Hn _ _ HR) as (it' & -> & HR'). cbn [mbind res_bind fst snd].
    destruct l as [|x l]; cbn [head tail fold_left length] in *; [by exists it'|]. apply IH; [done|lia].
  Qed.
  Lemma advance_ok n : ∀ it l, R it l → ∃ b it', it_advance_by next n it = Val (b, it') ∧ R it' (drop n l) ∧ (b = true ∨ b = false ∧ drop n l = []).
  Proof using Hn.
    induction n as [|n IH]; intros it l HR; cbn [it_advance_by]; [exists true, it; by auto|]. destruct (Hn _ _ HR) as (it' & -> & HR'). cbn [mbind res_bind fst snd].
    destruct l as [|x l]; cbn [head tail] in *; [exists false, it'; by auto|]. by apply IH.
  Qed.
  Lemma nth_ok n it l : R it l → ∃ it', it_nth next n it = Val (l !! n, it') ∧ R it' (drop (S n) l).
  Proof using Hn.
    intros HR. unfold it_nth. destruct (advance_ok n it l HR) as (b & it' & -> & HR' & Hb). cbn [mbind res_bind fst snd].
    assert (l !! n = head (drop n l) ∧ drop (S n) l = tail (drop n l)) as [-> ->].
    { clear. revert n. induction l as [|x l IH]; intros [|n]; try done. apply IH. }
    destruct Hb as [->|[-> E]]; [by apply Hn|]. rewrite E in *. by exists it'.
  Qed.
  (** a search that goes on while [g] *)
  Lemma try_fold_ok {B} (f : B → A → bool * B) n : ∀ z it l, R it l → (length l < n)%nat →
    ∀ (g : list A → B → B * list A), (∀ b, g [] b = (b, [])) → (∀ b x l, g (x :: l) b = let '(go, b') := f b x in if go then g l b' else (b', l)) →
    ∃ it', it_try_fold next n f z it = Val ((g l z).1, it') ∧ R it' (g l z).2.
  Proof using Hn.
    induction n as [|n IH]; intros z it l HR Hl g G0 G1; [lia|]. cbn [it_try_fold]. destruct (Hn _ _ HR) as (it' & -> & HR'). cbn [mbind res_bind fst snd].
    destruct l as [|x l]; cbn [head tail length] in *; [rewrite G0; by exists it'|]. rewrite G1. destruct (f z x) as [[] b']; [|by exists it'].
    apply IH; [done|lia|done|done].
  Qed.
  Lemma count_list (l : list A) : ∀ z, fold_left (λ c _, c + 1) l z = z + lengthN l.
  Proof. induction l as [|x l IH]; intros z; cbn [fold_left]; [unfold lengthN; cbn; lia|]. rewrite IH. unfold lengthN. cbn [length]. lia. Qed.
  Lemma last_list (l : list A) : ∀ z, fold_left (λ _ x, Some x) l z = match last l with Some x => Some x | None => z end.
  Proof. induction l as [|x l IH]; intros z; [done|]. cbn [fold_left]. rewrite IH. rewrite last_cons. by destruct (last l). Qed.
  Lemma collect_list (l : list A) : ∀ z, fold_left (λ l x, l ++ [x]) l z = z ++ l.
  Proof. induction l as [|x l IH]; intros z; cbn [fold_left]; [by rewrite app_nil_r|]. rewrite IH, <- app_assoc. done. Qed.
  Fixpoint g_find (p : A → bool) (l : list A) (b : option A) : option A * list A :=
    match l with [] => (b, []) | x :: l => if p x then (Some x, l) else g_find p l None end.
  Fixpoint g_pos (p : A → bool) (l : list A) (b : N * bool) : N * bool * list A :=
    match l with [] => (b, []) | x :: l => if p x then ((b.1, true), l) else g_pos p l (b.1 + 1, false) end.
  Fixpoint g_any (p : A → bool) (l : list A) (b : bool) : bool * list A :=
    match l with [] => (b, []) | x :: l => if p x then (true, l) else g_any p l false end.
  Fixpoint g_all (p : A → bool) (l : list A) (b : bool) : bool * list A :=
    match l with [] => (b, []) | x :: l => if p x then g_all p l true else (false, l) end.
  Lemma g_find_ok p l : g_find p l None = (l !! before p l, drop (S (before p l)) l).
  Proof. induction l as [|x l IH]; [done|]. cbn [g_find before]. destruct (p x); [done|]. rewrite IH. done. Qed.
  Lemma g_any_ok p l : g_any p l false = (existsb p l, drop (S (before p l)) l).
  Proof. induction l as [|x l IH]; [done|]. cbn [g_any before existsb]. destruct (p x); [done|]. rewrite IH. done. Qed.
  Lemma g_all_ok p l : g_all p l true = (forallb p l, drop (S (before (λ x, negb (p x)) l)) l).
  Proof. induction l as [|x l IH]; [done|]. cbn [g_all before forallb]. destruct (p x); cbn [negb andb]; [|done]. rewrite IH. done. Qed.
  Lemma g_pos_ok p l : ∀ c, (let b := (g_pos p l (c, false)).1 in if b.2 : bool then Some b.1 else None) = (if existsb p l then Some (c + N.of_nat (before p l)) else None) ∧
    (g_pos p l (c, false)).2 = drop (S (before p l)) l.
  Proof.
    induction l as [|x l IH]; intros c; [done|]. cbn [g_pos before existsb fst]. destruct (p x); cbn [fst snd orb]; [split; [f_equal; lia|done]|].
    destruct (IH (c + 1)) as [E1 E2]. cbn zeta in *. rewrite E1, E2. split; [|done]. destruct (existsb p l); [|done]. f_equal. lia.
  Qed.
  Lemma ask_ok n m it l : R it l → (length l < n)%nat → ∃ it', ask n next m it = Val ((answer m l).1, it') ∧ R it' (answer m l).2.
  Proof using Hn.
    intros HR Hl. destruct m as [|k| | | |p|p|p|p]; cbn [ask answer fst snd].
    - destruct (Hn _ _ HR) as (it' & -> & HR'). by exists it'.
    - destruct (nth_ok k it l HR) as (it' & -> & HR'). by exists it'.
    - destruct (fold_ok (λ c _, c + 1) n 0 it l HR Hl) as (it' & E & HR'). unfold it_count. rewrite E, count_list. by exists it'.
    - destruct (fold_ok (λ _ x, Some x) n None it l HR Hl) as (it' & E & HR'). unfold it_last. rewrite E, last_list. exists it'. split; [|done]. cbn. by destruct (last l).
    - destruct (fold_ok (λ l x, l ++ [x]) n [] it l HR Hl) as (it' & E & HR'). unfold it_collect. rewrite E, collect_list. by exists it'.
    - destruct (try_fold_ok (λ _ x, if p x then (false, Some x) else (true, None)) n None it l HR Hl (g_find p)) as (it' & E & HR'); [done|intros b x l'; cbn; by destruct (p x)|].
      unfold it_find. rewrite g_find_ok in *. rewrite E. by exists it'.
    - destruct (try_fold_ok (λ c x, if p x then (false, (c.1, true)) else (true, (c.1 + 1, false))) n (0, false) it l HR Hl (g_pos p)) as (it' & E & HR'); [done|intros b x l'; cbn; by destruct (p x)|].
      unfold it_position. rewrite E. cbn [mbind res_bind fst snd]. destruct (g_pos_ok p l 0) as [E1 E2]. cbn zeta in E1. rewrite E1, N.add_0_l. rewrite E2 in HR'. by exists it'.
    - destruct (try_fold_ok (λ _ x, if p x then (false, true) else (true, false)) n false it l HR Hl (g_any p)) as (it' & E & HR'); [done|intros b x l'; cbn; by destruct (p x)|].
      unfold it_any. rewrite g_any_ok in *. rewrite E. by exists it'.
    - destruct (try_fold_ok (λ _ x, if p x then (true, true) else (false, false)) n true it l HR Hl (g_all p)) as (it' & E & HR'); [done|intros b x l'; cbn; by destruct (p x)|].
      unfold it_all. rewrite g_all_ok in *. rewrite E. by exists it'.
  Qed.
End one.
Lemma answer_len {A} (m : meth A) l : (length (answer m l).2 ≤ length l)%nat.
Proof. destruct m; cbn [answer snd]; rewrite ?drop_length; try lia; destruct l; cbn [tail length]; lia. Qed.

(** ** Both ends *)
Lemma unsnoc_reverse {A} (l : list A) : unsnoc l = match reverse l with [] => None | x :: r => Some (reverse r, x) end.
Proof.
  induction l as [|x l IH] using rev_ind; [done|]. rewrite reverse_snoc, reverse_involutive. clear IH. induction l as [|y l IH]; [done|]. cbn [app unsnoc]. by rewrite IH.
Qed.
Section both.
  Context {IT A : Type} (next next_back : IT → res (option A * IT)).
  Definition reads (it : IT) (l : list A) : Prop := ∀ sc, drive next next_back sc it = Val (de_spec sc l).
  Definition half_reads (it : IT) (l : list A) : Prop := ∀ sc, drive next next_back sc it = Val (fw_spec sc l).
  Lemma reads_next it l : reads it l → ∃ it', next it = Val (head l, it') ∧ reads it' (tail l).
  Proof.
    intros HR. assert (∃ o it', next it = Val (o, it')) as (o & it' & E).
    { specialize (HR [Fwd]). cbn in HR. destruct (next it) as [[o it']|e]; [by exists o, it'|done]. }
    exists it'. rewrite E. assert (∀ sc, Val o ≫= (λ o, drive next next_back sc it' ≫= λ rs, Val (o :: rs)) = Val (head l :: de_spec sc (tail l))) as Hd.
    { intros sc. specialize (HR (Fwd :: sc)). cbn [drive de_spec] in HR. rewrite E in HR. cbn [mbind res_bind fst snd] in *. rewrite HR. by destruct l. }
    cbn [mbind res_bind] in Hd. pose proof (Hd []) as H0. cbn in H0. injection H0 as ->. split; [done|].
    intros sc. specialize (Hd sc). destruct (drive next next_back sc it'); [|done]. cbn in Hd. congruence.
  Qed.
  Lemma reads_back it l : reads it (reverse l) → ∃ it', next_back it = Val (head l, it') ∧ reads it' (reverse (tail l)).
  Proof.
    intros HR. assert (∃ o it', next_back it = Val (o, it')) as (o & it' & E).
    { specialize (HR [Bwd]). cbn in HR. destruct (next_back it) as [[o it']|e]; [by exists o, it'|done]. }
    exists it'. rewrite E. assert (∀ sc, Val o ≫= (λ o, drive next next_back sc it' ≫= λ rs, Val (o :: rs)) = Val (head l :: de_spec sc (reverse (tail l)))) as Hd.
    { intros sc. specialize (HR (Bwd :: sc)). cbn [drive de_spec] in HR. rewrite E in HR. cbn [mbind res_bind fst snd] in *. rewrite HR, unsnoc_reverse, reverse_involutive. by destruct l. }
    cbn [mbind res_bind] in Hd. pose proof (Hd []) as H0. cbn in H0. injection H0 as ->. split; [done|].
    intros sc. specialize (Hd sc). destruct (drive next next_back sc it'); [|done]. cbn in Hd. congruence.
  Qed.
  Lemma half_next it l : half_reads it l → ∃ it', next it = Val (head l, it') ∧ half_reads it' (tail l).
  Proof.
    intros HR. assert (∃ o it', next it = Val (o, it')) as (o & it' & E).
    { specialize (HR [Fwd]). cbn in HR. destruct (next it) as [[o it']|e]; [by exists o, it'|done]. }
    exists it'. rewrite E. assert (∀ sc, Val o ≫= (λ o, drive next next_back sc it' ≫= λ rs, Val (o :: rs)) = Val (head l :: fw_spec sc (tail l))) as Hd.
    { intros sc. specialize (HR (Fwd :: sc)). cbn [drive fw_spec] in HR. rewrite E in HR. cbn [mbind res_bind fst snd] in *. rewrite HR. by destruct l. }
    cbn [mbind res_bind] in Hd. pose proof (Hd []) as H0. cbn in H0. injection H0 as ->. split; [done|].
    intros sc. specialize (Hd sc). destruct (drive next next_back sc it'); [|done]. cbn in Hd. congruence.
  Qed.
  Lemma half_back l it x : x = [] ∧ half_reads it l → ∃ it', next_back it = Val (head x, it') ∧ tail x = [] ∧ half_reads it' l.
  Proof.
    intros [-> HR]. assert (∃ o it', next_back it = Val (o, it')) as (o & it' & E).
    { specialize (HR [Bwd]). cbn in HR. destruct (next_back it) as [[o it']|e]; [by exists o, it'|done]. }
    exists it'. rewrite E. assert (∀ sc, Val o ≫= (λ o, drive next next_back sc it' ≫= λ rs, Val (o :: rs)) = Val (None :: fw_spec sc l)) as Hd.
    { intros sc. specialize (HR (Bwd :: sc)). cbn [drive fw_spec] in HR. rewrite E in HR. cbn [mbind res_bind fst snd] in *. by rewrite HR. }
    cbn [mbind res_bind] in Hd. pose proof (Hd []) as H0. cbn in H0. injection H0 as ->. split_and!; [done|done|].
    intros sc. specialize (Hd sc). destruct (drive next next_back sc it'); [|done]. cbn in Hd. congruence.
  Qed.
  Lemma asks_ok n ms : ∀ it l, reads it l → (length l < n)%nat → asks n next next_back ms it = Val (answers ms l).
  Proof.
    induction ms as [|[e m] ms IH]; intros it l HR Hl; [done|]. cbn [asks answers]. destruct e.
    - destruct (ask_ok next reads reads_next n m it l HR Hl) as (it' & -> & HR'). pose proof (answer_len m l). destruct (answer m l) as [r l']. cbn [fst snd] in *.
      cbn [mbind res_bind fst snd]. rewrite (IH it' l') by (done || lia). done.
    - destruct (ask_ok next_back (λ it l, reads it (reverse l)) reads_back n m it (reverse l)) as (it' & -> & HR'); [by rewrite reverse_involutive|by rewrite reverse_length|].
      pose proof (answer_len m (reverse l)) as Hlen. rewrite reverse_length in Hlen. destruct (answer m (reverse l)) as [r l']. cbn [fst snd] in *.
      cbn [mbind res_bind fst snd]. rewrite (IH it' (reverse l')) by (done || rewrite reverse_length; lia). done.
  Qed.
  Lemma half_asks_ok n ms : ∀ it l, half_reads it l → (length l < n)%nat → asks n next next_back ms it = Val (front_answers ms l).
  Proof.
    induction ms as [|[e m] ms IH]; intros it l HR Hl; [done|]. cbn [asks front_answers]. destruct e.
    - destruct (ask_ok next half_reads half_next n m it l HR Hl) as (it' & -> & HR'). pose proof (answer_len m l). destruct (answer m l) as [r l']. cbn [fst snd] in *.
      cbn [mbind res_bind fst snd]. rewrite (IH it' l') by (done || lia). done.
    - destruct (ask_ok next_back (λ it x, x = [] ∧ half_reads it l) (half_back l) n m it []) as (it' & -> & _ & HR'); [done|cbn; lia|].
      cbn [mbind res_bind fst snd]. rewrite (IH it' l) by done. done.
  Qed.
  Lemma folds_ok n it l : reads it l → (length l < n)%nat → folds n next next_back it l (reverse l).
  Proof.
    intros HR Hl B f z. split.
    - destruct (fold_ok next reads reads_next f n z it l HR Hl) as (it' & E & _). by exists it'.
    - destruct (fold_ok next_back (λ it l, reads it (reverse l)) reads_back f n z it (reverse l)) as (it' & E & _); [by rewrite reverse_involutive|by rewrite reverse_length|]. by exists it'.
  Qed.
  Lemma half_folds_ok n it l : half_reads it l → (length l < n)%nat → folds n next next_back it l [].
  Proof.
    intros HR Hl B f z. split.
    - destruct (fold_ok next half_reads half_next f n z it l HR Hl) as (it' & E & _). by exists it'.
    - destruct (fold_ok next_back (λ it x, x = [] ∧ half_reads it l) (half_back l) f n z it []) as (it' & E & _); [done|cbn; lia|]. by exists it'.
  Qed.
End both.
Lemma eq_ok {I1 I2 A} (n1 b1 : I1 → res (option A * I1)) (n2 b2 : I2 → res (option A * I2)) same n : ∀ i1 i2 l1 l2,
  reads n1 b1 i1 l1 → reads n2 b2 i2 l2 → (length l1 < n)%nat → it_eq n1 n2 same n i1 i2 = Val (same_items same l1 l2).
Proof.
  induction n as [|n IH]; intros i1 i2 l1 l2 H1 H2 Hl; [lia|]. cbn [it_eq]. destruct (reads_next _ _ _ _ H1) as (i1' & -> & H1'), (reads_next _ _ _ _ H2) as (i2' & -> & H2').
  cbn [mbind res_bind fst snd]. destruct l1 as [|x l1], l2 as [|y l2]; cbn [head tail same_items length] in *; try done.
  destruct (same x y); [|done]. apply IH; [done|done|lia].
Qed.
