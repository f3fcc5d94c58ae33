(** * How high a red-black tree can be, and that sorted insertions make the highest *)
From Verif Require Import IterProof RBMain FuzzProof DrawSpec HueSpec HueMain.

Local Open Scope nat_scope.
Section height.
  Context {A : Type}.
  Notation painted := (painted A).
  Notation size b := (length (inorder (unpainted b))).
  Notation high b := (tall (unpainted b)).
  Local Ltac sz := cbn [unpainted inorder tall] in *; repeat (rewrite ?app_length in *; progress cbn [length] in *); rewrite ?app_length in *.

  (** least number of pairs (and two) of a tree of height [h] *)
  Fixpoint room_for (h : nat) : nat := match h with 0 => 2 | 1 => 3 | S (S h) => 2 * room_for h end.
  Lemma room_even k : room_for (2 * k) = 2 ^ S k.
  Proof. induction k as [|k IH]; [done|]. replace (2 * S k) with (S (S (2 * k))) by lia. cbn [room_for]. rewrite IH, (Nat.pow_succ_r' 2 (S k)). done. Qed.
  Lemma room_odd k : room_for (2 * k + 1) = 3 * 2 ^ k.
  Proof. induction k as [|k IH]; [done|]. replace (2 * S k + 1) with (S (S (2 * k + 1))) by lia. cbn [room_for]. rewrite IH, (Nat.pow_succ_r' 2 k). lia. Qed.
  Lemma room_step h m : h ≤ 2 * m → room_for (S h) ≤ room_for h + 2 ^ m.
  Proof.
    intros Hm. destruct (Nat.Even_or_Odd h) as [[k ->]|[k ->]].
    - replace (S (2 * k)) with (2 * k + 1) by lia. rewrite room_odd, room_even, Nat.pow_succ_r'.
      assert (2 ^ k ≤ 2 ^ m) by (apply Nat.pow_le_mono_r; lia). lia.
    - replace (S (2 * k + 1)) with (2 * S k) by lia. rewrite room_odd, room_even, !Nat.pow_succ_r'.
      assert (2 ^ S k ≤ 2 ^ m) by (apply Nat.pow_le_mono_r; lia). rewrite Nat.pow_succ_r' in *. lia.
  Qed.
  Lemma room_lt h : room_for h < room_for (S h).
  Proof.
    destruct (Nat.Even_or_Odd h) as [[k ->]|[k ->]].
    - replace (S (2 * k)) with (2 * k + 1) by lia. rewrite room_odd, room_even, Nat.pow_succ_r'. pose proof (Nat.pow_nonzero 2 k ltac:(done)). lia.
    - replace (S (2 * k + 1)) with (2 * S k) by lia. rewrite room_odd, room_even, !Nat.pow_succ_r'. pose proof (Nat.pow_nonzero 2 k ltac:(done)). lia.
  Qed.
  Lemma room_mono h h' : h ≤ h' → room_for h ≤ room_for h'.
  Proof. induction 1 as [|h' _ IH]; [done|]. pose proof (room_lt h'). lia. Qed.
  Lemma room_lt_inv h h' : room_for h < room_for h' → h < h'.
  Proof. intros Hlt. destruct (decide (h < h')) as [|Hn]; [done|]. pose proof (room_mono h' h ltac:(lia)). lia. Qed.

  Lemma proper_facts (b : painted) : ∀ n, proper n b →
    2 ^ n ≤ size b + 1 ∧ high b ≤ 2 * n + (if is_red b then 1 else 0) ∧
    (if is_red b then room_for (pred (high b)) + 2 ^ n ≤ size b + 2 else room_for (high b) ≤ size b + 2).
  Proof.
    induction b as [|m l IHl x r IHr]; intros n Hp.
    { cbn in Hp. subst n. cbn. lia. }
    destruct m.
    - assert (is_red l = false ∧ is_red r = false ∧ proper n l ∧ proper n r) as (Hl & Hr & Pl & Pr) by (by destruct n).
      destruct (IHl n Pl) as (L1 & L2 & L3), (IHr n Pr) as (R1 & R2 & R3). rewrite Hl in *. rewrite Hr in *. cbn [is_red]. sz.
      split_and!; [lia|lia|]. cbn [pred]. destruct (Nat.max_spec (high l) (high r)) as [[? ->]|[? ->]]; lia.
    - destruct n as [|n]; [done|]. cbn [proper] in Hp. destruct Hp as [Pl Pr]. cbn [is_red].
      destruct (IHl n Pl) as (L1 & L2 & L3), (IHr n Pr) as (R1 & R2 & R3). rewrite Nat.pow_succ_r'. sz.
      split_and!; [lia|destruct (is_red l), (is_red r); lia|].
      assert (∀ (s : painted) c, high s ≤ 2 * n + (if is_red s then 1 else 0) →
        (if is_red s then room_for (pred (high s)) + 2 ^ n ≤ size s + 2 else room_for (high s) ≤ size s + 2) →
        2 ^ n ≤ c + 1 → room_for (S (high s)) ≤ size s + S c + 2) as Hside.
      { intros s c S1 S2 Hc. destruct (is_red s) eqn:Es.
        - destruct s as [|[] a y e]; try done. cbn [unpainted tall] in S1, S2 |- *. cbn [pred] in S2. set (h := high a `max` high e) in *. clearbody h.
          change (room_for (S (S h))) with (2 * room_for h). pose proof (room_mono h (2 * n) ltac:(lia)) as Hh. rewrite room_even, Nat.pow_succ_r' in Hh. lia.
        - pose proof (room_step (high s) n ltac:(lia)). lia. }
      destruct (Nat.max_spec (high l) (high r)) as [[Hm ->]|[Hm ->]]; [pose proof (Hside r (size l) R2 R3 L1)|pose proof (Hside l (size r) L2 L3 R1)]; lia.
  Qed.
  (** a red-black tree of height [h] has at least [room_for h - 2] pairs *)
  Lemma proper_room (b : painted) n : proper n b → is_red b = false → room_for (high b) ≤ size b + 2.
  Proof. intros Hp Hr. destruct (proper_facts b n Hp) as (_ & _ & Hb). by rewrite Hr in Hb. Qed.

  (** ** Growing at the right end *)
  Fixpoint grown (p : A) (b : painted) : painted :=
    match b with
    | Bare => Knot true Bare p Bare
    | Knot true l x r => Knot true l x (grown p r)
    | Knot false l x r => mended_right l x (grown p r)
    end.
  (** all levels full, all nodes black *)
  Fixpoint dark (h : nat) (b : painted) : Prop :=
    match h, b with
    | 0, Bare => True
    | S h, Knot false l _ r => dark h l ∧ dark h r
    | _, _ => False
    end.
  (** a node of one, two or three pairs, with dark trees of height [j] to its left, and [s] at its right end *)
  Inductive node (j : nat) (s : painted) : nat → painted → Prop :=
  | node1 l x : dark j l → node j s 1 (Knot false l x s)
  | node2 l x a y : dark j l → dark j a → node j s 2 (Knot false l x (Knot true a y s))
  | node3 l x a y c z : dark j l → dark j a → dark j c → node j s 3 (Knot false (Knot true l x a) y (Knot true c z s)).
  (** [j] nodes of two or three pairs, one below the other *)
  Inductive stair : nat → painted → Prop :=
  | stair0 : stair 0 Bare
  | stairS j s d b : stair j s → node j s d b → 2 ≤ d → stair (S j) b.
  Lemma dark_black j b : dark j b → is_red b = false.
  Proof. by destruct j, b as [|[] ? ? ?]. Qed.
  Lemma stair_black j b : stair j b → is_red b = false.
  Proof. destruct 1 as [|j s d b _ Hn _]; [done|]. by destruct Hn. Qed.
  Lemma mended_right_quiet (l : painted) x r : (is_red r = false ∨ ∃ a y c, r = Knot true a y c ∧ is_red a = false ∧ is_red c = false) → mended_right l x r = Knot false l x r.
  Proof. intros [Hr|(a & y & c & -> & Ha & Hc)]; [by destruct r as [|[] ? ? ?]|]. by destruct a as [|[] ? ? ?], c as [|[] ? ? ?]. Qed.
  Lemma node_grow p j s : (stair j (grown p s) ∨ ∃ a y s', grown p s = Knot true a y s' ∧ dark j a ∧ stair j s') → ∀ d b, node j s d b →
    (∃ s' d', stair j s' ∧ node j s' d' (grown p b) ∧ d ≤ d' ≤ 3) ∨
    (d = 3 ∧ ∃ l y r s', grown p b = Knot true l y r ∧ dark (S j) l ∧ stair j s' ∧ node j s' 2 r).
  Proof.
    intros Hs d b Hn. destruct Hs as [Hs|(e & w & s' & Es & He & Hs)].
    - left. pose proof (stair_black _ _ Hs) as Hb. destruct Hn as [l x Hl|l x a y Hl Ha|l x a y c z Hl Ha Hc]; cbn [grown].
      + exists (grown p s), 1. rewrite mended_right_quiet by (by left). by split_and!; [|constructor|lia|lia].
      + exists (grown p s), 2. rewrite mended_right_quiet by (right; exists a, y, (grown p s); split_and!; [done|by eapply dark_black|done]).
        split_and!; [done|by constructor|lia|lia].
      + exists (grown p s), 3. rewrite mended_right_quiet by (right; exists c, z, (grown p s); split_and!; [done|by eapply dark_black|done]).
        split_and!; [done|by constructor|lia|lia].
    - pose proof (stair_black _ _ Hs) as Hb. destruct Hn as [l x Hl|l x a y Hl Ha|l x a y c z Hl Ha Hc]; cbn [grown]; rewrite Es.
      + left. exists s', 2. rewrite mended_right_quiet by (right; exists e, w, s'; split_and!; [done|by eapply dark_black|done]).
        split_and!; [done|by constructor|lia|lia].
      + left. exists s', 3. assert (mended_right l x (Knot true a y (Knot true e w s')) = Knot false (Knot true l x a) y (Knot true e w s')) as ->.
        { cbn [mended_right]. rewrite (dark_black _ _ Hl). by destruct a as [|[] ? ? ?]. }
        split_and!; [done|by constructor|lia|lia].
      + right. split; [done|]. assert (mended_right (Knot true l x a) y (Knot true c z (Knot true e w s')) = Knot true (Knot false l x a) y (Knot false c z (Knot true e w s'))) as ->.
        { by destruct c as [|[] ? ? ?]. }
        eexists _, _, _, s'. split_and!; [done|done|done|]. by constructor.
  Qed.
  Lemma stair_grow p j b : stair j b → stair j (grown p b) ∨ ∃ a y s', grown p b = Knot true a y s' ∧ dark j a ∧ stair j s'.
  Proof.
    induction 1 as [|j s d b Hs IH Hn Hd]; [right; by exists Bare, p, Bare; repeat constructor|].
    destruct (node_grow p j s IH d b Hn) as [(s' & d' & Hs' & Hn' & ? & ?)|(_ & l & y & r & s' & E & Hl & Hs' & Hn')].
    - left. eapply stairS; [done..|lia].
    - right. exists l, y, r. split_and!; [done..|]. by eapply stairS.
  Qed.
  (** the tree of ascending insertions *)
  Definition stepped (b : painted) : Prop := b = Bare ∨ ∃ j s d, stair j s ∧ node j s d b ∧ 1 ≤ d ≤ 3.
  Lemma stepped_grow p b : stepped b → stepped (blackened (grown p b)).
  Proof.
    intros [->|(j & s & d & Hs & Hn & ? & ?)]; right.
    - exists 0, Bare, 1. by split_and!; [constructor|constructor|lia|lia].
    - destruct (node_grow p j s (stair_grow p j s Hs) d b Hn) as [(s' & d' & Hs' & Hn' & ? & ?)|(_ & l & y & r & s' & E & Hl & Hs' & Hn')].
      + exists j, s', d'. assert (blackened (grown p b) = grown p b) as -> by (by destruct Hn'). split_and!; [done|done|lia|lia].
      + exists (S j), r, 1. rewrite E. cbn [blackened]. split_and!; [by eapply stairS|by constructor|lia|lia].
  Qed.
  Lemma dark_size j : ∀ b, dark j b → size b + 1 = 2 ^ j ∧ high b = j.
  Proof.
    induction j as [|j IH]; intros [|[] l x r] Hd; try done. cbn [dark] in Hd. destruct Hd as [Hl Hr]. destruct (IH _ Hl), (IH _ Hr). rewrite Nat.pow_succ_r'. sz. lia.
  Qed.
  Lemma node_size j s d b : node j s d b → high s = 2 * j → size b + d = size s + d * 2 ^ j + d ∧ high b = 2 * j + (if decide (d = 1) then 1 else 2).
  Proof.
    intros Hn Hs. destruct Hn as [l x Hl|l x a y Hl Ha|l x a y c z Hl Ha Hc];
      repeat match goal with H : dark _ _ |- _ => apply dark_size in H as [? ?] end; [rewrite decide_True by done|rewrite decide_False by done..]; sz; lia.
  Qed.
  Lemma stair_size j b : stair j b → 2 * 2 ^ j ≤ size b + 2 ∧ size b + 3 ≤ 3 * 2 ^ j ∧ high b = 2 * j.
  Proof.
    induction 1 as [|j s d b Hs IH Hn Hd]; [done|]. destruct IH as (I1 & I2 & I3). pose proof (node_size j s d b Hn I3) as [E1 E2].
    rewrite decide_False in E2 by lia. rewrite Nat.pow_succ_r'. assert (d = 2 ∨ d = 3) as [-> | ->] by (destruct Hn; lia); lia.
  Qed.
  Lemma stepped_size b : stepped b → room_for (high b) ≤ size b + 2 < room_for (S (high b)).
  Proof.
    intros [->|(j & s & d & Hs & Hn & ? & ?)]; [cbn; lia|]. destruct (stair_size _ _ Hs) as (I1 & I2 & I3). pose proof (node_size j s d b Hn I3) as [E1 E2]. rewrite E2.
    pose proof (Nat.pow_nonzero 2 j ltac:(done)).
    destruct (decide (d = 1)) as [->|Hd].
    - replace (S (2 * j + 1)) with (2 * S j) by lia. rewrite room_odd, room_even, !Nat.pow_succ_r'. lia.
    - replace (2 * j + 2) with (2 * S j) by lia. replace (S (2 * S j)) with (2 * S j + 1) by lia. rewrite room_odd, room_even, !Nat.pow_succ_r'.
      assert (d = 2 ∨ d = 3) as [-> | ->] by lia; lia.
  Qed.

  (** ** The mirror image *)
  Fixpoint flipped (b : painted) : painted := match b with Bare => Bare | Knot m l x r => Knot m (flipped r) x (flipped l) end.
  Lemma flipped_high b : high (flipped b) = high b.
  Proof. induction b as [|m l IHl x r IHr]; [done|]. cbn [flipped unpainted tall]. rewrite IHl, IHr. lia. Qed.
  Lemma flipped_red b : is_red (flipped b) = is_red b.
  Proof. by destruct b as [|[] ? ? ?]. Qed.
  Lemma flipped_blackened b : flipped (blackened b) = blackened (flipped b).
  Proof. by destruct b. Qed.
  Lemma flipped_mended_left (l : painted) x r : flipped (mended_left l x r) = mended_right (flipped r) x (flipped l).
  Proof.
    destruct l as [|[] [|[] ? ? ?] ? [|[] ? ? ?]]; cbn [mended_left mended_right flipped]; rewrite ?flipped_red; try done; destruct (is_red r); cbn [flipped blackened]; by rewrite ?flipped_blackened.
  Qed.
  Lemma flipped_mended_right (l : painted) x r : flipped (mended_right l x r) = mended_left (flipped r) x (flipped l).
  Proof.
    destruct r as [|[] [|[] ? ? ?] ? [|[] ? ? ?]]; cbn [mended_left mended_right flipped]; rewrite ?flipped_red; try done; destruct (is_red l); cbn [flipped blackened]; by rewrite ?flipped_blackened.
  Qed.
End height.

Section histories.
  Context {K V : Type} (cmp : K → K → comparison).
  Notation painted := (painted (K * V)).
  Notation ord b := (inorder (unpainted b)).
  Lemma hins_last k v (b : painted) : Forall (λ x, cmp k x.1 = Gt) (ord b) → hins cmp k v b = grown (k, v) b ∧ ord (hins cmp k v b) = ord b ++ [(k, v)].
  Proof.
    induction b as [|m l _ x r IH]; intros Hgt; [done|]. cbn [unpainted inorder] in Hgt |- *. apply Forall_app in Hgt as [_ Hgt]. apply Forall_cons in Hgt as [Hx Hgt].
    destruct (IH Hgt) as [E1 E2]. cbn [hins grown]. rewrite Hx. destruct m; rewrite ?ord_mended_right; cbn [unpainted inorder]; rewrite E2, <- app_assoc; (split; [by rewrite E1|done]).
  Qed.
  Notation stored ps := (fold_left (λ b p, hinsert cmp p.1 p.2 b) ps Bare).
  Lemma stored_stepped (ps : list (K * V)) : (∀ a b, cmp b a = CompOpp (cmp a b)) → ascending cmp ps → stepped (stored ps) ∧ ord (stored ps) = ps.
  Proof.
    intros Hsym. induction ps as [|[k v] ps IH] using rev_ind; intros Ha; [by split; [left|]|]. apply ascending_app in Ha as (Hp & _ & Hlt). destruct (IH Hp) as [He Hi].
    rewrite fold_left_app. cbn [fold_left fst snd].
    assert (Forall (λ x, cmp k x.1 = Gt) (ord (stored ps))) as Hgt.
    { rewrite Hi. apply Forall_forall. intros x Hx. rewrite (Hsym x.1 k). pose proof (Hlt x (k, v) Hx ltac:(apply elem_of_list_here)) as Hxk. cbn [fst] in Hxk. by rewrite Hxk. }
    destruct (hins_last k v _ Hgt) as [E1 E2]. unfold hinsert at 1 3. rewrite ord_blackened, E2, E1, Hi. split; [by apply stepped_grow|done].
  Qed.
End histories.
Section histories2.
  Context {K V : Type} (cmp : K → K → comparison) (cap : N).
  Notation painted := (painted (K * V)).
  Notation ord b := (inorder (unpainted b)).
  Notation inserting := (map (λ p : K * V, Some (MInsert p.1 p.2))).
  Lemma flipped_insert k v (b : painted) : flipped (hinsert cmp k v b) = hinsert (λ a c, CompOpp (cmp a c)) k v (flipped b).
  Proof.
    unfold hinsert. rewrite flipped_blackened. f_equal. induction b as [|m l IHl x r IHr]; [done|]. cbn [hins flipped].
    destruct (cmp k x.1), m; cbn [CompOpp flipped]; rewrite ?flipped_mended_left, ?flipped_mended_right, ?IHl, ?IHr; done.
  Qed.
  Lemma flipped_stored (ps : list (K * V)) : ∀ b, flipped (fold_left (λ b p, hinsert cmp p.1 p.2 b) ps b) =
    fold_left (λ b p, hinsert (λ a c, CompOpp (cmp a c)) p.1 p.2 b) ps (flipped b).
  Proof. induction ps as [|p ps IH]; intros b; [done|]. cbn [fold_left]. by rewrite IH, flipped_insert. Qed.
  Lemma stored_hue (ps : list (K * V)) : ∀ b, (lengthN (ord b) + lengthN ps ≤ cap)%N →
    fold_left (λ b o, hstep cmp cap o b) (inserting ps) b = fold_left (λ b p, hinsert cmp p.1 p.2 b) ps b.
  Proof.
    induction ps as [|p ps IH]; intros b Hc; [done|]. cbn [map fold_left hstep].
    assert (lengthN (p :: ps) = lengthN ps + 1)%N as Ep by (unfold lengthN; cbn [length]; lia). rewrite Ep in Hc.
    rewrite (decide_True (P := (lengthN (ord b) < cap)%N)) by lia. pose proof (hinsert_len cmp p.1 p.2 b).
    destruct (om_find cmp p.1 (ord b)); apply IH; unfold lengthN in *; lia.
  Qed.
  Lemma flipped_size (b : painted) : length (ord (flipped b)) = length (ord b).
  Proof. induction b as [|m l IHl x r IHr]; [done|]. cbn [flipped unpainted inorder]. rewrite !app_length. cbn [length]. lia. Qed.
  (** in ascending or in descending order *)
  Lemma sorted_hue (ps : list (K * V)) : OrdLaws cmp → ascending cmp ps ∨ ascending cmp (reverse ps) → (lengthN ps ≤ cap)%N →
    let b := hue_tree cmp cap (inserting ps) in length (ord b) = length ps ∧ room_for (tall (unpainted b)) ≤ length ps + 2 < room_for (S (tall (unpainted b))).
  Proof.
    intros HO Ha Hc b. subst b. unfold hue_tree. rewrite stored_hue by done. destruct Ha as [Ha|Ha].
    - destruct (stored_stepped cmp ps (cmp_sym _ HO) Ha) as [He Hi]. apply stepped_size in He. rewrite Hi in He. by rewrite Hi.
    - rewrite <- flipped_size, <- flipped_high, flipped_stored. destruct (stored_stepped (λ a c, CompOpp (cmp a c)) ps) as [He Hi].
      + intros x y. by rewrite (cmp_sym _ HO x y).
      + clear Hc. induction ps as [|p ps IH] using rev_ind; [constructor|]. rewrite reverse_snoc in Ha. apply StronglySorted_inv in Ha as [Ha Hf]. apply ascending_app.
        split_and!; [by apply IH|repeat constructor|]. intros x y Hx Hy%elem_of_list_singleton. subst y. rewrite Forall_forall in Hf.
        rewrite (cmp_sym _ HO p.1 x.1), (Hf x) by (by apply elem_of_reverse). done.
      + apply stepped_size in He. cbn [flipped]. rewrite Hi in He. by rewrite Hi.
  Qed.
End histories2.

Lemma room_even_le h k n : room_for h ≤ n → 2 * k ≤ h → 2 ^ (k + 1) ≤ n.
Proof. intros Hr Hk. rewrite Nat.add_1_r, <- room_even. pose proof (room_mono _ _ Hk). lia. Qed.
Lemma room_odd_le h k n : room_for h ≤ n → 2 * k + 1 ≤ h → 3 * 2 ^ k ≤ n.
Proof. intros Hr Hk. rewrite <- room_odd. pose proof (room_mono _ _ Hk). lia. Qed.

Section main.
  Context `{Profile} {K V : Type} (cmp : K → K → comparison) (HO : OrdLaws cmp).
  Context (ms : nat) (d : K * V) (H0 : 0 < ms) (Hw : (N.of_nat ms + 1 < W32)%N).
  Notation after := (rb_after cmp ms d).
  Notation painted := (painted (K * V)).
  Notation inserting := (map (λ p : K * V, Some (MInsert p.1 p.2))).
  Lemma height_fact (o : list (option (om_op K V))) (b : painted) k : rb_drawn (after o) b →
    (2 * k ≤ tall (unpainted b) → 2 ^ (k + 1) ≤ length (inorder (unpainted b)) + 2) ∧
    (2 * k + 1 ≤ tall (unpainted b) → 3 * 2 ^ k ≤ length (inorder (unpainted b)) + 2).
  Proof using H HO H0 Hw.
    intros Hb. apply (hue_iff cmp HO ms d H0 Hw o b) in Hb as ->. destruct (hue_contents cmp HO ms d H0 Hw o) as (_ & Hr & n & Hp).
    pose proof (proper_room _ _ Hp Hr) as Hroom. split; [by apply room_even_le|by apply room_odd_le].
  Qed.
  Lemma sorted_fact (ps : list (K * V)) (b : painted) : ascending cmp ps ∨ ascending cmp (reverse ps) → length ps ≤ ms → rb_drawn (after (inserting ps)) b →
    (∀ k, (2 * k ≤ tall (unpainted b) ↔ 2 ^ (k + 1) ≤ length ps + 2) ∧ (2 * k + 1 ≤ tall (unpainted b) ↔ 3 * 2 ^ k ≤ length ps + 2)) ∧
    ∀ (b' : painted) n, proper n b' → is_red b' = false → length (inorder (unpainted b')) = length ps → tall (unpainted b') ≤ tall (unpainted b).
  Proof using H HO H0 Hw.
    intros Ha Hl Hb. apply (hue_iff cmp HO ms d H0 Hw) in Hb as ->.
    destruct (sorted_hue cmp (N.of_nat ms) ps HO Ha) as (Hs & Hr1 & Hr2); [unfold lengthN; lia|].
    set (h := tall (unpainted (hue_tree cmp (N.of_nat ms) (inserting ps)))) in *. clearbody h.
    split.
    - intros k. split; (split; [by (apply room_even_le || apply room_odd_le)|]).
      + rewrite Nat.add_1_r, <- room_even. intros Hk. assert (2 * k < S h) by (apply room_lt_inv; lia). lia.
      + rewrite <- room_odd. intros Hk. assert (2 * k + 1 < S h) by (apply room_lt_inv; lia). lia.
    - intros b' n Hp Hr Hlen. pose proof (proper_room _ _ Hp Hr) as Hroom. rewrite Hlen in Hroom.
      assert (tall (unpainted b') < S h) by (apply room_lt_inv; lia). lia.
  Qed.
End main.
