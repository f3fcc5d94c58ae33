(** * C52: what [RedBlackTree::pretty_print] prints *)
From Verif Require Import IterProof RBMain RBProps PrintProof.

Section any.
  Context `{Profile} {K V : Type} (show : K → list N).
  (** Every structure with [len() ≠ 0] whose registers spell out a tree [s] with at most MAX_SIZE nodes, whatever its colours, keys, parent
      registers: the call terminates without panic and prints the lines of [s] and an empty line *)
  Theorem C52_text (t : rbt K V) s :
    rb_shows t (rb_root t) s → (length (pkeys s) ≤ length (nodes (rb_al t)))%nat → rb_len t ≠ 0 →
    rb_pretty_print show t = Val (Some (concat (map (line_text show) (lines s)) ++ [10])).
  Proof. rewrite pkeys_length. apply print_text. Qed.
  (** The lines show every key of [s] once *)
  Theorem C52_lines (s : ptree K) : ln_key <$> lines s ≡ₚ pkeys s.
  Proof. apply lines_keys. Qed.
End any.
Print Assumptions C52_text.
Print Assumptions C52_lines.

Section reach.
  Context `{Profile} {K V : Type} (show : K → list N) (cmp : K → K → comparison) (HO : OrdLaws cmp).
  Context (ms : nat) (d : K * V) (H0 : (0 < ms)%nat) (Hw : N.of_nat ms + 1 < W32).

  (** After any calls, with the pairs [l] in the tree (ascending): nothing is printed if there are none; otherwise the lines of a tree with
      the keys of [l], which is the one in the registers *)
  Theorem C52_reachable (o : list (option (om_op K V))) l :
    rb_holds cmp ms d o l →
    let t := rb_after cmp ms d o in
    ∃ s, rb_shows t (rb_root t) s ∧ pkeys s = l.*1 ∧
      rb_pretty_print show t = Val (match l with [] => None | _ => Some (concat (map (line_text show) (lines s)) ++ [10]) end).
  Proof using HO H0 Hw.
    intros Hl t. destruct (rb_reach' cmp HO ms d o l H0 Hw Hl) as (U & Hok & He & _).
    destruct Hok as [HR _ _]. destruct (rep_print show _ _ _ HR) as (s & Hs & Hk & Hp).
    exists s. split_and!; [done|by rewrite Hk, He|]. fold t in Hp. rewrite Hp. f_equal.
    pose proof (rep_len _ _ _ HR) as Hlen. fold t in Hlen. rewrite Hlen. rewrite <- He.
    destruct (entries U) as [|e E]; [done|]. rewrite decide_False; [done|]. unfold lengthN. simpl. lia.
  Qed.
End reach.
Print Assumptions C52_reachable.

(** A concrete tree: 5 insertions; keys are shown as one digit. *)
Definition ex_print : list (option (om_op N N)) := Some <$> [MInsert 5 50; MInsert 3 30; MInsert 8 80; MInsert 9 90; MInsert 7 70].
Definition ex_tree : ptree N := PN false 5 (PN false 3 PL PL) (PN false 8 (PN true 7 PL PL) (PN true 9 PL PL)).
Example ex_C52 :
  let t := rb_after (H:=ex_profile) N.compare 5 (0, 0) ex_print in
  rb_shows (H:=ex_profile) t (rb_root t) ex_tree ∧
  lines ex_tree = [Line 0 Root false 5; Line 1 Tee false 3; Line 1 Corner false 8; Line 2 Tee true 7; Line 2 Corner true 9] ∧
  rb_pretty_print (H:=ex_profile) (λ k, [48 + k]) t =
    Val (Some ([53; 10] ++ [9474; 32; 32; 9500; 9472; 9472; 51; 10] ++ [9474; 32; 32; 9492; 9472; 9472; 56; 10] ++
      [9474; 32; 32; 9474; 32; 32; 9500; 9472; 9472; 27; 91; 51; 49; 109; 55; 27; 91; 48; 109; 10] ++
      [9474; 32; 32; 9474; 32; 32; 9492; 9472; 9472; 27; 91; 51; 49; 109; 57; 27; 91; 48; 109; 10] ++ [10])).
Proof.
  set (t := rb_after N.compare 5 (0, 0) ex_print). vm_compute in t. cbv zeta.
  split; [|by vm_compute].
  assert (∀ i red (k v l r : N) sl sr, i ≠ SENTINEL → rb_get_node (H:=ex_profile) t i = Val (k, v) → rb_is_red (H:=ex_profile) t i = Val red →
    rb_get_left (H:=ex_profile) t i = Val l → rb_get_right (H:=ex_profile) t i = Val r →
    rb_shows (H:=ex_profile) t l sl → rb_shows (H:=ex_profile) t r sr → rb_shows (H:=ex_profile) t i (PN red k sl sr)) as Hn.
  { intros. by eapply (shows_node t i red (k, v)). }
  repeat (first [apply shows_none|eapply Hn; [by vm_compute|by vm_compute|by vm_compute|by vm_compute|by vm_compute|cbn|cbn]]).
Qed.
