(** * Specification of the printed text *)
From Verif Require Export RBApi PrintModel.

(** A binary tree of keys, with a mark for red nodes *)
Inductive ptree (K : Type) := PL | PN (red : bool) (k : K) (l r : ptree K).
Global Arguments PL {K}.
Global Arguments PN {K} red k l r.

Section spec.
  Context `{Profile} {K V : Type}.
  (** [rb_shows t i s]: from node [i] on, the registers and keys of [t] spell out the tree [s] *)
  Inductive rb_shows (t : rbt K V) : N → ptree K → Prop :=
  | shows_none : rb_shows t SENTINEL PL
  | shows_node i red kv l r sl sr :
      i ≠ SENTINEL → rb_get_node t i = Val kv → rb_is_red t i = Val red → rb_get_left t i = Val l → rb_get_right t i = Val r →
      rb_shows t l sl → rb_shows t r sr → rb_shows t i (PN red kv.1 sl sr).

  Fixpoint pkeys (s : ptree K) : list K := match s with PL => [] | PN _ k l r => pkeys l ++ k :: pkeys r end.

  (** One line per node, the node before its left subtree before its right subtree: depth, what connects it to its parent, red?, key *)
  Inductive link := Root | Tee | Corner.
  Record line := Line { ln_depth : nat; ln_link : link; ln_red : bool; ln_key : K }.
  Fixpoint lines_from (depth : nat) (c : link) (s : ptree K) : list line :=
    match s with
    | PL => []
    | PN red k l r =>
        Line depth c red k ::
        lines_from (S depth) (match r with PL => Corner | PN _ _ _ _ => Tee end) l ++
        lines_from (S depth) Corner r
    end.
  Definition lines (s : ptree K) : list line := lines_from 0 Root s.

  (** "│  " for each level above, then nothing, "├──" or "└──", then the key, between ESC[31m and ESC[0m if red, then the end of the line *)
  Definition line_text (show : K → list N) (x : line) : list N :=
    concat (replicate (ln_depth x) [9474; 32; 32]) ++
    match ln_link x with Root => [] | Tee => [9500; 9472; 9472] | Corner => [9492; 9472; 9472] end ++
    (if ln_red x then [27; 91; 51; 49; 109] ++ show (ln_key x) ++ [27; 91; 48; 109] else show (ln_key x)) ++ [10].
End spec.
Global Arguments line : clear implicits.
