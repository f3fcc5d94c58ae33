(** * [RedBlackTree::pretty_print] (red_black_tree.rs:229-264)

    Text is a list of Unicode code points. The call's only effect is the text given to [println!]; [None] = nothing is printed. *)
From Verif Require Export RBModel.

Section Print.
  Context `{Profile} {K V : Type} (show : K → list N). (* [show]: the key's [Debug] formatting *)
  Implicit Types t : rbt K V.

  (** red_black_tree.rs:248 the escape sequences ESC[31m and ESC[0m *)
  Definition pp_red : list N := [27; 91; 51; 49; 109].
  Definition pp_reset : list N := [27; 91; 48; 109].
  (** red_black_tree.rs:253 "│  ", 255 and 259 "└──", 257 "├──" *)
  Definition pp_bar : list N := [9474; 32; 32].
  Definition pp_corner : list N := [9492; 9472; 9472].
  Definition pp_tee : list N := [9500; 9472; 9472].

  (** red_black_tree.rs:236-262 the loop. The stack holds (node, padding, pointer), its top first. *)
  Fixpoint rb_print_loop (fuel : nat) t (stack : list (N * list N * list N)) (s : list N) : res (list N) :=
    match fuel with
    | O => Err OutOfFuel
    | S fuel =>
        match stack with
        | [] => Val s
        | (node, padding, pointer) :: stack =>
            if decide (node = SENTINEL) then rb_print_loop fuel t stack s
            else
              kv ← rb_get_node t node;
              red ← rb_is_red t node;
              let s := s ++ padding ++ pointer ++ (if (red : bool) then pp_red ++ show kv.1 ++ pp_reset else show kv.1) ++ [10] in
              let padding := padding ++ pp_bar in
              r ← rb_get_right t node;
              let left_pointer := if decide (r ≠ SENTINEL) then pp_tee else pp_corner in
              l ← rb_get_left t node;
              rb_print_loop fuel t ((l, padding, left_pointer) :: (r, padding, pp_corner) :: stack) s
        end
    end.
  (** red_black_tree.rs:229-264 [pretty_print]. Every node is pushed once, and at most MAX_SIZE + 1 times SENTINEL. *)
  Definition rb_pretty_print t : res (option (list N)) :=
    if decide (rb_len t = 0) then Val None
    else
      s ← rb_print_loop (2 * rb_fuel t) t [(rb_root t, [], [])] [];
      Val (Some (s ++ [10])).
End Print.
