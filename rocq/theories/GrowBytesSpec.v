(** * A structure in a buffer that grows: the bytes of a larger type

    [realloc n data]: the buffer made [n] bytes long, the new bytes zero (what a Solana program gets from [AccountInfo::realloc] with
    [zero_init]; the crate itself has no such function). *)
From Verif Require Export BytesSpec GrowSpec.
Local Open Scope nat_scope.

Definition realloc (n : nat) (data : bytes) : bytes := data ++ zeros (n - length data).
(** Zero bytes are the encoding of the value that they decode to (true of all types without padding) *)
Definition zero_ok {A} (c : codec A) : Prop := c_enc c (c_zero c) = zeros (size_of c).

Section regrown.
  Context {A O B : Type} (c : nat → codec A) (step : O → M A B).
  (** Calls through a slice that is loaded anew for each of them, as a structure of the type [c ms]; then the buffer is made large enough
      for [c (ms + e)], and from then on it is loaded as that *)
  Fixpoint regrown (ms : nat) (segs : list (list (nat * O) * nat)) (data : bytes) : list (list (res B)) * bytes :=
    match segs with
    | [] => ([], data)
    | (aops, e) :: segs =>
        let '(rs, data1) := history (reloaded (c ms) step) aops data in
        let '(rss, data2) := regrown (ms + e) segs (realloc (size_of (c (ms + e))) data1) in
        (rs :: rss, data2)
    end.
  (** MAX_SIZE at the end *)
  Definition final_size (ms : nat) (segs : list (list (nat * O) * nat)) : nat := ms + sum_list segs.*2.
  (** every call finds the slice at an address that is aligned for the type *)
  Definition all_aligned (segs : list (list (nat * O) * nat)) : Prop := Forall (λ s, Forall (λ ao, ao.1 mod align_of (c 0) = 0) s.1) segs.
End regrown.
(** The same calls on the structure itself, with [e] nodes whose registers are zero and whose value is [z] behind its array each time *)
Definition in_place {O T} (nr : nat) (z : T) (segs : list (list (nat * O) * nat)) : list (list O * list (node T)) :=
  (λ s, (s.1.*2, replicate s.2 (node_default nr z))) <$> segs.
