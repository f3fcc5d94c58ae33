(** * What a program that keeps the references of [iter_mut] must observe *)
From Verif Require Export HeldModel.

Section spec.
  Context {K V : Type}.
  (** Everything the rest of the program does to the [j]-th reference, in one function *)
  Fixpoint uses (j : nat) (script : list (hact V)) : V → V :=
    match script with
    | HUse j' f :: script => if decide (j' = j) then λ v, uses j script (f v) else uses j script
    | _ :: script => uses j script
    | [] => λ v, v
    end.
  (** The program that asks the same iterator the same questions but does all it will ever do to a reference as soon as it gets it *)
  Fixpoint at_once (n : nat) (script : list (hact V)) : list (fb * (V → V)) :=
    match script with
    | HNext e :: script => (e, uses n script) :: at_once (S n) script
    | _ :: script => at_once n script
    | [] => []
    end.
  (** The answers, given what [iter_mut] yields ([out], with the values found at first): every reference is a cell of its own, with a constant
      key and a value only changed by the uses of that reference *)
  Fixpoint held_spec (script : list (hact V)) (out : list (option (N * (K * V)))) (cells : list (option (K * V))) : list (hans K V) :=
    match script with
    | HNext e :: script =>
        match out with
        | r :: out => HGot (fst <$> r) :: held_spec script out (cells ++ [snd <$> r])
        | [] => []
        end
    | HKey j :: script => HKeyIs (fst <$> mjoin (cells !! j)) :: held_spec script out cells
    | HUse j f :: script =>
        HFound (snd <$> mjoin (cells !! j)) :: held_spec script out (alter (option_map (λ kv, (kv.1, f kv.2))) j cells)
    | [] => []
    end.
End spec.
(** The questions the program asks the iterator *)
Fixpoint asked {V} (script : list (hact V)) : list fb :=
  match script with HNext e :: script => e :: asked script | _ :: script => asked script | [] => [] end.
(** The questions a HashTable iterator reacts to, with what is done at once ([next_back] does nothing, C16) *)
Fixpoint forward_only {V} (script : list (fb * (V → V))) : list (V → V) :=
  match script with (Fwd, f) :: script => f :: forward_only script | (Bwd, _) :: script => forward_only script | [] => [] end.
