(** * What the operations of an ordered map do to its slots

    [E], [E'] are the occupied slots with their pairs, in key order, before and after. *)
From Verif Require Export MapProof.

Section rel.
  Context {K V : Type} (cmp : K → K → comparison).
  Notation ents := (list (N * (K * V))).
  Implicit Types E A B : ents.

  Inductive ins_rel (cap : N) (k : K) (v : V) E : option N → ents → Prop :=
  | ins_present A B i kv :
      E = A ++ (i, kv) :: B → cmp k kv.1 = Eq → below cmp k A.*2 → above cmp k B.*2 →
      ins_rel cap k v E (Some i) (A ++ (i, (kv.1, v)) :: B)
  | ins_new A B i :
      E = A ++ B → lengthN E < cap → below cmp k A.*2 → above cmp k B.*2 → i ∉ E.*1 → i ≠ 0 → i ≤ cap →
      ins_rel cap k v E (Some i) (A ++ (i, (k, v)) :: B)
  | ins_full A B :
      E = A ++ B → lengthN E = cap → below cmp k A.*2 → above cmp k B.*2 → ins_rel cap k v E None E.
  Inductive rem_rel (k : K) E : option V → ents → Prop :=
  | rem_present A B i kv :
      E = A ++ (i, kv) :: B → cmp k kv.1 = Eq → below cmp k A.*2 → above cmp k B.*2 → rem_rel k E (Some kv.2) (A ++ B)
  | rem_absent A B :
      E = A ++ B → below cmp k A.*2 → above cmp k B.*2 → rem_rel k E None E.
  (** lookups: slot (0 if absent) and value *)
  Inductive get_rel (k : K) E : N → option (K * V) → Prop :=
  | get_present A B i kv :
      E = A ++ (i, kv) :: B → i ≠ 0 → cmp k kv.1 = Eq → below cmp k A.*2 → above cmp k B.*2 → get_rel k E i (Some kv)
  | get_absent A B :
      E = A ++ B → below cmp k A.*2 → above cmp k B.*2 → get_rel k E 0 None.
  Inductive upd_rel (k : K) (f : V → V) E : option V → ents → Prop :=
  | upd_present A B i kv :
      E = A ++ (i, kv) :: B → cmp k kv.1 = Eq → below cmp k A.*2 → above cmp k B.*2 →
      upd_rel k f E (Some kv.2) (A ++ (i, (kv.1, f kv.2)) :: B)
  | upd_absent A B :
      E = A ++ B → below cmp k A.*2 → above cmp k B.*2 → upd_rel k f E None E.

  Lemma lengthN_fmap {X Y : Type} (f : X → Y) (l : list X) : lengthN (f <$> l) = lengthN l.
  Proof. unfold lengthN. by rewrite fmap_length. Qed.

  Lemma ins_rel_spec cap k v E o E' :
    ins_rel cap k v E o E' →
    om_spec cmp cap (MInsert k v) E.*2 = (Val (MBool (match o with Some _ => true | None => false end)), E'.*2).
  Proof.
    destruct 1 as [A B i kv -> Hc Hb Ha|A B i -> Hl Hb Ha _ _ _|A B -> Hl Hb Ha]; unfold om_spec.
    - rewrite !fmap_app, !fmap_cons. simpl. by rewrite om_find_found, om_insert_found.
    - revert Hl. rewrite <- (lengthN_fmap snd (A ++ B)), !fmap_app, fmap_cons. simpl. intros Hl.
      by rewrite om_find_absent, decide_True, om_insert_absent.
    - rewrite <- (lengthN_fmap snd (A ++ B)), !fmap_app in Hl. rewrite !fmap_app.
      rewrite om_find_absent by done. by rewrite decide_False by lia.
  Qed.
  Lemma rem_rel_spec cap k E o E' :
    rem_rel k E o E' → om_spec cmp cap (MRemove k) E.*2 = (Val (MVal o), E'.*2).
  Proof.
    destruct 1 as [A B i kv -> Hc Hb Ha|A B -> Hb Ha]; unfold om_spec, om_get.
    - rewrite !fmap_app, !fmap_cons. simpl. by rewrite om_find_found, om_remove_found.
    - rewrite !fmap_app. by rewrite om_find_absent, om_remove_absent.
  Qed.
  Lemma get_rel_find k E i o : get_rel k E i o → om_find cmp k E.*2 = o.
  Proof.
    destruct 1 as [A B i kv -> Hi Hc Hb Ha|A B -> Hb Ha].
    - rewrite !fmap_app, !fmap_cons. simpl. by rewrite om_find_found.
    - rewrite !fmap_app. by rewrite om_find_absent.
  Qed.
  Lemma upd_rel_spec k f E o E' :
    upd_rel k f E o E' → om_get cmp k E.*2 = o ∧ om_alter cmp k f E.*2 = E'.*2.
  Proof.
    destruct 1 as [A B i kv -> Hc Hb Ha|A B -> Hb Ha]; unfold om_get.
    - rewrite !fmap_app, !fmap_cons. simpl. by rewrite om_find_found, om_alter_found.
    - rewrite !fmap_app. by rewrite om_find_absent, om_alter_absent.
  Qed.

  (** Addresses: an entry keeps its slot as long as its key is there *)
  Lemma ins_rel_stable cap k v E o E' i kv :
    ins_rel cap k v E o E' → (i, kv) ∈ E → cmp k kv.1 ≠ Eq → (i, kv) ∈ E'.
  Proof.
    destruct 1 as [A B j kv' -> Hc Hb Ha|A B j -> Hl Hb Ha _ _ _|A B -> Hl Hb Ha]; [| |done].
    - intros [?|[[= -> ->]|?]%elem_of_cons]%elem_of_app; [|done|]; rewrite elem_of_app, elem_of_cons; auto.
    - intros [?|?]%elem_of_app; rewrite elem_of_app, elem_of_cons; auto.
  Qed.
  Lemma rem_rel_stable k E o E' i kv :
    rem_rel k E o E' → (i, kv) ∈ E → cmp k kv.1 ≠ Eq → (i, kv) ∈ E'.
  Proof.
    destruct 1 as [A B j kv' -> Hc Hb Ha|A B -> Hb Ha]; [|done].
    intros [?|[[= -> ->]|?]%elem_of_cons]%elem_of_app; [|done|]; rewrite elem_of_app; auto.
  Qed.
End rel.
