(** Keys: the byte order is the order of bits and of nibbles (C48 core); ordered entries. *)
From Verif Require Import Base Spec SpecOrder NodeType KeyFacts SmtFacts NodeFacts Canon KeyOrder.
From Coq Require Import Lia.

Fixpoint lexb (x y : list bool) : comparison :=
  match x, y with
  | [], [] => Eq
  | [], _ :: _ => Lt
  | _ :: _, [] => Gt
  | false :: _, true :: _ => Lt
  | true :: _, false :: _ => Gt
  | _ :: x', _ :: y' => lexb x' y'
  end.
Lemma lexb_app a : forall c b d, length a = length c -> lexb (a ++ b) (c ++ d) = match lexb a c with Eq => lexb b d | r => r end.
Proof. induction a as [|[] a IH]; intros [|[] c] b d L; simpl in L; try lia; cbn [app lexb]; try done; apply IH; lia. Qed.
Lemma byte_compare_bits (a b : byte) : N.compare (Byte.to_N a) (Byte.to_N b) = lexb (byte_bits a) (byte_bits b).
Proof.
  assert (E : forallb (fun a => forallb (fun b => match N.compare (Byte.to_N a) (Byte.to_N b), lexb (byte_bits a) (byte_bits b) with
    | Eq, Eq => true | Lt, Lt => true | Gt, Gt => true | _, _ => false end) (flat_map (fun i => match Byte.of_N i with Some c => [c] | None => [] end) (map N.of_nat (seq 0 256))))
    (flat_map (fun i => match Byte.of_N i with Some c => [c] | None => [] end) (map N.of_nat (seq 0 256))) = true) by (vm_compute; reflexivity).
  assert (I : forall c : byte, In c (flat_map (fun i => match Byte.of_N i with Some c => [c] | None => [] end) (map N.of_nat (seq 0 256)))).
  { intros c. apply in_flat_map. exists (Byte.to_N c). split; [|rewrite Byte.of_to_N; by left].
    apply in_map_iff. exists (N.to_nat (Byte.to_N c)). split; [lia|]. apply in_seq. pose proof (Byte.to_N_bounded c). lia. }
  rewrite forallb_forall in E. specialize (E a (I a)). rewrite forallb_forall in E. specialize (E b (I b)).
  destruct (N.compare _ _), (lexb _ _); done.
Qed.
Lemma bytes_compare_bits x : forall y, length x = length y -> bytes_compare x y = lexb (flat_map byte_bits x) (flat_map byte_bits y).
Proof.
  induction x as [|a x IH]; intros [|b y] L; simpl in L; try lia; [done|]. cbn [bytes_compare flat_map].
  rewrite lexb_app by (by rewrite !byte_bits_length). rewrite byte_compare_bits, IH by lia. done.
Qed.
Lemma key_compare_bits x y : key_compare x y = lexb (key_bits x) (key_bits y).
Proof. unfold key_compare, key_bits. apply bytes_compare_bits. by rewrite !b32_length. Qed.
Lemma lexb_same p x y : lexb (p ++ x) (p ++ y) = lexb x y.
Proof. induction p as [|[] p IH]; cbn; done. Qed.
Lemma kpre_split k i : i < 256 -> key_bits k = kpre i k ++ bit_at k i :: drop (S i) (key_bits k).
Proof.
  intros L. unfold kpre. rewrite <- (take_drop_middle (key_bits k) i (bit_at k i)) at 1; [done|]. by apply bit_at_lookup.
Qed.
Lemma key_lt_bit x y i : i < 256 -> kpre i x = kpre i y -> bit_at x i = false -> bit_at y i = true -> key_lt x y.
Proof.
  intros L E Bx By. unfold key_lt. rewrite key_compare_bits. rewrite (kpre_split x i), (kpre_split y i), E, Bx, By by done. by rewrite lexb_same.
Qed.
Lemma key_lt_iff x y : key_lt x y <-> exists i, i < 256 /\ kpre i x = kpre i y /\ bit_at x i = false /\ bit_at y i = true.
Proof.
  split; [|intros (i & ? & ? & ? & ?); by eapply key_lt_bit].
  intros Lt. assert (Ne : x <> y) by (intros ->; by apply key_lt_irrefl in Lt).
  pose proof (cpbl_ne x y Ne) as L. pose proof (cpbl_bit_ne x y Ne) as B. exists (common_prefix_bits_len x y).
  assert (E : kpre (common_prefix_bits_len x y) x = kpre (common_prefix_bits_len x y) y) by by apply cpbl_le.
  split; [done|]. split; [done|]. destruct (bit_at x _) eqn:Bx, (bit_at y _) eqn:By; try done.
  exfalso. apply (key_lt_irrefl x). eapply key_lt_trans; [exact Lt|]. eapply key_lt_bit; [done|symmetry; exact E|done|done].
Qed.

(** nibbles *)
Lemma nib_compare_bits n m : N.compare (nib_to_N n) (nib_to_N m) = lexb (nib_bits n) (nib_bits m).
Proof. destruct n as [[] [] [] []], m as [[] [] [] []]; reflexivity. Qed.
Lemma key_bits_prefix p n k : (p ++ [n]) `prefix_of` key_nibbles k -> exists r, key_bits k = bits p ++ nib_bits n ++ r.
Proof.
  intros [r E]. rewrite key_bits_nibbles, E. exists (bits r). change (flat_map nib_bits ?x) with (bits x). rewrite !bits_app. cbn [bits flat_map app]. by rewrite app_nil_r, <- app_assoc.
Qed.
Lemma key_lt_nib p n m x y : (p ++ [n]) `prefix_of` key_nibbles x -> (p ++ [m]) `prefix_of` key_nibbles y -> (nib_to_N n < nib_to_N m)%N -> key_lt x y.
Proof.
  intros [r Ex]%key_bits_prefix [s Ey]%key_bits_prefix L. unfold key_lt. rewrite key_compare_bits, Ex, Ey, lexb_same, lexb_app by by rewrite !nib_bits_length.
  rewrite <- nib_compare_bits. apply N.compare_lt_iff in L. by rewrite L.
Qed.

(** ordered entries *)
Section entries.
Context {A : Type}.
Implicit Types (m : gmap key A).
Definition elt (a b : key * A) : Prop := key_lt a.1 b.1.
Lemma entry_le_spec (a b : key * A) : entry_le a b <-> key_le a.1 b.1.
Proof. unfold entry_le. by rewrite negb_true_iff, key_ltb_ge. Qed.
Global Instance entry_le_trans : Transitive (entry_le (A:=A)).
Proof. intros a b c. rewrite !entry_le_spec. intros. by transitivity b.1. Qed.
Global Instance entry_le_total : Total (entry_le (A:=A)).
Proof. intros a b. rewrite !entry_le_spec. apply key_le_total. Qed.
Lemma entries_elem m k x : (k, x) ∈ entries m <-> m !! k = Some x.
Proof. unfold entries. by rewrite merge_sort_Permutation, elem_of_map_to_list. Qed.
Lemma entries_nodup m : NoDup (entries m).*1.
Proof. unfold entries. rewrite merge_sort_Permutation. apply NoDup_fst_map_to_list. Qed.
Lemma elt_of_le l : StronglySorted entry_le l -> NoDup l.*1 -> StronglySorted elt l.
Proof.
  induction 1 as [|a l S IH F]; intros ND; [constructor|]. cbn in ND. apply NoDup_cons in ND as [N1 N2]. constructor; [by apply IH|].
  rewrite Forall_forall in *. intros b Hb. specialize (F b Hb). apply entry_le_spec in F as [F|F]; [|done].
  exfalso. apply N1. rewrite F. by apply elem_of_list_fmap_1.
Qed.
Lemma entries_sorted m : StronglySorted elt (entries m).
Proof. apply elt_of_le; [apply (StronglySorted_merge_sort entry_le)|apply entries_nodup]. Qed.
Lemma elt_unique l1 : forall l2, StronglySorted elt l1 -> StronglySorted elt l2 -> (forall a, a ∈ l1 <-> a ∈ l2) -> l1 = l2.
Proof.
  induction l1 as [|a l1 IH]; intros [|b l2] S1 S2 E; [done|exfalso; eapply not_elem_of_nil, E; by left|exfalso; eapply not_elem_of_nil, E; by left|].
  apply StronglySorted_inv in S1 as [S1 F1]. apply StronglySorted_inv in S2 as [S2 F2]. rewrite Forall_forall in F1, F2.
  assert (a = b) as ->.
  { assert (Ea : a ∈ b :: l2) by (apply E; by left). assert (Eb : b ∈ a :: l1) by (apply E; by left).
    apply elem_of_cons in Ea as [|Ea]; [done|]. apply elem_of_cons in Eb as [|Eb]; [done|]. exfalso. eapply key_lt_irrefl, key_lt_trans; [by apply F1|by apply F2]. }
  f_equal. apply IH; [done|done|]. intros c. split; intros Hc.
  - assert (Ec : c ∈ b :: l2) by (apply E; by right). apply elem_of_cons in Ec as [->|]; [|done]. exfalso. eapply key_lt_irrefl, (F1 _ Hc).
  - assert (Ec : c ∈ b :: l1) by (apply E; by right). apply elem_of_cons in Ec as [->|]; [|done]. exfalso. eapply key_lt_irrefl, (F2 _ Hc).
Qed.
Lemma entries_unique l m : StronglySorted elt l -> (forall k x, (k, x) ∈ l <-> m !! k = Some x) -> l = entries m.
Proof. intros S E. apply elt_unique; [done|apply entries_sorted|]. intros [k x]. by rewrite E, entries_elem. Qed.
Lemma entries_length m : length (entries m) = size m.
Proof. unfold entries. rewrite (Permutation_length (merge_sort_Permutation _ _)). by rewrite mtl_length. Qed.
Lemma entries_empty : entries (∅ : gmap key A) = [].
Proof. unfold entries. by rewrite map_to_list_empty. Qed.
Lemma entries_single k (x : A) : entries {[ k := x ]} = [(k, x)].
Proof. unfold entries. by rewrite map_to_list_singleton. Qed.

Lemma elt_app l1 l2 : StronglySorted elt l1 -> StronglySorted elt l2 -> (forall a b, a ∈ l1 -> b ∈ l2 -> elt a b) -> StronglySorted elt (l1 ++ l2).
Proof.
  induction 1 as [|a l1 S IH F]; intros S2 X; [done|]. cbn. constructor.
  - apply IH; [done|]. intros; apply X; [by right|done].
  - rewrite Forall_forall in *. intros b [Hb|Hb]%elem_of_app; [by apply F|]. apply X; [by left|done].
Qed.
(** the entries below [p], child by child *)
Definition nib_lt (n m : nibble) : Prop := (nib_to_N n < nib_to_N m)%N.
Lemma all_nibbles_sorted : StronglySorted nib_lt all_nibbles.
Proof. repeat (constructor; [|repeat (constructor; [reflexivity|]); constructor]). constructor. Qed.
Lemma entries_nibs p m (l : list nibble) : StronglySorted nib_lt l -> StronglySorted elt (flat_map (fun n => entries (U (p ++ [n]) m)) l).
Proof.
  induction 1 as [|n l S IH F]; cbn [flat_map]; [constructor|]. apply elt_app; [apply entries_sorted|done|].
  intros [k x] [k' x'] Hk Hk'. apply entries_elem, U_lookup in Hk as [_ P].
  apply elem_of_list_In, in_flat_map in Hk' as (n' & Hn & Hk'). apply elem_of_list_In, entries_elem, U_lookup in Hk' as [_ P'].
  rewrite Forall_forall in F. eapply key_lt_nib; [done|done|]. apply F. by apply elem_of_list_In.
Qed.
Lemma prefix_next p k : p `prefix_of` key_nibbles k -> length p < 64 -> exists n, (p ++ [n]) `prefix_of` key_nibbles k.
Proof.
  intros [r E] L. destruct r as [|n r]; [rewrite app_nil_r in E; pose proof (key_nibbles_length k) as Q; rewrite E in Q; lia|].
  exists n. rewrite E. exists r. by rewrite <- app_assoc.
Qed.
Lemma prefix_snoc_l (p : list nibble) n q : (p ++ [n]) `prefix_of` q -> p `prefix_of` q.
Proof. intros [r ->]. rewrite <- app_assoc. by eexists. Qed.
Lemma entries_U p m : length p < 64 -> entries (U p m) = flat_map (fun n => entries (U (p ++ [n]) m)) all_nibbles.
Proof.
  intros L. symmetry. apply entries_unique; [apply entries_nibs, all_nibbles_sorted|].
  intros k x. rewrite elem_of_list_In, in_flat_map, U_lookup. split.
  - intros (n & _ & E). apply elem_of_list_In, entries_elem, U_lookup in E as [? ?%prefix_snoc_l]. done.
  - intros [E P]. destruct (prefix_next p k P L) as [n Pn]. exists n. split; [apply elem_of_list_In, all_nibbles_complete|].
    apply elem_of_list_In, entries_elem, U_lookup. done.
Qed.
End entries.
