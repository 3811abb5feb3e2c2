(** The canonical tree of a map: which node sits at which nibble path (shape, hashes, counts), given
    the version at which each node was created. *)
From Verif Require Import Base Spec NodeType KeyFacts SmtFacts ProofFacts NodeFacts.
From Coq Require Import Lia.
Local Opaque Spec.smt.

Definition bits (p : list nibble) : list bool := flat_map nib_bits p.
Definition U {A} (p : list nibble) (M : gmap key A) : gmap key A := under (bits p) M.

Lemma bits_length p : length (bits p) = 4 * length p.
Proof. apply flat_map_length_const. intros; apply nib_bits_length. Qed.
Lemma bits_app p q : bits (p ++ q) = bits p ++ bits q.
Proof. apply flat_map_app. Qed.
Lemma bits_snoc p n : bits (p ++ [n]) = bits p ++ nib_bits n.
Proof. rewrite bits_app. unfold bits at 2. simpl. by rewrite app_nil_r. Qed.
Lemma bits_nil : bits [] = [].
Proof. reflexivity. Qed.
Lemma U_nil {A} (M : gmap key A) : U [] M = M.
Proof. apply under_nil. Qed.
Lemma bits_inj p q : bits p = bits q -> p = q.
Proof. apply flat_map_nib_bits_inj. Qed.

(** being below a nibble path *)
Lemma haspre_bits p k : haspre (bits p) k <-> p `prefix_of` key_nibbles k.
Proof.
  unfold haspre. rewrite key_bits_nibbles. split.
  - intros E. exists (drop (length p) (key_nibbles k)). rewrite <- (take_drop (length p)) at 1. f_equal.
    apply bits_inj. rewrite <- E, bits_length. unfold bits.
    generalize (key_nibbles k) as l. clear E. generalize (length p) as n.
    induction n as [|n IH]; intros l; [done|]. destruct l as [|a l]; [by rewrite !take_nil|].
    replace (4 * S n) with (length (nib_bits a) + 4 * n) by (rewrite nib_bits_length; lia).
    simpl. rewrite take_add_app by done. rewrite IH. done.
  - intros [r ->]. change (flat_map nib_bits (p ++ r)) with (bits (p ++ r)). rewrite bits_app. apply take_app.
Qed.
Lemma U_lookup {A} p (M : gmap key A) k h : U p M !! k = Some h <-> M !! k = Some h /\ p `prefix_of` key_nibbles k.
Proof. unfold U. rewrite under_lookup, haspre_bits. done. Qed.
Lemma prefix_len_64 p k : p `prefix_of` key_nibbles k -> length p <= 64.
Proof. intros Hp. apply prefix_length in Hp. by rewrite key_nibbles_length in Hp. Qed.
Lemma U_nonempty {A} p (M : gmap key A) : U p M <> ∅ <-> exists k h, M !! k = Some h /\ p `prefix_of` key_nibbles k.
Proof.
  split.
  - intros (k & h & E)%map_choose. apply U_lookup in E. eauto.
  - intros (k & h & E) Z. apply U_lookup in E. by rewrite Z in E.
Qed.
Lemma U_len {A} p (M : gmap key A) : U p M <> ∅ -> length p <= 64.
Proof. intros (k & h & _ & Hp)%U_nonempty. by eapply prefix_len_64. Qed.
Lemma U_many_len {A} p (M : gmap key A) : 2 <= size (U p M) -> length p < 64.
Proof. intros Hm. apply under_many_len in Hm. rewrite bits_length in Hm. lia. Qed.
Lemma U_many_ne {A} p (M : gmap key A) : 2 <= size (U p M) -> U p M <> ∅.
Proof. intros Hm E. rewrite E, map_size_empty in Hm. lia. Qed.
Lemma size_ne {A} (m : gmap key A) : size m <> 0 <-> m <> ∅.
Proof. by rewrite map_size_empty_iff. Qed.
Lemma U_app_sub {A} p q (M : gmap key A) : U (p ++ q) M ⊆ U p M.
Proof. unfold U. rewrite bits_app. apply under_app_sub. Qed.
Lemma U_app_ne {A} p q (M : gmap key A) : U (p ++ q) M <> ∅ -> U p M <> ∅.
Proof.
  intros (k & h & E & Hp)%U_nonempty. apply U_nonempty. exists k, h. split; [done|].
  by eapply prefix_app_l.
Qed.
Lemma U_app_size {A} p q (M : gmap key A) : size (U (p ++ q) M) <= size (U p M).
Proof. apply size_le, U_app_sub. Qed.
Lemma U_many_up {A} p q (M : gmap key A) : 2 <= size (U (p ++ q) M) -> 2 <= size (U p M).
Proof. intros E. pose proof (U_app_size p q M). lia. Qed.

Lemma single_ne {A} (k : key) (h : A) : ({[ k := h ]} : gmap key A) <> ∅.
Proof. intros E. apply (f_equal size) in E. rewrite map_size_singleton, map_size_empty in E. done. Qed.

(** sizes add up *)
Lemma size_halves {A} q (M : gmap key A) : length q < 256 ->
  size (under q M) = size (under (q ++ [false]) M) + size (under (q ++ [true]) M).
Proof.
  intros L. rewrite <- !(size_dom (D:=gset key)). rewrite <- size_union.
  - f_equal. apply set_eq. intros k. rewrite elem_of_union, !elem_of_dom. unfold is_Some.
    setoid_rewrite under_lookup. setoid_rewrite haspre_snoc; [|done..].
    destruct (bit_at k (length q)); naive_solver.
  - intros k. rewrite !elem_of_dom. intros [h1 [_ E1]%under_lookup] [h2 [_ E2]%under_lookup].
    apply haspre_snoc in E1 as [_ E1]; [|done]. apply haspre_snoc in E2 as [_ E2]; [|done]. congruence.
Qed.
Lemma size_range {A} p (M : gmap key A) : length p < 64 -> forall h r, length r + h = 4 ->
  size (under (bits p ++ r) M) = sum_list (map (fun n => size (U (p ++ [n]) M)) (nibs r)).
Proof.
  intros Lp. induction h as [|h IH]; intros r L.
  - destruct (nibs_4' r) as [n ->]; [lia|]. rewrite nibs_4. simpl. unfold U. rewrite bits_snoc. lia.
  -
    rewrite size_halves by (rewrite app_length, bits_length; lia).
    rewrite <- !app_assoc, !IH by (rewrite app_length; simpl; lia).
    rewrite (nibs_app r h L), map_app. generalize (map (fun n => size (U (p ++ [n]) M)) (nibs (r ++ [false]))) as x.
    induction x as [|a x IHx]; simpl; lia.
Qed.
Lemma size_children {A} p (M : gmap key A) : length p < 64 ->
  size (U p M) = sum_list (map (fun n => size (U (p ++ [n]) M)) all_nibbles).
Proof. intros Lp. rewrite <- nibs_nil, <- (size_range p M Lp 4 [] eq_refl). by rewrite app_nil_r. Qed.

Section canon.
Context (H : list byte -> bytes32).
Implicit Types (M : gmap key vhash) (ver : list nibble -> version).

(** the child slot at nibble [n] below path [p] *)
Definition child_of M ver p n : option child :=
  match size (U (p ++ [n]) M) with
  | 0 => None
  | 1 => Some (Child (ms H (bits (p ++ [n])) M) (ver (p ++ [n])) NTLeaf)
  | s => Some (Child (ms H (bits (p ++ [n])) M) (ver (p ++ [n])) (NTInternal s))
  end.
Definition children_of M ver p : children :=
  list_to_map (omap (fun n => c ← child_of M ver p n; Some (n, c)) all_nibbles).
Definition node_at M ver p : node :=
  match map_to_list (U p M) with
  | [] => Null
  | [(k, h)] => Leaf (LeafNode k h)
  | _ => Internal (mkInternal (children_of M ver p) (size (U p M)))
  end.

Lemma children_of_lookup M ver p n : children_of M ver p !! n = child_of M ver p n.
Proof.
  unfold children_of.
  assert (ND : NoDup (omap (fun n => c ← child_of M ver p n; Some (n, c)) all_nibbles).*1).
  { pose proof all_nibbles_nodup as N. induction N as [|m l Hm Hl IH]; [apply NoDup_nil_2|].
    cbn [omap list_omap]. destruct (child_of M ver p m) as [c|]; [|done]. cbn [mbind option_bind]. csimpl.
    apply NoDup_cons. split; [|done]. intros ((m' & c') & E1 & E2)%elem_of_list_fmap.
    apply elem_of_list_omap in E2 as (m2 & Hm2 & E2). destruct (child_of M ver p m2); [|done]. simpl in *. naive_solver. }
  apply option_eq. intros c. etransitivity; [symmetry; apply (elem_of_list_to_map (M:=gmap nibble)), ND|]. rewrite elem_of_list_omap. split.
  - intros (m & _ & E). destruct (child_of M ver p m) eqn:Em; simpl in E; [|done]. by injection E as -> ->.
  - intros E. exists n. split; [apply all_nibbles_complete|]. by rewrite E.
Qed.
Lemma children_ext (ch ch' : children) : (forall n, ch !! n = ch' !! n) -> ch = ch'.
Proof. apply map_eq. Qed.
Lemma child_of_none M ver p n : child_of M ver p n = None <-> U (p ++ [n]) M = ∅.
Proof. unfold child_of. rewrite <- map_size_empty_iff. destruct (size (U (p ++ [n]) M)) as [|[|s]]; naive_solver. Qed.
Lemma child_of_some M ver p n : U (p ++ [n]) M <> ∅ -> exists c, child_of M ver p n = Some c /\
  c_hash c = ms H (bits (p ++ [n])) M /\ c_version c = ver (p ++ [n]) /\ c_leaf_count c = size (U (p ++ [n]) M) /\
  c_is_leaf c = (size (U (p ++ [n]) M) =? 1).
Proof.
  rewrite <- map_size_empty_iff. unfold child_of. destruct (size (U (p ++ [n]) M)) as [|[|s]]; [done| |]; eauto 10.
Qed.
Lemma child_of_inv M ver p n c : child_of M ver p n = Some c -> U (p ++ [n]) M <> ∅ /\
  c_hash c = ms H (bits (p ++ [n])) M /\ c_version c = ver (p ++ [n]) /\ c_leaf_count c = size (U (p ++ [n]) M) /\
  c_is_leaf c = (size (U (p ++ [n]) M) =? 1).
Proof.
  intros E. assert (Ne : U (p ++ [n]) M <> ∅) by (intros Z; apply (child_of_none M ver) in Z; congruence).
  destruct (child_of_some M ver p n Ne) as (c' & E' & R). rewrite E in E'. injection E' as <-. done.
Qed.

Lemma node_at_null M ver p : U p M = ∅ -> node_at M ver p = Null.
Proof. unfold node_at. intros ->. by rewrite map_to_list_empty. Qed.
Lemma node_at_leaf M ver p k h : U p M = {[ k := h ]} -> node_at M ver p = Leaf (LeafNode k h).
Proof. unfold node_at. intros ->. by rewrite map_to_list_singleton. Qed.
Lemma node_at_internal M ver p : 2 <= size (U p M) ->
  node_at M ver p = Internal (mkInternal (children_of M ver p) (size (U p M))).
Proof.
  intros Hm. unfold node_at. pose proof (mtl_length (U p M)) as L.
  destruct (map_to_list (U p M)) as [|[k h] [|y l]]; simpl in L; try lia. done.
Qed.

Lemma ms_sub_single p q M k h : under (p ++ q) M <> ∅ -> under p M = {[ k := h ]} -> under (p ++ q) M = under p M.
Proof.
  intros Ne E. apply map_choose in Ne as (k' & h' & E2).
  assert (under p M !! k' = Some h') as E3 by (eapply lookup_weaken; [done|apply under_app_sub]).
  rewrite E in E3. apply lookup_singleton_Some in E3 as [<- <-].
  apply map_eq; intros j; apply option_eq; intros x. split.
  - intros F. eapply lookup_weaken; [done|apply under_app_sub].
  - rewrite E. intros [<- <-]%lookup_singleton_Some. done.
Qed.

Lemma omap_child_sizes M ver p l :
  sum_list (map (fun n => size (U (p ++ [n]) M)) l) =
  sum_list (map c_leaf_count (omap (fun n => children_of M ver p !! n) l)).
Proof.
  induction l as [|n l IH]; [done|]. cbn [omap list_omap map]. rewrite children_of_lookup.
  destruct (child_of M ver p n) as [c|] eqn:E.
  -apply child_of_inv in E as (_ & _ & _ & E & _).
    simpl. by rewrite E, IH.
  - apply child_of_none in E. simpl. rewrite E, map_size_empty. done.
Qed.
Lemma omap_id_slots (ch : children) r : omap id (slots ch r) = omap (fun n => ch !! n) (nibs r).
Proof. unfold slots. induction (nibs r) as [|n l IH]; [done|]. cbn [map omap list_omap]. unfold id at 1. by rewrite IH. Qed.
Lemma omap_child_in M ver p (l : list nibble) c : c ∈ omap (fun n => children_of M ver p !! n) l -> exists n, n ∈ l /\ child_of M ver p n = Some c.
Proof. intros (n & Hn & E)%elem_of_list_omap. rewrite children_of_lookup in E. eauto. Qed.
Lemma child_count_pos M ver p n c : child_of M ver p n = Some c -> 1 <= c_leaf_count c.
Proof. intros (Ne & _ & _ & -> & _)%child_of_inv. apply size_ne in Ne. lia. Qed.
Lemma size_one_inv {A} (m : gmap key A) : size m = 1 -> exists k h, m = {[ k := h ]}.
Proof.
  intros E. destruct (size_cases m) as [Z|[Z|Z]]; [|done|lia]. rewrite Z, map_size_empty in E. lia.
Qed.
Lemma bits_pre_nib p r n : n ∈ nibs r -> exists q, bits (p ++ [n]) = (bits p ++ r) ++ q.
Proof.
  intros E%elem_of_nibs. exists (drop (length r) (nib_bits n)). rewrite bits_snoc, <- app_assoc. f_equal.
  rewrite <- E at 2. rewrite <- (take_drop (length r) (nib_bits n)) at 1. rewrite E at 1. by rewrite E.
Qed.

Lemma slots_canon M ver p : length p < 64 -> forall h r, length r + h = 4 ->
  slots_hash H h (slots (children_of M ver p) r) = ms H (bits p ++ r) M.
Proof.
  intros Lp. induction h as [|h IH]; intros r L.
  - destruct (nibs_4' r) as [n ->]; [lia|]. cbn [slots_hash]. rewrite omap_id_slots, nibs_4. cbn [omap list_omap].
    rewrite children_of_lookup, <- bits_snoc. destruct (child_of M ver p n) as [c|] eqn:E.
    + apply child_of_inv in E as (_ & Eh & _). rewrite orb_true_r. done.
    + apply child_of_none in E. by rewrite ms_empty.
  - pose proof (size_range p M Lp (S h) r L) as S. rewrite (omap_child_sizes M ver p) in S.
    cbn [slots_hash]. rewrite omap_id_slots.
    assert (Sp : 2 <= size (under (bits p ++ r) M) ->
      internal_hash H (slots_hash H h (take (2 ^ h) (slots (children_of M ver p) r)))
        (slots_hash H h (drop (2 ^ h) (slots (children_of M ver p) r))) = ms H (bits p ++ r) M).
    { intros Hm. destruct (slots_halves (children_of M ver p) r h L) as [-> ->].
      rewrite !IH by (rewrite app_length; simpl; lia). rewrite (ms_many H (bits p ++ r)) by done. by rewrite <- !app_assoc. }
    destruct (omap (fun n => children_of M ver p !! n) (nibs r)) as [|c [|c2 l]] eqn:E.
    + simpl in S. symmetry. apply ms_empty. by apply map_size_empty_iff.
    + simpl in S.
      assert (c ∈ omap (fun n => children_of M ver p !! n) (nibs r)) as Hc by (rewrite E; apply elem_of_list_here).
      apply omap_child_in in Hc as (n & Hn & Ec). apply child_of_inv in Ec as (Ne & Eh & _ & Ec & El).
      destruct (c_is_leaf c) eqn:Lf.
      * cbn [orb]. rewrite Eh. symmetry in El. apply Nat.eqb_eq in El.
        destruct (bits_pre_nib p r n Hn) as [q Eq].
        assert (size (under (bits p ++ r) M) = 1) as S1 by lia.
        apply size_one_inv in S1 as (k & v & S1).
        unfold U in Ne. rewrite Eq in Ne. pose proof (ms_sub_single _ _ _ _ _ Ne S1) as E1.
        rewrite Eq. rewrite (ms_single H ((bits p ++ r) ++ q) _ k v), (ms_single H (bits p ++ r) _ k v); [done|done|].
        by rewrite E1.
      * cbn [orb Nat.eqb]. apply Sp. symmetry in El; apply Nat.eqb_neq in El.
        apply size_ne in Ne. lia.
    + apply Sp.
      assert (c ∈ omap (fun n => children_of M ver p !! n) (nibs r)) as Hc by (rewrite E; apply elem_of_list_here).
      assert (c2 ∈ omap (fun n => children_of M ver p !! n) (nibs r)) as Hc2
        by (rewrite E; apply elem_of_list_further, elem_of_list_here).
      apply omap_child_in in Hc as (n & Hn & Ec%child_count_pos). apply omap_child_in in Hc2 as (n2 & Hn2 & Ec2%child_count_pos).
      simpl in S. lia.
Qed.
Lemma in_hash_canon M ver p s : length p < 64 -> in_hash H (mkInternal (children_of M ver p) s) = Ok (ms H (bits p) M).
Proof. intros Lp. rewrite in_hash_slots. cbn [in_children]. rewrite slots_canon by done. by rewrite app_nil_r. Qed.
Lemma node_hash_canon M ver p : node_hash H (node_at M ver p) = Ok (ms H (bits p) M).
Proof.
  destruct (size_cases (U p M)) as [E|[(k & h & E)|Hm]].
  - rewrite node_at_null by done. cbn [node_hash]. by rewrite ms_empty.
  - rewrite (node_at_leaf _ _ _ k h) by done. cbn [node_hash]. by rewrite (ms_single _ _ _ k h).
  - rewrite node_at_internal by done. apply in_hash_canon. by apply U_many_len in Hm.
Qed.
Lemma sm_internal_canon M ver p s : 2 <= size (U p M) ->
  sm_internal_from H (mkInternal (children_of M ver p) s) = Ok (smt_node H (bits p) M).
Proof.
  intros Hm. pose proof (U_many_len _ _ Hm) as Lp. rewrite sm_internal_from_slots. cbn [in_children].
  rewrite !slots_canon by done. by rewrite smt_node_many.
Qed.
Lemma node_at_ext M M' ver ver' p : U p M = U p M' ->
  (2 <= size (U p M) -> forall n, U (p ++ [n]) M <> ∅ -> ver (p ++ [n]) = ver' (p ++ [n])) ->
  node_at M ver p = node_at M' ver' p.
Proof.
  intros E Ev. destruct (size_cases (U p M)) as [Z|[(k & h & Z)|Hm]].
  { rewrite !node_at_null by congruence. done. }
  { rewrite !(node_at_leaf _ _ _ k h) by congruence. done. }
  specialize (Ev Hm). unfold node_at. rewrite <- E.
  assert (Ec : children_of M ver p = children_of M' ver' p).
  { apply children_ext. intros n. rewrite !children_of_lookup. unfold child_of.
    assert (E2 : U (p ++ [n]) M = U (p ++ [n]) M') by (unfold U in *; rewrite bits_app; by apply under_eq_app).
    rewrite <- E2. rewrite (ms_under H (bits (p ++ [n])) M M') by done.
    destruct (size (U (p ++ [n]) M)) as [|s] eqn:S; [done|]. rewrite Ev; [done|].
    apply size_ne. lia. }
  by rewrite Ec.
Qed.
End canon.
