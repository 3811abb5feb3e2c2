(** The binary sparse Merkle tree of a map, prefix by prefix. *)
From Verif Require Import Base Spec NodeType ProofDef KeyFacts.
From Coq Require Import Lia.

(** ** Finite-map size facts *)
Section size.
Context {A : Type}.
Implicit Types M : gmap key A.
Lemma mtl_length M : length (map_to_list M) = size M.
Proof. done. Qed.
Lemma size_cases M : M = ∅ \/ (exists k h, M = {[ k := h ]}) \/ 2 <= size M.
Proof.
  destruct (size M) as [|[|n]] eqn:E.
  - left. by apply map_size_empty_iff.
  - right; left. pose proof (mtl_length M) as L. rewrite E in L.
    destruct (map_to_list M) as [|[k h] [|? ?]] eqn:EL; try done.
    exists k, h. rewrite <- (list_to_map_to_list M), EL. done.
  - right; right. lia.
Qed.
Lemma size_many M k h k' h' : M !! k = Some h -> M !! k' = Some h' -> k <> k' -> 2 <= size M.
Proof.
  intros H1 H2 Hne. rewrite <- (insert_delete M k h) by done.
  rewrite map_size_insert_None by apply lookup_delete.
  assert (delete k M !! k' = Some h') as H3 by (by rewrite lookup_delete_ne).
  assert (size (delete k M) <> 0); [|lia].
  intros E%map_size_empty_iff. by rewrite E in H3.
Qed.
Lemma many_elim M : 2 <= size M -> exists k h k' h', M !! k = Some h /\ M !! k' = Some h' /\ k <> k'.
Proof.
  intros Hs. destruct (map_choose M) as (k & h & Hk). { intros ->. rewrite map_size_empty in Hs. lia. }
  destruct (map_choose (delete k M)) as (k' & h' & Hk').
  { intros E. rewrite <- (insert_delete M k h), E in Hs by done.
    rewrite map_size_insert_None, map_size_empty in Hs by done. lia. }
  apply lookup_delete_Some in Hk' as [Hne Hk'].
  exists k, h, k', h'. done.
Qed.
Lemma size_le M M' : M ⊆ M' -> size M <= size M'.
Proof.
  intros Hs. rewrite <- !(size_dom (D:=gset key)). apply subseteq_size. by apply subseteq_dom.
Qed.
Lemma size_empty_no M k h : M !! k = Some h -> size M <> 0.
Proof. intros E1 E%map_size_empty_iff. by rewrite E in E1. Qed.
Lemma single_many M k h : M = {[ k := h ]} -> ~ 2 <= size M.
Proof. intros ->. rewrite map_size_singleton. lia. Qed.
Lemma empty_many M : M = ∅ -> ~ 2 <= size M.
Proof. intros ->. rewrite map_size_empty. lia. Qed.
End size.

(** ** Entries below a bit prefix *)
Definition haspre (p : list bool) (k : key) : Prop := take (length p) (key_bits k) = p.
Global Instance haspre_dec p k : Decision (haspre p k).
Proof. unfold haspre. apply _. Defined.
Definition under {A} (p : list bool) (M : gmap key A) : gmap key A := filter (fun kv => haspre p kv.1) M.

Lemma haspre_nil k : haspre [] k.
Proof. done. Qed.
Lemma haspre_kpre n k k' : n <= 256 -> haspre (kpre n k) k' <-> kpre n k' = kpre n k.
Proof. intros Hn. unfold haspre. rewrite kpre_length by done. done. Qed.
Lemma haspre_snoc p b k : length p < 256 -> haspre (p ++ [b]) k <-> haspre p k /\ bit_at k (length p) = b.
Proof.
  intros Hl. unfold haspre. rewrite app_length; simpl. rewrite Nat.add_1_r.
  rewrite (take_S_r _ _ (bit_at k (length p))) by (by apply bit_at_lookup).
  split.
  - intros E. apply app_inj_2 in E as [E1 E2]; [|done]. injection E2 as E2. done.
  - intros [-> ->]. done.
Qed.
Lemma haspre_app p q k : haspre (p ++ q) k -> haspre p k.
Proof.
  unfold haspre. rewrite app_length. intros E.
  apply (f_equal (take (length p))) in E. rewrite take_take, take_app in E.
  rewrite <- E at 2. f_equal. lia.
Qed.
Lemma haspre_len p k : haspre p k -> length p <= 256.
Proof. unfold haspre. intros <-. rewrite take_length, key_bits_length. lia. Qed.
Lemma haspre_iff_kpre p k : length p <= 256 -> haspre p k -> p = kpre (length p) k.
Proof. unfold haspre, kpre. done. Qed.

Lemma under_lookup {A} p (M : gmap key A) k h : under p M !! k = Some h <-> M !! k = Some h /\ haspre p k.
Proof. unfold under. rewrite map_filter_lookup_Some. done. Qed.
Section under.
Context {A : Type}.
Implicit Types M : gmap key A.
Lemma under_nil M : under [] M = M.
Proof. apply map_eq. intros k. apply option_eq. intros h. rewrite under_lookup. split; [by intros []|]. intros; split; [done|apply haspre_nil]. Qed.
Lemma under_app_sub p q M : under (p ++ q) M ⊆ under p M.
Proof.
  apply map_subseteq_spec. intros k h. rewrite !under_lookup. intros [? ?%haspre_app]. done.
Qed.
Lemma under_256 p M : 256 <= length p -> ~ 2 <= size (under p M).
Proof.
  intros Hl (k & h & k' & h' & [_ E1]%under_lookup & [_ E2]%under_lookup & Hne)%many_elim.
  pose proof (haspre_len _ _ E1). assert (length p = 256) as L by lia.
  apply Hne. unfold haspre in *. rewrite L in *. apply kpre_256. unfold kpre. congruence.
Qed.
Lemma under_many_len p M : 2 <= size (under p M) -> length p < 256.
Proof. intros Hm. destruct (decide (length p < 256)); [done|]. exfalso. apply (under_256 p M); [lia|done]. Qed.
Lemma under_insert_in p M k h : haspre p k -> under p (<[k:=h]> M) = <[k:=h]> (under p M).
Proof. intros Hp. unfold under. by rewrite map_filter_insert_True. Qed.
Lemma under_insert_out p M k h : ~ haspre p k -> under p (<[k:=h]> M) = under p M.
Proof.
  intros Hp. unfold under. apply map_eq; intros k'. apply option_eq; intros h'.
  rewrite !map_filter_lookup_Some; simpl. destruct (decide (k = k')) as [<-|Hne].
  - split; intros []; done.
  - by rewrite lookup_insert_ne.
Qed.
Lemma under_delete p M k : under p (delete k M) = delete k (under p M).
Proof. unfold under. by rewrite map_filter_delete. Qed.
Lemma under_delete_out p M k : ~ haspre p k -> under p (delete k M) = under p M.
Proof.
  intros Hp. rewrite under_delete. apply delete_notin.
  destruct (under p M !! k) eqn:E; [|done]. apply under_lookup in E as [_ E]. done.
Qed.
Lemma under_fmap {B} (f : A -> B) p M : under p (f <$> M) = f <$> under p M.
Proof.
  apply map_eq; intros k. apply option_eq; intros h. rewrite under_lookup, !lookup_fmap, !fmap_Some.
  split.
  - intros [(x & E & ->) Hp]. exists x. rewrite under_lookup. done.
  - intros (x & [E Hp]%under_lookup & ->). eauto.
Qed.
(** the two halves *)
Lemma under_halves p M k h : length p < 256 -> under p M !! k = Some h ->
  under (p ++ [bit_at k (length p)]) M !! k = Some h.
Proof. rewrite !under_lookup. intros Hl [? ?]. rewrite haspre_snoc by done. done. Qed.
Lemma under_other_half p b M k h : length p < 256 -> under (p ++ [b]) M = ∅ -> under p M !! k = Some h ->
  under (p ++ [negb b]) M !! k = Some h.
Proof.
  intros Hl E Hk. pose proof (under_halves _ _ _ _ Hl Hk) as H2.
  destruct (bit_at k (length p)) eqn:B, b; simpl; try done; by rewrite E in H2.
Qed.
Lemma under_half_empty p b M : length p < 256 -> under (p ++ [b]) M = ∅ -> under (p ++ [negb b]) M = under p M.
Proof.
  intros Hl E. apply map_eq; intros k; apply option_eq; intros h. split.
  - intros E2. eapply lookup_weaken; [done|apply under_app_sub].
  - by apply under_other_half.
Qed.
End under.

(** ** smt *)
Section smt.
Context (H : list byte -> bytes32).
Notation smt := (smt H).
Implicit Types M : gmap key vhash.

Lemma smt_many d l : 2 <= length l ->
  smt (S d) l = internal_hash H (smt d (side false (S d) l)) (smt d (side true (S d) l)).
Proof. destruct l as [|[k h] [|x l]]; simpl; try lia. done. Qed.
Lemma smt_perm d l l' : l ≡ₚ l' -> smt d l = smt d l'.
Proof.
  revert l l'; induction d as [|d IH]; intros l l' E.
  - destruct l as [|x [|y l]].
    + apply Permutation_nil_l in E as ->. done.
    + apply Permutation_singleton_l in E as ->. done.
    + pose proof (Permutation_length E). destruct l' as [|x' [|y' l']]; try done.
      by destruct x, x'.
  - destruct l as [|x [|y l]].
    + apply Permutation_nil_l in E as ->. done.
    + apply Permutation_singleton_l in E as ->. done.
    + pose proof (Permutation_length E) as L.
      rewrite !smt_many by (rewrite <-?L; simpl; lia).
      f_equal; apply IH; unfold side; by rewrite E.
Qed.

(** hash of the subtree below [p] *)
Definition ms (p : list bool) M : hash := smt (256 - length p) (map_to_list (under p M)).
(** the same as a proof node *)
Definition smt_node (p : list bool) M : smnode :=
  match map_to_list (under p M) with
  | [] => SMNull
  | [(k, h)] => SMLeaf (LeafNode k h)
  | _ => SMInternal (ms (p ++ [false]) M) (ms (p ++ [true]) M)
  end.
Lemma side_under b p M : length p < 256 ->
  side b (256 - length p) (map_to_list (under p M)) ≡ₚ map_to_list (under (p ++ [b]) M).
Proof.
  intros Hl. unfold side. replace (256 - (256 - length p)) with (length p) by lia.
  apply NoDup_Permutation.
  - apply NoDup_filter, NoDup_map_to_list.
  - apply NoDup_map_to_list.
  - intros [k h]. rewrite elem_of_list_filter, !elem_of_map_to_list, !under_lookup; simpl.
    rewrite haspre_snoc by done. naive_solver.
Qed.
Lemma ms_empty p M : under p M = ∅ -> ms p M = SPARSE_MERKLE_PLACEHOLDER_HASH.
Proof. unfold ms. intros ->. rewrite map_to_list_empty. by destruct (256 - length p). Qed.
Lemma ms_single p M k h : under p M = {[ k := h ]} -> ms p M = leaf_hash H (LeafNode k h).
Proof. unfold ms. intros ->. rewrite map_to_list_singleton. by destruct (256 - length p). Qed.
Lemma ms_many p M : 2 <= size (under p M) ->
  ms p M = internal_hash H (ms (p ++ [false]) M) (ms (p ++ [true]) M).
Proof.
  intros Hm. pose proof (under_many_len _ _ Hm) as Hl. unfold ms.
  rewrite !app_length; simpl.
  replace (256 - length p) with (S (256 - (length p + 1))) at 1 by lia.
  rewrite smt_many by (by rewrite mtl_length).
  replace (S (256 - (length p + 1))) with (256 - length p) by lia.
  f_equal; apply smt_perm, side_under; done.
Qed.
Lemma smt_node_empty p M : under p M = ∅ -> smt_node p M = SMNull.
Proof. unfold smt_node. intros ->. by rewrite map_to_list_empty. Qed.
Lemma smt_node_single p M k h : under p M = {[ k := h ]} -> smt_node p M = SMLeaf (LeafNode k h).
Proof. unfold smt_node. intros ->. by rewrite map_to_list_singleton. Qed.
Lemma smt_node_many p M : 2 <= size (under p M) ->
  smt_node p M = SMInternal (ms (p ++ [false]) M) (ms (p ++ [true]) M).
Proof.
  intros Hm. unfold smt_node. pose proof (mtl_length (under p M)) as L.
  destruct (map_to_list (under p M)) as [|[k h] [|y l]]; simpl in L; try lia. done.
Qed.
Lemma smt_node_hash p M : sm_hash H (smt_node p M) = ms p M.
Proof.
  destruct (size_cases (under p M)) as [E|[(k & h & E)|Hm]].
  - by rewrite smt_node_empty, ms_empty.
  - by rewrite (smt_node_single _ _ k h), (ms_single _ _ k h).
  - rewrite smt_node_many, (ms_many p) by exact Hm. reflexivity.
Qed.
(** dependence only on the entries below p *)
Lemma under_under p q M : haspre p = haspre p -> under (p ++ q) (under p M) = under (p ++ q) M.
Proof.
  intros _. apply map_eq; intros k; apply option_eq; intros h. rewrite !under_lookup.
  split; [naive_solver|]. intros [? Hp]. pose proof (haspre_app _ _ _ Hp). done.
Qed.
Lemma under_eq_app p q M M' : under p M = under p M' -> under (p ++ q) M = under (p ++ q) M'.
Proof. intros E. rewrite <- (under_under p q M), <- (under_under p q M'), E by done. done. Qed.
Lemma ms_under p M M' : under p M = under p M' -> ms p M = ms p M'.
Proof. unfold ms. by intros ->. Qed.
Lemma smt_node_under p M M' : under p M = under p M' -> smt_node p M = smt_node p M'.
Proof.
  intros E. unfold smt_node. rewrite E.
  rewrite (ms_under (p ++ [false]) M M'), (ms_under (p ++ [true]) M M'); try done; by apply under_eq_app.
Qed.
Lemma ms_nil (m : gmap key value) : ms [] (H <$> m) = smt_root H m.
Proof. unfold ms, smt_root. rewrite under_nil. done. Qed.

(** ** Paths *)
Fixpoint climb (bits : list bool) (sibs : list smnode) (h : hash) : hash :=
  match bits, sibs with
  | b :: bits', s :: sibs' =>
      let c := climb bits' sibs' h in
      if b then internal_hash H (sm_hash H s) c else internal_hash H c (sm_hash H s)
  | _, _ => h
  end.
Lemma climb_snoc bits sibs b s h : length bits = length sibs ->
  climb (bits ++ [b]) (sibs ++ [s]) h = climb bits sibs (fold_step H h (s, b)).
Proof.
  revert sibs; induction bits as [|b' bits IH]; intros [|s' sibs]; intros L; try done.
  simpl in *. rewrite IH by lia. done.
Qed.
Lemma climb_fold bits sibs h : length bits = length sibs ->
  fold_path H h (rev sibs) (rev bits) = climb bits sibs h.
Proof.
  revert sibs h; induction bits as [|b bits IH] using rev_ind; intros sibs h L.
  - by destruct sibs.
  - destruct (exists_last (l:=sibs)) as (sibs' & s & ->).
    { intros ->. rewrite app_length in L. simpl in L. by destruct (length bits). }
    rewrite !app_length in L; simpl in L. rewrite !rev_app_distr. simpl.
    unfold fold_path. simpl. rewrite climb_snoc by lia. rewrite <- IH by lia. done.
Qed.
Lemma climb_app b1 s1 b2 s2 h : length b1 = length s1 ->
  climb (b1 ++ b2) (s1 ++ s2) h = climb b1 s1 (climb b2 s2 h).
Proof.
  revert s1; induction b1 as [|b b1 IH]; intros [|s s1] L; try done. simpl in *. rewrite IH by lia. done.
Qed.
Lemma rev_bits_skip_rev k n : n <= 256 -> rev_bits_skip k (256 - N.of_nat n) = rev (kpre n k).
Proof.
  intros Hn. unfold rev_bits_skip, kpre. destruct (N.leb_spec (256 - N.of_nat n) 256); [|lia].
  replace (N.to_nat (256 - N.of_nat n)) with (256 - n) by lia.
  rewrite skipn_rev, key_bits_length. repeat f_equal. lia.
Qed.

(** honest siblings on the way to [k], top-down, levels [i .. i+n) *)
Definition hsib M k (i : nat) : smnode := smt_node (kpre i k ++ [negb (bit_at k i)]) M.
Definition hsibs M k (n : nat) : list smnode := map (hsib M k) (seq 0 n).
Definition hleaf M k (n : nat) : option leaf_node :=
  match map_to_list (under (kpre n k) M) with
  | [(k', h)] => Some (LeafNode k' h)
  | _ => None
  end.
(** the path of [k] ends after [n] levels *)
Definition term M k (n : nat) : Prop :=
  n <= 256 /\ size (under (kpre n k) M) <= 1 /\ forall i, i < n -> 2 <= size (under (kpre i k) M).
Lemma hsibs_length M k n : length (hsibs M k n) = n.
Proof. unfold hsibs. by rewrite map_length, seq_length. Qed.
Lemma hsibs_S M k n : hsibs M k (S n) = hsibs M k n ++ [hsib M k n].
Proof. unfold hsibs. rewrite seq_S, map_app. done. Qed.
Lemma under_kpre_le {A} (M : gmap key A) k i j : i <= j -> under (kpre j k) M ⊆ under (kpre i k) M.
Proof.
  intros Hij. replace (kpre j k) with (kpre i k ++ take (j - i) (drop i (key_bits k))).
  - apply under_app_sub.
  - unfold kpre. rewrite take_take_drop. f_equal. lia.
Qed.
Lemma size_kpre_le {A} (M : gmap key A) k i j : i <= j -> size (under (kpre j k) M) <= size (under (kpre i k) M).
Proof. intros Hij. by apply size_le, under_kpre_le. Qed.
Lemma term_exists M k : exists n, term M k n.
Proof.
  assert (G : forall j, (forall i, i < 256 - j -> 2 <= size (under (kpre i k) M)) \/ exists n, term M k n).
  { induction j as [|j IH].
    - assert (E : forall n, n <= 256 -> (forall i, i < n -> 2 <= size (under (kpre i k) M)) \/ exists n, term M k n).
      { induction n as [|n IHn]; intros Hn. { left; intros; lia. }
        destruct IHn as [IHn|]; [lia| |by right].
        destruct (decide (2 <= size (under (kpre n k) M))).
        - left. intros i Hi. destruct (decide (i = n)) as [->|]; [done|apply IHn; lia].
        - right. exists n. split; [lia|]. split; [lia|done]. }
      apply E. lia.
    - destruct IH as [IH|]; [|by right]. left. intros i Hi. apply IH. lia. }
  destruct (G 0) as [G0|]; [|done]. exists 256. split; [lia|]. split; [|intros; apply G0; lia].
  assert (~ 2 <= size (under (kpre 256 k) M)); [|lia]. apply under_256. rewrite kpre_length; lia.
Qed.
Lemma term_unique M k n n' : term M k n -> term M k n' -> n = n'.
Proof.
  intros (H1 & H2 & H3) (H1' & H2' & H3').
  destruct (decide (n < n')) as [Hlt|]; [specialize (H3' n Hlt); lia|].
  destruct (decide (n' < n)) as [Hlt|]; [specialize (H3 n' Hlt); lia|]. lia.
Qed.
Lemma hleaf_empty M k n : under (kpre n k) M = ∅ -> hleaf M k n = None.
Proof. unfold hleaf. intros ->. by rewrite map_to_list_empty. Qed.
Lemma hleaf_single M k n k' h : under (kpre n k) M = {[k' := h]} -> hleaf M k n = Some (LeafNode k' h).
Proof. unfold hleaf. intros ->. by rewrite map_to_list_singleton. Qed.
(** at the end of the path: empty or one entry *)
Lemma term_cases M k n : term M k n ->
  (under (kpre n k) M = ∅ /\ hleaf M k n = None /\ M !! k = None) \/
  (exists k' h, under (kpre n k) M = {[k' := h]} /\ hleaf M k n = Some (LeafNode k' h) /\
     M !! k' = Some h /\ kpre n k' = kpre n k /\ (k' <> k -> M !! k = None)).
Proof.
  intros (Hn & Hs & Hm). destruct (size_cases (under (kpre n k) M)) as [E|[(k' & h & E)|?]]; [| |lia].
  - left. split; [done|]. split; [by apply hleaf_empty|]. destruct (M !! k) as [h|] eqn:Ek; [|done].
    assert (under (kpre n k) M !! k = Some h) as E2 by (apply under_lookup; split; [done|by apply haspre_kpre]).
    by rewrite E in E2.
  - right. exists k', h. split; [done|]. split; [by apply hleaf_single|].
    assert (under (kpre n k) M !! k' = Some h) as E2 by (rewrite E; apply lookup_singleton).
    apply under_lookup in E2 as [E2 E3]. apply haspre_kpre in E3; [|done].
    split; [done|]. split; [done|]. intros Hne. destruct (M !! k) as [h2|] eqn:Ek; [|done].
    assert (under (kpre n k) M !! k = Some h2) as E4 by (apply under_lookup; split; [done|by apply haspre_kpre]).
    rewrite E, lookup_singleton_ne in E4; done.
Qed.
Lemma hleaf_hash M k n : size (under (kpre n k) M) <= 1 -> opt_leaf_hash H (hleaf M k n) = ms (kpre n k) M.
Proof.
  intros Hs. destruct (size_cases (under (kpre n k) M)) as [E|[(k' & h & E)|?]]; [| |lia].
  - rewrite hleaf_empty, ms_empty; done.
  - rewrite (hleaf_single _ _ _ k' h), (ms_single _ _ k' h); done.
Qed.

(** recomputing the root along an honest path *)
Lemma climb_honest M k n : n <= 256 -> (forall i, i < n -> 2 <= size (under (kpre i k) M)) ->
  climb (kpre n k) (hsibs M k n) (ms (kpre n k) M) = ms [] M.
Proof.
  induction n as [|n IH]; intros Hn Hm; [done|].
  rewrite hsibs_S, kpre_S by lia. rewrite climb_snoc by (rewrite kpre_length, hsibs_length; lia).
  rewrite <- IH by (auto with lia). f_equal.
  rewrite (ms_many (kpre n k)) by (apply Hm; lia).
  unfold fold_step, hsib; simpl. rewrite smt_node_hash. destruct (bit_at k n); done.
Qed.
Lemma fold_path_climb h sibs k : length sibs <= 256 ->
  fold_path H h sibs (rev_bits_skip k (256 - N.of_nat (length sibs))) = climb (kpre (length sibs) k) (rev sibs) h.
Proof.
  intros Hn. rewrite rev_bits_skip_rev by done. rewrite <- (rev_involutive sibs) at 1.
  apply climb_fold. rewrite kpre_length, rev_length; done.
Qed.

(** ** Hash inputs and soundness *)
Definition sm_inputs (s : smnode) : list (list byte) :=
  match s with
  | SMNull => []
  | SMInternal l r => [internal_input l r]
  | SMLeaf l => [leaf_input (ln_key l) (ln_vh l)]
  end.
Fixpoint climb_inputs (bits : list bool) (sibs : list smnode) (h : hash) : list (list byte) :=
  match bits, sibs with
  | b :: bits', s :: sibs' =>
      let c := climb bits' sibs' h in
      (if b then internal_input (sm_hash H s) c else internal_input c (sm_hash H s))
      :: sm_inputs s ++ climb_inputs bits' sibs' h
  | _, _ => []
  end.
Definition opt_leaf_inputs (l : option leaf_node) : list (list byte) :=
  match l with None => [] | Some l => [leaf_input (ln_key l) (ln_vh l)] end.

Lemma leaf_internal_input_ne k h a b : leaf_input k h <> internal_input a b.
Proof.
  intros E. apply (f_equal length) in E. unfold leaf_input, internal_input in E.
  rewrite !app_length, !b32_length in E. simpl in E. lia.
Qed.
Lemma internal_input_inj a b c d : internal_input a b = internal_input c d -> a = c /\ b = d.
Proof.
  unfold internal_input. intros E. apply app_inv_head in E.
  apply app_inj_1 in E as [E1 E2]; [|by rewrite !b32_length].
  split; by apply b32_inj.
Qed.
Lemma leaf_input_inj a b c d : leaf_input a b = leaf_input c d -> a = c /\ b = d.
Proof.
  unfold leaf_input. intros E. apply app_inv_head in E.
  apply app_inj_1 in E as [E1 E2]; [|by rewrite !b32_length].
  split; by apply b32_inj.
Qed.
Lemma broken_mono qs qs' : (forall x, x ∈ qs -> x ∈ qs') -> hash_broken H qs -> hash_broken H qs'.
Proof.
  intros Hs [(x & y & Hx & Hy & Hne & E)|(x & Hx & E)].
  - left. exists x, y. split_and!; auto.
  - right. exists x. split_and!; auto.
Qed.
(** an equation between two hashes of queried inputs: equal inputs or broken *)
Lemma hash_inj_or qs x y : x ∈ qs -> y ∈ qs -> H x = H y -> x = y \/ hash_broken H qs.
Proof.
  intros Hx Hy E. destruct (decide (x = y)); [by left|]. right; left. exists x, y. done.
Qed.
Lemma hash_ph_or qs x : x ∈ qs -> H x = SPARSE_MERKLE_PLACEHOLDER_HASH -> hash_broken H qs.
Proof. intros Hx E. right. eauto. Qed.

(** the inputs of [ms p M] *)
Definition ms_in p M : list (list byte) := smt_inputs H (256 - length p) (map_to_list (under p M)).
Lemma smt_inputs_perm d l l' : l ≡ₚ l' -> smt_inputs H d l ≡ₚ smt_inputs H d l'.
Proof.
  revert l l'; induction d as [|d IH]; intros l l' E.
  - destruct l as [|x [|y l]].
    + apply Permutation_nil_l in E as ->. done.
    + apply Permutation_singleton_l in E as ->. done.
    + pose proof (Permutation_length E). destruct l' as [|x' [|y' l']]; try done.
      by destruct x, x'.
  - destruct l as [|x [|y l]].
    + apply Permutation_nil_l in E as ->. done.
    + apply Permutation_singleton_l in E as ->. done.
    + pose proof (Permutation_length E) as L.
      destruct l' as [|x' [|y' l']]; [done|done|].
      assert (Es : forall b, side b (S d) (x :: y :: l) ≡ₚ side b (S d) (x' :: y' :: l'))
        by (intros b; unfold side; by rewrite E).
      cbn [smt_inputs]. destruct x, x'.
      rewrite (smt_perm _ _ _ (Es true)), (smt_perm _ _ _ (Es false)).
      rewrite (IH _ _ (Es true)), (IH _ _ (Es false)). done.
Qed.
Lemma ms_in_many p M : 2 <= size (under p M) ->
  ms_in p M ≡ₚ internal_input (ms (p ++ [false]) M) (ms (p ++ [true]) M) ::
               ms_in (p ++ [false]) M ++ ms_in (p ++ [true]) M.
Proof.
  intros Hm. pose proof (under_many_len _ _ Hm) as Hl. unfold ms_in, ms.
  rewrite !app_length; simpl.
  pose proof (mtl_length (under p M)) as L.
  pose proof (side_under false p M Hl) as P1. pose proof (side_under true p M Hl) as P2.
  replace (256 - length p) with (S (256 - (length p + 1))) in * by lia.
  destruct (map_to_list (under p M)) as [|[k h] [|y l]]; simpl in L; try lia.
  cbn [smt_inputs].
  rewrite (smt_perm _ _ _ P1), (smt_perm _ _ _ P2).
  rewrite (smt_inputs_perm _ _ _ P1), (smt_inputs_perm _ _ _ P2). done.
Qed.
Lemma ms_in_single p M k h : under p M = {[ k := h ]} -> ms_in p M = [leaf_input k h].
Proof. unfold ms_in. intros ->. rewrite map_to_list_singleton. by destruct (256 - length p). Qed.
Lemma ms_in_half p b M : 2 <= size (under p M) -> forall x, x ∈ ms_in (p ++ [b]) M -> x ∈ ms_in p M.
Proof.
  intros Hm x Hx. rewrite (ms_in_many p M Hm). apply elem_of_list_further, elem_of_app.
  destruct b; [by right|by left].
Qed.
Lemma ms_in_internal p M : 2 <= size (under p M) ->
  internal_input (ms (p ++ [false]) M) (ms (p ++ [true]) M) ∈ ms_in p M.
Proof. intros Hm. rewrite (ms_in_many p M Hm). apply elem_of_list_here. Qed.

Lemma sm_hash_inj qs p M s : (forall x, x ∈ sm_inputs s -> x ∈ qs) -> (forall x, x ∈ ms_in p M -> x ∈ qs) ->
  sm_hash H s = ms p M -> s = smt_node p M \/ hash_broken H qs.
Proof.
  intros Hs Hp E. destruct (size_cases (under p M)) as [E0|[(k & h & E0)|Hm]].
  - rewrite ms_empty in E by done. rewrite smt_node_empty by done.
    destruct s as [|a b|l]; [by left| |]; right;
      (eapply hash_ph_or; [apply Hs, elem_of_list_here | done]).
  - rewrite (ms_single _ _ k h) in E by done. rewrite (smt_node_single _ _ k h) by done.
    assert (leaf_input k h ∈ qs) as Q by (apply Hp; rewrite (ms_in_single _ _ k h) by done; apply elem_of_list_here).
    destruct s as [|a b|l].
    + right. eapply hash_ph_or; [apply Q|done].
    + destruct (hash_inj_or qs _ _ (Hs _ (elem_of_list_here _ _)) Q E) as [E2|]; [|by right].
      by apply symmetry, leaf_internal_input_ne in E2.
    + destruct (hash_inj_or qs _ _ (Hs _ (elem_of_list_here _ _)) Q E) as [E2|]; [|by right].
      apply leaf_input_inj in E2 as [E2 E3]. left. destruct l; simpl in *; by subst.
  - rewrite ms_many in E by done. rewrite smt_node_many by done.
    pose proof (Hp _ (ms_in_internal _ _ Hm)) as Q.
    destruct s as [|a b|l].
    + right. eapply hash_ph_or; [apply Q|done].
    + destruct (hash_inj_or qs _ _ (Hs _ (elem_of_list_here _ _)) Q E) as [E2|]; [|by right].
      apply internal_input_inj in E2 as [-> ->]. by left.
    + destruct (hash_inj_or qs _ _ (Hs _ (elem_of_list_here _ _)) Q E) as [E2|]; [|by right].
      by apply leaf_internal_input_ne in E2.
Qed.

(** Adversarial recomputation: any siblings and leaf recomputing to the root are the honest ones. *)
Lemma climb_sound qs M k lf : forall sibs i,
  i + length sibs <= 256 ->
  (forall x, x ∈ ms_in (kpre i k) M -> x ∈ qs) ->
  (forall x, x ∈ climb_inputs (take (length sibs) (drop i (key_bits k))) sibs (opt_leaf_hash H lf) -> x ∈ qs) ->
  (forall x, x ∈ opt_leaf_inputs lf -> x ∈ qs) ->
  climb (take (length sibs) (drop i (key_bits k))) sibs (opt_leaf_hash H lf) = ms (kpre i k) M ->
  hash_broken H qs \/
  (size (under (kpre (i + length sibs) k) M) <= 1 /\
   (forall j, i <= j -> j < i + length sibs -> 2 <= size (under (kpre j k) M)) /\
   lf = hleaf M k (i + length sibs) /\ sibs = map (hsib M k) (seq i (length sibs))).
Proof.
  induction sibs as [|s sibs IH]; intros i Hi Q1 Q2 Q3 E.
  - simpl in *. rewrite Nat.add_0_r.
    assert (E2 : sm_hash H (match lf with None => SMNull | Some l => SMLeaf l end) = ms (kpre i k) M).
    { rewrite <- E. by destruct lf. }
    assert (Q3' : forall x, x ∈ sm_inputs (match lf with None => SMNull | Some l => SMLeaf l end) -> x ∈ qs)
      by (intros x Hx; apply Q3; by destruct lf).
    apply (sm_hash_inj qs _ _ _ Q3' Q1) in E2 as [E2|]; [|by left].
    right. destruct (size_cases (under (kpre i k) M)) as [E0|[(k' & h & E0)|Hm]].
    + rewrite smt_node_empty in E2 by done. destruct lf; [done|].
      rewrite hleaf_empty by done. rewrite E0, map_size_empty. split_and!; try done; intros; lia.
    + rewrite (smt_node_single _ _ k' h) in E2 by done. destruct lf as [l|]; [|done]. injection E2 as ->.
      rewrite (hleaf_single _ _ _ k' h) by done. rewrite E0, map_size_singleton. split_and!; try done; intros; lia.
    + rewrite smt_node_many in E2 by done. by destruct lf.
  - cbn [length] in *.
    assert (Hi2 : i < 256) by lia.
    assert (Ed : drop i (key_bits k) = bit_at k i :: drop (S i) (key_bits k))
      by (apply drop_S; by apply bit_at_lookup).
    rewrite Ed in *. cbn [take] in *. cbn [climb climb_inputs] in *.
    set (bits := take (length sibs) (drop (S i) (key_bits k))) in *.
    set (c := climb bits sibs (opt_leaf_hash H lf)) in *.
    set (top := if bit_at k i then internal_input (sm_hash H s) c else internal_input c (sm_hash H s)) in *.
    assert (E1 : H top = ms (kpre i k) M).
    { rewrite <- E. unfold top. destruct (bit_at k i); done. }
    assert (Qt : top ∈ qs) by (apply Q2, elem_of_list_here).
    destruct (size_cases (under (kpre i k) M)) as [E0|[(k' & h & E0)|Hm]].
    + left. rewrite ms_empty in E1 by done. by eapply hash_ph_or.
    + rewrite (ms_single _ _ k' h) in E1 by done.
      assert (leaf_input k' h ∈ qs) as Q by (apply Q1; rewrite (ms_in_single _ _ k' h) by done; apply elem_of_list_here).
      destruct (hash_inj_or qs _ _ Qt Q E1) as [E2|]; [|by left].
      unfold top in E2. destruct (bit_at k i); by apply symmetry, leaf_internal_input_ne in E2.
    + rewrite ms_many in E1 by done.
      destruct (hash_inj_or qs _ _ Qt (Q1 _ (ms_in_internal _ _ Hm)) E1) as [E2|]; [|by left].
      assert (Es : sm_hash H s = ms (kpre i k ++ [negb (bit_at k i)]) M /\ c = ms (kpre (S i) k) M).
      { rewrite kpre_S by done. unfold top in E2. destruct (bit_at k i); apply internal_input_inj in E2 as [? ?]; done. }
      destruct Es as [Es Ec].
      apply (sm_hash_inj qs) in Es;
        [|intros x Hx; apply Q2; apply elem_of_list_further, elem_of_app; by left
         |intros x Hx; apply Q1; eapply ms_in_half; done].
      destruct Es as [Es| ]; [|by left].
      destruct (IH (S i)) as [|(I1 & I2 & I3 & I4)]; [lia| | |done|done|by left|].
      { intros x Hx. apply Q1. rewrite kpre_S in Hx by done. eapply ms_in_half; done. }
      { intros x Hx. apply Q2. apply elem_of_list_further, elem_of_app. by right. }
      right. replace (i + S (length sibs)) with (S i + length sibs) by lia.
      split_and!; [done| |done|].
      * intros j Hj1 Hj2. destruct (decide (j = i)) as [->|]; [done|]. apply I2; lia.
      * cbn [seq map]. rewrite <- I4. f_equal. done.
Qed.
End smt.
