(** Facts about the ICS23 conversion (Ics23.v) and the ICS23 verifier (Ics23Verify.v) against the sparse Merkle
    specification, with the tree's hash function as SHA-256. *)
From Verif Require Import Base Spec NodeType ProofDef KeyFacts SmtFacts ProofFacts OrderFacts Ics23 Ics23Verify.
From Coq Require Import Lia.
Local Opaque Spec.smt.

(** ** The order of the bits *)
Lemma byte_bits_rev b : map (fun j => (N.land (N.shiftr (Byte.to_N b) j) 1 =? 1)%N) [0;1;2;3;4;5;6;7]%N = rev (byte_bits b).
Proof. destruct b; vm_compute; reflexivity. Qed.
Lemma ics_bits_rev k : ics_bits k = rev (key_bits k).
Proof.
  unfold ics_bits, key_bits. induction (b32 k) as [|b l IH]; [done|]. cbn [flat_map rev]. rewrite rev_app_distr, <- IH, flat_map_app.
  f_equal. cbn [flat_map]. rewrite app_nil_r. apply byte_bits_rev.
Qed.
Lemma bs_length (k : bytes32) : length (b32 k) = 32.
Proof. destruct k as [l Hl]. cbn [b32]. by apply Nat.eqb_eq. Qed.

Section facts.
Context (H : list byte -> bytes32).
Implicit Types M : gmap key vhash.
Notation ms := (ms H).

(** ** The conversion *)
Lemma ics_loop_skip bits sibs idx : forall n, n <= length bits ->
  ics_loop H bits (N.of_nat n) sibs idx = ics_loop H (drop n bits) 0 sibs idx.
Proof.
  induction bits as [|b bits IH]; intros [|n] L; cbn [length] in *; try done; try lia. cbn [ics_loop drop].
  destruct (N.ltb_spec 0 (N.of_nat (Datatypes.S n))); [|lia].
  replace (N.of_nat (Datatypes.S n) - 1)%N with (N.of_nat n) by lia. apply IH. lia.
Qed.
Lemma ics_loop_go bits : forall sibs idx, length bits + idx = length sibs ->
  ics_loop H bits 0 sibs idx = Ok (zip_with (fun b s => inner_for b (sm_hash H s)) bits (drop idx sibs)).
Proof.
  induction bits as [|b bits IH]; intros sibs idx L; cbn [length] in *; [done|]. cbn [ics_loop]. change (0 <? 0)%N with false. cbn iota.
  destruct (sibs !! idx) as [s|] eqn:E; [|apply lookup_ge_None in E; lia]. cbn [unwrap]. rewrite bind_Ok, IH by lia. rewrite bind_Ok.
  by rewrite (drop_S _ _ _ E).
Qed.
(** The path of the converted proof. *)
Definition conv_path (k : key) (sibs : list smnode) : list inner_op :=
  zip_with (fun b s => inner_for b (sm_hash H s)) (rev (kpre (length sibs) k)) sibs.
Lemma to_ics23_ok ovf k v p : length (p_siblings p) <= 256 ->
  to_ics23 H ovf k v p = Ok (ExistProof k v (Some jmt_leaf_op) (conv_path (H k) (p_siblings p))).
Proof.
  intros L. unfold to_ics23. rewrite usub_ok by lia. rewrite bind_Ok. rewrite ics_bits_rev.
  replace (256 - N.of_nat (length (p_siblings p)))%N with (N.of_nat (256 - length (p_siblings p))) by lia.
  rewrite ics_loop_skip by (rewrite rev_length, key_bits_length; lia).
  rewrite ics_loop_go, bind_Ok, drop_0; [|rewrite drop_length, rev_length, key_bits_length; lia].
  unfold conv_path. do 4 f_equal. unfold kpre. rewrite skipn_rev, key_bits_length. do 2 f_equal. lia.
Qed.
Lemma to_ics23_panic k v p : 256 < length (p_siblings p) -> to_ics23 H true k v p = Panic.
Proof. intros L. unfold to_ics23. rewrite usub_panic by lia. done. Qed.

(** ** Applying converted ops *)
Lemma apply_inner_for (b : bool) s h : apply_inner H (inner_for b s) (b32 h) =
  Some (b32 (if b then internal_hash H s h else internal_hash H h s)).
Proof.
  unfold apply_inner. rewrite bs_length. cbn [Nat.eqb negb guard_]. unfold internal_hash, internal_input.
  destruct b; cbn [inner_for io_hash io_prefix io_suffix do_hash mbind option_bind]; by rewrite ?app_nil_r, <- ?app_assoc.
Qed.
Lemma apply_conv : forall bits sibs h, length bits = length sibs ->
  apply_path H (zip_with (fun b s => inner_for b (sm_hash H s)) bits sibs) (b32 h) = Some (b32 (fold_path H h sibs bits)).
Proof.
  induction bits as [|b bits IH]; intros [|s sibs] h L; try done. cbn [zip_with apply_path]. rewrite apply_inner_for.
  cbn [mbind option_bind]. rewrite IH by (cbn in L; lia). done.
Qed.
Lemma apply_jmt_leaf k v : k <> [] -> v <> [] -> apply_leaf H jmt_leaf_op k v = Some (b32 (H (leaf_input (H k) (H v)))).
Proof.
  intros Nk Nv. unfold apply_leaf, prepare_leaf_data. destruct k as [|k0 k]; [done|]. destruct v as [|v0 v]; [done|].
  cbn [length Nat.eqb negb guard_ mbind option_bind jmt_leaf_op lo_hash lo_prehash_key lo_prehash_value lo_length lo_prefix do_hash do_length]. done.
Qed.
Lemma apply_leaf_empty op k v : k = [] \/ v = [] -> apply_leaf H op k v = None.
Proof.
  intros [->| ->]; unfold apply_leaf; [done|]. destruct (prepare_leaf_data H (lo_prehash_key op) (lo_length op) k) as [x|]; done.
Qed.
Lemma calculate_conv k v sibs : k <> [] -> v <> [] -> length sibs <= 256 ->
  calculate_root H (ExistProof k v (Some jmt_leaf_op) (conv_path (H k) sibs)) =
  Some (b32 (fold_path H (H (leaf_input (H k) (H v))) sibs (rev_bits_skip (H k) (256 - N.of_nat (length sibs))))).
Proof.
  intros Nk Nv L. unfold calculate_root. cbn [ep_leaf ep_key ep_value ep_path mbind option_bind]. rewrite apply_jmt_leaf by done. cbn [mbind option_bind].
  unfold conv_path. rewrite apply_conv by (rewrite rev_length, kpre_length; lia). by rewrite rev_bits_skip_rev.
Qed.

(** ** The ops of the honest path of [k], from the root down *)
Definition cop M k (i : nat) : inner_op := inner_for (bit_at k i) (ms (kpre i k ++ [negb (bit_at k i)]) M).
Lemma cop_eq M k i : cop M k i = inner_for (bit_at k i) (ms (kpre i k ++ [negb (bit_at k i)]) M).
Proof. reflexivity. Qed.
Definition cops M k (n : nat) : list inner_op := map (cop M k) (seq 0 n).
Lemma cops_S M k n : cops M k (Datatypes.S n) = cops M k n ++ [cop M k n].
Proof. unfold cops. rewrite seq_S, map_app. done. Qed.
Lemma cops_length M k n : length (cops M k n) = n.
Proof. unfold cops. by rewrite map_length, seq_length. Qed.
Lemma cops_lookup M k n i op : cops M k n !! i = Some op -> i < n /\ op = cop M k i.
Proof.
  unfold cops. rewrite list_lookup_fmap. intros E. apply fmap_Some in E as (j & Ej & ->). apply lookup_seq in Ej as [-> L]. done.
Qed.
Lemma cops_cons M k n : n <> 0 -> cops M k n = cop M k 0 :: map (cop M k) (seq 1 (n - 1)).
Proof. destruct n; [done|]. intros _. cbn. by rewrite Nat.sub_0_r. Qed.
Lemma conv_honest M k n : n <= 256 -> conv_path k (rev (hsibs H M k n)) = rev (cops M k n).
Proof.
  unfold conv_path. rewrite rev_length, hsibs_length. induction n as [|n IH]; intros L; [done|].
  rewrite rev_hsibs_S, kpre_S by lia. rewrite rev_app_distr. cbn [rev app zip_with]. rewrite IH by lia.
  rewrite cops_S, rev_app_distr. cbn [rev app]. f_equal. unfold cop, hsib. by rewrite smt_node_hash.
Qed.

(** ** Padding *)
Lemma ids_len : length INTERNAL_DOMAIN_SEPARATOR = 16. Proof. reflexivity. Qed.
Notation isp := (ps_inner ics23_spec).
Lemma pad0 : get_padding isp 0 = Some (16, 16, 32). Proof. reflexivity. Qed.
Lemma pad1 : get_padding isp 1 = Some (48, 48, 0). Proof. reflexivity. Qed.
Lemma pad1' : get_padding isp (length (is_child_order isp) - 1) = Some (48, 48, 0). Proof. reflexivity. Qed.
Lemma inner_for_lens (b : bool) s : length (io_prefix (inner_for b s)) = (if b then 48 else 16) /\ length (io_suffix (inner_for b s)) = if b then 0 else 32.
Proof. destruct b; cbn [inner_for io_prefix io_suffix]; rewrite ?app_length, ?ids_len, ?bs_length; done. Qed.
Lemma has_pad0 (b : bool) s : has_padding (inner_for b s) (16, 16, 32) = negb b.
Proof. unfold has_padding. destruct (inner_for_lens b s) as [-> ->]. by destruct b. Qed.
Lemma has_pad1 (b : bool) s : has_padding (inner_for b s) (48, 48, 0) = b.
Proof. unfold has_padding. destruct (inner_for_lens b s) as [-> ->]. by destruct b. Qed.
Lemma order_for (b : bool) s : order_from_padding isp (inner_for b s) = Some (if b then 1 else 0).
Proof.
  unfold order_from_padding. change (length (is_child_order isp)) with 2. cbn [seq order_from]. rewrite pad0, pad1. cbn [mbind option_bind].
  rewrite has_pad0, has_pad1. by destruct b.
Qed.
Lemma b32_eq (x y : bytes32) : b32 x = b32 y <-> x = y.
Proof. split; [|by intros ->]. apply b32_inj. Qed.
Lemma left_empty s : left_branches_empty isp (inner_for true s) = Some (bool_decide (s = SPARSE_MERKLE_PLACEHOLDER_HASH)).
Proof.
  unfold left_branches_empty. rewrite order_for. cbn [mbind option_bind]. change (is_child_size isp) with 32.
  destruct (inner_for_lens true s) as [E _]. rewrite E. change (1 =? 0) with false. change (48 <? 1 * 32) with false. cbn iota.
  change (48 - 1 * 32 + 0) with 16. cbn [seq forallb]. rewrite andb_true_r. f_equal.
  cbn [inner_for io_prefix]. change (48 - 1 * 32 + 0 * 32) with 16. rewrite drop_app_alt by reflexivity. rewrite take_ge by (by rewrite bs_length).
  change (is_empty_child isp) with (b32 SPARSE_MERKLE_PLACEHOLDER_HASH). apply bool_decide_ext. apply b32_eq.
Qed.
Lemma right_empty s : right_branches_empty isp (inner_for false s) = Some (bool_decide (s = SPARSE_MERKLE_PLACEHOLDER_HASH)).
Proof.
  unfold right_branches_empty. rewrite order_for. cbn [mbind option_bind]. change (is_child_size isp) with 32.
  destruct (inner_for_lens false s) as [_ E]. rewrite E. change (length (is_child_order isp) - 1 - 0) with 1. change (1 =? 0) with false. change (32 =? 32) with true. cbn [negb]. cbn iota.
  cbn [seq forallb]. rewrite andb_true_r. f_equal.
  cbn [inner_for io_suffix]. change (0 * 32) with 0. rewrite drop_0. rewrite take_ge by (by rewrite bs_length).
  change (is_empty_child isp) with (b32 SPARSE_MERKLE_PLACEHOLDER_HASH). apply bool_decide_ext. apply b32_eq.
Qed.
(** a list of canonical ops at the levels [is] *)
Lemma left_most_iff M k (l : list nat) : ensure_left_most isp (map (cop M k) l) = Some tt <->
  forall i, i ∈ l -> bit_at k i = true -> ms (kpre i k ++ [false]) M = SPARSE_MERKLE_PLACEHOLDER_HASH.
Proof.
  induction l as [|i l IH]; cbn [map ensure_left_most]. { split; [|done]. intros _ i Hi. by apply elem_of_nil in Hi. }
  rewrite pad0. cbn [mbind option_bind]. rewrite !(cop_eq M k i), has_pad0. destruct (bit_at k i) eqn:B; cbn [negb].
  - cbn [negb]. rewrite left_empty. cbn [mbind option_bind]. case_bool_decide as C.
    + rewrite IH. split; intros G j Hj; [|apply G; by constructor]. apply elem_of_cons in Hj as [->|Hj]; [done|by apply G].
    + split; [done|]. intros G. exfalso. apply C. apply G; [by constructor|done].
  - rewrite IH. split; intros G j Hj; [|apply G; by constructor]. apply elem_of_cons in Hj as [->|Hj]; [congruence|by apply G].
Qed.
Lemma right_most_iff M k (l : list nat) : ensure_right_most isp (map (cop M k) l) = Some tt <->
  forall i, i ∈ l -> bit_at k i = false -> ms (kpre i k ++ [true]) M = SPARSE_MERKLE_PLACEHOLDER_HASH.
Proof.
  induction l as [|i l IH]; cbn [map ensure_right_most]. { split; [|done]. intros _ i Hi. by apply elem_of_nil in Hi. }
  rewrite pad1'. cbn [mbind option_bind]. rewrite !(cop_eq M k i), has_pad1. destruct (bit_at k i) eqn:B.
  - rewrite IH. split; intros G j Hj; [|apply G; by constructor]. apply elem_of_cons in Hj as [->|Hj]; [congruence|by apply G].
  - cbn [negb]. rewrite right_empty. cbn [mbind option_bind]. case_bool_decide as C.
    + rewrite IH. split; intros G j Hj; [|apply G; by constructor]. apply elem_of_cons in Hj as [->|Hj]; [done|by apply G].
    + split; [done|]. intros G. exfalso. apply C. apply G; [by constructor|done].
Qed.
Lemma ensure_inner_for (b : bool) s : ensure_inner ics23_spec (inner_for b s) = true.
Proof.
  unfold ensure_inner. destruct (inner_for_lens b s) as [E1 E2]. rewrite E1, E2.
  assert (E3 : has_prefix (lo_prefix (ps_leaf ics23_spec)) (io_prefix (inner_for b s)) = false) by (by destruct b).
  rewrite E3. destruct b; reflexivity.
Qed.
Lemma check_conv k v kk sibs : check_spec ics23_spec (ExistProof k v (Some jmt_leaf_op) (conv_path kk sibs)) = true.
Proof.
  unfold check_spec. cbn [ep_leaf ep_path]. apply andb_true_iff. split; [reflexivity|]. apply forallb_forall. intros op Hop. apply elem_of_list_In in Hop.
  unfold conv_path in Hop. apply elem_of_lookup_zip_with in Hop as (i & b & s & -> & _). apply ensure_inner_for.
Qed.

(** ** Neighbouring paths *)
Definition right_most_from M k (a n : nat) : Prop :=
  forall i, a <= i < n -> bit_at k i = false -> ms (kpre i k ++ [true]) M = SPARSE_MERKLE_PLACEHOLDER_HASH.
Definition left_most_from M k (a n : nat) : Prop :=
  forall i, a <= i < n -> bit_at k i = true -> ms (kpre i k ++ [false]) M = SPARSE_MERKLE_PLACEHOLDER_HASH.
Lemma rev_seq_elem a n i : i ∈ rev (seq a n) <-> a <= i < a + n.
Proof. rewrite elem_of_list_In, <- in_rev, <- elem_of_list_In, elem_of_seq. lia. Qed.
Lemma right_most_seq M k a n : ensure_right_most isp (rev (map (cop M k) (seq a n))) = Some tt <-> right_most_from M k a (a + n).
Proof. rewrite <- map_rev, right_most_iff. unfold right_most_from. by setoid_rewrite rev_seq_elem. Qed.
Lemma left_most_seq M k a n : ensure_left_most isp (rev (map (cop M k) (seq a n))) = Some tt <-> left_most_from M k a (a + n).
Proof. rewrite <- map_rev, left_most_iff. unfold left_most_from. by setoid_rewrite rev_seq_elem. Qed.
Lemma inner_for_bit (b c : bool) s t : io_prefix (inner_for b s) = io_prefix (inner_for c t) -> b = c.
Proof.
  intros E. apply (f_equal length) in E. destruct (inner_for_lens b s) as [E1 _], (inner_for_lens c t) as [E2 _]. rewrite E1, E2 in E.
  by destruct b, c.
Qed.
Lemma left_step_iff (b c : bool) s t : is_left_step isp (inner_for b s) (inner_for c t) = Some tt <-> b = false /\ c = true.
Proof. unfold is_left_step. rewrite !order_for. cbn [mbind option_bind]. destruct b, c; cbn; split; try done; by intros []. Qed.
Lemma unit_some (o : option unit) : o = Some tt \/ o = None.
Proof. destruct o as [[]|]; auto. Qed.
Lemma neighbor_iff M kl kr : forall nl nr a, a + nl <= 256 -> a + nr <= 256 -> kpre a kl = kpre a kr ->
  left_neighbor isp (map (cop M kl) (seq a nl)) (map (cop M kr) (seq a nr)) = Some tt <->
  exists c, a <= c /\ c < a + nl /\ c < a + nr /\ kpre c kl = kpre c kr /\ bit_at kl c = false /\ bit_at kr c = true /\
    right_most_from M kl (Datatypes.S c) (a + nl) /\ left_most_from M kr (Datatypes.S c) (a + nr).
Proof.
  induction nl as [|nl IH]; intros nr a Ll Lr E. { cbn. split; [done|]. intros (c & ? & ? & _). lia. }
  destruct nr as [|nr]. { cbn. split; [done|]. intros (c & ? & _ & ? & _). lia. }
  cbn [seq map left_neighbor]. rewrite (cop_eq M kl a), (cop_eq M kr a), E.
  destruct (decide (bit_at kl a = bit_at kr a)) as [B|B].
  - rewrite B, !bool_decide_true by done. cbn [andb]. rewrite IH by (lia || apply kpre_S_eq; auto with lia). split.
    + intros (c & ? & ? & ? & ? & ? & ? & R & L). exists c. rewrite !Nat.add_succ_r. repeat (split; [done || lia|]). done.
    + intros (c & ? & ? & ? & ? & ? & ? & R & L). rewrite !Nat.add_succ_r in *. exists c.
      assert (c <> a) by (intros ->; congruence). repeat (split; [done || lia|]). done.
  - rewrite (bool_decide_false (io_prefix _ = io_prefix _)) by (intros Z; by apply inner_for_bit in Z). cbn [andb].
    destruct (unit_some (is_left_step isp (inner_for (bit_at kl a) (ms (kpre a kr ++ [negb (bit_at kl a)]) M))
      (inner_for (bit_at kr a) (ms (kpre a kr ++ [negb (bit_at kr a)]) M)))) as [Z|Z]; rewrite Z; cbn [mbind option_bind].
    + apply left_step_iff in Z as [Bl Br].
      pose proof (right_most_seq M kl (Datatypes.S a) nl) as GR. pose proof (left_most_seq M kr (Datatypes.S a) nr) as GL.
      cbn [Nat.add] in GR, GL. rewrite !Nat.add_succ_r.
      destruct (unit_some (ensure_right_most isp (rev (map (cop M kl) (seq (Datatypes.S a) nl))))) as [Y|Y]; rewrite Y in *; cbn [mbind option_bind].
      * rewrite GL. split.
        -- intros G. exists a. repeat (split; [done || lia|]). split; [by apply GR|done].
        -- intros (c & ? & ? & ? & Ec & ? & ? & R & L). destruct (decide (c = a)) as [->|]; [done|]. exfalso. apply B.
           apply (kpre_bit a c); [lia|lia|done].
      * split; [done|]. intros (c & ? & ? & ? & Ec & ? & ? & R & L). destruct (decide (c = a)) as [->|]. { apply GR in R. done. }
        exfalso. apply B. apply (kpre_bit a c); [lia|lia|done].
    + split; [done|]. intros (c & ? & ? & ? & Ec & ? & ? & R & L). exfalso. destruct (decide (c = a)) as [->|].
      * rewrite (proj2 (left_step_iff _ _ _ _)) in Z by done. done.
      * apply B. apply (kpre_bit a c); [lia|lia|done].
Qed.
Lemma neighbor_rev M kl kr nl nr : nl <= 256 -> nr <= 256 ->
  ensure_left_neighbor isp (rev (cops M kl nl)) (rev (cops M kr nr)) = Some tt <->
  exists c, c < nl /\ c < nr /\ kpre c kl = kpre c kr /\ bit_at kl c = false /\ bit_at kr c = true /\
    right_most_from M kl (Datatypes.S c) nl /\ left_most_from M kr (Datatypes.S c) nr.
Proof.
  intros Ll Lr. unfold ensure_left_neighbor. rewrite !rev_involutive. unfold cops. rewrite neighbor_iff by (done || lia). cbn [Nat.add].
  split; intros (c & G); exists c; naive_solver lia.
Qed.

(** ** Neighbouring paths and the order of keys *)
Definition right_free M k (a n : nat) : Prop := forall i, a <= i < n -> bit_at k i = false -> under (kpre i k ++ [true]) M = ∅.
Definition left_free M k (a n : nat) : Prop := forall i, a <= i < n -> bit_at k i = true -> under (kpre i k ++ [false]) M = ∅.
Lemma right_free_most M k a n : right_free M k a n -> right_most_from M k a n.
Proof. intros G i Hi B. apply ms_empty. by apply G. Qed.
Lemma left_free_most M k a n : left_free M k a n -> left_most_from M k a n.
Proof. intros G i Hi B. apply ms_empty. by apply G. Qed.
Lemma under_snoc_lookup M p b j h : length p < 256 -> under (p ++ [b]) M !! j = Some h -> M !! j = Some h /\ haspre p j /\ bit_at j (length p) = b.
Proof. intros L E. apply under_lookup in E as [E1 E2]. apply haspre_snoc in E2 as [E2 E3]; done. Qed.
Lemma right_free_intro M k a n : n <= 256 -> (forall j, is_Some (M !! j) -> kpre a j = kpre a k -> ~ key_lt k j) -> right_free M k a n.
Proof.
  intros Ln G i Hi B. apply map_empty. intros j. destruct (under (kpre i k ++ [true]) M !! j) as [h|] eqn:E; [exfalso|done].
  apply under_snoc_lookup in E as (E1 & E2 & E3); [|rewrite kpre_length; lia]. rewrite kpre_length in E3 by lia. apply haspre_kpre in E2; [|lia].
  apply (G j); [by eexists|by apply (kpre_le a i); [lia|]|]. by apply (key_lt_bit k j i); [lia| | |].
Qed.
Lemma left_free_intro M k a n : n <= 256 -> (forall j, is_Some (M !! j) -> kpre a j = kpre a k -> ~ key_lt j k) -> left_free M k a n.
Proof.
  intros Ln G i Hi B. apply map_empty. intros j. destruct (under (kpre i k ++ [false]) M !! j) as [h|] eqn:E; [exfalso|done].
  apply under_snoc_lookup in E as (E1 & E2 & E3); [|rewrite kpre_length; lia]. rewrite kpre_length in E3 by lia. apply haspre_kpre in E2; [|lia].
  apply (G j); [by eexists|by apply (kpre_le a i); [lia|]|]. by apply (key_lt_bit j k i); [lia| | |].
Qed.
Lemma right_free_elim M k h a n j : a <= 256 -> n <= 256 -> under (kpre n k) M = {[ k := h ]} -> right_free M k a n ->
  is_Some (M !! j) -> kpre a j = kpre a k -> key_lt k j -> False.
Proof.
  intros La Ln Eu G [hj Ej] Ea L. apply key_lt_iff in L as (i & Li & Ei & B1 & B2).
  destruct (decide (i < a)). { pose proof (kpre_bit i a j k) as Z. rewrite Z in B2 by (done || lia). congruence. }
  destruct (decide (i < n)).
  - assert (E : under (kpre i k ++ [true]) M !! j = Some hj).
    { apply under_lookup. split; [done|]. rewrite Ei, <- B2, <- kpre_S by done. apply haspre_self. lia. }
    rewrite G in E by (done || lia). done.
  - assert (E : under (kpre n k) M !! j = Some hj).
    { apply under_lookup. split; [done|]. apply haspre_kpre; [done|]. symmetry. apply (kpre_le n i); [lia|done]. }
    rewrite Eu in E. apply lookup_singleton_Some in E as [-> _]. congruence.
Qed.
Lemma left_free_elim M k h a n j : a <= 256 -> n <= 256 -> under (kpre n k) M = {[ k := h ]} -> left_free M k a n ->
  is_Some (M !! j) -> kpre a j = kpre a k -> key_lt j k -> False.
Proof.
  intros La Ln Eu G [hj Ej] Ea L. apply key_lt_iff in L as (i & Li & Ei & B1 & B2).
  destruct (decide (i < a)). { pose proof (kpre_bit i a j k) as Z. rewrite Z in B1 by (done || lia). congruence. }
  destruct (decide (i < n)).
  - assert (E : under (kpre i k ++ [false]) M !! j = Some hj).
    { apply under_lookup. split; [done|]. rewrite <- Ei, <- B1, <- kpre_S by done. apply haspre_self. lia. }
    rewrite G in E by (done || lia). done.
  - assert (E : under (kpre n k) M !! j = Some hj).
    { apply under_lookup. split; [done|]. apply haspre_kpre; [done|]. apply (kpre_le n i); [lia|done]. }
    rewrite Eu in E. apply lookup_singleton_Some in E as [-> _]. congruence.
Qed.
(** adjacent keys have neighbouring paths *)
Lemma adjacent_paths M kl kr nl nr : term M kl nl -> term M kr nr -> is_Some (M !! kl) -> is_Some (M !! kr) -> key_lt kl kr ->
  (forall j, is_Some (M !! j) -> key_lt kl j -> ~ key_lt j kr) ->
  ensure_left_neighbor isp (rev (cops M kl nl)) (rev (cops M kr nr)) = Some tt.
Proof.
  intros (Ll & Sl & Ml) (Lr & Sr & Mr) [hl El] [hr Er] L G. apply neighbor_rev; [done..|]. pose proof L as L2.
  apply key_lt_iff in L2 as (c & Lc & Ec & Bl & Br). exists c.
  assert (Ne : kl <> kr) by (intros ->; congruence).
  assert (nl > c).
  { destruct (decide (c < nl)); [done|]. exfalso. cut (2 <= size (under (kpre nl kl) M)); [lia|].
    apply (size_many _ kl hl kr hr); [| |done]; apply under_lookup; (split; [done|]); apply haspre_kpre; [done|done|done|]. symmetry. apply (kpre_le nl c); [lia|done]. }
  assert (nr > c).
  { destruct (decide (c < nr)); [done|]. exfalso. cut (2 <= size (under (kpre nr kr) M)); [lia|].
    apply (size_many _ kl hl kr hr); [| |done]; apply under_lookup; (split; [done|]); apply haspre_kpre; [done| |done|done]. apply (kpre_le nr c); [lia|done]. }
  split; [done|]. split; [done|]. split; [done|]. split; [done|]. split; [done|]. split.
  - apply right_free_most, right_free_intro; [done|]. intros j Ij Ej Lj. apply (G j Ij Lj). rewrite kpre_S_eq in Ej by done. destruct Ej as [Ej Bj].
    apply (key_lt_bit j kr c); [done|congruence|congruence|done].
  - apply left_free_most, left_free_intro; [done|]. intros j Ij Ej Lj. refine (G j Ij _ Lj). rewrite kpre_S_eq in Ej by done. destruct Ej as [Ej Bj].
    apply (key_lt_bit kl j c); [done|congruence|congruence|congruence].
Qed.

(** ** Completeness of the converted proofs *)
Definition hexist (m : gmap key value) (k : list byte) (v : value) (n : nat) : exist_proof :=
  ExistProof k v (Some jmt_leaf_op) (rev (cops (H <$> m) (H k) n)).
Lemma hexist_conv m k v n ovf : n <= 256 -> to_ics23 H ovf k v (hproof H (H <$> m) (H k) n) = Ok (hexist m k v n).
Proof.
  intros L. rewrite to_ics23_ok; rewrite hproof_sibs; [|by rewrite rev_length, hsibs_length]. by rewrite conv_honest.
Qed.
Lemma hexist_root m k v n : term (H <$> m) (H k) n -> m !! H k = Some v -> k <> [] -> v <> [] ->
  calculate_root H (hexist m k v n) = Some (b32 (smt_root H m)).
Proof.
  intros T E Nk Nv. pose proof T as (L & _ & _). unfold hexist. rewrite <- conv_honest by done.
  rewrite calculate_conv; [|done|done|by rewrite rev_length, hsibs_length]. rewrite rev_length, hsibs_length, recompute_honest by done.
  do 2 f_equal. rewrite <- (ms_nil H), <- (term_climb H _ _ _ T).
  destruct (term_cases _ _ _ T) as [(_ & _ & C)|(k' & h & _ & -> & C1 & _ & C2)]; [by rewrite lookup_fmap, E in C|].
  rewrite lookup_fmap, E in C2.
  destruct (decide (k' = H k)) as [->|Ne]; [|by apply C2 in Ne]. rewrite lookup_fmap, E in C1. injection C1 as <-. done.
Qed.
Lemma hexist_verifies m k v n : term (H <$> m) (H k) n -> m !! H k = Some v -> k <> [] -> v <> [] ->
  ics_verify_existence H ics23_spec (b32 (smt_root H m)) k v (hexist m k v n) = true.
Proof.
  intros T E Nk Nv. pose proof T as (L & _). unfold ics_verify_existence. rewrite (hexist_root m k v n) by done.
  rewrite !bool_decide_true by done. rewrite !andb_true_r. unfold hexist. rewrite <- conv_honest by done. apply check_conv.
Qed.
End facts.
