(** C59: the vocabulary shared by model and specification, pinned to explicit bytes and numbers: what a bit of a key is,
    what the key order is, and which bytes are hashed. *)
From Coq Require Import Lia.
From Verif Require Import Base Spec NodeType KeyFacts KeyOrder.
Local Open Scope N_scope.

(** A byte string read as a big-endian number. *)
Definition be_value (l : list byte) : N := fold_left (fun a b => 256 * a + Byte.to_N b) l 0.

Lemma be_fold l : forall a, fold_left (fun a b => 256 * a + Byte.to_N b) l a = a * 256 ^ N.of_nat (length l) + be_value l.
Proof.
  induction l as [|b l IH]; intros a; [cbn; unfold be_value; cbn; lia|]. unfold be_value. cbn [fold_left length].
  rewrite IH, (IH (256 * 0 + _)), Nat2N.inj_succ, N.pow_succ_r'. lia.
Qed.
Lemma be_cons b l : be_value (b :: l) = Byte.to_N b * 256 ^ N.of_nat (length l) + be_value l.
Proof. unfold be_value at 1. cbn [fold_left]. rewrite be_fold. done. Qed.
Lemma be_lt l : be_value l < 256 ^ N.of_nat (length l).
Proof.
  induction l as [|b l IH]; [cbn; lia|]. rewrite be_cons. cbn [length]. rewrite Nat2N.inj_succ, N.pow_succ_r'.
  pose proof (Byte.to_N_bounded b). nia.
Qed.
Lemma be_compare x : forall y, length x = length y -> bytes_compare x y = N.compare (be_value x) (be_value y).
Proof.
  induction x as [|a x IH]; intros [|b y] L; try done. injection L as L. rewrite !be_cons, <- L. cbn [bytes_compare].
  pose proof (be_lt x) as Bx. pose proof (be_lt y) as By. rewrite <- L in By.
  set (P := 256 ^ N.of_nat (length x)) in *. destruct (N.compare_spec (Byte.to_N a) (Byte.to_N b)) as [E|E|E].
  - rewrite E, IH by done. destruct (N.compare_spec (be_value x) (be_value y)); symmetry; [apply N.compare_eq_iff|apply N.compare_lt_iff|apply N.compare_gt_iff]; lia.
  - symmetry. apply N.compare_lt_iff. nia.
  - symmetry. apply N.compare_gt_iff. nia.
Qed.
Lemma byte_bit b i : (i < 8)%nat -> nth i (byte_bits b) false = N.testbit (Byte.to_N b) (7 - N.of_nat i).
Proof. intros L. do 8 (destruct i as [|i]; [destruct b; reflexivity|]). lia. Qed.
Lemma split_bit a y w n : y < 2 ^ w -> N.testbit (a * 2 ^ w + y) n = if n <? w then N.testbit y n else N.testbit a (n - w).
Proof.
  intros L. assert (P : 2 ^ w <> 0) by (by apply N.pow_nonzero). destruct (N.ltb_spec n w) as [E|E].
  - rewrite <- (N.mod_pow2_bits_low _ w n) by done. f_equal. rewrite N.add_comm, N.mod_add by done. by apply N.mod_small.
  - replace n with ((n - w) + w) at 1 by lia. rewrite <- N.div_pow2_bits. f_equal. rewrite N.div_add_l by done. rewrite N.div_small by done. lia.
Qed.
Lemma be_bit l : forall i, (i < 8 * length l)%nat ->
  nth i (flat_map byte_bits l) false = N.testbit (be_value l) (8 * N.of_nat (length l) - 1 - N.of_nat i).
Proof.
  induction l as [|b l IH]; intros i L; [cbn in L; lia|]. cbn [flat_map length] in *. rewrite be_cons.
  pose proof (be_lt l) as B. replace (256 ^ N.of_nat (length l)) with (2 ^ (8 * N.of_nat (length l))) in * by (by rewrite N.pow_mul_r).
  rewrite split_bit by done. destruct (decide (i < 8)%nat) as [I|I].
  - rewrite app_nth1 by (rewrite byte_bits_length; lia). rewrite byte_bit by done.
    destruct (N.ltb_spec (8 * N.of_nat (S (length l)) - 1 - N.of_nat i) (8 * N.of_nat (length l))); [lia|]. f_equal. lia.
  - rewrite app_nth2 by (rewrite byte_bits_length; lia). rewrite byte_bits_length, IH by lia.
    destruct (N.ltb_spec (8 * N.of_nat (S (length l)) - 1 - N.of_nat i) (8 * N.of_nat (length l))); [|lia]. f_equal. lia.
Qed.

(** A key is a 256-bit number, big-endian; bit [i] of the path is its [i]-th most significant bit, set = right. *)
Theorem C59_bits (k : bytes32) i : (i < 256)%nat -> bit_at k i = N.testbit (be_value (b32 k)) (N.of_nat (255 - i)).
Proof. intros L. unfold bit_at, key_bits. rewrite be_bit by (rewrite b32_length; lia). rewrite b32_length. f_equal. lia. Qed.
Theorem C59_num_bits (k : bytes32) : length (key_bits k) = 256%nat.
Proof. apply key_bits_length. Qed.
(** The key order is the order of these numbers. *)
Theorem C59_order (x y : bytes32) : key_lt x y <-> be_value (b32 x) < be_value (b32 y).
Proof. unfold key_lt, key_compare. rewrite be_compare by (by rewrite !b32_length). apply N.compare_lt_iff. Qed.
Theorem C59_order_eq (x y : bytes32) : x = y <-> be_value (b32 x) = be_value (b32 y).
Proof. rewrite <- key_compare_eq. unfold key_compare. rewrite be_compare by (by rewrite !b32_length). apply N.compare_eq_iff. Qed.
(** The bytes that are hashed: for a leaf, "JMT::LeafNode", the key hash, the value hash; for an internal node,
    "JMT::IntrnalNode", the left and the right hash.  The empty tree is the string "SPARSE_MERKLE_PLACEHOLDER_HASH__". *)
Theorem C59_leaf_bytes (k h : bytes32) :
  leaf_input k h = [x4a;x4d;x54;x3a;x3a;x4c;x65;x61;x66;x4e;x6f;x64;x65] ++ b32 k ++ b32 h.
Proof. reflexivity. Qed.
Theorem C59_internal_bytes (l r : bytes32) :
  internal_input l r = [x4a;x4d;x54;x3a;x3a;x49;x6e;x74;x72;x6e;x61;x6c;x4e;x6f;x64;x65] ++ b32 l ++ b32 r.
Proof. reflexivity. Qed.
Theorem C59_placeholder_bytes :
  b32 SPARSE_MERKLE_PLACEHOLDER_HASH =
    [x53;x50;x41;x52;x53;x45;x5f;x4d;x45;x52;x4b;x4c;x45;x5f;x50;x4c;x41;x43;x45;x48;x4f;x4c;x44;x45;x52;x5f;x48;x41;x53;x48;x5f;x5f].
Proof. reflexivity. Qed.
(** No leaf preimage is an internal preimage, and both determine what they are made of. *)
Theorem C59_preimages_injective (k h k' h' l r l' r' : bytes32) :
  leaf_input k h <> internal_input l r /\
  (leaf_input k h = leaf_input k' h' -> k = k' /\ h = h') /\
  (internal_input l r = internal_input l' r' -> l = l' /\ r = r').
Proof.
  rewrite !C59_leaf_bytes, !C59_internal_bytes. split; [done|].
  assert (A : forall a b c d : bytes32, b32 a ++ b32 b = b32 c ++ b32 d -> a = c /\ b = d).
  { intros a b c d E. apply app_inj_1 in E as [E1 E2]; [|by rewrite !b32_length]. by split; apply b32_inj. }
  split; intros E; apply app_inv_head in E; by apply A in E.
Qed.

(** The tree at the top: nothing, one entry, or two halves by the first bit (an instance on the 256-bit numbers). *)
Theorem C59_empty H : smt_root H ∅ = SPARSE_MERKLE_PLACEHOLDER_HASH.
Proof. unfold smt_root. by rewrite fmap_empty, map_to_list_empty. Qed.
Theorem C59_single H k x : smt_root H {[ k := x ]} = H (leaf_input k (H x)).
Proof. unfold smt_root. by rewrite map_fmap_singleton, map_to_list_singleton. Qed.
